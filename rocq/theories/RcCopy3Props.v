(** C153 once more: assignments by which objects die.  With as many handles to the one object as to
    the other, the assignment is the assignment of the members one by one, whatever dies. *)
From Coq Require Import List Arith Bool Lia.
From Verif Require Import Outcome RcModel RcSpec RcProofs RcProg RcProps RcCopyModel RcCopySpec RcCopyProps RcCopy2Props.
Import ListNotations.
Local Open Scope nat_scope.

(** * Paths *)
Lemma via_snoc w l ks ps r b k v : via w l ks ps r -> at_place w r = Some (Some b) -> at_place w (Member b k) = Some v ->
  via w l (ks ++ [k]) (ps ++ [r]) (Member b k).
Proof.
  intros V A M. revert A M. induction V as [l u L|l d e ks ps r L V IH]; intros A M; cbn [app].
  - eapply via_step; eauto. eapply via_here; eauto.
  - eapply via_step; eauto.
Qed.
Lemma via_other w w' l ks ps r : via w l ks ps r -> (forall q, In q (r :: ps) -> at_place w' q = at_place w q) -> via w' l ks ps r.
Proof.
  induction 1 as [l u L|l d e ks ps r L V IH]; intros H.
  - eapply via_here. rewrite H; [exact L|now left].
  - eapply via_step.
    + rewrite H; [exact L|right; now left].
    + apply IH. intros q [<-|I]; apply H; [now left|right; now right].
Qed.

(** The world when the object [a] has the members [fs] *)
Definition with_members (w : world) (a : nat) (fs : list (option nat)) : world := mkWorld (vars w) (put (objs w) a fs).
Lemma put_put {A} (l : list A) i x y : put (put l i x) i y = put l i y.
Proof. revert i. induction l as [|z l IH]; intros [|i]; cbn; auto. now rewrite IH. Qed.
Lemma nth_put_eq {A} (l : list A) i x : i < length l -> nth_error (put l i x) i = Some x.
Proof. intros H. rewrite nth_put by exact H. now rewrite Nat.eqb_refl. Qed.
Lemma with_members_other w a fa fs q : nth_error (objs w) a = Some fa -> (forall k, q <> Member a k) ->
  at_place (with_members w a fs) q = at_place w q.
Proof.
  intros Fa N. destruct q as [i|c k]; [reflexivity|]. cbn [at_place with_members objs].
  assert (a < length (objs w)) by (apply nth_error_Some; congruence). rewrite nth_put by assumption.
  destruct (Nat.eqb_spec c a) as [->|]; [destruct (N k); reflexivity|reflexivity].
Qed.
Lemma with_members_write w a fa fs k v : nth_error (objs w) a = Some fa ->
  write (with_members w a fs) (Member a k) v = with_members w a (put fs k v).
Proof.
  intros Fa. assert (a < length (objs w)) by (apply nth_error_Some; congruence). unfold with_members. cbn [write objs vars].
  rewrite nth_put_eq by assumption. now rewrite put_put.
Qed.

Section Members.
Variables (w : world) (x y : path) (ps qs : list place) (l r : place) (a b : nat) (fa fb : list (option nat)).
Hypothesis (D : denotes w x ps l) (Dy : denotes w y qs r).
Hypothesis (A : at_place w l = Some (Some a)) (B : at_place w r = Some (Some b)) (Nab : a <> b).
Hypothesis (Fa : nth_error (objs w) a = Some fa) (Fb : nth_error (objs w) b = Some fb) (Len : length fa = length fb).
Hypothesis (Px : forall k, ~ In (Member a k) (l :: ps)) (Py : forall k, ~ In (Member a k) (r :: qs)).

Definition mid (k : nat) : world := with_members w a (firstn k fb ++ skipn k fa).
Lemma mid_other k q : (forall i, q <> Member a i) -> at_place (mid k) q = at_place w q.
Proof. intros N. eapply with_members_other; eauto. Qed.
Lemma mid_member k va : nth_error fa k = Some va -> at_place (mid k) (Member a k) = Some va.
Proof.
  intros Ea. cbn [at_place mid with_members objs]. assert (a < length (objs w)) by (apply nth_error_Some; congruence).
  rewrite nth_put_eq by assumption.
  assert (length (firstn k fb) = k) as Lk by (rewrite firstn_length; assert (k < length fa) by (apply nth_error_Some; congruence); lia).
  rewrite nth_error_app2, Lk, Nat.sub_diag by lia. now rewrite (skipn_nth_cons _ _ _ Ea).
Qed.
Lemma mid_means k va vb : nth_error fa k = Some va -> nth_error fb k = Some vb ->
  means (mid k) (OAssign (fst x, snd x ++ [k]) (fst y, snd y ++ [k])) (mid (S k)).
Proof.
  intros Ea Eb.
  assert (mid (S k) = write (mid k) (Member a k) vb) as ->.
  { unfold mid. rewrite (with_members_write _ _ _ _ _ _ Fa). f_equal.
    assert (length (firstn k fb) = k) as Lk by (rewrite firstn_length; assert (k < length fb) by (apply nth_error_Some; congruence); lia).
    rewrite (skipn_nth_cons _ _ _ Ea), (put_mid _ _ _ _ _ Lk), (firstn_S _ _ _ Eb), <- app_assoc. reflexivity. }
  apply m_assign with (ps := ps ++ [l]) (qs := qs ++ [r]) (r := Member b k).
  - unfold denotes. cbn [fst snd]. apply via_snoc with (v := va).
    + eapply via_other; [exact D|]. intros q I. apply mid_other. intros i ->. now apply (Px i).
    + rewrite mid_other; [exact A|]. intros i E. apply (Px i). now left.
    + now apply mid_member.
  - unfold denotes. cbn [fst snd]. apply via_snoc with (v := vb).
    + eapply via_other; [exact Dy|]. intros q I. apply mid_other. intros i ->. now apply (Py i).
    + rewrite mid_other; [exact B|]. intros i E. apply (Py i). now left.
    + rewrite mid_other; [cbn [at_place]; now rewrite Fb|]. intros i [= E _]. congruence.
  - rewrite mid_other; [cbn [at_place]; now rewrite Fb|]. intros i [= E _]. congruence.
  - intros [= E]. congruence.
  - intros I. apply in_app_or in I as [I|[I|[]]]; apply (Py k); [now right|now left].
Qed.

(** One member of an assignment is the assignment of that member *)
Lemma member_step p k va vb : SIR p (mid k) [] -> nth_error fa k = Some va -> nth_error fb k = Some vb ->
  exists h, (do old <- get_field (mem p) a k; do h <- xdecref (mem p) old; do v <- get_field h b k; do h <- set_field h a k v; xincref h v) = Ok h /\
    SIR (in_mem p h) (mid (S k)) [].
Proof.
  intros S Ea Eb. pose proof (mid_means k va vb Ea Eb) as M. destruct (step_ok _ _ _ _ S M) as (q & E & Sq).
  assert (eval p (fst x, snd x ++ [k]) = Ok (Member a k)) as E1.
  { refine (proj1 (eval_ok _ _ _ _ (ps ++ [l]) _ S _)). unfold denotes. cbn [fst snd]. apply via_snoc with (v := va).
    + eapply via_other; [exact D|]. intros q' I. apply mid_other. intros i ->. now apply (Px i).
    + rewrite mid_other; [exact A|]. intros i Ei. apply (Px i). now left.
    + now apply mid_member. }
  assert (eval p (fst y, snd y ++ [k]) = Ok (Member b k)) as E2.
  { refine (proj1 (eval_ok _ _ _ _ (qs ++ [r]) _ S _)). unfold denotes. cbn [fst snd]. apply via_snoc with (v := vb).
    + eapply via_other; [exact Dy|]. intros q' I. apply mid_other. intros i ->. now apply (Py i).
    + rewrite mid_other; [exact B|]. intros i Ei. apply (Py i). now left.
    + rewrite mid_other; [cbn [at_place]; now rewrite Fb|]. intros i [= Ei _]. congruence. }
  cbn [do_op] in E. rewrite E1, E2 in E. cbn [bind get set] in E.
  destruct (get_field (mem p) a k) as [old| | | |]; try discriminate E. cbn [bind] in E |- *.
  destruct (xdecref (mem p) old) as [h1| | | |]; try discriminate E. cbn [bind in_mem mem] in E |- *.
  destruct (get_field h1 b k) as [v| | | |]; try discriminate E. cbn [bind set in_mem mem] in E |- *.
  destruct (set_field h1 a k v) as [h2| | | |]; try discriminate E. cbn [bind mem] in E |- *.
  destruct (xincref h2 v) as [h3| | | |]; try discriminate E. cbn [bind in_mem locals] in E. injection E as <-.
  exists h3. split; [reflexivity|exact Sq].
Qed.
Lemma members_loop n : forall k p, k + n = length fa -> SIR p (mid k) [] ->
  exists h, assign_members (mem p) a b k n = Ok h /\ SIR (in_mem p h) (mid (k + n)) [].
Proof.
  induction n as [|n IH]; intros k p Hk S; cbn [assign_members].
  { exists (mem p). rewrite Nat.add_0_r. split; [reflexivity|]. destruct p. exact S. }
  destruct (nth_error fa k) as [va|] eqn:Ea; [|apply nth_error_None in Ea; lia].
  destruct (nth_error fb k) as [vb|] eqn:Eb; [|apply nth_error_None in Eb; lia].
  destruct (member_step p k va vb S Ea Eb) as (h & E & Sh).
  destruct (get_field (mem p) a k) as [old| | | |]; try discriminate E. cbn [bind] in E |- *.
  destruct (xdecref (mem p) old) as [h1| | | |]; try discriminate E. cbn [bind] in E |- *.
  destruct (get_field h1 b k) as [v| | | |]; try discriminate E. cbn [bind] in E |- *.
  destruct (set_field h1 a k v) as [h2| | | |]; try discriminate E. cbn [bind] in E |- *.
  rewrite E. cbn [bind]. destruct (IH (Datatypes.S k) (in_mem p h) ltac:(lia) Sh) as (h' & E' & Sh').
  exists h'. cbn [in_mem mem] in E'. split; [exact E'|]. replace (k + Datatypes.S n) with (Datatypes.S k + n) by lia. exact Sh'.
Qed.
Lemma assign_loop_all p : SIR p w [] -> exists h, assign_members (mem p) a b 0 (length fa) = Ok h /\ SIR (in_mem p h) (with_members w a fb) [].
Proof.
  intros S.
  assert (mid 0 = w) as E0.
  { unfold mid, with_members. cbn [firstn skipn app]. rewrite put_same by exact Fa. now destruct w. }
  destruct (members_loop (length fa) 0 p eq_refl) as (h & E & Sh); [now rewrite E0|].
  exists h. split; [exact E|]. cbn [plus] in Sh. unfold mid in Sh. rewrite Len in Sh at 1. now rewrite firstn_all, skipn_all, app_nil_r in Sh.
Qed.
End Members.

(** * C153 *)
(** Assigning the object that [y] refers to, to the different object that [x] refers to, when as many
    handles refer to the one as to the other: whatever objects lose their last handle by it, it ends
    without undefined behaviour, the object assigned to has the other one's members and everything
    else is as before, all counts are the numbers of handles, and exactly the objects that are
    referred to are still allocated.  (Neither expression goes through a member of the object
    assigned to.) *)
Theorem C153_as_many_handles_any_deaths_partial : forall os w p x y ps l qs r a b fa fb, cruns nothing os w -> crun start os = Ok p ->
  denotes w x ps l -> denotes w y qs r -> at_place w l = Some (Some a) -> at_place w r = Some (Some b) -> a <> b ->
  nth_error (objs w) a = Some fa -> nth_error (objs w) b = Some fb -> length fa = length fb ->
  (forall k, ~ In (Member a k) (l :: ps)) -> (forall k, ~ In (Member a k) (r :: qs)) ->
  handles p a = handles p b ->
  exists q, crun start (os ++ [CAssign x y]) = Ok q /\
    state_shows q (mkWorld (vars w) (put (objs w) a fb)) /\
    (forall c o, nth_error (mem q) c = Some (Some o) -> count o = handles q c) /\
    (forall c, allocated q c <-> 0 < handles q c).
Proof.
  intros os w p x y ps l qs r a b fa fb R Ep D Dy A B Nab Fa Fb El Px Py Eh.
  destruct (crun_ok os _ _ _ start_ok R) as (p' & E' & S). rewrite Ep in E'. injection E' as <-.
  assert (Ap : forall os p0, crun p0 os = Ok p -> crun p0 (os ++ [CAssign x y]) = crun p [CAssign x y]).
  { clear. induction os as [|o os IH]; intros p0 E; cbn [crun app] in *; [now injection E as ->|].
    destruct (do_cop p0 o) as [p1| | | |]; try discriminate. cbn [bind] in *. now apply IH. }
  rewrite (Ap _ _ Ep). cbn [crun do_cop]. unfold pointee.
  destruct (eval_ok _ _ _ _ _ _ S D) as [Ex Hx], (eval_ok _ _ _ _ _ _ S Dy) as [Ey Hy]. rewrite Ex, Ey. cbn [bind].
  rewrite (get_ok _ _ _ _ _ S A Hx), (get_ok _ _ _ _ _ S B Hy). cbn [bind].
  destruct (handle_live _ _ _ _ _ S A Hx) as (oa & La), (handle_live _ _ _ _ _ S B Hy) as (ob & Lb).
  unfold assign_obj. rewrite (load_live _ _ _ La), (load_live _ _ _ Lb). cbn [bind].
  assert (count ob = count oa) as -> by (rewrite (SIR_count _ _ S _ _ La), (SIR_count _ _ S _ _ Lb); auto).
  rewrite put_same by (rewrite La; now destruct oa).
  assert (fields oa = fa) as -> by (pose proof (si_objs _ _ _ S _ _ La); congruence).
  destruct (assign_loop_all w x y ps qs l r a b fa fb D Dy A B Nab Fa Fb El Px Py p S) as (h & E & Sh).
  rewrite E. cbn [bind]. eexists. split; [reflexivity|]. conjs.
  - exact (SIR_shows _ _ Sh).
  - exact (SIR_count _ _ Sh).
  - exact (SIR_allocated _ _ Sh).
Qed.
Print Assumptions C153_as_many_handles_any_deaths_partial.

(** With any numbers of handles: assigning the object of one variable to that of another one does
    what assigning its members one by one does, after the count of the object assigned to has been
    replaced by the number of handles to the other one; this includes every way to fail. *)
Definition recount (p : prog) (a n : nat) : prog :=
  mkProg (match nth_error (mem p) a with Some (Some o) => put (mem p) a (Some (mkObj n (fields o))) | _ => mem p end) (locals p).
Definition member_by_member (i j n : nat) : list cop :=
  map (fun k => Plain (OAssign (i, [k]) (j, [k]))) (seq 0 n).
Lemma by_member i j a b n : forall k p, nth_error (locals p) i = Some (Some (Some a)) -> nth_error (locals p) j = Some (Some (Some b)) ->
  crun p (map (fun k => Plain (OAssign (i, [k]) (j, [k]))) (seq k n)) = (do h <- assign_members (mem p) a b k n; Ok (in_mem p h)).
Proof.
  induction n as [|n IH]; intros k p Hi Hj; cbn [seq map crun assign_members].
  { cbn [bind]. destruct p. reflexivity. }
  cbn [do_cop do_op]. unfold eval. cbn [fst snd walk get]. rewrite Hi, Hj. cbn [bind walk get].
  destruct (get_field (mem p) a k) as [old| | | |]; try reflexivity. cbn [bind].
  destruct (xdecref (mem p) old) as [h1| | | |]; try reflexivity. cbn [bind in_mem mem].
  destruct (get_field h1 b k) as [v| | | |]; try reflexivity. cbn [bind set in_mem mem].
  destruct (set_field h1 a k v) as [h2| | | |]; try reflexivity. cbn [bind mem].
  destruct (xincref h2 v) as [h3| | | |]; try reflexivity. cbn [bind]. rewrite IH by assumption. reflexivity.
Qed.
Theorem C153_what_an_assignment_does : forall os w p i j a b fa, cruns nothing os w -> crun start os = Ok p ->
  at_place w (Local i) = Some (Some a) -> at_place w (Local j) = Some (Some b) -> nth_error (objs w) a = Some fa ->
  crun start (os ++ [CAssign (i, []) (j, [])]) = crun (recount p a (handles p b)) (member_by_member i j (length fa)).
Proof.
  intros os w p i j a b fa R Ep A B Fa.
  destruct (crun_ok os _ _ _ start_ok R) as (p' & E' & S). rewrite Ep in E'. injection E' as <-.
  assert (Ap : forall os p0, crun p0 os = Ok p -> crun p0 (os ++ [CAssign (i, []) (j, [])]) = crun p [CAssign (i, []) (j, [])]).
  { clear. induction os as [|o os IH]; intros p0 E; cbn [crun app] in *; [now injection E as ->|].
    destruct (do_cop p0 o) as [p1| | | |]; try discriminate. cbn [bind] in *. now apply IH. }
  rewrite (Ap _ _ Ep). cbn [crun do_cop]. unfold pointee, eval. cbn [fst snd walk bind].
  pose proof (get_ok _ _ _ _ _ S A Logic.I) as Ga. pose proof (get_ok _ _ _ _ _ S B Logic.I) as Gb. rewrite Ga, Gb. cbn [bind].
  destruct (handle_live _ _ _ _ _ S A Logic.I) as (oa & La), (handle_live _ _ _ _ _ S B Logic.I) as (ob & Lb).
  unfold assign_obj. rewrite (load_live _ _ _ La), (load_live _ _ _ Lb). cbn [bind].
  assert (fields oa = fa) as -> by (pose proof (si_objs _ _ _ S _ _ La); congruence).
  unfold member_by_member, recount. unfold live in La. rewrite La. rewrite (by_member i j a b).
  - cbn [mem]. rewrite (SIR_count _ _ S _ _ Lb).
    assert (fields oa = fa) as -> by (pose proof (si_objs _ _ _ S _ _ La); congruence).
    destruct (assign_members _ a b 0 (length fa)) as [h| | | |]; reflexivity.
  - cbn [locals]. cbn [get] in Ga. destruct (nth_error (locals p) i) as [[v|]|]; congruence.
  - cbn [locals]. cbn [get] in Gb. destruct (nth_error (locals p) j) as [[v|]|]; congruence.
Qed.
Print Assumptions C153_what_an_assignment_does.

(** The conditions are needed: assigning an object to itself, or assigning the next object of a list
    to the one before it, uses freed memory when a member is the last handle, although as many
    handles refer to the one object as to the other. *)
Theorem C153_self_assignment_refuted :
  crun start [Plain (ONew 0 1); Plain (ORenew (0, [0]) 0); CAssign (0, []) (0, [])] = UB UseAfterFree.
Proof. vm_compute. reflexivity. Qed.
Theorem C153_next_of_a_list_refuted :
  crun start [Plain (ONew 0 1); Plain (ORenew (0, [0]) 1); CAssign (0, []) (0, [0])] = UB UseAfterFree.
Proof. vm_compute. reflexivity. Qed.
Print Assumptions C153_self_assignment_refuted.
Print Assumptions C153_next_of_a_list_refuted.

(** A case: x's object has the only handle to a list of two objects; these die. *)
Definition deaths : list cop :=
  [Plain (ONew 0 2); Plain (ONew 1 2); Plain (ONew 2 0); Plain (ORenew (0, [0]) 1); Plain (ORenew (0, [0; 0]) 0); Plain (OAssign (1, [1]) (2, []))].
Example C153_deaths_case : exists w p, cruns nothing deaths w /\ crun start deaths = Ok p /\
  denotes w (0, []) [] (Local 0) /\ denotes w (1, []) [] (Local 1) /\ at_place w (Local 0) = Some (Some 0) /\ at_place w (Local 1) = Some (Some 1) /\
  nth_error (objs w) 0 = Some [Some 3; None] /\ nth_error (objs w) 1 = Some [None; Some 2] /\ handles p 0 = handles p 1 /\
  exists q, crun start (deaths ++ [CAssign (0, []) (1, [])]) = Ok q /\
    mem q = [Some (mkObj 1 [None; Some 2]); Some (mkObj 1 [None; Some 2]); Some (mkObj 3 []); None; None].
Proof.
  unfold deaths. do 2 eexists. split; [repeat (eapply cr_cons; [eapply c_plain; each|cbn]); apply cr_nil|].
  split; [vm_compute; reflexivity|]. conjs; try (vm_compute; reflexivity); try (unfold denotes; cbn; walk).
  eexists. split; vm_compute; reflexivity.
Qed.
