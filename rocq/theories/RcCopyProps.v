From Coq Require Import List Arith Bool Lia.
From Verif Require Import Outcome RcModel RcSpec RcProofs RcProg RcProps RcCopyModel RcCopySpec.
Import ListNotations.
Local Open Scope nat_scope.

Definition olds (fs : list (option nat)) (h : heap) : Prop := forall b, In (Some b) fs -> exists o, live h b o.
Fixpoint xincs (h : heap) (vs : list (option nat)) : outcome heap :=
  match vs with [] => Ok h | v :: vs => do h <- xincref h v; xincs h vs end.

Lemma put_app1 {A} (l m : list A) i x : i < length l -> put (l ++ m) i x = put l i x ++ m.
Proof. revert i. induction l as [|y l IH]; intros [|i] H; cbn in *; try lia; auto. now rewrite IH by lia. Qed.
Lemma put_at {A} (l : list A) x y m : put (l ++ x :: m) (length l) y = l ++ y :: m.
Proof. induction l; cbn; congruence. Qed.
Lemma xincref_app h v h' t : xincref h v = Ok h' -> xincref (h ++ t) v = Ok (h' ++ t).
Proof.
  destruct v as [b|]; cbn [xincref]; [|now intros [= ->]]. unfold incref. destruct (load h b) as [o| | | |] eqn:E; try discriminate.
  cbn [bind]. intros [= <-]. apply load_inv in E. pose proof (live_lt _ _ _ E). rewrite (load_live (h ++ t) b o) by (unfold live; now rewrite nth_error_app1).
  cbn [bind]. now rewrite put_app1.
Qed.
Lemma xincref_len h v h' : xincref h v = Ok h' -> length h' = length h.
Proof.
  destruct v as [b|]; cbn [xincref]; [|congruence]. unfold incref. destruct (load h b); try discriminate. cbn [bind]. intros [= <-]. apply put_length.
Qed.
Lemma xincref_fields h v h' b o : xincref h v = Ok h' -> live h b o -> exists o', live h' b o' /\ fields o' = fields o.
Proof.
  destruct v as [c|]; cbn [xincref]; [|intros [= ->]; eauto]. unfold incref. destruct (load h c) as [oc| | | |] eqn:E; try discriminate.
  cbn [bind]. intros [= <-] L. apply load_inv in E. destruct (Nat.eq_dec b c) as [->|N].
  - pose proof (live_fun _ _ _ _ E L) as ->. eexists. split; [eapply live_put_same; eauto|reflexivity].
  - exists o. split; auto. apply live_put_other; eauto using live_lt.
Qed.

(** What copying the members does: the same as incrementing the counts of all objects referred to *)
Lemma copy_members_is fs2 : forall h fs1 b ob h', live h b ob -> fields ob = fs1 ++ fs2 -> xincs h fs2 = Ok h' ->
  copy_members (h ++ [Some (mkObj 0 (fs1 ++ repeat None (length fs2)))]) (length h) b (length fs1) (length fs2) = Ok (h' ++ [Some (mkObj 0 (fs1 ++ fs2))]).
Proof.
  induction fs2 as [|v fs2 IH]; intros h fs1 b ob h' L F X; cbn [copy_members length repeat xincs] in *.
  - injection X as <-. reflexivity.
  - destruct (xincref h v) as [h1| | | |] eqn:E1; try discriminate. cbn [bind] in X. pose proof (live_lt _ _ _ L) as Lb.
    unfold get_field at 1. rewrite (load_live _ b ob) by (unfold live; now rewrite nth_error_app1). cbn [bind]. rewrite F.
    rewrite nth_error_app2, Nat.sub_diag by auto. cbn [nth_error bind].
    unfold set_field at 1. unfold load at 1. rewrite nth_error_app2, Nat.sub_diag by auto. cbn [nth_error bind count fields].
    rewrite app_length. cbn [length]. destruct (Nat.ltb_spec (length fs1) (length fs1 + S (length (repeat (@None nat) (length fs2))))); [|lia].
    cbn [bind]. rewrite !put_at. rewrite (xincref_app _ _ _ _ E1). cbn [bind].
    destruct (xincref_fields _ _ _ _ _ E1 L) as (ob1 & L1 & F1).
    specialize (IH h1 (fs1 ++ [v]) b ob1 h' L1). rewrite <- !app_assoc, app_length, (xincref_len _ _ _ E1) in IH. cbn [app length] in IH.
    replace (length fs1 + 1) with (S (length fs1)) in IH by lia. apply IH; auto. now rewrite F1, F.
Qed.

Lemma xincs_ok fs : forall p w R b, SIR p w R -> (exists o, live (mem p) b o) -> (forall v, In v fs -> exists k, at_place w (Member b k) = Some v) ->
  exists h, xincs (mem p) fs = Ok h /\ SIR (in_mem p h) w (rev (okids fs) ++ R).
Proof.
  induction fs as [|v fs IH]; intros p w R b S L A; cbn [xincs].
  - exists (mem p). split; auto. destruct p. exact S.
  - destruct (A v (or_introl eq_refl)) as (k & Ak). destruct (xinc_ok _ _ _ _ _ S Ak L) as (h & E & S1). rewrite E. cbn [bind].
    destruct (IH (in_mem p h) w _ b S1) as (h' & E' & S2).
    + destruct L as (o & L). eapply xincref_keeps; eauto.
    + intros v' I. apply A. now right.
    + exists h'. split; auto. cbn [okids flat_map]. fold (okids fs). rewrite rev_app_distr, <- app_assoc.
      replace (rev (oh v) ++ R) with (oh v ++ R) by (now destruct v). exact S2.
Qed.

(** One more object, with the handles [fs], which were loose, and itself referred to once *)
Lemma add_ok p w R fs : SIR p w (rev (okids fs) ++ R) ->
  SIR (in_mem p (mem p ++ [Some (mkObj 1 fs)])) (mkWorld (vars w) (objs w ++ [fs])) (length (objs w) :: R).
Proof.
  intros S.
  assert (Lc : forall a o, live (mem p ++ [Some (mkObj 1 fs)]) a o -> live (mem p) a o \/ (a = length (mem p) /\ o = mkObj 1 fs)).
  { intros a o L. unfold live in L. destruct (Nat.lt_ge_cases a (length (mem p))) as [H|H].
    - rewrite nth_error_app1 in L by auto. auto.
    - rewrite nth_error_app2 in L by auto. destruct (a - length (mem p)) as [|k] eqn:E.
      + cbn in L. injection L as <-. right. split; [lia|auto].
      + cbn in L. destruct k; discriminate. }
  assert (Ck : forall a, cnt (rev (okids fs)) a = cnt (okids fs) a).
  { intros a. unfold cnt. symmetry. apply Permutation.Permutation_count_occ, Permutation.Permutation_rev. }
  pose proof (si_inv _ _ _ S) as I.
  assert (Fresh : cnt ((rev (okids fs) ++ R) ++ local_handles (locals p)) (length (mem p)) + refs (mem p) (length (mem p)) = 0).
  { match goal with |- ?x = 0 => destruct (Nat.eq_dec x 0) as [|N]; auto end.
    destruct (inv_live _ _ I (length (mem p))) as (c & L); [lia|]. apply live_lt in L. lia. }
  split; cbn [in_mem mem locals vars objs]; try apply S.
  - rewrite !app_length, (si_len _ _ _ S). reflexivity.
  - intros a o L. destruct (Lc _ _ L) as [H|[-> ->]].
    + rewrite nth_error_app1; [eapply si_objs; eauto|]. rewrite <- (si_len _ _ _ S). eapply live_lt; eauto.
    + rewrite (si_len _ _ _ S), nth_error_app2 by auto. now rewrite Nat.sub_diag.
  - rewrite <- (si_len _ _ _ S). destruct I as [I1 I2]. split.
    + intros a o L. rewrite refs_app. unfold contrib. cbn [count fields Nat.eqb]. cbn [app]. rewrite cnt_cons.
      rewrite !cnt_app, Ck in Fresh. destruct (Lc _ _ L) as [H|[-> ->]].
      * pose proof (live_lt _ _ _ H). rewrite (I1 _ _ H), !cnt_app, Ck. destruct (Nat.eq_dec (length (mem p)) a); lia.
      * cbn [count]. rewrite cnt_app. destruct (Nat.eq_dec (length (mem p)) (length (mem p))); lia.
    + intros a. rewrite refs_app. unfold contrib. cbn [count fields Nat.eqb]. cbn [app]. rewrite cnt_cons, cnt_app. intros H.
      destruct (Nat.eq_dec (length (mem p)) a) as [<-|N].
      * eexists. unfold live. rewrite nth_error_app2, Nat.sub_diag by auto. reflexivity.
      * destruct (I2 a) as (o & L); [rewrite !cnt_app, Ck; lia|]. exists o. unfold live. rewrite nth_error_app1; auto. eapply live_lt; eauto.
  - intros a o L. destruct (Lc _ _ L) as [H|[-> ->]]; [eapply si_counted; eauto|cbn; lia].
Qed.

Lemma cstep_ok p w o w' : SIR p w [] -> cmeans w o w' -> exists q, do_cop p o = Ok q /\ SIR q w' [].
Proof.
  intros S M. destruct M as [w o w' M|w i x ps l b fs F D A Fb]; cbn [do_cop].
  - eapply step_ok; eauto.
  - unfold pointee. destruct (eval_ok _ _ _ _ _ _ S D) as [E H]. rewrite E. cbn [bind]. rewrite (get_ok _ _ _ _ _ S A H). cbn [bind].
    destruct (handle_live _ _ _ _ _ S A H) as (ob & L). pose proof (si_objs _ _ _ S _ _ L) as Fo. rewrite Fo in Fb. injection Fb as <-.
    unfold copy_obj. rewrite (load_live _ _ _ L). cbn [bind new_obj].
    destruct (xincs_ok (fields ob) p w [] b S) as (h & X & S1); [eauto| |].
    { intros v I. apply In_nth_error in I as (k & I). exists k. cbn. now rewrite Fo. }
    pose proof (copy_members_is (fields ob) (mem p) [] b ob h L eq_refl X) as C. cbn [app length] in C. rewrite C. cbn [bind].
    pose proof (add_ok _ _ _ _ S1) as S2. cbn [in_mem mem locals] in S2.
    assert (Hl : length h = length (mem p)) by (rewrite (si_len _ _ _ S); exact (si_len _ _ _ S1)).
    cbn [xincref]. unfold incref, load. rewrite <- Hl, nth_error_app2, Nat.sub_diag by auto. cbn [nth_error bind count fields]. rewrite put_at.
    rewrite Hl, (si_len _ _ _ S).
    exact (declare_ok _ _ i (Some (length (objs w))) S2 F).
Qed.
Lemma crun_ok os : forall p w w', SIR p w [] -> cruns w os w' -> exists q, crun p os = Ok q /\ SIR q w' [].
Proof.
  induction os as [|o os IH]; intros p w w' S R; inversion R; subst; cbn [crun]; [eauto|].
  match goal with M : cmeans w o _ |- _ => destruct (cstep_ok _ _ _ _ S M) as (q & E & Sq) end. rewrite E. cbn [bind]. eapply IH; eauto.
Qed.

(** * C152: with copies of objects in the program, counts are still the numbers of handles *)
Theorem C152_copied_objects : forall os w, cruns nothing os w ->
  exists p, crun start os = Ok p /\ state_shows p w /\
    (forall a o, nth_error (mem p) a = Some (Some o) -> count o = handles p a) /\
    (forall a, allocated p a <-> 0 < handles p a).
Proof.
  intros os w R. destruct (crun_ok os _ _ _ start_ok R) as (p & E & S). exists p. conjs; auto.
  - now apply SIR_shows.
  - eapply SIR_count; eauto.
  - eapply SIR_allocated; eauto.
Qed.

(** * C153: assigning one object to another *)
Lemma assign_nulls n : forall h a b k oa ob, live h a oa -> live h b ob ->
  (forall j, k <= j -> j < k + n -> nth_error (fields oa) j = Some None /\ nth_error (fields ob) j = Some None) ->
  assign_members h a b k n = Ok h.
Proof.
  induction n as [|n IH]; intros h a b k oa ob La Lb N; cbn [assign_members]; [reflexivity|].
  destruct (N k) as [Na Nb]; [lia|lia|]. unfold get_field, set_field. rewrite ?(load_live _ _ _ La), ?(load_live _ _ _ Lb). cbn [bind].
  rewrite Na. cbn [bind xdecref]. rewrite ?(load_live _ _ _ Lb). cbn [bind]. rewrite Nb. cbn [bind]. rewrite ?(load_live _ _ _ La). cbn [bind].
  assert (k < length (fields oa)) by (apply nth_error_Some; congruence). destruct (Nat.ltb_spec k (length (fields oa))); [|lia]. cbn [bind xincref].
  rewrite (put_same (fields oa)) by auto. rewrite (put_same h) by (destruct oa; exact La). eapply IH; eauto. intros j Hj Hj'. apply N; lia.
Qed.
(** What the variables and the objects of a program refer to: its handles, all of them *)
Lemma handles_count p a oa c : nth_error (mem p) a = Some (Some oa) -> forall b,
  handles (in_mem p (put (mem p) a (Some (mkObj c (fields oa))))) b = handles p b.
Proof.
  intros L b. unfold handles. cbn [in_mem mem locals]. f_equal. revert a L. induction (mem p) as [|y h IH]; intros [|a] L; try discriminate; cbn [put flat_map nth_error] in *.
  - injection L as ->. reflexivity.
  - rewrite !count_occ_app. now rewrite (IH _ L).
Qed.

(** For every program and every two objects in it whose handles are null (objects without handles
    among them): the assignment leaves all handles as they are, and it leaves the object assigned to
    with the number of handles that refer to the other object for its count *)
Theorem C153_assigned_objects_refuted : forall os w p x y ps l qs r a b fa fb, cruns nothing os w -> crun start os = Ok p ->
  denotes w x ps l -> denotes w y qs r -> at_place w l = Some (Some a) -> at_place w r = Some (Some b) ->
  nth_error (objs w) a = Some fa -> nth_error (objs w) b = Some fb -> length fa = length fb ->
  (forall v, In v fa \/ In v fb -> v = None) ->
  exists q o, crun start (os ++ [CAssign x y]) = Ok q /\ (forall c, handles q c = handles p c) /\
    nth_error (mem q) a = Some (Some o) /\ count o = handles p b /\
    (forall c, c <> a -> nth_error (mem q) c = nth_error (mem p) c).
Proof.
  intros os w p x y ps l qs r a b fa fb R Ep D Dy A B Fa Fb El Nu. destruct (crun_ok os _ _ _ start_ok R) as (p' & E' & S). rewrite Ep in E'. injection E' as <-.
  assert (Ap : forall os p0, crun p0 os = Ok p -> crun p0 (os ++ [CAssign x y]) = crun p [CAssign x y]).
  { clear. induction os as [|o os IH]; intros p0 E; cbn [crun app] in *; [now injection E as ->|].
    destruct (do_cop p0 o) as [p1| | | |]; try discriminate. cbn [bind] in *. now apply IH. }
  rewrite (Ap _ _ Ep). cbn [crun do_cop]. unfold pointee.
  destruct (eval_ok _ _ _ _ _ _ S D) as [Ex Hx], (eval_ok _ _ _ _ _ _ S Dy) as [Ey Hy]. rewrite Ex, Ey. cbn [bind].
  rewrite (get_ok _ _ _ _ _ S A Hx), (get_ok _ _ _ _ _ S B Hy). cbn [bind].
  destruct (handle_live _ _ _ _ _ S A Hx) as (oa & La), (handle_live _ _ _ _ _ S B Hy) as (ob & Lb).
  rewrite (si_objs _ _ _ S _ _ La) in Fa. rewrite (si_objs _ _ _ S _ _ Lb) in Fb. injection Fa as <-. injection Fb as <-.
  unfold assign_obj. rewrite ?(load_live _ _ _ La), ?(load_live _ _ _ Lb). cbn [bind].
  assert (Nl : forall fs j, (forall v, In v fs -> v = None) -> j < length fs -> nth_error fs j = Some (@None nat)).
  { intros fs j Hn Hj. destruct (nth_error fs j) as [v|] eqn:E; [|apply nth_error_None in E; lia]. apply nth_error_In in E. now rewrite (Hn _ E). }
  assert (Lb' : exists ob', live (put (mem p) a (Some (mkObj (count ob) (fields oa)))) b ob' /\ fields ob' = fields ob).
  { destruct (Nat.eq_dec b a) as [->|Ne].
    - rewrite (live_fun _ _ _ _ La Lb) in *. eexists. split; [eapply live_put_same; eauto|reflexivity].
    - exists ob. split; auto. apply live_put_other; eauto using live_lt. }
  destruct Lb' as (ob' & Lb' & Fb').
  rewrite (assign_nulls _ _ a b 0 (mkObj (count ob) (fields oa)) ob' (live_put_same _ _ _ _ La) Lb').
  2: { intros j _ Hj. cbn [fields]. rewrite Fb'. split; apply Nl; auto; lia. }
  cbn [bind]. do 2 eexists. split; [reflexivity|]. conjs.
  - apply handles_count. exact La.
  - cbn [in_mem mem]. eapply live_put_same; eauto.
  - cbn [count]. eapply SIR_count; eauto.
  - intros c N. cbn [in_mem mem]. rewrite nth_put by (eapply live_lt; eauto). destruct (Nat.eqb_spec c a); [contradiction|reflexivity].
Qed.
(** When as many handles refer to the one as to the other, nothing goes wrong *)
Corollary C153_as_many_handles_partial : forall os w p x y ps l qs r a b fa fb, cruns nothing os w -> crun start os = Ok p ->
  denotes w x ps l -> denotes w y qs r -> at_place w l = Some (Some a) -> at_place w r = Some (Some b) ->
  nth_error (objs w) a = Some fa -> nth_error (objs w) b = Some fb -> length fa = length fb ->
  (forall v, In v fa \/ In v fb -> v = None) -> handles p a = handles p b ->
  exists q, crun start (os ++ [CAssign x y]) = Ok q /\ (forall c, handles q c = handles p c) /\
    (forall c o, nth_error (mem q) c = Some (Some o) -> count o = handles q c) /\
    (forall c, allocated q c <-> 0 < handles q c).
Proof.
  intros os w p x y ps l qs r a b fa fb R Ep D Dy A B Fa Fb El Nu Eq.
  destruct (C153_assigned_objects_refuted os w p x y ps l qs r a b fa fb R Ep D Dy A B Fa Fb El Nu) as (q & o & E & H & La & Co & Ot).
  destruct (C152_copied_objects os w R) as (p' & E' & _ & C & Al). rewrite Ep in E'. injection E' as <-.
  exists q. conjs; auto.
  - intros c o' L. rewrite H. destruct (Nat.eq_dec c a) as [->|N]; [rewrite La in L; injection L as <-; congruence|]. rewrite (Ot _ N) in L. auto.
  - intros c. rewrite H, <- Al. unfold allocated. destruct (Nat.eq_dec c a) as [->|N].
    + split; [|eauto]. intros _. destruct (SIR_allocated p w) with (a := a) as [_ G]; [|apply G].
      * destruct (crun_ok os _ _ _ start_ok R) as (p' & E' & S). rewrite Ep in E'. now injection E' as <-.
      * rewrite Eq, <- Co. destruct (crun_ok os _ _ _ start_ok R) as (p' & E' & S). rewrite Ep in E'. injection E' as <-.
        rewrite Co, <- Eq. apply (SIR_allocated _ _ S). destruct (handle_live p w [] l a S A) as (oa & L); [|now exists oa].
        exact (proj2 (eval_ok _ _ _ _ _ _ S D)).
    + now rewrite (Ot _ N).
Qed.

(** ** Cases *)
(** x and y refer to an object each, and z to x's: after *x = *y, when z is gone, x's object is gone
    too, though x refers to it, and x's next use is a use after free *)
Definition two_and_one : list cop := [Plain (ONew 0 1); Plain (ONew 1 1); Plain (OCopy 2 (0, []))].
Theorem C153_freed_too_early_refuted :
  crun start (two_and_one ++ [CAssign (0, []) (1, []); Plain (ODestroy 2); Plain (ORenew (0, [0]) 1)]) = UB UseAfterFree /\
  crun start (two_and_one ++ [CAssign (0, []) (1, []); Plain (ODestroy 2); Plain (ODestroy 0)]) = UB UseAfterFree.
Proof. split; vm_compute; reflexivity. Qed.
(** and the other way round, *y = *x, y's object is never destroyed *)
Theorem C153_never_freed_refuted : exists p,
  crun start (two_and_one ++ [CAssign (1, []) (0, []); Plain (ODestroy 0); Plain (ODestroy 1); Plain (ODestroy 2)]) = Ok p /\
  allocated p 1 /\ handles p 1 = 0.
Proof. eexists. split; [vm_compute; reflexivity|]. split; [eexists; reflexivity|reflexivity]. Qed.

(** A history with copies: of an object with two handles, one of which refers to it; of the copy *)
Definition copies : list cop :=
  [Plain (ONew 0 2); Plain (OAssign (0, [0]) (0, [])); Plain (ORenew (0, [1]) 1); CCopy 1 (0, []); Plain (OClear (0, [0])); Plain (ODestroy 0); CCopy 2 (1, [])].
Example copies_run : exists w, cruns nothing copies w /\ at_place w (Local 2) = Some (Some 3) /\ nth_error (objs w) 3 = Some [Some 0; Some 1].
Proof.
  unfold copies. eexists. split.
  - repeat (eapply cr_cons; [first [eapply c_plain; each|eapply c_copy; [first [now left|now right]|unfold denotes; cbn; walk|reflexivity|reflexivity]]|cbn]). apply cr_nil.
  - split; reflexivity.
Qed.
Example copies_counts : exists p, crun start copies = Ok p /\
  mem p = [Some (mkObj 2 [None; Some 1]); Some (mkObj 3 [None]); Some (mkObj 1 [Some 0; Some 1]); Some (mkObj 1 [Some 0; Some 1])].
Proof. eexists. split; vm_compute; reflexivity. Qed.
Example two_and_one_runs : exists w p, cruns nothing two_and_one w /\ crun start two_and_one = Ok p /\ handles p 0 = 2 /\ handles p 1 = 1 /\
  denotes w (0, []) [] (Local 0) /\ denotes w (1, []) [] (Local 1) /\ objs w = [[None]; [None]].
Proof.
  unfold two_and_one. do 2 eexists. split; [repeat (eapply cr_cons; [eapply c_plain; each|cbn]); apply cr_nil|].
  conjs; try (vm_compute; reflexivity). all: unfold denotes; cbn; walk.
Qed.

Print Assumptions C152_copied_objects.
Print Assumptions C153_assigned_objects_refuted.
Print Assumptions C153_as_many_handles_partial.
Print Assumptions C153_freed_too_early_refuted.
Print Assumptions C153_never_freed_refuted.
