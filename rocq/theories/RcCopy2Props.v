(** C153, for objects that have members: assigning one object to another when no object dies. *)
From Coq Require Import List Arith Bool Lia.
From Verif Require Import Outcome RcModel RcSpec RcProofs RcProg RcProps RcCopyModel RcCopySpec RcCopyProps.
Import ListNotations.
Local Open Scope nat_scope.

(** How many of the handles [fs] refer to [c] *)
Definition occ (c : nat) (fs : list (option nat)) : nat :=
  length (filter (fun v => match v with Some d => d =? c | None => false end) fs).

Lemma occ_cnt c fs : occ c fs = cnt (okids fs) c.
Proof.
  unfold occ. induction fs as [|[d|] fs IH]; cbn [filter length okids flat_map oh app]; auto.
  fold (okids fs). change (count_occ Nat.eq_dec (d :: okids fs) c) with (cnt (d :: okids fs) c). rewrite cnt_cons.
  destruct (Nat.eqb_spec d c), (Nat.eq_dec d c); cbn [length]; try contradiction; lia.
Qed.
Lemma occ_S c fs k v : nth_error fs k = Some v -> occ c (firstn (S k) fs) = occ c (firstn k fs) + (match v with Some d => if d =? c then 1 else 0 | None => 0 end).
Proof.
  intros H. rewrite (firstn_S _ _ _ H). unfold occ. rewrite filter_app, app_length. cbn [filter].
  destruct v as [d|]; cbn [length]; [|lia]. destruct (d =? c); cbn [length]; lia.
Qed.
Lemma occ_firstn c fs k : occ c (firstn k fs) <= occ c fs.
Proof. rewrite <- (firstn_skipn k fs) at 2. unfold occ. rewrite filter_app, app_length. lia. Qed.
Lemma occ_in c fs : In (Some c) fs <-> 0 < occ c fs.
Proof.
  unfold occ. split.
  - intros H. destruct (filter _ fs) eqn:E; [|cbn; lia]. exfalso.
    assert (In (Some c) []) as []. rewrite <- E. apply filter_In. split; [exact H|apply Nat.eqb_refl].
  - destruct (filter _ fs) as [|v l] eqn:E; cbn; [lia|]. intros _. assert (In v (v :: l)) as Hv by now left. rewrite <- E in Hv.
    apply filter_In in Hv as (Hv & Hc). destruct v as [d|]; [|discriminate]. apply Nat.eqb_eq in Hc as ->. exact Hv.
Qed.

(** * A heap with the objects of [h0], but other counts and members *)
Definition upd {A} (f : nat -> A) (a : nat) (x : A) (c : nat) : A := if c =? a then x else f c.
Definition desc (h0 h : heap) (cf : nat -> nat) (ff : nat -> list (option nat)) : Prop :=
  forall c, nth_error h c = match nth_error h0 c with Some (Some _) => Some (Some (mkObj (cf c) (ff c))) | x => x end.
Lemma desc_live h0 h cf ff c o : desc h0 h cf ff -> live h0 c o -> live h c (mkObj (cf c) (ff c)).
Proof. intros D L. unfold live in *. now rewrite D, L. Qed.
Lemma desc_put h0 h cf ff c o x fs : desc h0 h cf ff -> live h0 c o ->
  desc h0 (put h c (Some (mkObj x fs))) (upd cf c x) (upd ff c fs).
Proof.
  intros D L d. pose proof (desc_live _ _ _ _ _ _ D L) as Lh. rewrite nth_put by (eapply live_lt; eauto). unfold upd.
  destruct (Nat.eqb_spec d c) as [->|N]; [unfold live in L; now rewrite L|apply D].
Qed.
Lemma desc_ext h0 h cf ff cf' ff' : desc h0 h cf ff -> (forall c o, live h0 c o -> cf c = cf' c /\ ff c = ff' c) -> desc h0 h cf' ff'.
Proof.
  intros D E c. rewrite D. destruct (nth_error h0 c) as [[o|]|] eqn:L; auto. destruct (E c o L) as (-> & ->). reflexivity.
Qed.

Section Assign.
Variables (h0 : heap) (a b : nat) (fa fb : list (option nat)).
Variables (oa ob : obj).
Hypothesis La : live h0 a oa.
Hypothesis Lb : live h0 b ob.
Hypothesis Fa : fields oa = fa.
Hypothesis Fb : fields ob = fb.
Hypothesis Len : length fa = length fb.
Hypothesis Kids : forall c, In (Some c) fa \/ In (Some c) fb -> exists o, live h0 c o.
Hypothesis Stays : forall c o, In (Some c) fa -> live h0 c o -> occ c fa < count o.

Definition cnt0 (c : nat) : nat := match nth_error h0 c with Some (Some o) => count o | _ => 0 end.
Definition fields0 (c : nat) : list (option nat) := match nth_error h0 c with Some (Some o) => fields o | _ => [] end.
(** After [k] members *)
Definition cf (k c : nat) : nat := cnt0 c - occ c (firstn k fa) + occ c (firstn k fb).
Definition ff (k c : nat) : list (option nat) := if c =? a then firstn k fb ++ skipn k fa else fields0 c.

Lemma cnt0_live c o : live h0 c o -> cnt0 c = count o.
Proof. unfold live, cnt0. now intros ->. Qed.
Lemma fields0_live c o : live h0 c o -> fields0 c = fields o.
Proof. unfold live, fields0. now intros ->. Qed.
Lemma put_mid {A} (l m : list A) k x y : length l = k -> put (l ++ x :: m) k y = l ++ y :: m.
Proof. intros <-. apply put_at. Qed.
Lemma skipn_nth_cons {A} (l : list A) k x : nth_error l k = Some x -> skipn k l = x :: skipn (S k) l.
Proof. revert k. induction l as [|y l IH]; intros [|k] H; try discriminate; cbn in *; [congruence|]. now apply IH. Qed.

Lemma assign_loop n : forall k h, k + n = length fa -> desc h0 h (cf k) (ff k) ->
  exists h', assign_members h a b k n = Ok h' /\ desc h0 h' (cf (k + n)) (ff (k + n)).
Proof.
  induction n as [|n IH]; intros k h Hk D; cbn [assign_members].
  { exists h. rewrite Nat.add_0_r. auto. }
  destruct (nth_error fa k) as [va|] eqn:Ea; [|apply nth_error_None in Ea; lia].
  destruct (nth_error fb k) as [vb|] eqn:Eb; [|apply nth_error_None in Eb; lia].
  assert (firstn k fb ++ skipn k fa = firstn k fb ++ va :: skipn (S k) fa) as Em by now rewrite (skipn_nth_cons _ _ _ Ea).
  assert (length (firstn k fb) = k) as Lk by (rewrite firstn_length; lia).
  unfold get_field at 1. rewrite (load_live _ _ _ (desc_live _ _ _ _ _ _ D La)). cbn [bind fields]. unfold ff at 1. rewrite Nat.eqb_refl, Em.
  rewrite nth_error_app2, Lk, Nat.sub_diag by lia. cbn [nth_error bind].
  (* the old member *)
  set (cf1 := match va with Some d => upd (cf k) d (cf k d - 1) | None => cf k end).
  assert (exists h1, xdecref h va = Ok h1 /\ desc h0 h1 cf1 (ff k)) as (h1 & -> & D1).
  { destruct va as [d|]; [|exists h; auto]. cbn [xdecref].
    assert (In (Some d) fa) as Hd by (eapply nth_error_In; eauto). destruct (Kids d (or_introl Hd)) as (od & Ld).
    cbn [decref]. rewrite (load_live _ _ _ (desc_live _ _ _ _ _ _ D Ld)). cbn [bind count].
    pose proof (Stays d od Hd Ld) as St. pose proof (occ_S d fa k _ Ea) as O1. cbv beta iota in O1. rewrite Nat.eqb_refl in O1.
    pose proof (occ_firstn d fa (S k)) as O2. assert (2 <= cf k d) as C2 by (unfold cf; rewrite (cnt0_live _ _ Ld); lia).
    destruct (cf k d) as [|m] eqn:Ec; [lia|]. replace (m =? 0) with false by (symmetry; apply Nat.eqb_neq; lia).
    eexists. split; [reflexivity|]. eapply desc_ext; [eapply (desc_put _ _ _ _ d od m _ D Ld)|].
    intros c o L. unfold cf1, upd. cbn [fields]. destruct (Nat.eqb_spec c d) as [->|]; [|auto]. split; [lia|reflexivity]. }
  cbn [bind].
  (* the new one *)
  unfold get_field at 1. rewrite (load_live _ _ _ (desc_live _ _ _ _ _ _ D1 Lb)). cbn [bind fields].
  assert (nth_error (ff k b) k = Some vb) as ->.
  { unfold ff. destruct (Nat.eqb_spec b a) as [->|].
    - assert (fa = fb) as E by (rewrite <- Fa, <- Fb; f_equal; eapply live_fun; eauto).
      rewrite Em, nth_error_app2, Lk, Nat.sub_diag by lia. cbn. congruence.
    - now rewrite (fields0_live _ _ Lb), Fb. }
  cbn [bind]. unfold set_field at 1. rewrite (load_live _ _ _ (desc_live _ _ _ _ _ _ D1 La)). cbn [bind fields count].
  assert (k <? length (ff k a) = true) as ->.
  { apply Nat.ltb_lt. unfold ff. rewrite Nat.eqb_refl, app_length, Lk, skipn_length. lia. }
  cbn [bind].
  pose proof (desc_put _ _ _ _ a oa (cf1 a) (put (ff k a) k vb) D1 La) as D2.
  assert (desc h0 (put h1 a (Some (mkObj (cf1 a) (put (ff k a) k vb)))) cf1 (ff (S k))) as D3.
  { eapply desc_ext; [exact D2|]. intros c o L. unfold upd. destruct (Nat.eqb_spec c a) as [->|N].
    - split; [reflexivity|]. unfold ff. rewrite Nat.eqb_refl, Em, (put_mid _ _ _ _ _ Lk), (firstn_S _ _ _ Eb), <- app_assoc. reflexivity.
    - split; [reflexivity|]. unfold ff. destruct (Nat.eqb_spec c a); [contradiction|reflexivity]. }
  set (h2 := put h1 a _) in *.
  assert (exists h3, xincref h2 vb = Ok h3 /\ desc h0 h3 (cf (S k)) (ff (S k))) as (h3 & -> & D4).
  { assert (forall c o, live h0 c o -> cf1 c + match vb with Some d => if d =? c then 1 else 0 | None => 0 end = cf (S k) c) as Ec.
    { intros c o L. unfold cf1, cf. rewrite (occ_S c fb k _ Eb). pose proof (occ_S c fa k _ Ea) as O1. cbv beta iota in O1. rewrite O1.
      destruct va as [d|]; [|lia]. unfold upd. destruct (Nat.eqb_spec c d) as [->|N].
      - rewrite Nat.eqb_refl in *. assert (In (Some d) fa) as Hd by (eapply nth_error_In; eauto).
        pose proof (Stays d o Hd L). pose proof (occ_firstn d fa (S k)). rewrite (cnt0_live _ _ L). lia.
      - destruct (Nat.eqb_spec d c); [congruence|]. lia. }
    destruct vb as [d|]; cbn [xincref].
    - destruct (Kids d) as (od & Ld); [right; eapply nth_error_In; eauto|]. unfold incref.
      rewrite (load_live _ _ _ (desc_live _ _ _ _ _ _ D3 Ld)). cbn [bind count fields]. eexists. split; [reflexivity|].
      eapply desc_ext; [exact (desc_put _ _ _ _ d od (S (cf1 d)) (ff (S k) d) D3 Ld)|].
      intros c o L. specialize (Ec c o L). unfold upd. destruct (Nat.eqb_spec c d) as [->|N].
      + rewrite Nat.eqb_refl in Ec. split; [lia|reflexivity].
      + destruct (Nat.eqb_spec d c); [congruence|]. split; [lia|reflexivity].
    - exists h2. split; [reflexivity|]. eapply desc_ext; [exact D3|]. intros c o L. specialize (Ec c o L). split; [lia|reflexivity]. }
  cbn [bind]. destruct (IH (S k) h3 ltac:(lia) D4) as (h' & E & D5). exists h'. split; [exact E|].
  replace (k + S n) with (S k + n) by lia. exact D5.
Qed.
End Assign.

(** * Handles *)
Lemma same_handles h h' : (forall c, option_map (option_map fields) (nth_error h c) = option_map (option_map fields) (nth_error h' c)) ->
  flat_map obj_handles h = flat_map obj_handles h'.
Proof.
  revert h'. induction h as [|x h IH]; intros [|y h'] E; auto.
  - specialize (E 0). discriminate E.
  - specialize (E 0). discriminate E.
  - cbn [flat_map]. f_equal.
    + specialize (E 0). cbn in E. destruct x as [x|], y as [y|]; cbn in *; congruence.
    + apply IH. intros c. exact (E (S c)).
Qed.
Lemma handles_put h a oa n fs c : live h a oa ->
  count_occ Nat.eq_dec (flat_map obj_handles (put h a (Some (mkObj n fs)))) c + occ c (fields oa) =
  count_occ Nat.eq_dec (flat_map obj_handles h) c + occ c fs.
Proof.
  intros L. rewrite !occ_cnt. revert a L. induction h as [|y h IH]; intros [|a] L; try discriminate; cbn [put flat_map]; rewrite !count_occ_app.
  - injection L as ->. change (obj_handles (Some oa)) with (okids (fields oa)). change (obj_handles (Some (mkObj n fs))) with (okids fs). unfold cnt. lia.
  - specialize (IH a L). lia.
Qed.

(** * C153 *)

(** The assignment of one object of a program to another: as long as no object dies by it (of every
    object that members of the one assigned to refer to there are other handles left), the members are
    those of the other object afterwards, all other objects keep theirs, and every count is what the
    handles make it - but that the object assigned to has for its count the number of handles that
    referred to the other one, and what its own new and old members change. *)
Theorem C153_assignment_without_deaths_partial : forall os w p x y ps l qs r a b fa fb, cruns nothing os w -> crun start os = Ok p ->
  denotes w x ps l -> denotes w y qs r -> at_place w l = Some (Some a) -> at_place w r = Some (Some b) ->
  nth_error (objs w) a = Some fa -> nth_error (objs w) b = Some fb -> length fa = length fb ->
  (forall c, In (Some c) fa -> occ c fa < if c =? a then handles p b else handles p c) ->
  exists q, crun start (os ++ [CAssign x y]) = Ok q /\
    (forall c, handles q c + occ c fa = handles p c + occ c fb) /\
    (forall c, option_map (option_map fields) (nth_error (mem q) c) =
       if c =? a then Some (Some fb) else option_map (option_map fields) (nth_error (mem p) c)) /\
    (forall c o, nth_error (mem q) c = Some (Some o) -> c <> a -> count o = handles q c) /\
    (forall o, nth_error (mem q) a = Some (Some o) -> count o + handles p a = handles q a + handles p b) /\
    (forall c, allocated q c <-> allocated p c).
Proof.
  intros os w p x y ps l qs r a b fa fb R Ep D Dy A B Fa Fb El St.
  destruct (crun_ok os _ _ _ start_ok R) as (p' & E' & S). rewrite Ep in E'. injection E' as <-.
  assert (Ap : forall os p0, crun p0 os = Ok p -> crun p0 (os ++ [CAssign x y]) = crun p [CAssign x y]).
  { clear. induction os as [|o os IH]; intros p0 E; cbn [crun app] in *; [now injection E as ->|].
    destruct (do_cop p0 o) as [p1| | | |]; try discriminate. cbn [bind] in *. now apply IH. }
  rewrite (Ap _ _ Ep). cbn [crun do_cop]. unfold pointee.
  destruct (eval_ok _ _ _ _ _ _ S D) as [Ex Hx], (eval_ok _ _ _ _ _ _ S Dy) as [Ey Hy]. rewrite Ex, Ey. cbn [bind].
  rewrite (get_ok _ _ _ _ _ S A Hx), (get_ok _ _ _ _ _ S B Hy). cbn [bind].
  destruct (handle_live _ _ _ _ _ S A Hx) as (oa & La), (handle_live _ _ _ _ _ S B Hy) as (ob & Lb).
  rewrite (si_objs _ _ _ S _ _ La) in Fa. rewrite (si_objs _ _ _ S _ _ Lb) in Fb. injection Fa as <-. injection Fb as <-.
  unfold assign_obj. rewrite ?(load_live _ _ _ La), ?(load_live _ _ _ Lb). cbn [bind].
  pose proof (SIR_count _ _ S) as Cp.
  set (h0 := put (mem p) a (Some (mkObj (count ob) (fields oa)))).
  assert (L0a : live h0 a (mkObj (count ob) (fields oa))) by (eapply live_put_same; eauto).
  assert (L0 : forall c o, c <> a -> live h0 c o <-> live (mem p) c o).
  { intros c o N. apply live_put_other; eauto using live_lt. }
  assert (Lall : forall c, (exists o, live h0 c o) <-> exists o, live (mem p) c o).
  { intros c. destruct (Nat.eq_dec c a) as [->|N]; [split; eauto|]. split; intros (o & L); exists o; apply (L0 c o N); exact L. }
  assert (L0b : exists ob', live h0 b ob' /\ fields ob' = fields ob).
  { destruct (Nat.eq_dec b a) as [->|Ne].
    - rewrite (live_fun _ _ _ _ La Lb) in *. eauto.
    - exists ob. split; [apply (L0 b ob Ne); exact Lb|reflexivity]. }
  destruct L0b as (ob' & L0b & Fb').
  assert (Kid : forall c o d, live (mem p) c o -> In (Some d) (fields o) -> exists od, live (mem p) d od).
  { intros c o d L I. destruct (inv_kid _ _ c o d (si_inv _ _ _ S) L) as (od & Ld & _); [eapply si_counted; eauto| |eauto].
    apply okids_in. apply In_nth_error in I. exact I. }
  assert (Kids : forall c, In (Some c) (fields oa) \/ In (Some c) (fields ob) -> exists o, live h0 c o).
  { intros c I. apply Lall. destruct I as [I|I]; [exact (Kid _ _ _ La I)|exact (Kid _ _ _ Lb I)]. }
  assert (Stays : forall c o, In (Some c) (fields oa) -> live h0 c o -> occ c (fields oa) < count o).
  { intros c o I L. specialize (St c I). destruct (Nat.eq_dec c a) as [Ec|N].
    - subst c. rewrite Nat.eqb_refl in St. rewrite (live_fun _ _ _ _ L L0a). cbn [count]. rewrite (Cp _ _ Lb). exact St.
    - apply Nat.eqb_neq in N as N'. rewrite N' in St. apply (L0 c o N) in L. rewrite (Cp _ _ L). exact St. }
  assert (D0 : desc h0 h0 (cf h0 (fields oa) (fields ob) 0) (ff h0 a (fields oa) (fields ob) 0)).
  { intros c. unfold cf, ff, cnt0, fields0. destruct (nth_error h0 c) as [[o|]|] eqn:L; auto. cbn [firstn skipn app].
    unfold occ. cbn [filter length]. rewrite Nat.sub_0_r, Nat.add_0_r. destruct (Nat.eqb_spec c a) as [->|N]; [|now destruct o].
    rewrite (live_fun _ _ _ _ L L0a). reflexivity. }
  pose proof (assign_loop h0 a b (fields oa) (fields ob) (mkObj (count ob) (fields oa)) ob' L0a L0b eq_refl Fb' El Kids Stays (length (fields oa)) 0 h0 eq_refl D0) as (h' & E & Dh).
  rewrite E. cbn [bind]. eexists. split; [reflexivity|]. cbn [plus] in Dh. cbn [in_mem mem locals].
  assert (Ff : forall c o, live h0 c o -> ff h0 a (fields oa) (fields ob) (length (fields oa)) c = if c =? a then fields ob else fields o).
  { intros c o L. unfold ff, fields0. destruct (c =? a).
    - rewrite El at 1. now rewrite firstn_all, skipn_all, app_nil_r.
    - unfold live in L. now rewrite L. }
  assert (Same : forall c, option_map (option_map fields) (nth_error h' c) =
       if c =? a then Some (Some (fields ob)) else option_map (option_map fields) (nth_error (mem p) c)).
  { intros c. rewrite Dh. destruct (Nat.eqb_spec c a) as [->|N].
    - unfold live in L0a. rewrite L0a. cbn [option_map fields]. rewrite (Ff a _ L0a), Nat.eqb_refl. reflexivity.
    - assert (nth_error h0 c = nth_error (mem p) c) as -> by (unfold h0; rewrite nth_put by (eapply live_lt; eauto); now destruct (Nat.eqb_spec c a)).
      destruct (nth_error (mem p) c) as [[o|]|] eqn:L; auto. cbn [option_map fields]. rewrite (Ff c o) by (apply (L0 c o N); exact L).
      destruct (Nat.eqb_spec c a); [contradiction|reflexivity]. }
  assert (Hh : forall c, handles (mkProg h' (locals p)) c + occ c (fields oa) = handles p c + occ c (fields ob)).
  { intros c. unfold handles. cbn [mem locals].
    rewrite (same_handles h' (put (mem p) a (Some (mkObj 0 (fields ob))))).
    - pose proof (handles_put (mem p) a oa 0 (fields ob) c La). lia.
    - intros d. rewrite Same, nth_put by (eapply live_lt; eauto). now destruct (Nat.eqb_spec d a). }
  assert (Cf : forall c o, nth_error h' c = Some (Some o) -> exists o0, live h0 c o0 /\ count o + occ c (fields oa) = count o0 + occ c (fields ob)).
  { intros c o L. rewrite Dh in L. destruct (nth_error h0 c) as [[o0|]|] eqn:L1; try discriminate. injection L as <-. exists o0. split; [exact L1|].
    cbn [count]. unfold cf. rewrite El at 2. rewrite !firstn_all. rewrite (cnt0_live h0 c o0 L1).
    destruct (Nat.eq_dec (occ c (fields oa)) 0) as [->|Nz]; [lia|].
    assert (In (Some c) (fields oa)) as I by (apply occ_in; lia). specialize (St c I).
    destruct (Nat.eq_dec c a) as [Ec|N].
    - subst c. rewrite Nat.eqb_refl in St. rewrite (live_fun _ _ _ _ L1 L0a). cbn [count]. rewrite (Cp _ _ Lb). lia.
    - apply Nat.eqb_neq in N as N'. rewrite N' in St. apply (L0 c o0 N) in L1. rewrite (Cp _ _ L1). lia. }
  conjs.
  - exact Hh.
  - exact Same.
  - intros c o L N. destruct (Cf c o L) as (o0 & L1 & Ec). apply (L0 c o0 N) in L1. rewrite (Cp _ _ L1) in Ec. specialize (Hh c). unfold in_mem in *. lia.
  - intros o L. destruct (Cf a o L) as (o0 & L1 & Ec). rewrite (live_fun _ _ _ _ L1 L0a) in Ec. cbn [count] in Ec. rewrite (Cp _ _ Lb) in Ec.
    specialize (Hh a). unfold in_mem in *. lia.
  - intros c. unfold allocated. change (mem (in_mem p h')) with h'. specialize (Same c). destruct (Nat.eq_dec c a) as [Ec|N].
    + subst c. rewrite Nat.eqb_refl in Same. split; intros _; [exists oa; exact La|]. destruct (nth_error h' a) as [[o|]|]; cbn in Same; try discriminate. eauto.
    + apply Nat.eqb_neq in N. rewrite N in Same. destruct (nth_error h' c) as [[o|]|], (nth_error (mem p) c) as [[o'|]|]; cbn in Same; try discriminate; split; intros (? & [= <-]); eauto.
Qed.
Print Assumptions C153_assignment_without_deaths_partial.

(** When as many handles refer to the one as to the other, all counts are right. *)
Corollary C153_as_many_handles_without_deaths_partial : forall os w p x y ps l qs r a b fa fb, cruns nothing os w -> crun start os = Ok p ->
  denotes w x ps l -> denotes w y qs r -> at_place w l = Some (Some a) -> at_place w r = Some (Some b) ->
  nth_error (objs w) a = Some fa -> nth_error (objs w) b = Some fb -> length fa = length fb ->
  handles p a = handles p b -> (forall c, In (Some c) fa -> occ c fa < handles p c) ->
  exists q, crun start (os ++ [CAssign x y]) = Ok q /\
    (forall c o, nth_error (mem q) c = Some (Some o) -> count o = handles q c) /\
    (forall c, allocated q c <-> 0 < handles q c).
Proof.
  intros os w p x y ps l qs r a b fa fb R Ep D Dy A B Fa Fb El Eh St.
  destruct (C153_assignment_without_deaths_partial os w p x y ps l qs r a b fa fb R Ep D Dy A B Fa Fb El) as (q & E & H & _ & Co & Ca & Al).
  { intros c I. specialize (St c I). destruct (Nat.eqb_spec c a) as [Ec|]; [subst c; now rewrite <- Eh|exact St]. }
  destruct (C152_copied_objects os w R) as (p' & E' & _ & C & Al'). rewrite Ep in E'. injection E' as <-.
  exists q. split; [exact E|]. split.
  - intros c o L. destruct (Nat.eq_dec c a) as [->|N]; [specialize (Ca o L); lia|eauto].
  - intros c. rewrite Al, Al'. specialize (H c). destruct (Nat.eq_dec (occ c fa) 0) as [Z|Z].
    + split; [lia|]. intros Hq. destruct (Nat.eq_dec (handles p c) 0) as [Hz|]; [|lia]. exfalso.
      assert (In (Some c) fb) as I by (apply occ_in; lia). destruct (crun_ok os _ _ _ start_ok R) as (p' & E' & S). rewrite Ep in E'. injection E' as <-.
      destruct (handle_live _ _ _ _ _ S B (proj2 (eval_ok _ _ _ _ _ _ S Dy))) as (ob & Lb).
      rewrite (si_objs _ _ _ S _ _ Lb) in Fb. injection Fb as <-.
      destruct (inv_kid _ _ b ob c (si_inv _ _ _ S) Lb) as (oc & Lc & Pc); [eapply si_counted; eauto|apply okids_in; apply In_nth_error in I; exact I|].
      rewrite (C c oc Lc) in Pc. lia.
    + assert (In (Some c) fa) as I by (apply occ_in; lia). specialize (St c I). lia.
Qed.
Print Assumptions C153_as_many_handles_without_deaths_partial.

(** A case: x's object has members that refer to y's object and to one that z refers to too; y's has two that refer to the latter. *)
Definition members_to_assign : list cop :=
  [Plain (ONew 0 2); Plain (ONew 1 2); Plain (ONew 2 0); Plain (OAssign (0, [0]) (1, [])); Plain (OAssign (0, [1]) (2, []));
   Plain (OAssign (1, [0]) (2, [])); Plain (OAssign (1, [1]) (2, []))].
Example C153_members_case : exists w p, cruns nothing members_to_assign w /\ crun start members_to_assign = Ok p /\
  denotes w (0, []) [] (Local 0) /\ denotes w (1, []) [] (Local 1) /\ at_place w (Local 0) = Some (Some 0) /\ at_place w (Local 1) = Some (Some 1) /\
  objs w = [[Some 1; Some 2]; [Some 2; Some 2]; []] /\
  (forall c, In (Some c) [Some 1; Some 2] -> occ c [Some 1; Some 2] < if c =? 0 then handles p 1 else handles p c) /\
  exists q, crun start (members_to_assign ++ [CAssign (0, []) (1, [])]) = Ok q /\
    mem q = [Some (mkObj 2 [Some 2; Some 2]); Some (mkObj 1 [Some 2; Some 2]); Some (mkObj 5 [])].
Proof.
  unfold members_to_assign. do 2 eexists. split; [repeat (eapply cr_cons; [eapply c_plain; each|cbn]); apply cr_nil|].
  split; [vm_compute; reflexivity|]. conjs; try (vm_compute; reflexivity); try (unfold denotes; cbn; walk).
  - intros c [[= <-]|[[= <-]|[]]]; vm_compute; lia.
  - eexists. split; vm_compute; reflexivity.
Qed.
