From Coq Require Import List Arith Bool Lia Permutation.
From Verif Require Import Outcome RcModel RcSpec RcProofs RcProg.
Import ListNotations.
Local Open Scope nat_scope.

Definition allocated (p : prog) (a : nat) : Prop := exists o, nth_error (mem p) a = Some (Some o).

(** * Counts are numbers of handles *)
Lemma refs_handles h : counted h -> forall a, cnt (flat_map obj_handles h) a = refs h a.
Proof.
  induction h as [|x h IH]; intros C a; [reflexivity|]. rewrite refs_cons. cbn [flat_map].
  rewrite cnt_app, IH by (intros b o L; exact (C (S b) o L)). f_equal. destruct x as [o|]; [|reflexivity]. cbn [obj_handles contrib].
  specialize (C 0 o eq_refl). destruct (Nat.eqb_spec (count o) 0); [lia|]. reflexivity.
Qed.
Lemma SIR_handles p w : SIR p w [] -> forall a, handles p a = cnt ([] ++ local_handles (locals p)) a + refs (mem p) a.
Proof. intros S a. unfold handles. change (count_occ Nat.eq_dec) with cnt. rewrite refs_handles by apply S. reflexivity. Qed.
Lemma SIR_count p w : SIR p w [] -> forall a o, nth_error (mem p) a = Some (Some o) -> count o = handles p a.
Proof. intros S a o L. rewrite (SIR_handles _ _ S). now apply (inv_rc _ _ (si_inv _ _ _ S)). Qed.
Lemma SIR_allocated p w : SIR p w [] -> forall a, allocated p a <-> 0 < handles p a.
Proof.
  intros S a. split.
  - intros (o & L). rewrite <- (SIR_count _ _ S _ _ L). eapply si_counted; eauto.
  - intros H. rewrite (SIR_handles _ _ S) in H. exact (inv_live _ _ (si_inv _ _ _ S) _ H).
Qed.
Lemma SIR_shows p w : SIR p w [] -> state_shows p w.
Proof. intros S. split; [apply S|split; [apply S|]]. intros a o L. now apply (si_objs _ _ _ S). Qed.

Theorem C33_counts_and_lifetimes : forall os w, runs nothing os w ->
  exists p, run start os = Ok p /\ state_shows p w /\
    (forall a o, nth_error (mem p) a = Some (Some o) -> count o = handles p a) /\
    (forall a, allocated p a <-> 0 < handles p a).
Proof.
  intros os w R. destruct (run_ok os _ _ _ start_ok R) as (p & E & S). exists p. conjs; auto.
  - now apply SIR_shows.
  - eapply SIR_count; eauto.
  - eapply SIR_allocated; eauto.
Qed.

(** * C76: when no handle is left in scope *)
Definition acyclic (w : world) : Prop := exists rank : nat -> nat,
  forall a fs k b, nth_error (objs w) a = Some fs -> nth_error fs k = Some (Some b) -> rank b < rank a.
Lemma refs_pos h a : 0 < refs h a -> exists b o, live h b o /\ 0 < count o /\ In a (okids (fields o)).
Proof.
  induction h as [|y h IH]; [cbn; lia|]. rewrite refs_cons. intros H.
  destruct (Nat.eq_dec (contrib y a) 0) as [E|E].
  - destruct IH as (b & o & L & Ho); [lia|]. exists (S b), o. auto.
  - destruct y as [o|]; [|now cbn in E]. exists 0, o. split; [reflexivity|]. cbn in E.
    destruct (Nat.eqb_spec (count o) 0) as [Z|Z]; [lia|]. split; [lia|]. apply cnt_in. lia.
Qed.
Theorem C76_no_leaks_partial : forall os w, runs nothing os w -> acyclic w -> (forall i v, at_place w (Local i) = Some v -> v = None) ->
  exists p, run start os = Ok p /\ forall a, ~ allocated p a.
Proof.
  intros os w R (rank & Rk) N. destruct (run_ok os _ _ _ start_ok R) as (p & E & S). exists p. split; auto.
  assert (Z : forall a, cnt ([] ++ local_handles (locals p)) a = 0).
  { intros a. destruct (Nat.eq_dec (cnt ([] ++ local_handles (locals p)) a) 0) as [|Nz]; auto. exfalso.
    assert (I : In a (local_handles (locals p))) by (apply cnt_in; cbn [app] in Nz; lia). unfold local_handles in I. apply in_flat_map in I as (x & I & Hx).
    destruct x as [[b|]|]; try contradiction. apply In_nth_error in I as (i & Ei). rewrite (si_vars _ _ _ S) in Ei.
    specialize (N i (Some b)). cbn in N. rewrite Ei in N. specialize (N eq_refl). discriminate. }
  assert (Up : forall a o, live (mem p) a o -> exists b ob, live (mem p) b ob /\ rank a < rank b).
  { intros a o L. pose proof (inv_rc _ _ (si_inv _ _ _ S) _ _ L) as C. pose proof (si_counted _ _ _ S _ _ L) as P. rewrite Z in C.
    destruct (refs_pos (mem p) a) as (b & ob & Lb & _ & K); [lia|]. exists b, ob. split; auto. apply okids_in in K as (k & K).
    eapply Rk; [apply (si_objs _ _ _ S); eauto|eauto]. }
  set (M := list_max (map rank (seq 0 (length (mem p))))).
  assert (Bd : forall a o, live (mem p) a o -> rank a <= M).
  { intros a o L. apply live_lt in L. pose proof (proj1 (list_max_le (map rank (seq 0 (length (mem p)))) _) (le_n _)) as F. rewrite Forall_forall in F.
    apply F, in_map, in_seq. lia. }
  intros a (o & L). remember (M - rank a) as n eqn:En. revert a o L En. induction n as [n IH] using lt_wf_ind. intros a o L En.
  destruct (Up _ _ L) as (b & ob & Lb & Lt). pose proof (Bd _ _ Lb). eapply (IH (M - rank b)); eauto. lia.
Qed.

(** * C75: assignments whose source is the destination or is reached through it *)
Lemma run_app os : forall p os' q, run p os = Ok q -> run p (os ++ os') = run q os'.
Proof.
  induction os as [|o os IH]; intros p os' q E; cbn [run app] in *; [now injection E as ->|].
  destruct (do_op p o) as [p1| | | |]; try discriminate. cbn [bind] in *. now apply IH.
Qed.
Lemma get_fill_id p l v : get p l = Ok v -> fill p l v = p.
Proof.
  destruct p as [h ls], l as [i|a k]; cbn.
  - destruct (nth_error ls i) as [[y|]|] eqn:E; try discriminate. intros F. injection F as ->. now rewrite put_same.
  - unfold get_field. destruct (load h a) as [o| | | |] eqn:E; try discriminate. cbn [bind]. apply load_inv in E.
    destruct (nth_error (fields o) k) eqn:F; try discriminate. intros G. injection G as ->. now rewrite (setf_same _ _ _ _ _ E F).
Qed.
Definition shared (p : prog) (v : option nat) : Prop := match v with None => True | Some a => 2 <= handles p a end.

(** A shared or null destination: xdecref destroys nothing *)
Theorem C75_shared_destination_partial : forall os w p x y ps l qs r old v, runs nothing os w -> run start os = Ok p ->
  denotes w x ps l -> denotes w y qs r -> at_place w l = Some old -> at_place w r = Some v -> shared p old ->
  exists q, run start (os ++ [OAssign x y]) = Ok q /\ state_shows q (write w l v) /\
    (forall a o, nth_error (mem q) a = Some (Some o) -> count o = handles q a) /\
    (forall a, allocated q a <-> 0 < handles q a).
Proof.
  intros os w p x y ps l qs r old v R Ep D Dy A0 A Sh. destruct (run_ok os _ _ _ start_ok R) as (p' & E' & S).
  rewrite Ep in E'. injection E' as <-. rewrite (run_app _ _ _ _ Ep). cbn [run do_op].
  destruct (eval_ok _ _ _ _ _ _ S Dy) as [Ey Hy]. rewrite Ey. cbn [bind]. destruct (eval_ok _ _ _ _ _ _ S D) as [E H]. rewrite E. cbn [bind].
  rewrite (get_ok _ _ _ _ _ S A0 H). cbn [bind].
  destruct (drop_ok _ _ _ _ _ _ _ _ S D A0) as (h & E2 & Sq & Hq & Gl & Gt & St & Fl). rewrite E2. cbn [bind].
  assert (G : exists q, SIR q (write w l v) [] /\
     (do v0 <- get (in_mem p h) r; do p0 <- set (in_mem p h) l v0; do h0 <- xincref (mem p0) v0; Ok (in_mem p0 h0)) = Ok q).
  2: { destruct G as (q & S' & E3). rewrite E3. cbn [bind]. exists q. conjs; auto; [now apply SIR_shows|eapply SIR_count; eauto|eapply SIR_allocated; eauto]. }
  (* nothing is destroyed *)
  assert (Lv : forall a o, live (mem p) a o -> exists o', live h a o').
  { destruct old as [b|]; cbn [xdecref] in E2; [|injection E2 as <-; eauto]. cbn in Sh.
    destruct (handle_live _ _ _ _ _ S A0 H) as (ob & Lb). pose proof (SIR_count _ _ S _ _ Lb) as Cb.
    rewrite decref_S, (load_live _ _ _ Lb) in E2. cbn [bind] in E2. destruct (count ob) as [|n] eqn:C; [lia|]. cbn zeta in E2.
    destruct (Nat.eqb_spec n 0) as [->|Nz]; [lia|]. injection E2 as <-. intros a o L. destruct (Nat.eq_dec a b) as [->|N].
    - eexists. eapply live_put_same; eauto.
    - exists o. apply live_put_other; eauto using live_lt. }
  destruct (place_dec r l) as [->|Ne].
  - (* to itself *)
    rewrite A0 in A. injection A as ->. rewrite Gl. cbn [bind]. rewrite (set_there _ _ _ v Gl). cbn [bind]. rewrite (get_fill_id _ _ _ Gl).
    cbn [in_mem mem locals]. exists p. rewrite (write_same _ _ _ A0). split; auto.
    assert (Ei : xincref h v = Ok (mem p)); [|rewrite Ei; cbn [bind]; now destruct p].
    destruct v as [b|]; cbn [xdecref xincref] in *; [|exact (eq_sym E2)]. cbn in Sh.
    destruct (handle_live _ _ _ _ _ S A0 H) as (ob & Lb). pose proof (SIR_count _ _ S _ _ Lb) as Cb.
    rewrite decref_S, (load_live _ _ _ Lb) in E2. cbn [bind] in E2. destruct (count ob) as [|n] eqn:C; [lia|]. cbn zeta in E2.
    destruct (Nat.eqb_spec n 0) as [->|Nz]; [lia|]. injection E2 as <-. unfold incref. rewrite (load_live _ _ _ (live_put_same _ _ _ _ Lb)).
    cbn [bind count fields]. rewrite put_put. f_equal. apply put_same. rewrite <- C. destruct ob; exact Lb.
  - set (q := unset (in_mem p h) l) in *.
    assert (Hr : held q r) by (unfold q; rewrite unset_fill; apply held_fill, held_in_mem; auto).
    assert (Ar : at_place (write w l None) r = Some v) by (rewrite at_write_other; auto).
    rewrite (Gt r) by auto. rewrite (get_ok _ _ _ _ _ Sq Ar Hr). cbn [bind]. rewrite St.
    rewrite (set_fill _ _ _ _ None v Sq) by (eauto using at_write_same). cbn [bind].
    destruct (xinc_ok _ _ _ _ _ Sq Ar Hr) as (h3 & E3 & S3). rewrite (xincref_fill _ l v _ _ E3 Hq). cbn [bind].
    eexists. split; [|reflexivity]. rewrite <- (write_write w l None).
    assert (S4 : SIR (fill (in_mem q h3) l v) (write (write w l None) l v) []).
    { eapply fill_ok; [exact S3|eapply at_write_same; eauto| |].
      - eapply held_in_mem; eauto. eapply xincref_keeps; eauto.
      - intros a. rewrite app_nil_r. cbn [oh]. lia. }
    destruct l; exact S4.
Qed.

Theorem C75_only_handle_partial : forall os w p x y ps l qs r a, runs nothing os w -> run start os = Ok p ->
  denotes w x ps l -> denotes w y qs r -> at_place w l = Some (Some a) -> handles p a = 1 ->
  (r = l \/ exists k, r = Member a k) ->
  run start (os ++ [OAssign x y]) = UB UseAfterFree.
Proof.
  intros os w p x y ps l qs r a R Ep D Dy A0 Ha Cs. destruct (run_ok os _ _ _ start_ok R) as (p' & E' & S).
  rewrite Ep in E'. injection E' as <-. rewrite (run_app _ _ _ _ Ep). cbn [run do_op].
  destruct (eval_ok _ _ _ _ _ _ S Dy) as [Ey Hy]. rewrite Ey. cbn [bind]. destruct (eval_ok _ _ _ _ _ _ S D) as [E H]. rewrite E. cbn [bind].
  rewrite (get_ok _ _ _ _ _ S A0 H). cbn [bind].
  destruct (drop_ok _ _ _ _ _ _ _ _ S D A0) as (h & E2 & Sq & Hq & Gl & Gt & St & Fl). rewrite E2. cbn [bind].
  set (q := unset (in_mem p h) l) in *.
  destruct (handle_live _ _ _ _ _ S A0 H) as (o & L).
  (* the object is destroyed *)
  assert (Nl : forall o', ~ live h a o').
  { intros o' L'. cbn [xdecref] in E2. rewrite decref_S, (load_live _ _ _ L) in E2. cbn [bind] in E2. rewrite (SIR_count _ _ S _ _ L), Ha in E2.
    cbn zeta in E2. rewrite Nat.eqb_refl in E2.
    destruct (members _ a _ _) as [h2| | | |]; try discriminate. cbn [bind] in E2. destruct (load h2 a) as [o2| | | |] eqn:E3; try discriminate. cbn [bind] in E2.
    destruct (count o2 =? 0); [|discriminate]. cbn [ab_assert bind] in E2. injection E2 as <-. apply load_inv in E3.
    apply (not_live_none h2 a o'); [eapply live_lt; eauto|exact L']. }
  assert (Len : length h = length (mem p)).
  { pose proof (si_len _ _ _ Sq) as L1. pose proof (si_len _ _ _ S) as L2. unfold q in L1. rewrite unset_fill in L1.
    assert (Lf : length (mem (fill (in_mem p h) l None)) = length h) by (destruct l; cbn [fill mem in_mem]; [|rewrite setf_length]; reflexivity).
    assert (Lw : length (objs (write w l None)) = length (objs w)).
    { destruct l as [i|c k]; cbn; auto. destruct (nth_error (objs w) c); cbn; auto. apply put_length. }
    lia. }
  assert (Ld : forall h', length h' = length h -> (forall o', ~ live h' a o') -> load h' a = UB UseAfterFree).
  { intros h' Lh N'. unfold load. destruct (nth_error h' a) as [[o'|]|] eqn:E4; auto; [exfalso; eapply N'; eauto|].
    apply nth_error_None in E4. apply live_lt in L. lia. }
  destruct (place_dec r l) as [->|Ne].
  - rewrite Gl. cbn [bind]. rewrite (set_there _ _ _ (Some a) Gl). cbn [bind]. rewrite (get_fill_id _ _ _ Gl). cbn [in_mem mem xincref]. unfold incref.
    now rewrite (Ld h).
  - destruct Cs as [|(k & ->)]; [contradiction|]. cbn [get in_mem mem]. unfold get_field. now rewrite (Ld h).
Qed.

Theorem C75_self_assignment_refuted : run start [ONew 0 1; OAssign (0, []) (0, [])] = UB UseAfterFree.
Proof. reflexivity. Qed.
Theorem C75_own_member_refuted : run start [ONew 0 1; ORenew (0, [0]) 1; OAssign (0, []) (0, [0])] = UB UseAfterFree.
Proof. vm_compute. reflexivity. Qed.
Theorem C75_move_of_own_member_refuted : run start [ONew 0 1; ORenew (0, [0]) 1; OMove (0, []) (0, [0])] = UB UseAfterFree.
Proof. vm_compute. reflexivity. Qed.
Theorem C76_no_leaks_refuted : exists os w p, runs nothing os w /\ run start os = Ok p /\
  (forall i, at_place w (Local i) = None) /\ allocated p 0.
Proof.
  exists [ONew 0 1; OAssign (0, [0]) (0, []); ODestroy 0]. eexists. eexists. split; [|split; [vm_compute; reflexivity|split]].
  - eapply r_cons; [apply m_new; now right|]. eapply r_cons.
    + eapply m_assign; [econstructor 2; [reflexivity|econstructor; reflexivity]|econstructor; reflexivity|reflexivity|discriminate|intros []].
    + eapply r_cons; [eapply m_destroy; reflexivity|apply r_nil].
  - intros [|[|i]]; reflexivity.
  - eexists. reflexivity.
Qed.

(** * Concrete case: a list of three objects built from the front, its head shared, a member moved
    out, the middle unlinked, variables destroyed *)
Definition history : list op :=
  [ONew 0 2; ORenew (0, [0]) 2; ORenew (0, [0; 0]) 1; OCopy 1 (0, [0]); ORaw 2 (0, [0; 0]);
   OAssign (0, [1]) (0, [0; 0]);            (* a second link to the last object *)
   OMove (0, [0]) (1, [0]);                 (* unlink the middle: its own link moves to the head *)
   OMove (2, []) (2, []);                   (* a move to itself clears the handle *)
   OAssignRaw (1, []) (0, [1]); ONull 3; OClear (0, [1]); ODestroy 2; ODestroy 0].
Ltac walk := repeat first [eapply via_step; [reflexivity|]|eapply via_here; reflexivity].
Ltac each :=
  lazymatch goal with
  | |- means _ (ONull _) _ => apply m_null; unfold fresh_var; cbn; auto
  | |- means _ (ONew _ _) _ => apply m_new; unfold fresh_var; cbn; auto
  | |- means _ (OCopy _ _) _ => eapply m_copy; [unfold fresh_var; cbn; auto|unfold denotes; cbn; walk|reflexivity]
  | |- means _ (ORaw _ _) _ => eapply m_raw; [unfold fresh_var; cbn; auto|unfold denotes; cbn; walk|reflexivity]
  | |- means _ (OClear _) _ => eapply m_clear; unfold denotes; cbn; walk
  | |- means _ (ORenew _ _) _ => eapply m_renew; unfold denotes; cbn; walk
  | |- means _ (OAssign _ _) _ => eapply m_assign; [unfold denotes; cbn; walk|unfold denotes; cbn; walk|reflexivity|discriminate|cbn; intuition discriminate]
  | |- means _ (OAssignRaw _ _) _ => eapply m_assign_raw; [unfold denotes; cbn; walk|unfold denotes; cbn; walk|reflexivity|discriminate|cbn; intuition discriminate]
  | |- means _ (OMove (2, _) _) _ => eapply m_move_self; unfold denotes; cbn; walk
  | |- means _ (OMove _ _) _ => eapply m_move; [unfold denotes; cbn; walk|unfold denotes; cbn; walk|reflexivity|discriminate|cbn; intuition discriminate]
  | |- means _ (ODestroy _) _ => eapply m_destroy; reflexivity
  end.
Example history_runs : exists w, runs nothing history w /\ at_place w (Local 1) = Some (Some 2) /\ at_place w (Local 0) = None.
Proof. unfold history. eexists. split; [repeat (eapply r_cons; [each|cbn]); apply r_nil|split; reflexivity]. Qed.
Example history_counts : exists p, run start history = Ok p /\ mem p = [None; None; Some (mkObj 1 [None])].
Proof. eexists. split; vm_compute; reflexivity. Qed.
(** and the same with the rest destroyed, which leaves an acyclic world without handles in scope *)
Example history_ends : exists w, runs nothing (history ++ [ODestroy 1; ODestroy 3]) w /\ acyclic w /\
  forall i v, at_place w (Local i) = Some v -> v = None.
Proof.
  unfold history. cbn [app]. eexists. split; [repeat (eapply r_cons; [each|cbn]); apply r_nil|split].
  - exists (fun a => 5 - a). intros [|[|[|a]]] fs k b E; cbn in E; try (injection E as <-); destruct k as [|[|[|k]]]; cbn; intros F; try discriminate; try (injection F as <-; lia).
    all: destruct a; discriminate.
  - intros [|[|[|[|i]]]] v; cbn; try discriminate. destruct i; discriminate.
Qed.
(** Sharing the object makes the dangerous assignments harmless *)
Example shared_case : exists p, run start [ONew 0 1; OCopy 1 (0, []); OAssign (0, []) (0, []); ORenew (0, [0]) 1; OAssign (0, []) (0, [0])] = Ok p /\
  locals p = [Some (Some 1); Some (Some 0)] /\ handles p 0 = 1 /\ handles p 1 = 2.
Proof. eexists. split; [vm_compute; reflexivity|]. conjs; reflexivity. Qed.

Print Assumptions C33_counts_and_lifetimes.
Print Assumptions C76_no_leaks_partial.
Print Assumptions C76_no_leaks_refuted.
Print Assumptions C75_shared_destination_partial.
Print Assumptions C75_only_handle_partial.
Print Assumptions C75_self_assignment_refuted.
Print Assumptions C75_own_member_refuted.
Print Assumptions C75_move_of_own_member_refuted.
