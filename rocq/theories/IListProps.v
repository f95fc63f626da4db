(** Properties C19 (intrusive list), C60 and C61 (contexts register themselves). *)

From Coq Require Import ZArith List Bool Lia.
From Verif Require Import Outcome IListModel IListSpec IListProofs.
Import ListNotations.
Local Open Scope Z_scope.

(** C19: for any heap of elements and any correct use starting from an empty list, no step is
    undefined; afterwards iterating from begin() to end() visits exactly the elements added and
    not removed, newest first, each once; the list is empty() exactly when there are none; and
    walking backwards from any element visits the ones before it in reverse. *)
Theorem C19_history : forall (h : heap) ops, well_used (fun e => h e <> None) [] ops ->
  exists h' root', il_run (h, NULL) ops = Ok (h', root') /\
    let l := spec_run [] ops in
    NoDup l /\
    (forall fuel, (length l <= fuel)%nat -> il_walk fuel h' root' = Ok l) /\
    (il_empty root' = true <-> l = []) /\
    (forall a e b, l = a ++ e :: b -> forall fuel, (length a < fuel)%nat ->
       il_walk_back fuel h' e = Ok (e :: rev a)).
Proof.
  intros h ops W. destruct (run_ok ops h NULL [] ltac:(split; [reflexivity|constructor]) W)
    as (h' & r' & E & [HL ND] & _).
  exists h', r'. split; [exact E|]. cbv zeta. conjs; auto.
  - intros fuel Hf. eapply walk_ok; eauto.
  - unfold il_empty. destruct (spec_run [] ops) as [|e l]; cbn [lseg] in HL.
    + subst. split; auto.
    + destruct HL as (-> & Hn & _). destruct (Z.eqb_spec e NULL); [contradiction|]. split; discriminate.
  - intros a e b El fuel Hf. eapply walk_back_ok; eauto.
Qed.
Print Assumptions C19_history.

(** Adding to, or removing from, a list in any state reached by correct use changes no node other
    than those of the argument and its neighbours. *)
Theorem C19_add_is_local : forall (h : heap) ops h1 root1 e, well_used (fun e => h e <> None) [] ops ->
  il_run (h, NULL) ops = Ok (h1, root1) ->
  h e <> None -> e <> NULL -> ~ In e (spec_run [] ops) ->
  exists h2, il_add h1 root1 e = Ok (h2, e) /\ forall q, q <> e -> q <> root1 -> h2 q = h1 q.
Proof.
  intros h ops h1 r1 e W E Hl Hn Hni.
  destruct (run_ok ops h NULL [] ltac:(split; [reflexivity|constructor]) W) as (h' & r' & E' & R & L).
  rewrite E in E'. injection E' as <- <-.
  destruct (add_ok h1 r1 _ e R ltac:(now apply L) Hn Hni) as (h2 & E2 & _ & F & _).
  exists h2. split; [exact E2|]. intros q Hq Hq2. apply F; auto.
  destruct R as [HL _]. now rewrite <- (lseg_root _ _ _ _ HL).
Qed.
Print Assumptions C19_add_is_local.

Theorem C19_remove_is_local : forall (h : heap) ops h1 root1 a e b, well_used (fun e => h e <> None) [] ops ->
  il_run (h, NULL) ops = Ok (h1, root1) -> spec_run [] ops = a ++ e :: b ->
  exists h2 root2, il_remove h1 root1 e = Ok (h2, root2) /\
    h2 e = Some (mkNode NULL NULL) /\
    forall q, q <> e -> (a <> [] -> q <> last a NULL) -> (b <> [] -> q <> hd NULL b) -> h2 q = h1 q.
Proof.
  intros h ops h1 r1 a e b W E El.
  destruct (run_ok ops h NULL [] ltac:(split; [reflexivity|constructor]) W) as (h' & r' & E' & R & L).
  rewrite E in E'. injection E' as <- <-.
  destruct (remove_ok h1 r1 _ e R) as (h2 & r2 & E2 & _ & Hc & F & _).
  { rewrite El. apply in_or_app. right; left; auto. }
  exists h2, r2. conjs; auto. intros q. apply (F a b El).
Qed.
Print Assumptions C19_remove_is_local.

(** The precondition of remove is needed: removing an element that is not in the list (its node is
    clear) follows a null pointer, whatever the list holds. *)
Theorem C19_remove_absent_is_undefined : forall h root e,
  e <> NULL -> h e = Some (mkNode NULL NULL) -> e <> root -> il_remove h root e = UB NullDeref.
Proof.
  intros h root e Hn He Hr. unfold il_remove. rewrite (node_at_ok _ _ _ Hn He). cbn [bind next prev].
  destruct (Z.eqb_spec e root); [contradiction|]. reflexivity.
Qed.
Print Assumptions C19_remove_absent_is_undefined.

(** Non-vacuity: three elements, the middle one removed, one added again. *)
Definition three : heap := fun p => if (1 <=? p) && (p <=? 3) then Some (mkNode NULL NULL) else None.
Definition ex_ops := [IAdd 1; IAdd 2; IAdd 3; IRemove 2; IRemove 3; IAdd 2].
Example ex_used : well_used (fun e => three e <> None) [] ex_ops /\ spec_run [] ex_ops = [2; 1].
Proof. cbn. unfold NULL. repeat split; try congruence; try lia; intuition lia. Qed.
Example ex_walk :
  (do st <- il_run (three, NULL) ex_ops; il_walk 5 (fst st) (snd st)) = Ok [2; 1].
Proof. vm_compute. reflexivity. Qed.

(** C60: creating and destroying contexts in any order, none being moved, is well defined and the
    machine's context list holds exactly the contexts that exist, newest first.  Each has its own
    stack, and no other stack is left. *)
Theorem C60_contexts_registered : forall ops, cx_used_well [] ops ->
  exists st, cx_run no_ctxs ops = Ok st /\
    il_walk (length (live_contexts [] ops)) (fst (x_links st)) (snd (x_links st)) = Ok (map fst (live_contexts [] ops)) /\
    NoDup (map fst (live_contexts [] ops)) /\
    (forall c, fst (x_links st) c <> None <-> In c (map fst (live_contexts [] ops))) /\
    (forall c b, In (c, b) (live_contexts [] ops) -> x_stack st c = b) /\
    x_blocks st = map snd (live_contexts [] ops) /\ NoDup (map snd (live_contexts [] ops)).
Proof.
  intros ops W. destruct (cx_run_ok ops _ _ holds_none W) as (st & E & [[HL ND] L K B O]).
  exists st. conjs; auto.
  - rewrite <- (map_length fst). eapply walk_ok; eauto.
  - intros c b H. now apply K.
Qed.
Print Assumptions C60_contexts_registered.

Definition three_contexts := [CCreate 8 100; CCreate 16 200; CCreate 24 300].
Example ex_cx : cx_used_well [] (three_contexts ++ [CDestroy 16; CDestroy 8; CCreate 16 100]) /\
  live_contexts [] (three_contexts ++ [CDestroy 16; CDestroy 8; CCreate 16 100]) = [(16, 100); (24, 300)].
Proof. cbn. unfold NULL. repeat split; try lia; intuition lia. Qed.

(** C61: whichever context is moved from, in whatever state reached without moves, destroying both
    objects is undefined, in either order: if it is the newest the destructor of the moved-to object
    follows a null pointer, otherwise the interpreter's stack is deleted twice. *)
Theorem C61_moved_context_refuted : forall ops a c s b d,
  cx_used_well [] ops -> live_contexts [] ops = a ++ (c, s) :: b -> ~ In d (map fst (a ++ (c, s) :: b)) -> d <> NULL ->
  let bad := match a with [] => NullDeref | _ => DoubleFree end in
  cx_run no_ctxs (ops ++ [CMove d c; CDestroy c; CDestroy d]) = UB bad /\
  cx_run no_ctxs (ops ++ [CMove d c; CDestroy d; CDestroy c]) = UB bad.
Proof.
  intros ops a c s b d W El Hd HdN. destruct (cx_run_ok ops _ _ holds_none W) as (st & E & [R L K B O]).
  rewrite !(cx_run_app _ _ _ _ E). rewrite El in *. destruct st as [[h root] sk bl]. cbn [x_links x_stack x_blocks fst snd] in *.
  destruct (K c s) as (Ks & Hs); [apply in_or_app; cbn; auto|].
  assert (Hdc : d <> c) by (intros ->; apply Hd; rewrite map_app; apply in_or_app; cbn; auto).
  rewrite map_app in Hd, R. cbn [map fst] in Hd, R.
  assert (Sin : In s bl) by (rewrite B, map_app; apply in_or_app; cbn; auto).
  assert (Sout : ~ In s (List.remove Z.eq_dec s bl)) by apply remove_In.
  assert (set_stack sk d (sk c) d = s) as Sd by (unfold set_stack; now rewrite Z.eqb_refl).
  assert (set_stack sk d (sk c) c = s) as Sc by (unfold set_stack; destruct (Z.eqb_spec c d); [congruence|exact Ks]).
  cbn [cx_run cx_step]. unfold ctx_move. cbn [x_links x_stack x_blocks].
  destruct a as [|x a].
  - cbn [app map] in *. destruct (cx_move_head_bad2 h root (map fst b) c d R Hd HdN) as (l0 & l1 & E0 & E1 & E2).
    destruct (cx_move_head_bad h root (map fst b) c d R) as (l0' & E0' & E1'); auto.
    { destruct (h d) eqn:Eh; auto. exfalso. apply Hd. apply L. congruence. }
    rewrite E0 in E0'. injection E0' as <-. rewrite E0. cbn [bind]. unfold ctx_destroy. cbn [x_links x_stack x_blocks].
    rewrite E1, E1'. cbn [bind]. split; [|reflexivity]. rewrite Sc, deletes by auto. cbn [bind x_links]. now rewrite E2.
  - destruct (cx_move_inner h root (map fst (x :: a)) (map fst b) c d R) as
      (l0 & E0 & (l1 & h2 & r2 & E1 & E2 & _) & (l1' & h3 & r3 & E1' & E3 & _)); auto; [discriminate|].
    rewrite E0. cbn [bind]. unfold ctx_destroy. cbn [x_links x_stack x_blocks]. rewrite E1, E1'. cbn [bind].
    rewrite Sc, Sd, deletes by auto. cbn [bind x_links x_stack x_blocks]. rewrite E2, E3. cbn [bind].
    rewrite Sc, Sd, deletes_again by auto. split; reflexivity.
Qed.
Print Assumptions C61_moved_context_refuted.

(** What holds: if only one of the two objects is ever destroyed, and it is the source or the source was
    not the newest context, that is well defined: the list is left without the context and its stack is deleted
    once. *)
Theorem C61_one_of_the_two_partial : forall ops a c s b d,
  cx_used_well [] ops -> live_contexts [] ops = a ++ (c, s) :: b -> ~ In d (map fst (a ++ (c, s) :: b)) -> d <> NULL ->
  forall gone, gone = c \/ gone = d /\ a <> [] ->
  exists st, cx_run no_ctxs (ops ++ [CMove d c; CDestroy gone]) = Ok st /\
    il_walk (length (a ++ b)) (fst (x_links st)) (snd (x_links st)) = Ok (map fst (a ++ b)) /\
    x_blocks st = map snd (a ++ b).
Proof.
  intros ops a c s b d W El Hd HdN gone Hg. destruct (cx_run_ok ops _ _ holds_none W) as (st & E & [R L K B O]).
  rewrite !(cx_run_app _ _ _ _ E). rewrite El in *. destruct st as [[h root] sk bl]. cbn [x_links x_stack x_blocks fst snd] in *.
  destruct (K c s) as (Ks & Hs); [apply in_or_app; cbn; auto|].
  assert (Hdc : d <> c) by (intros ->; apply Hd; rewrite map_app; apply in_or_app; cbn; auto).
  rewrite map_app in Hd, R, B, O. cbn [map fst snd] in Hd, R, B, O.
  assert (Sin : In s bl) by (rewrite B; apply in_or_app; cbn; auto).
  assert (set_stack sk d (sk c) d = s) as Sd by (unfold set_stack; now rewrite Z.eqb_refl).
  assert (set_stack sk d (sk c) c = s) as Sc by (unfold set_stack; destruct (Z.eqb_spec c d); [congruence|exact Ks]).
  assert (List.remove Z.eq_dec s bl = map snd (a ++ b)) as Sr by (rewrite B, map_app; now apply remove_mid).
  pose proof R as [HL ND]. destruct (lseg_split _ _ _ _ _ _ HL) as (n & Ec & Hbs & Hc & _).
  cbn [cx_run cx_step]. unfold ctx_move, cx_move. cbn [x_links x_stack x_blocks fst snd].
  rewrite (node_at_ok _ _ _ Hc Ec). cbn [bind]. set (h0 := hset h d (mkNode (last (map fst a) NULL) n)).
  assert (R0 : repr h0 root (map fst a ++ c :: map fst b)).
  { split; auto. eapply lseg_frame; [|exact HL]. intros e He. apply hset_other. congruence. }
  assert (exists h1 r1, il_remove h0 root gone = Ok (h1, r1) /\ repr h1 r1 (map fst a ++ map fst b)) as (h1 & r1 & E1 & R1).
  { destruct Hg as [->|(-> & Ha)].
    - destruct (remove_ok h0 root _ c R0) as (h1 & r1 & E1 & R1 & _); [apply in_or_app; cbn; auto|].
      rewrite remove_mid in R1 by auto. eauto.
    - destruct (copy_removed h0 root (map fst a) (map fst b) c d R0) as (h1 & E1 & R1 & _); auto; [destruct a; [congruence|discriminate]| |eauto].
      unfold h0. rewrite hset_same, hset_other by congruence. congruence. }
  unfold ctx_destroy, cx_destroy. cbn [x_links x_stack x_blocks fst snd]. rewrite E1. cbn [bind].
  replace (set_stack sk d (sk c) gone) with s by (destruct Hg as [->|(-> & _)]; auto).
  rewrite deletes by auto. cbn [bind]. eexists. split; [reflexivity|]. cbn [x_links x_stack x_blocks fst snd]. split; [|exact Sr].
  assert (~ In gone (map fst a ++ map fst b)) as Hng.
  { destruct Hg as [->|(-> & _)]; [now apply NoDup_remove_2|]. intros H. apply Hd. apply in_app_or in H. apply in_or_app. cbn. tauto. }
  pose proof (repr_free _ _ _ _ R1 Hng) as [HL1 ND1]. rewrite <- (map_length fst (a ++ b)), map_app. eapply walk_ok; eauto.
Qed.
Print Assumptions C61_one_of_the_two_partial.

Example ex_older : cx_used_well [] three_contexts /\
  live_contexts [] three_contexts = [(24, 300)] ++ (16, 200) :: [(8, 100)].
Proof. cbn. unfold NULL. repeat split; try lia; intuition lia. Qed.
