(** Theorems about labels (C20), symbols (C21), line tables (C22) and module storage (C39). *)

From Coq Require Import ZArith List Bool Lia Permutation.
From Verif Require Import Outcome HashModel HashProofs TablesModel TablesSpec TablesProofs.
Import ListNotations.
Local Open Scope Z_scope.

(** * C20 *)

Lemma lrep_nil : lrep [] [].
Proof. split; auto. intros i r H. destruct i; discriminate. Qed.

(** Every history gives the labels, targets and aborts of the abstract table. *)
Theorem C20_labels_follow_their_history ops :
  Forall label_args ops -> Z.of_nat (length ops) < 2 ^ 64 ->
  match labels_run [] ops with
  | Some (s, ids) =>
      exists t, lt_run [] ops = Ok (t, ids) /\
        forall id, 0 <= id ->
          lt_target_of t id = match nth_error s (Z.to_nat id) with Some (Some o) => Ok o | _ => Trap Assertion end
  | None => lt_run [] ops = Trap Assertion
  end.
Proof.
  intros A L. pose proof (label_run_spec ops [] [] lrep_nil A ltac:(cbn [length]; lia)) as H.
  destruct (labels_run [] ops) as [[s ids]|]; auto. destruct H as (t & E & R). exists t. split; auto.
  intros id Hid. now apply target_spec.
Qed.
Print Assumptions C20_labels_follow_their_history.

Lemma run_inv ops t ids : Forall label_args ops -> Z.of_nat (length ops) < 2 ^ 64 ->
  lt_run [] ops = Ok (t, ids) -> exists s, labels_run [] ops = Some (s, ids) /\ lrep t s.
Proof.
  intros A L E. pose proof (label_run_spec ops [] [] lrep_nil A ltac:(cbn [length]; lia)) as H.
  destruct (labels_run [] ops) as [[s ids']|]; [|congruence]. destruct H as (t' & E' & R).
  rewrite E in E'. injection E' as <- <-. eauto.
Qed.

Lemma run_ids_bound ops : forall s s' ids, labels_run s ops = Some (s', ids) ->
  Forall (fun o => match o with LPlace id _ => 0 <= id | _ => True end) ops ->
  (length s <= length s')%nat /\ Forall (fun id => 0 <= id < Z.of_nat (length s')) ids.
Proof.
  induction ops as [|o ops IH]; intros s s' ids H F; cbn [labels_run] in H; [injection H as <- <-; auto|].
  inversion F as [|? ? Fo Fs]; subst.
  destruct (labels_step s o) as [[s1 id]|] eqn:Es; [|discriminate].
  destruct (labels_run s1 ops) as [[s2 ids2]|] eqn:Er; [|discriminate]. injection H as <- <-.
  destruct (IH _ _ _ Er Fs) as [L1 B]. pose proof (labels_step_len _ _ _ _ Es).
  split; [lia|]. constructor; auto.
  destruct o as [|off|j off]; cbn [labels_step] in Es.
  - injection Es as <- <-. rewrite app_length in L1. cbn in L1. lia.
  - injection Es as <- <-. rewrite app_length in L1. cbn in L1. lia.
  - destruct (nth_error s (Z.to_nat j)) as [[|]|] eqn:En; try discriminate. injection Es as <- <-.
    assert (Z.to_nat j < length s)%nat by (apply nth_error_Some; congruence). lia.
Qed.

(** A new label is none of the labels seen before. *)
Theorem C20_new_labels_are_fresh ops o t ids :
  Forall label_args (ops ++ [o]) -> Z.of_nat (length (ops ++ [o])) < 2 ^ 64 ->
  o = LAlloc \/ (exists off, o = LAllocAt off) ->
  lt_run [] (ops ++ [o]) = Ok (t, ids) ->
  exists before id, ids = before ++ [id] /\ length before = length ops /\ ~ In id before.
Proof.
  intros A L Ho E. destruct (run_inv _ _ _ A L E) as (s & Es & R).
  rewrite labels_run_app in Es. destruct (labels_run [] ops) as [[s1 ids1]|] eqn:E1; [|discriminate].
  assert (L1 : length ids1 = length ops).
  { clear -E1. revert E1. generalize (@nil (option Z)) as s0. revert s1 ids1.
    induction ops as [|o ops IH]; intros s1 ids1 s0 H; cbn [labels_run] in H; [injection H as <- <-; auto|].
    destruct (labels_step s0 o) as [[s2 id]|]; [|discriminate].
    destruct (labels_run s2 ops) as [[s3 ids3]|] eqn:Er; [|discriminate]. injection H as <- <-. cbn. f_equal. eauto. }
  apply Forall_app in A. destruct A as [A _].
  destruct (run_ids_bound _ _ _ _ E1) as [_ B].
  { eapply Forall_impl; [|exact A]. intros [| |? ?] H; cbn in H; tauto. }
  assert (F : ~ In (Z.of_nat (length s1)) ids1).
  { intros Hin. rewrite Forall_forall in B. apply B in Hin. lia. }
  destruct Ho as [->|[off ->]]; cbn [labels_run labels_step] in Es; injection Es as _ <-; eauto.
Qed.
Print Assumptions C20_new_labels_are_fresh.

(** A placed label keeps its target whatever happens next. *)
Theorem C20_placed_label_keeps_its_target ops1 id off ops2 t ids :
  let ops := ops1 ++ LPlace id off :: ops2 in
  Forall label_args ops -> Z.of_nat (length ops) < 2 ^ 64 ->
  lt_run [] ops = Ok (t, ids) -> lt_target_of t id = Ok (off mod 2 ^ 32).
Proof.
  intros ops A L E. destruct (run_inv _ _ _ A L E) as (s & Es & R).
  assert (Ha : label_args (LPlace id off)).
  { rewrite Forall_forall in A. apply A. apply in_elt. }
  cbn in Ha. rewrite (target_spec _ _ _ R) by lia. unfold ops in Es. rewrite labels_run_app in Es.
  destruct (labels_run [] ops1) as [[s1 ids1]|]; [|discriminate]. cbn [labels_run labels_step] in Es.
  destruct (nth_error s1 (Z.to_nat id)) as [[|]|] eqn:En; try discriminate.
  destruct (labels_run _ ops2) as [[s2 ids2]|] eqn:E2; [|discriminate]. injection Es as <- _.
  erewrite labels_run_keeps; eauto. apply nth_replace_same. apply nth_error_Some. congruence.
Qed.
Print Assumptions C20_placed_label_keeps_its_target.

Theorem C20_label_allocated_at_keeps_its_target ops1 off ops2 t ids :
  let ops := ops1 ++ LAllocAt off :: ops2 in
  Forall label_args ops -> Z.of_nat (length ops) < 2 ^ 64 ->
  lt_run [] ops = Ok (t, ids) ->
  exists id, nth_error ids (length ops1) = Some id /\ lt_target_of t id = Ok off.
Proof.
  intros ops A L E. destruct (run_inv _ _ _ A L E) as (s & Es & R).
  unfold ops in Es. rewrite labels_run_app in Es.
  destruct (labels_run [] ops1) as [[s1 ids1]|] eqn:E1; [|discriminate]. cbn [labels_run labels_step] in Es.
  destruct (labels_run _ ops2) as [[s2 ids2]|] eqn:E2; [|discriminate]. injection Es as <- <-.
  exists (Z.of_nat (length s1)). split.
  - assert (L1 : length ids1 = length ops1).
    { clear -E1. revert E1. generalize (@nil (option Z)) as s0. revert s1 ids1.
      induction ops1 as [|o ops IH]; intros s1 ids1 s0 H; cbn [labels_run] in H; [injection H as <- <-; auto|].
      destruct (labels_step s0 o) as [[s2 id]|]; [|discriminate].
      destruct (labels_run s2 ops) as [[s3 ids3]|] eqn:Er; [|discriminate]. injection H as <- <-. cbn. f_equal. eauto. }
    rewrite nth_error_app2, L1, Nat.sub_diag by lia. reflexivity.
  - rewrite (target_spec _ _ _ R) by lia. rewrite Nat2Z.id.
    erewrite labels_run_keeps; eauto. rewrite nth_error_app2, Nat.sub_diag by lia. reflexivity.
Qed.
Print Assumptions C20_label_allocated_at_keeps_its_target.

(** A history that places one label twice aborts. *)
Theorem C20_placing_twice_aborts ops1 id off1 ops2 off2 ops3 :
  let ops := ops1 ++ LPlace id off1 :: ops2 ++ LPlace id off2 :: ops3 in
  Forall label_args ops -> Z.of_nat (length ops) < 2 ^ 64 ->
  lt_run [] ops = Trap Assertion.
Proof.
  intros ops A L. pose proof (C20_labels_follow_their_history ops A L) as H.
  assert (labels_run [] ops = None) as E; [|now rewrite E in H]. clear H A L. unfold ops.
  rewrite labels_run_app. destruct (labels_run [] ops1) as [[s1 ids1]|]; auto. cbn [labels_run labels_step].
  destruct (nth_error s1 (Z.to_nat id)) as [[|]|] eqn:En; auto.
  rewrite labels_run_app. destruct (labels_run (replace_nth _ _ s1) ops2) as [[s2 ids2]|] eqn:E2; auto.
  cbn [labels_run labels_step].
  erewrite (labels_run_keeps _ _ _ _ (Z.to_nat id)); [reflexivity|eauto|].
  apply nth_replace_same. apply nth_error_Some. congruence.
Qed.
Print Assumptions C20_placing_twice_aborts.

(** The target of a label that was never allocated, or allocated and not placed, is refused. *)
Theorem C20_unplaced_or_unknown_target_aborts ops t ids id :
  Forall label_args ops -> Z.of_nat (length ops) < 2 ^ 64 -> lt_run [] ops = Ok (t, ids) -> 0 <= id < 2 ^ 64 ->
  (~ In id ids \/ (forall i o, nth_error ops i = Some o -> nth_error ids i = Some id -> o = LAlloc)) ->
  lt_target_of t id = Trap Assertion.
Proof.
  intros A L E Hid Hnot. destruct (run_inv _ _ _ A L E) as (s & Es & R).
  rewrite (target_spec _ _ _ R) by lia.
  assert (Gen : forall ops s0 s ids, labels_run s0 ops = Some (s, ids) ->
            Forall label_args ops ->
            (~ In id ids \/ (forall i o, nth_error ops i = Some o -> nth_error ids i = Some id -> o = LAlloc)) ->
            (forall x, nth_error s0 (Z.to_nat id) <> Some (Some x)) ->
            forall x, nth_error s (Z.to_nat id) <> Some (Some x)).
  { clear -Hid. induction ops as [|o ops IH]; intros s0 s ids H A Hn H0; cbn [labels_run] in H; [injection H as <- <-; auto|].
    inversion A as [|? ? Ao As]; subst.
    destruct (labels_step s0 o) as [[s1 j]|] eqn:Es; [|discriminate].
    destruct (labels_run s1 ops) as [[s2 ids2]|] eqn:Er; [|discriminate]. injection H as <- <-.
    eapply (IH s1); eauto.
    - destruct Hn as [Hn|Hn]; [left; cbn in Hn; tauto|right; intros i o' A1 A2; apply (Hn (S i)); auto].
    - assert (Hj : j = id -> o = LAlloc).
      { intros ->. destruct Hn as [Hn|Hn]; [cbn in Hn; tauto|]. apply (Hn 0%nat); reflexivity. }
      intros x Hx. destruct o as [|off|k off]; cbn [labels_step] in Es.
      + injection Es as <- <-. destruct (Nat.ltb_spec (Z.to_nat id) (length s0)).
        * rewrite nth_error_app1 in Hx by lia. now apply H0 in Hx.
        * rewrite nth_error_app2 in Hx by lia. destruct (Z.to_nat id - length s0)%nat as [|[|]]; discriminate.
      + injection Es as <- <-. destruct (Nat.ltb_spec (Z.to_nat id) (length s0)).
        * rewrite nth_error_app1 in Hx by lia. now apply H0 in Hx.
        * rewrite nth_error_app2 in Hx by lia. destruct (Z.to_nat id - length s0)%nat as [|[|]] eqn:Ed; try discriminate.
          assert (Z.of_nat (length s0) = id) by lia. specialize (Hj H1). discriminate.
      + cbn in Ao. destruct (nth_error s0 (Z.to_nat k)) as [[|]|] eqn:En; try discriminate. injection Es as <- <-.
        destruct (Nat.eq_dec (Z.to_nat k) (Z.to_nat id)) as [Ek|Nk].
        * assert (k = id) by lia. specialize (Hj H). discriminate.
        * rewrite nth_replace_other in Hx by auto. now apply H0 in Hx. }
  destruct (nth_error s (Z.to_nat id)) as [[x|]|] eqn:En; auto. exfalso.
  eapply (Gen ops [] s ids); eauto. intros y. destruct (Z.to_nat id); discriminate.
Qed.
Print Assumptions C20_unplaced_or_unknown_target_aborts.

Example C20_witness :
  lt_run [] [LAlloc; LAllocAt 4000000000; LPlace 0 (-8); LAlloc]
    = Ok ([mkLabel 4294967288 0 true; mkLabel 4000000000 1 true; mkLabel 0 2 false], [0; 1; 0; 2]) /\
  Forall label_args [LAlloc; LAllocAt 4000000000; LPlace 0 (-8); LAlloc].
Proof. split; [reflexivity|]. repeat constructor; cbn; lia. Qed.

(** * C21 *)

Theorem C21_interning_is_a_bijection ss : Z.of_nat (length ss) < 2 ^ 64 ->
  let t := fst (intern_all empty_symtab ss) in
  let ids := snd (intern_all empty_symtab ss) in
  length ids = length ss /\
  (forall i j s s' a b, nth_error ss i = Some s -> nth_error ids i = Some a ->
     nth_error ss j = Some s' -> nth_error ids j = Some b -> (a = b <-> s = s')) /\
  (forall i s a, nth_error ss i = Some s -> nth_error ids i = Some a -> sym_string t a = Ok s /\ sym_id t s = Ok a) /\
  (forall s, sym_interned t s = true <-> In s ss) /\
  (forall s, ~ In s ss -> sym_id t s = Throw StdException) /\
  (forall a, ~ In a ids -> sym_string t a = Throw StdException).
Proof.
  intros L. destruct (intern_all_spec ss empty_symtab [] empty_srep ltac:(cbn [length]; lia)) as (t & ks & E & R & F).
  rewrite E. cbn [fst snd]. set (l := fold_left add_name ss []) in *.
  assert (INL : forall s, In s l <-> In s ss).
  { intros s. unfold l. rewrite fold_add_in. cbn. tauto. }
  clearbody l.
  assert (Hk : forall i s a, nth_error ss i = Some s -> nth_error (map Z.of_nat ks) i = Some a ->
            exists k, a = Z.of_nat k /\ nth_error l k = Some s).
  { clear -F. induction F as [|k s ks ss Hks F IH]; intros i s' a Hs Ha; [destruct i; discriminate|].
    destruct i as [|i]; cbn [nth_error map] in *; [|eauto]. injection Hs as <-. injection Ha as <-. eauto. }
  assert (LK : length (map Z.of_nat ks) = length ss).
  { rewrite map_length. clear -F. induction F; cbn; auto. }
  pose proof R as (ND & Hn & HS & HI).
  conjs; auto.
  - intros i j s s' a b H1 H2 H3 H4. destruct (Hk _ _ _ H1 H2) as (k & -> & K1). destruct (Hk _ _ _ H3 H4) as (k' & -> & K2).
    split.
    + intros EE. apply Nat2Z.inj in EE. congruence.
    + intros ->. f_equal. eapply (proj1 (NoDup_nth_error l)); eauto. { apply nth_error_Some. congruence. } congruence.
  - intros i s a H1 H2. destruct (Hk _ _ _ H1 H2) as (k & -> & K1). split; [eapply sym_string_spec; eauto|].
    apply (proj1 (sym_id_spec t l s R)). eauto.
  - intros s. rewrite <- INL. apply (proj1 (proj2 (sym_id_spec t l s R))).
  - intros s Hni. apply (proj2 (proj2 (sym_id_spec t l s R))). now rewrite INL.
  - intros a Hni. unfold sym_string. destruct (find_id a (st_strings t)) as [s|] eqn:Ef; auto. exfalso. apply Hni.
    apply HI in Ef. destruct Ef as (k & -> & K1). apply in_map.
    assert (Hin : In s ss) by (apply INL; eapply nth_error_In; eauto).
    clear -F Hin K1 ND. induction F as [|k0 s0 ks ss Hks F IH]; [destruct Hin|].
    destruct Hin as [->|Hin]; [|right; auto]. left.
    eapply (proj1 (NoDup_nth_error l)); eauto; [apply nth_error_Some; congruence|congruence].
Qed.
Print Assumptions C21_interning_is_a_bijection.

(** Interning more names afterwards changes no earlier symbol. *)
Theorem C21_symbols_are_stable ss more :
  exists later, snd (intern_all empty_symtab (ss ++ more)) = snd (intern_all empty_symtab ss) ++ later.
Proof.
  generalize empty_symtab as t. induction ss as [|s ss IH]; intros t; cbn [app intern_all].
  - exists (snd (intern_all t more)). reflexivity.
  - destruct (intern t s) as [t1 i]. destruct (IH t1) as [later E].
    destruct (intern_all t1 (ss ++ more)) as [t2 is1], (intern_all t1 ss) as [t3 is2]. cbn [snd] in *.
    exists later. now rewrite E.
Qed.
Print Assumptions C21_symbols_are_stable.

Example C21_witness : snd (intern_all empty_symtab [[97]; [98; 99]; [97]; []; [98; 99]]) = [0; 1; 0; 2; 1].
Proof. reflexivity. Qed.

(** * C22 *)

(** The table of a text answers every offset with the line and column a reader counts. *)
Theorem C22_offsets_map_to_line_and_column text off fuel :
  Z.of_nat (length text) < 2 ^ 62 - 1 -> 0 <= off < 2 ^ 64 -> (length text < fuel)%nat ->
  location fuel (breaks_of new_line_info 0 text) off = Ok (walk_text text (Z.to_nat off) 0 0).
Proof. apply location_ok. Qed.
Print Assumptions C22_offsets_map_to_line_and_column.

Theorem C22_line_and_column_agree_with_location text off fuel :
  Z.of_nat (length text) < 2 ^ 62 - 1 -> 0 <= off < 2 ^ 64 -> (length text < fuel)%nat ->
  line fuel (breaks_of new_line_info 0 text) off = Ok (fst (walk_text text (Z.to_nat off) 0 0)) /\
  column fuel (breaks_of new_line_info 0 text) off = Ok (snd (walk_text text (Z.to_nat off) 0 0)).
Proof.
  intros H1 H2 H3. pose proof (location_ok text off fuel H1 H2 H3) as H. unfold location, column in *.
  destruct (line fuel (breaks_of new_line_info 0 text) off) as [m| | | |]; try discriminate.
  cbn [bind] in *. destruct (brk (breaks_of new_line_info 0 text) m) as [b| | | |]; try discriminate.
  cbn [bind] in *. injection H as H. rewrite <- H. auto.
Qed.
Print Assumptions C22_line_and_column_agree_with_location.

(** The walk counts newlines before the offset and characters since the last one. *)
Theorem C22_walk_counts_newlines text : forall n l c, (n <= length text)%nat ->
  fst (walk_text text n l c) = l + Z.of_nat (count_occ Z.eq_dec (firstn n text) 10).
Proof.
  induction text as [|ch text IH]; intros [|n] l c H; cbn [length] in H; try lia; cbn [walk_text firstn count_occ fst]; try lia.
  destruct (Z.eqb_spec ch 10) as [->|N].
  - rewrite IH by lia. destruct (Z.eq_dec 10 10); [|congruence]. lia.
  - rewrite IH by lia. destruct (Z.eq_dec ch 10); [congruence|]. lia.
Qed.
Print Assumptions C22_walk_counts_newlines.

Example C22_witness :
  map (fun o => location 20 (breaks_of new_line_info 0 [97; 10; 10; 98; 99; 10; 100]) o) [0; 1; 2; 3; 4; 5; 6; 7; 100]
  = map Ok [(0, 0); (0, 1); (1, 0); (2, 0); (2, 1); (2, 2); (3, 0); (3, 1); (3, 94)].
Proof. reflexivity. Qed.

(** * C39 *)

(** At every point of a history, the deleter calls made and the storage still held together are
    the storage created; nothing is deleted twice or lost. *)
Theorem C39_every_storage_is_deleted_or_held_once ops : sg_used_well [] ops ->
  exists w, sg_run (mkSW [] []) ops = Ok w /\
    (forall x, In x (map fst (sw_live w)) <-> In x (sg_live [] ops)) /\
    Permutation
      (sw_calls w ++ flat_map (fun kv => if negb (sg_addr (snd kv) =? 0) && negb (sg_del (snd kv) =? 0)
                                         then [(sg_del (snd kv), sg_addr (snd kv))] else []) (sw_live w))
      (sg_owned ops).
Proof.
  intros W. destruct (sg_run_ok ops (mkSW [] []) [] [] ltac:(constructor) ltac:(intros; reflexivity) ltac:(constructor) W)
    as (w & E & _ & L & P). exists w. conjs; auto; apply L.
Qed.
Print Assumptions C39_every_storage_is_deleted_or_held_once.

(** When every owner is gone, each storage with an address and a deleter has been deleted once. *)
Theorem C39_all_storage_is_deleted_exactly_once ops : sg_used_well [] ops -> sg_live [] ops = [] ->
  exists w, sg_run (mkSW [] []) ops = Ok w /\ Permutation (sw_calls w) (sg_owned ops).
Proof.
  intros W Hl. destruct (C39_every_storage_is_deleted_or_held_once ops W) as (w & E & L & P).
  exists w. split; auto. rewrite Hl in L. destruct (sw_live w) as [|[x s] r].
  - cbn [flat_map] in P. now rewrite app_nil_r in P.
  - exfalso. apply (L x). cbn. auto.
Qed.
Print Assumptions C39_all_storage_is_deleted_exactly_once.

Example C39_witness :
  let ops := [SCreate 1 4096 7; SMove 2 1; SCreate 3 0 7; SDestroy 1; SMove 1 2; SDestroy 3; SDestroy 2; SDestroy 1] in
  sg_used_well [] ops /\ sg_live [] ops = [] /\ sg_run (mkSW [] []) ops = Ok (mkSW [] [(7, 4096)]).
Proof. cbn. intuition discriminate. Qed.
