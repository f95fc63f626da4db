(** Property theorems C06, C46, C47, C48: byte buffers. *)

From Coq Require Import ZArith List Bool Lia.
From Verif Require Import Outcome ByteBufferModel ByteBufferSpec ByteBufferProofs.
Import ListNotations.
Local Open Scope Z_scope.

(** Who holds a pointer to allocation [id]: buffer number [i], or the caller. *)
Definition held_by (w : world) (id : nat) (i : nat) : Prop :=
  exists b, nth_error (w_bufs w) i = Some (Some b) /\ b_data b = Some id.
Definition held_out (w : world) (id : nat) : Prop := In (Some id) (w_out w).
Definition allocated (w : world) (id : nat) : Prop :=
  exists bl, nth_error (h_blocks (w_heap w)) id = Some (Some bl).

Lemma in_ids id l : In id (ids l) <-> In (Some id) l.
Proof.
  induction l as [|[x|] l IH]; cbn; [tauto| |].
  - rewrite IH. split; intros [H|H]; auto; left; congruence.
  - rewrite IH. split; [auto|]. intros [H|H]; [discriminate|auto].
Qed.

(** C06: for every program that only makes allowed uses, and every memory limit, nothing
    traps and nothing is undefined (no access outside or after the life of an allocation, no
    double free); what the program observes is what plain sequences would show; at the end
    every live buffer's memory holds exactly its sequence and its capacity is at least its
    size. *)
Theorem C06_buffers_are_sequences :
  forall limit p, limit < 2 ^ 62 -> allowed_run [] p ->
    exists w xs s,
      run (init limit) p = Ok (w, xs) /\ spec_run [] p xs s /\
      length (w_bufs w) = length s /\
      forall i a, nth_error s i = Some (Some a) ->
        exists b, nth_error (w_bufs w) i = Some (Some b) /\
          b_size b = Z.of_nat (length (a_cells a)) /\ b_size b <= b_capa b /\
          load_cells (w_heap w) (b_data b) 0 (b_size b) = Ok (a_cells a).
Proof.
  intros limit p Hl Ha.
  destruct (good_run p (init limit) [] (Inv_init limit) Hl Ha) as (w & xs & s & E & S & I & _).
  exists w, xs, s. split; [exact E|]. split; [exact S|]. split; [exact (Inv_len _ _ I)|].
  intros i a HL. destruct (inv_buf _ _ _ _ I HL) as (b & Hb & R).
  exists b. split; [exact Hb|]. pose proof (load_own _ _ _ R) as EL.
  split; [|split; [|exact EL]].
  - unfold brel, alen in R. destruct (a_sto a).
    + destruct R as (id & k & _ & _ & H). lia.
    + destruct R as (-> & ->). reflexivity.
  - unfold brel, alen in R. destruct (a_sto a).
    + destruct R as (id & k & _ & _ & H). lia.
    + destruct R as (-> & _). cbn. lia.
Qed.
Print Assumptions C06_buffers_are_sequences.

(** C06: at every point of the run each allocation has exactly one holder (a live buffer or
    the caller), and every pointer held is to an allocation: nothing leaks, nothing is
    shared, so destroying the buffers frees each allocation exactly once. *)
Theorem C06_each_allocation_has_one_owner :
  forall limit p w p', limit < 2 ^ 62 -> allowed_run [] p -> reach (init limit) p w p' ->
    (forall id, allocated w id <-> (exists i, held_by w id i) \/ held_out w id) /\
    (forall id i j, held_by w id i -> held_by w id j -> i = j) /\
    (forall id i, held_by w id i -> held_out w id -> False) /\
    (forall id l1 l2 l3, w_out w <> l1 ++ Some id :: l2 ++ Some id :: l3).
Proof.
  intros limit p w p' Hl Ha E.
  destruct (reach_inv _ _ _ _ E [] (Inv_init limit) Hl Ha) as (s & I & _).
  split; [|split; [|split]].
  - intros id. split.
    + intros (bl & Hb). destruct (inv_noleak _ _ I _ _ Hb) as [H|H]; [left; exact H|right].
      now apply in_ids.
    + intros [(i & b & Hb & Hd)|H].
      * pose proof (inv_rel _ _ I i) as R. rewrite Hb in R.
        destruct (nth_error s i) as [[a|]|]; cbn in R; try tauto.
        exact (brel_valid _ _ _ R _ Hd).
      * apply in_ids in H. exact (inv_out_live _ _ I _ H).
  - intros id i j. exact (inv_uniq _ _ I i j id).
  - intros id i Hh Ho. apply in_ids in Ho. exact (inv_out_excl _ _ I _ _ Ho Hh).
  - intros id l1 l2 l3 Eo. pose proof (inv_out_once _ _ I) as N. rewrite Eo in N.
    unfold ids in N. rewrite flat_map_app in N. cbn in N. rewrite flat_map_app in N. cbn in N.
    apply NoDup_remove in N. destruct N as (_ & N). apply N.
    rewrite !in_app_iff. cbn. tauto.
Qed.
Print Assumptions C06_each_allocation_has_one_owner.

(** C06: an operation reports std::bad_alloc only if it asks for more than the heap can
    give: the size argument, or for an append, the larger of the new size, 64 and twice the
    old capacity.  It then changes nothing. *)
Theorem C06_fails_only_for_lack_of_memory :
  forall limit p w o k w', limit < 2 ^ 62 -> allowed_run [] p ->
    reach (init limit) p w (Do o k) -> step w o = Ok (w', Threw) ->
    w' = w /\
    exists n, limit < n /\
      match o with
      | New m | Resize _ m | Reserve _ m => n = m
      | Append i src => exists b, nth_error (w_bufs w) i = Some (Some b) /\
          n = Z.max (b_size b + Z.of_nat (length src)) (Z.max 64 (2 * b_capa b))
      | AppendBuf i j => exists b c, nth_error (w_bufs w) i = Some (Some b) /\
          nth_error (w_bufs w) j = Some (Some c) /\
          n = Z.max (b_size b + b_size c) (Z.max 64 (2 * b_capa b))
      | _ => False
      end.
Proof.
  intros limit p w o k w' Hl Ha E Es.
  destruct (reach_inv _ _ _ _ E [] (Inv_init limit) Hl Ha) as (s1 & I1 & A0 & L1).
  inversion A0 as [|? ? ? A1 _]; subst. cbn in L1.
  destruct (good_step w s1 o I1 ltac:(unfold small; lia) A1) as (w2 & x & s2 & E2 & Sp & _ & _ & Hq).
  rewrite Es in E2. injection E2 as <- <-. specialize (Hq eq_refl). rewrite L1 in Hq.
  split.
  { unfold step in Es. destruct (raw_step w o) as [[wr xr]| | | |] eqn:Er; try discriminate.
    - injection Es as -> ->. exfalso.
      destruct o; cbn in Er; inv_ok; repeat (match goal with
        | H : context[let (_, _) := ?x in _] |- _ => destruct x; cbn in *
        | H : (_, _) = (_, _) |- _ => injection H; clear H; intros; subst
        end; inv_ok); try discriminate.
    - now injection Es as ->. }
  destruct o; cbn in Hq |- *; try (inversion Sp; fail); try (eexists; split; [exact Hq|reflexivity]).
  - cbn in A1. destruct A1 as (a & HL & _).
    destruct (inv_buf _ _ _ _ I1 HL) as (b & Hb & _). unfold get_buf in Hq. rewrite Hb in *.
    eexists. split; [exact Hq|]. eexists. split; reflexivity.
  - cbn in A1. destruct A1 as ((a & HL) & (c & HLc) & _).
    destruct (inv_buf _ _ _ _ I1 HL) as (b & Hb & _).
    destruct (inv_buf _ _ _ _ I1 HLc) as (bc & Hc & _). unfold get_buf in Hq. rewrite Hb, Hc in *.
    eexists. split; [exact Hq|]. eexists _, _. repeat split; reflexivity.
Qed.
Print Assumptions C06_fails_only_for_lack_of_memory.

(** A non-trivial allowed program: growth, overwrite, copy, append of another buffer, reuse
    after clear, move, read, hand-over, destruction. *)
Definition demo : prog := straight
  [New 2; Append 0 [1; 2; 3]; Write 0 1 [9]; Copy 0; AppendBuf 1 0; Clear 0;
   Append 0 [5]; Move 1; Read 2 0 6; ReleaseSpan 2; Destroy 0; Destroy 1; Destroy 2].

Example C06_demo_is_allowed : allowed_run [] demo.
Proof. apply checked_correct. vm_compute. reflexivity. Qed.

Example C06_demo_result :
  option_map snd (match run (init 1000) demo with Ok r => Some r | _ => None end) =
  Some [Done; Done; Done; Done; Done; Done; Done; Done;
        Got (map Some [1; 9; 3; 1; 9; 3]); GotSpan (map Some [1; 9; 3; 1; 9; 3]);
        Done; Done; Done].
Proof. vm_compute. reflexivity. Qed.

(** C46 is false of the code: shrinking (or resizing, or releasing the span of) an empty
    buffer that owns storage frees the storage but keeps the pointer (line 232).  The next
    append aborts, and destroying the buffer frees the storage again.  A buffer constructed
    with capacity 0 also aborts at the first append. *)
Theorem C46_zero_capacity_usable_refuted :
  let limit := 2 ^ 40 in
  run (init limit) (straight [New 64; Shrink 0; Destroy 0]) = UB DoubleFree /\
  run (init limit) (straight [New 64; Resize 0 0; Destroy 0]) = UB DoubleFree /\
  run (init limit) (straight [New 64; Shrink 0; Append 0 [1]]) = Trap Assertion /\
  run (init limit) (straight [New 0; Append 0 [1]]) = Trap Assertion /\
  run (init limit) (straight [New 64; Clear 0; Copy 0; Append 1 [1]]) = Trap Assertion /\
  (exists w xs, run (init limit) (straight [New 64; ReleaseSpan 0]) = Ok (w, xs) /\
     held_out w 0 /\ ~ allocated w 0).
Proof.
  cbv zeta. repeat split; try (vm_compute; reflexivity).
  eexists _, _. split; [vm_compute; reflexivity|].
  split; [left; reflexivity|]. intros (bl & H). discriminate.
Qed.
Print Assumptions C46_zero_capacity_usable_refuted.

(** C46, the part that holds: on an empty buffer WITHOUT storage the same operations are
    harmless, and on a non-empty buffer they are covered by C06. *)
Theorem C46_empty_without_storage_partial :
  forall h, resize_capacity h (mkBuf None 0 0) 0 = Ok (h, mkBuf None 0 0) /\
    bb_shrink_to_fit h (mkBuf None 0 0) = Ok (h, mkBuf None 0 0) /\
    bb_resize h (mkBuf None 0 0) 0 = Ok (h, mkBuf None 0 0) /\
    bb_destroy h (mkBuf None 0 0) = Ok h.
Proof. intros h. repeat split. Qed.
Print Assumptions C46_empty_without_storage_partial.

Lemma self_append_with_room :
  forall h b a, h_limit h < 2 ^ 62 -> brel h b a -> 2 * b_size b <= b_capa b ->
    exists h' b', bb_append_buf h b (b_data b) (b_size b) = Ok (h', b') /\
      load_cells h' (b_data b') 0 (b_size b') = Ok (a_cells a ++ a_cells a).
Proof.
  intros h b a Hl R Hroom.
  assert (Hsz : b_size b = Z.of_nat (length (a_cells a))).
  { unfold brel, alen in R. destruct (a_sto a).
    - destruct R as (id & k & _ & _ & H). lia.
    - destruct R as (-> & ->). reflexivity. }
  assert (Hc : b_capa b <= Z.max 0 (h_limit h)).
  { unfold brel, alen in R. destruct (a_sto a).
    - destruct R as (id & k & _ & _ & H). lia.
    - destruct R as (-> & _). cbn. lia. }
  destruct (store_end h b a (a_cells a) R) as (h2 & E2 & T2 & R2); try lia.
  { intros Hne. unfold brel in R. destruct (a_sto a); [reflexivity|]. destruct R; contradiction. }
  unfold bb_append_buf, ensure_space.
  rewrite (Z.mod_small (b_size b + b_size b)) by (unfold SIZE_MOD; lia).
  destruct (Z.ltb_spec (b_capa b) (b_size b + b_size b)); [lia|]. cbn [bind].
  rewrite (load_own _ _ _ R). cbn [bind]. rewrite E2. cbn [bind].
  eexists _, _. split; [reflexivity|]. pose proof (load_own _ _ _ R2) as EL.
  cbn [b_data b_size b_capa a_cells] in *. rewrite Hsz at 2. exact EL.
Qed.

(** C47, self-append: correct when the capacity already suffices ... *)
Theorem C47_self_append_with_room_partial :
  forall limit p w p' i b cs,
    limit < 2 ^ 62 -> allowed_run [] p -> reach (init limit) p w p' ->
    nth_error (w_bufs w) i = Some (Some b) ->
    load_cells (w_heap w) (b_data b) 0 (b_size b) = Ok cs -> 2 * b_size b <= b_capa b ->
    exists w' b', step w (AppendBuf i i) = Ok (w', Done) /\
      nth_error (w_bufs w') i = Some (Some b') /\
      load_cells (w_heap w') (b_data b') 0 (b_size b') = Ok (cs ++ cs).
Proof.
  intros limit p w p' i b cs Hl Ha E Hb Hcs Hroom.
  destruct (reach_inv _ _ _ _ E [] (Inv_init limit) Hl Ha) as (s1 & I1 & _ & L1). cbn in L1.
  pose proof (inv_rel _ _ I1 i) as R. rewrite Hb in R.
  destruct (nth_error s1 i) as [[a|]|]; cbn in R; try tauto.
  destruct (self_append_with_room (w_heap w) b a) as (h' & b' & E1 & E2); auto; [lia|].
  rewrite (load_own _ _ _ R) in Hcs. injection Hcs as <-.
  exists (put w i (h', b')), b'. split; [|split; [|exact E2]].
  - apply raw_ok. cbn [raw_step]. unfold get_buf. rewrite Hb. cbn [bind]. rewrite E1. reflexivity.
  - cbn. apply nth_set_nth_eq. now apply nth_some_lt in Hb.
Qed.
Print Assumptions C47_self_append_with_room_partial.
(** Three bytes in a buffer of eight. *)
Example C47_case :
  allowed_run [] (straight [New 8; Append 0 [1; 2; 3]]) /\
  exists w p' b cs, reach (init 1000) (straight [New 8; Append 0 [1; 2; 3]]) w p' /\ nth_error (w_bufs w) 0 = Some (Some b) /\
    load_cells (w_heap w) (b_data b) 0 (b_size b) = Ok cs /\ cs = map Some [1; 2; 3] /\ 2 * b_size b <= b_capa b.
Proof.
  split; [apply checked_correct; vm_compute; reflexivity|]. do 4 eexists. split.
  { unfold straight. eapply reach_step; [vm_compute; reflexivity|]. eapply reach_step; [vm_compute; reflexivity|]. apply reach_here. }
  split; [reflexivity|]. split; [vm_compute; reflexivity|]. split; [reflexivity|]. cbn. lia.
Qed.

(** ... and false when it does not: the source is read after it was freed (line 93, 78-80). *)
Theorem C47_self_append_refuted :
  run (init (2 ^ 40)) (straight [New 2; Append 0 [1; 2; 3]; AppendBuf 0 0]) = UB UseAfterFree.
Proof. vm_compute. reflexivity. Qed.
Print Assumptions C47_self_append_refuted.

(** C48, bounds checks: an out-of-range access whose end does not wrap aborts ... *)
Theorem C48_out_of_range_aborts_partial :
  forall h b off src n, 0 <= off -> 0 <= n -> b_size b < off + n < 2 ^ 64 ->
    bb_read h b off n = Trap Assertion /\ bb_write h b off src n = Trap Assertion.
Proof.
  intros h b off src n Ho Hn Hb. unfold bb_read, bb_write, SIZE_MOD.
  rewrite (Z.mod_small n), (Z.mod_small (off + n)) by lia. unfold ab_assert.
  destruct (Z.leb_spec (off + n) (b_size b)); [lia|]. auto.
Qed.
Print Assumptions C48_out_of_range_aborts_partial.
Example C48_case : let b := mkBuf (Some 0%nat) 3 8 in 0 <= 2 /\ b_size b < 2 + 2 < 2 ^ 64 /\
  bb_read (mkHeap [Some (map Some [1; 2; 3; 0; 0; 0; 0; 0])] 1000) b 2 2 = Trap Assertion.
Proof. cbv zeta. repeat split; try lia. Qed.

(** ... but an offset near 2^64, or a negative length (int32_t nbytes), passes the check and
    accesses memory outside the buffer. *)
Theorem C48_out_of_range_refuted :
  (forall h b bl id, b_data b = Some id -> nth_error (h_blocks h) id = Some (Some bl) ->
     4 <= b_size b <= Z.of_nat (length bl) -> Z.of_nat (length bl) < 2 ^ 63 ->
     bb_read h b (2 ^ 64 - 4) 8 = UB OutOfBounds) /\
  (forall h b src, 4 <= b_size b < 2 ^ 63 -> Z.of_nat (length src) < 2 ^ 63 ->
     bb_write h b 4 src (-1) = UB OutOfBounds).
Proof.
  split.
  - intros h b bl id Hd Hb Hs Hl. unfold bb_read, load_cells, get_block, SIZE_MOD.
    rewrite Hd, Hb.
    replace ((2 ^ 64 - 4 + 8) mod 2 ^ 64) with 4 by reflexivity.
    unfold ab_assert. destruct (Z.leb_spec 4 (b_size b)); [|lia]. cbn [bind].
    destruct (Z.eqb_spec 8 0); [lia|].
    destruct (Z.ltb_spec (Z.of_nat (length bl)) (2 ^ 64 - 4 + 8)); [|lia].
    rewrite !orb_true_r. reflexivity.
  - intros h b src Hs Hl. unfold bb_write, SIZE_MOD.
    replace (-1 mod 2 ^ 64) with (2 ^ 64 - 1) by reflexivity.
    replace ((4 + (2 ^ 64 - 1)) mod 2 ^ 64) with 3 by reflexivity.
    unfold ab_assert. destruct (Z.leb_spec 3 (b_size b)); [|lia]. cbn [bind].
    destruct (Z.ltb_spec (Z.of_nat (length src)) (2 ^ 64 - 1)); [reflexivity|lia].
Qed.
Print Assumptions C48_out_of_range_refuted.
