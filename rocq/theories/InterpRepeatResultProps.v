(** C149, for results of any number and type. *)

From Coq Require Import ZArith List Bool Arith Lia ZifyBool ZifyNat.
From Verif Require Import Outcome BitLemmas VarIntModel CodecModel CodecSpec InterpModel InterpSpec
  InterpProofs InterpCallProofs InterpSafe InterpProps InterpExact InterpExactProps InterpResultProps InterpRepeatProps.
Import ListNotations.
Local Open Scope Z_scope.

(** * Specification: a function that sets what it returns *)

(** On every way to an x32.return, the [w] registers from the one it names on are arguments or have been set. *)
Definition results_set (code : bytes) (start k w : Z) : Prop :=
  forall p ws s q, way code start p ws -> op_at code p (ORet32 s) q ->
    forall i, s <= i < s + w -> i < k \/ In i ws.

Lemma same_list {A} (a b : list A) : (forall i, nth_error a i = nth_error b i) -> a = b.
Proof.
  revert b. induction a as [|x a IH]; intros [|y b] H; auto.
  - specialize (H 0%nat). discriminate H.
  - specialize (H 0%nat). discriminate H.
  - f_equal; [specialize (H 0%nat); cbn in H; congruence|]. apply IH. intros i. exact (H (S i)).
Qed.

Lemma firstn_nth {A} n (l : list A) : forall i, (i < n)%nat -> nth_error (firstn n l) i = nth_error l i.
Proof. revert n. induction l as [|x l IH]; intros [|n] [|i] H; cbn; auto; try lia. apply IH. lia. Qed.
Lemma skipn_nth {A} n (l : list A) : forall i, nth_error (skipn n l) i = nth_error l (n + i).
Proof. revert l. induction n as [|n IH]; intros [|x l] i; cbn; auto. now destruct i. Qed.

Lemma stands_alike k ws rs rs' s xs : alike k ws rs rs' -> stands_at rs s xs ->
  (forall i, s <= i < s + Z.of_nat (length xs) -> i < k \/ In i ws) -> stands_at rs' s xs.
Proof.
  intros (L & A) (pre & post & E & Ep) H.
  assert (length rs = length pre + (length xs + length post))%nat as Er by (rewrite E, !app_length; reflexivity).
  exists (firstn (length pre) rs'), (skipn (length xs) (skipn (length pre) rs')).
  split; [|rewrite firstn_length_le by lia; exact Ep].
  assert (firstn (length xs) (skipn (length pre) rs') = xs) as X.
  { apply same_list. intros i. destruct (Nat.ltb_spec i (length xs)) as [Hi|Hi].
    - rewrite firstn_nth, skipn_nth by exact Hi.
      specialize (A (s + Z.of_nat i) ltac:(lia) (H (s + Z.of_nat i) ltac:(lia))).
      replace (Z.to_nat (s + Z.of_nat i)) with (length pre + i)%nat in A by lia. rewrite <- A, E.
      rewrite nth_error_app2 by lia. replace (length pre + i - length pre)%nat with i by lia.
      now rewrite nth_error_app1 by exact Hi.
    - rewrite (proj2 (nth_error_None xs i)) by exact Hi. apply nth_error_None.
      rewrite firstn_length_le; [exact Hi|]. rewrite skipn_length. lia. }
  rewrite <- X at 1. now rewrite !firstn_skipn.
Qed.

(** One call on two machines which hold the same code, in builds of either kind, loaded at addresses of
    their own, with anything on the stacks.  The first run reaches an x32.return; the words of the
    results stand in registers of the callee.  Then both calls return the values of those words, if
    the callee uses no register and returns no register that is neither an argument nor set before. *)
Theorem C149_results_of_any_type_partial :
  forall dbg dbg' m m' f f' As xs Rs p rs s q vs,
    can_call dbg m f As xs Rs -> can_call dbg' m' f' As xs Rs -> m_ip m mod 256 = 0 -> m_ip m' mod 256 = 0 -> Rs <> [] ->
    m_code m' = m_code m -> fi_body f' - m_code_base m' = fi_body f - m_code_base m -> fi_nregs f' = fi_nregs f ->
    set_before_use (m_code m) (fi_body f - m_code_base m) (words_taken As) ->
    results_set (m_code m) (fi_body f - m_code_base m) (words_taken As) (words_taken Rs) ->
    asteps (m_code m) (start_of dbg m f As xs) (p, rs) -> op_at (m_code m) p (ORet32 s) q ->
    Forall2 value_ok Rs vs -> stands_at rs s (arg_words Rs vs) ->
    aligned_args (frame_base dbg m (fi_nregs f) + 4 * s) Rs -> aligned_args (frame_base dbg' m' (fi_nregs f') + 4 * s) Rs ->
    exists fuel0, forall fuel, (fuel0 <= fuel)%nat ->
      result (static_call fuel dbg m f As xs Rs) = Ok vs /\ result (static_call fuel dbg' m' f' As xs Rs) = Ok vs.
Proof.
  intros dbg dbg' m m' f f' As xs Rs p rs s q vs Hcc Hcc' Hip Hip' HRs Ec Eb En Hset Hres Hs Ho Hvs Hst Hal Hal'.
  destruct (C147_results_in_own_registers dbg m f As xs Rs p rs s q vs) as (n1 & m1 & H1 & _); auto.
  pose proof (initial_regs_length _ _ _ _ _ _ Hcc) as Hl. pose proof (initial_regs_length _ _ _ _ _ _ Hcc') as Hl'.
  assert (0 <= fi_nregs f) as Hn by (destruct (cc_room _ _ _ _ _ _ Hcc); lia).
  set (start := fi_body f - m_code_base m) in *.
  assert (alike (words_taken As) [] (initial_regs dbg m (fi_nregs f) As xs) (initial_regs dbg' m' (fi_nregs f') As xs)) as A.
  { split; [lia|]. intros i Hi [Hk|[]]. unfold initial_regs.
    pose proof (arg_words_len _ _ (cc_values _ _ _ _ _ _ Hcc)) as La.
    rewrite !nth_error_app1 by lia. reflexivity. }
  apply asteps_n in Hs as (j & Hs).
  destruct (alike_steps _ _ _ Hset _ _ _ Hs [] _ (way_start _ _) A) as (ws & rs' & Hs' & W & L). cbn [fst snd] in *.
  assert (asteps (m_code m') (fi_body f' - m_code_base m', initial_regs dbg' m' (fi_nregs f') As xs) (p, rs')) as Hs2.
  { rewrite Ec, Eb. apply asteps_n. exists j. exact Hs'. }
  destruct (C147_results_in_own_registers dbg' m' f' As xs Rs p rs' s q vs) as (n2 & m2 & H2 & _); auto.
  - now rewrite Ec.
  - eapply stands_alike; [exact L|exact Hst|]. intros i Hi. rewrite arg_words_taken in Hi by exact Hvs. eapply Hres; eauto.
  - exists (n1 + n2)%nat. intros fuel Hf. rewrite H1, H2 by lia. auto.
Qed.
Print Assumptions C149_results_of_any_type_partial.

(** A case: the function of C147 that returns its two wide arguments, on two interpreters of other
    addresses, other memory contents and builds. *)
Definition m147b : mach := new_interpreter (fun a => a mod 251) 8192 code147 (2 ^ 20).
Example C149_two_wide_results :
  let xs := [2 ^ 63 + 5; 2 ^ 40 + 7] in
  exists fuel0, forall fuel, (fuel0 <= fuel)%nat ->
    result (static_call fuel true m147 (mkFI (mkFT [I64; F64] [I64; F64]) 4 65536) [Int64; Double] xs [Int64; Double]) = Ok xs /\
    result (static_call fuel false m147b (mkFI (mkFT [I64; F64] [I64; F64]) 4 (2 ^ 20)) [Int64; Double] xs [Int64; Double]) = Ok xs.
Proof.
  cbv zeta.
  assert (forall ws p, way code147 0 p ws -> p = 0) as Only0.
  { intros ws p W. induction W as [|p ws o q p' W -> H S]; [reflexivity|].
    destruct S as [o1 q1 H1 K|o1 q1 H1 K]; destruct (op_at_det _ _ _ _ _ _ H1 ret0_at147) as (-> & ->); destruct K. }
  apply (C149_results_of_any_type_partial true false m147 m147b (mkFI (mkFT [I64; F64] [I64; F64]) 4 65536)
    (mkFI (mkFT [I64; F64] [I64; F64]) 4 (2 ^ 20)) [Int64; Double] [2 ^ 63 + 5; 2 ^ 40 + 7] [Int64; Double]
    0 (arg_words [Int64; Double] [2 ^ 63 + 5; 2 ^ 40 + 7]) 0 2); try (vm_compute; reflexivity).
  - exact (proj1 C147_instance).
  - constructor; try reflexivity.
    + apply C10_new_interpreter_has_room; [lia|lia|reflexivity|cbn; lia].
    + intros a. cbn. unfold is_byte. pose proof (Z.mod_pos_bound a 251 ltac:(lia)). lia.
    + repeat constructor; cbn; lia.
    + vm_compute. repeat split; discriminate.
  - discriminate.
  - change (fi_body _ - m_code_base m147) with 0. intros p ws o q W Ho. rewrite (Only0 _ _ W) in Ho.
    destruct (op_at_det _ _ _ _ _ _ Ho ret0_at147) as (-> & _). repeat constructor; cbn; lia.
  - change (fi_body _ - m_code_base m147) with 0. intros p ws s q W Ho i Hi. rewrite (Only0 _ _ W) in Ho.
    destruct (op_at_det _ _ _ _ _ _ Ho ret0_at147) as (E & _). injection E as ->. left. cbn in *. lia.
  - assert (start_of true m147 (mkFI (mkFT [I64; F64] [I64; F64]) 4 65536) [Int64; Double] [2 ^ 63 + 5; 2 ^ 40 + 7] =
      (0, arg_words [Int64; Double] [2 ^ 63 + 5; 2 ^ 40 + 7])) as -> by (vm_compute; reflexivity). constructor.
  - exact ret0_at147.
  - repeat constructor; cbn; lia.
  - exists [], []. split; vm_compute; reflexivity.
  - vm_compute. repeat split; discriminate.
  - vm_compute. repeat split; discriminate.
Qed.
