(** C147: results of any number and type. *)

From Coq Require Import ZArith List Bool Arith Lia ZifyBool ZifyNat.
From Verif Require Import Outcome BitLemmas VarIntModel CodecModel CodecSpec InterpModel InterpSpec
  InterpProofs InterpCallProofs InterpSafe InterpProps InterpExact InterpExactProps.
Import ListNotations.
Local Open Scope Z_scope.

(** [ws] stands in [rs] from position [s] on. *)
Definition stands_at (rs : list Z) (s : Z) (ws : list Z) : Prop :=
  exists pre post, rs = pre ++ ws ++ post /\ Z.of_nat (length pre) = s.

(** The words of the caller's registers, as the call saved them behind the callee's frame. *)
Definition caller_words (m : mach) : list Z :=
  [m_ip m mod 2 ^ 32; m_ip m / 2 ^ 32; m_sp m mod 2 ^ 32; m_sp m / 2 ^ 32; m_fn m mod 2 ^ 32; m_fn m / 2 ^ 32].

Lemma arg_words_taken ts xs : Forall2 value_ok ts xs -> Z.of_nat (length (arg_words ts xs)) = words_taken ts.
Proof. induction 1 as [|t x ts xs _ _ IH]; [reflexivity|]. destruct t; cbn [arg_words words_taken wide length]; lia. Qed.

Lemma app_inv_len {A} (a b c d : list A) : length a = length c -> a ++ b = c ++ d -> a = c /\ b = d.
Proof.
  revert c. induction a as [|x a IH]; intros [|y c] L E; cbn in L; try lia; [auto|].
  injection E as -> E. destruct (IH c ltac:(lia) E) as (-> & ->). auto.
Qed.

Lemma frame_words_at mem base n rs s ws : frame_words mem base n = rs -> stands_at rs s ws ->
  frame_words mem (base + 4 * s) (length ws) = ws /\ 0 <= s /\ s + Z.of_nat (length ws) <= Z.of_nat n.
Proof.
  intros E (pre & post & -> & <-).
  assert (n = length pre + (length ws + length post))%nat as ->.
  { apply (f_equal (@length Z)) in E. rewrite frame_words_length, !app_length in E. lia. }
  rewrite !frame_words_app in E. apply app_inv_len in E as (_ & E); [|apply frame_words_length].
  apply app_inv_len in E as (E & _); [|apply frame_words_length].
  split; [exact E|lia].
Qed.

Lemma frame_words_6 mem a : frame_words mem a 6 =
  [word mem a; word mem (a + 4); word mem (a + 8); word mem (a + 12); word mem (a + 16); word mem (a + 20)].
Proof. unfold frame_words. cbn [seq map]. repeat f_equal; lia. Qed.

Lemma split8 mem a v : bytes_mem mem -> le_value (bytes_of mem a 8) = v ->
  word mem a = v mod 2 ^ 32 /\ word mem (a + 4) = v / 2 ^ 32.
Proof.
  intros Hb <-. rewrite read8.
  assert (0 <= word mem a < 2 ^ 32) as W.
  { now apply word_bound. }
  rewrite Z.mul_comm. split; [rewrite Z_mod_plus_full, Z.mod_small; auto|rewrite Z_div_plus_full by lia; rewrite Z.div_small; auto].
Qed.

Lemma frame_and_caller dbg m mm n rs : 0 <= n -> bytes_mem (m_mem mm) ->
  frame_words (m_mem mm) (frame_base dbg m n) (Z.to_nat n) = rs ->
  saved dbg (m_mem mm) (m_sp m - frame_bytes dbg) (m_ip m) (m_sp m) (m_fn m) ->
  frame_words (m_mem mm) (frame_base dbg m n) (Z.to_nat n + 6) = rs ++ caller_words m.
Proof.
  intros Hn Hb Hw (A & B & C & _). rewrite frame_words_app, Hw. f_equal.
  replace (frame_base dbg m n + 4 * Z.of_nat (Z.to_nat n)) with (m_sp m - frame_bytes dbg) by (unfold frame_base; lia).
  rewrite frame_words_6. unfold caller_words.
  apply split8 in A as (-> & ->); [|auto]. apply split8 in B as (-> & B2); [|auto]. apply split8 in C as (-> & C2); [|auto].
  rewrite <- B2, <- C2. set (a := m_sp m - frame_bytes dbg).
  replace (a + 8 + 4) with (a + 12) by lia. replace (a + 16 + 4) with (a + 20) by lia. reflexivity.
Qed.

(** The callee's code, run by the abstract machine on the argument words, reaches an x32.return
    that names register [s], the registers being [rs].  The call returns the values whose words
    stand from register [s] on, one after the other in the order of the result types, wide values
    with their low word first; behind the last register of the callee the words of the caller's
    saved instruction pointer, stack pointer and function follow. *)
Theorem C147_results_are_the_words_from_the_register :
  forall dbg m f As xs Rs p rs s q vs,
    can_call dbg m f As xs Rs -> m_ip m mod 256 = 0 -> Rs <> [] ->
    asteps (m_code m) (fi_body f - m_code_base m, initial_regs dbg m (fi_nregs f) As xs) (p, rs) ->
    op_at (m_code m) p (ORet32 s) q -> s < fi_nregs f ->
    Forall2 value_ok Rs vs -> stands_at (rs ++ caller_words m) s (arg_words Rs vs) ->
    aligned_args (frame_base dbg m (fi_nregs f) + 4 * s) Rs ->
    exists fuel0 m',
      (forall fuel, (fuel0 <= fuel)%nat -> static_call fuel dbg m f As xs Rs = Ok (vs, m')) /\
      restored m m' (frame_base dbg m (fi_nregs f)) (m_sp m).
Proof.
  intros dbg m f As xs Rs p rs s q vs [Hroom Hb Hv Hn Ha Hh HA HR] Hip HRs Hs Ho Hlt Hvs Hst Hal.
  pose proof Hroom as (R1 & R2 & R3 & R4 & R5 & R6 & R7 & R8 & R9 & R10).
  destruct (frame_bytes_facts dbg) as (F1 & F2).
  assert (exit_reg rs (ORet32 s)) as Hxr.
  { cbn. unfold reg. destruct (nth_error rs (Z.to_nat s)) eqn:E; [eauto|exfalso]. apply nth_error_None in E.
    destruct (asteps_cfg _ _ _ (fi_body f - m_code_base m) Hs) as (_ & L0); [constructor|]. cbn [snd] in L0.
    pose proof (initial_regs_length dbg m f As xs Rs ltac:(constructor; auto)) as L. destruct Hst as (? & ? & _ & ?). lia. }
  destruct (call_reach dbg m f As Rs xs Hroom Hb Hv Hn Ha Hh HA HR p rs (ORet32 s) q
    (frame_base dbg m (fi_nregs f) + 4 * s)) as (fuel0 & mm & H1 & H2 & M1 & M2 & M3 & M4 & M5); auto.
  pose proof (frame_and_caller dbg m mm _ _ R7 M5 M1 M4) as W.
  destruct (frame_words_at _ _ _ _ _ _ W Hst) as (W1 & W2 & W3).
  rewrite arg_words_taken in W3 by auto.
  assert (get_stack_elements mm (frame_base dbg m (fi_nregs f) + 4 * s) Rs = Ok vs) as Eg.
  { unfold get_stack_elements. apply (get_elements_ok Rs vs Hvs [] mm).
    - rewrite M2. unfold frame_base. lia.
    - unfold frame_base. lia.
    - unfold frame_base. lia.
    - cbn [app]. rewrite M2, M3. unfold frame_base. lia.
    - cbn [words_taken]. now rewrite Z.mul_0_r, Z.add_0_r.
    - cbn [words_taken]. now rewrite Z.mul_0_r, Z.add_0_r. }
  exists fuel0, (with_regs mm (m_ip m) (m_sp m) (m_fn m)). split; [|exact H2].
  intros fuel Hf. rewrite (H1 fuel Hf), Eg. reflexivity.
Qed.
Print Assumptions C147_results_are_the_words_from_the_register.

Lemma in_own_registers rs tl s ws : stands_at rs s ws -> stands_at (rs ++ tl) s ws.
Proof.
  intros (pre & post & -> & <-). exists pre, (post ++ tl). rewrite <- !app_assoc. auto.
Qed.

Lemma some_value ts s ws : ts <> [] -> forall vs, Forall2 value_ok ts vs -> ws = arg_words ts vs ->
  forall n, s + Z.of_nat (length ws) <= n -> s < n.
Proof.
  intros Ht vs Hv -> n H. destruct Hv as [|t v ts vs _ _]; [congruence|].
  destruct t; cbn [arg_words length] in H; lia.
Qed.

(** In particular: results that stand in registers of the callee. *)
Corollary C147_results_in_own_registers :
  forall dbg m f As xs Rs p rs s q vs,
    can_call dbg m f As xs Rs -> m_ip m mod 256 = 0 -> Rs <> [] ->
    asteps (m_code m) (fi_body f - m_code_base m, initial_regs dbg m (fi_nregs f) As xs) (p, rs) ->
    op_at (m_code m) p (ORet32 s) q ->
    Forall2 value_ok Rs vs -> stands_at rs s (arg_words Rs vs) ->
    aligned_args (frame_base dbg m (fi_nregs f) + 4 * s) Rs ->
    exists fuel0 m',
      (forall fuel, (fuel0 <= fuel)%nat -> static_call fuel dbg m f As xs Rs = Ok (vs, m')) /\
      restored m m' (frame_base dbg m (fi_nregs f)) (m_sp m).
Proof.
  intros dbg m f As xs Rs p rs s q vs Hcc Hip HRs Hs Ho Hvs Hst Hal.
  eapply C147_results_are_the_words_from_the_register; eauto using in_own_registers.
  pose proof (initial_regs_length _ _ _ _ _ _ Hcc) as L.
  destruct (asteps_cfg _ _ _ (fi_body f - m_code_base m) Hs) as (_ & L0); [constructor|]. cbn [snd] in L0.
  assert (0 <= fi_nregs f) by (destruct (cc_room _ _ _ _ _ _ Hcc); lia).
  destruct Hst as (pre & post & E & E2). eapply (some_value Rs s _ HRs vs Hvs eq_refl).
  apply (f_equal (@length Z)) in E. rewrite !app_length in E. lia.
Qed.
Print Assumptions C147_results_in_own_registers.

Lemma get_elements_misaligned ts : forall pre m base,
  m_stack m <= base -> 0 < base -> base mod 4 = 0 ->
  base + 4 * words_taken (pre ++ ts) <= m_stack m + m_size m ->
  ~ aligned_args (base + 4 * words_taken pre) ts ->
  get_elements m base (pre ++ ts) (length pre) ts = UB Misaligned.
Proof.
  induction ts as [|t ts IH]; intros pre m base H1 H0 H2 H3 H4; [exfalso; apply H4; exact I|].
  cbn [get_elements]. rewrite slot_offset. replace (base =? 0) with false by lia.
  rewrite words_taken_app in H3. cbn [words_taken] in H3.
  pose proof (words_taken_pos pre) as Hp. pose proof (words_taken_pos ts) as Ht.
  set (a := base + 4 * words_taken pre) in *. rewrite sizeof_wide.
  assert (a mod 4 = 0) as Ha4.
  { unfold a. rewrite (Z.mul_comm 4), Z_mod_plus_full. auto. }
  destruct (Z.eq_dec (a mod 8) 0) as [A8|A8].
  - assert (stack_ok m a (if wide t then 8 else 4)) as Hok
      by (destruct (wide t); [apply stack_ok8|apply stack_ok4]; auto; unfold a; lia).
    rewrite load_ok by exact Hok. cbn [bind].
    replace (S (length pre)) with (length (pre ++ [t])) by (rewrite app_length; cbn; lia).
    replace (pre ++ t :: ts) with ((pre ++ [t]) ++ ts) by now rewrite <- app_assoc.
    assert (base + 4 * words_taken (pre ++ [t]) = a + if wide t then 8 else 4) as E1.
    { rewrite words_taken_app. cbn [words_taken]. unfold a. destruct (wide t); lia. }
    rewrite (IH (pre ++ [t]) m base); auto.
    + rewrite !words_taken_app. cbn [words_taken]. lia.
    + rewrite E1. intros X. apply H4. split; auto.
  - destruct (wide t) eqn:W.
    + unfold load_stack, check_stack. change (Z.of_nat 8) with 8.
      replace ((m_stack m <=? a) && (a + 8 <=? m_stack m + m_size m)) with true by (unfold a; lia).
      replace (a mod 8 =? 0) with false by lia. reflexivity.
    + rewrite load_ok by (apply stack_ok4; auto; unfold a; lia). cbn [bind].
      replace (S (length pre)) with (length (pre ++ [t])) by (rewrite app_length; cbn; lia).
      replace (pre ++ t :: ts) with ((pre ++ [t]) ++ ts) by now rewrite <- app_assoc.
      assert (base + 4 * words_taken (pre ++ [t]) = a + 4) as E1.
      { rewrite words_taken_app. cbn [words_taken]. unfold a. rewrite W. lia. }
      rewrite (IH (pre ++ [t]) m base); auto.
      * rewrite !words_taken_app. cbn [words_taken]. rewrite W. lia.
      * rewrite E1. intros X. apply H4. cbn [aligned_args]. rewrite W. split; [congruence|auto].
Qed.

(** A wide result that would stand at an address that is no multiple of eight: undefined. *)
Theorem C147_misaligned_result :
  forall dbg m f As xs Rs p rs s v q,
    can_call dbg m f As xs Rs -> m_ip m mod 256 = 0 ->
    asteps (m_code m) (fi_body f - m_code_base m, initial_regs dbg m (fi_nregs f) As xs) (p, rs) ->
    op_at (m_code m) p (ORet32 s) q -> reg rs s v -> s + words_taken Rs <= fi_nregs f + 6 ->
    ~ aligned_args (frame_base dbg m (fi_nregs f) + 4 * s) Rs ->
    exists fuel0, forall fuel, (fuel0 <= fuel)%nat -> static_call fuel dbg m f As xs Rs = UB Misaligned.
Proof.
  intros dbg m f As xs Rs p rs s v q [Hroom Hb Hv Hn Ha Hh HA HR] Hip Hs Ho Hr Hlt Hal.
  pose proof Hroom as (R1 & R2 & R3 & R4 & R5 & R6 & R7 & R8 & R9 & R10).
  destruct (frame_bytes_facts dbg) as (F1 & F2).
  pose proof (op_regs _ _ _ _ s Ho ltac:(cbn; auto)) as Hsb.
  destruct (call_reach dbg m f As Rs xs Hroom Hb Hv Hn Ha Hh HA HR p rs (ORet32 s) q
    (frame_base dbg m (fi_nregs f) + 4 * s)) as (fuel0 & mm & H1 & H2 & M1 & M2 & M3 & M4 & M5); auto.
  { cbn. eauto. }
  exists fuel0. intros fuel Hf. rewrite (H1 fuel Hf). unfold get_stack_elements.
  rewrite (get_elements_misaligned Rs [] mm); [reflexivity|..].
  - rewrite M2. unfold frame_base. lia.
  - unfold frame_base. lia.
  - unfold frame_base. lia.
  - cbn [app]. rewrite M2, M3. unfold frame_base. lia.
  - cbn [words_taken]. now rewrite Z.mul_0_r, Z.add_0_r.
Qed.
Print Assumptions C147_misaligned_result.

(** A callee that ends without a word, a caller that expects some result: null pointer. *)
Theorem C147_no_result :
  forall dbg m f As xs Rs p rs o q,
    can_call dbg m f As xs Rs -> m_ip m mod 256 = 0 -> Rs <> [] ->
    asteps (m_code m) (fi_body f - m_code_base m, initial_regs dbg m (fi_nregs f) As xs) (p, rs) ->
    op_at (m_code m) p o q -> (o = OHalt \/ o = OReturn \/ o = OUnreachable) ->
    exists fuel0, forall fuel, (fuel0 <= fuel)%nat -> static_call fuel dbg m f As xs Rs = UB NullDeref.
Proof.
  intros dbg m f As xs Rs p rs o q [Hroom Hb Hv Hn Ha Hh HA HR] Hip HRs Hs Ho Hx.
  assert (exit_ptr (frame_base dbg m (fi_nregs f)) o = Some 0) as Hptr by (destruct Hx as [->|[->| ->]]; reflexivity).
  assert (exit_reg rs o) as Hxr by (destruct Hx as [->|[->| ->]]; exact I).
  destruct (call_reach dbg m f As Rs xs Hroom Hb Hv Hn Ha Hh HA HR p rs o q 0 Hs Ho Hptr Hxr ltac:(auto))
    as (fuel0 & mm & H1 & _).
  exists fuel0. intros fuel Hf. rewrite (H1 fuel Hf). destruct Rs as [|t Rs]; [congruence|]. reflexivity.
Qed.
Print Assumptions C147_no_result.

(** C148, refuted: the results of a call may hold the caller's machine state.  Any function that
    returns its last register, declared to have a 32-bit and two 64-bit results, hands out the
    caller's saved instruction pointer and the interpreter's stack pointer. *)
Theorem C148_results_reveal_the_caller_refuted :
  forall dbg m f As xs t p rs q v,
    can_call dbg m f As xs [t; Int64; Uint64] -> wide t = false -> m_ip m mod 256 = 0 ->
    asteps (m_code m) (fi_body f - m_code_base m, initial_regs dbg m (fi_nregs f) As xs) (p, rs) ->
    op_at (m_code m) p (ORet32 (fi_nregs f - 1)) q -> reg rs (fi_nregs f - 1) v -> 0 <= v < 2 ^ 32 ->
    exists fuel0 m',
      (forall fuel, (fuel0 <= fuel)%nat ->
         static_call fuel dbg m f As xs [t; Int64; Uint64] = Ok ([v; m_ip m; m_sp m], m')).
Proof.
  intros dbg m f As xs t p rs q v Hcc Ht Hip Hs Ho Hr Hv.
  pose proof (cc_room _ _ _ _ _ _ Hcc) as (R1 & R2 & R3 & R4 & R5 & R6 & R7 & R8 & R9 & R10).
  destruct (frame_bytes_facts dbg) as (F1 & F2).
  pose proof (op_regs _ _ _ _ _ Ho (or_introl eq_refl)) as Hsb. unfold is_byte in Hsb.
  pose proof (initial_regs_length _ _ _ _ _ _ Hcc) as L.
  destruct (asteps_cfg _ _ _ (fi_body f - m_code_base m) Hs) as (_ & L0); [constructor|]. cbn [snd] in L0.
  destruct (C147_results_are_the_words_from_the_register dbg m f As xs [t; Int64; Uint64] p rs (fi_nregs f - 1) q
    [v; m_ip m; m_sp m] Hcc Hip ltac:(discriminate) Hs Ho ltac:(lia)) as (fuel0 & m' & H1 & _); eauto.
  - repeat constructor; unfold value_ok; rewrite ?Ht; cbn [wide]; lia.
  - apply nth_error_split in Hr as (l1 & l2 & -> & El). rewrite app_length in *. cbn [length] in *.
    exists l1, [m_fn m mod 2 ^ 32; m_fn m / 2 ^ 32]. split; [|lia].
    destruct l2; cbn [length] in L0; [|lia].
    replace (arg_words [t; Int64; Uint64] [v; m_ip m; m_sp m]) with (v :: arg_words [Int64; Uint64] [m_ip m; m_sp m])
      by (destruct t; try discriminate Ht; reflexivity).
    cbn [arg_words]. unfold caller_words. rewrite <- app_assoc. reflexivity.
  - cbn [aligned_args]. rewrite Ht. cbn [wide]. split; [discriminate|].
    unfold frame_base. replace (m_sp m - frame_bytes dbg - 4 * fi_nregs f + 4 * (fi_nregs f - 1) + 4) with (m_sp m - frame_bytes dbg) by lia.
    assert ((m_sp m - frame_bytes dbg) mod 8 = 0) by lia. conjs; auto; intros _; lia.
Qed.
Print Assumptions C148_results_reveal_the_caller_refuted.

Lemma words_of_values ts : forall ws, Forall (fun w => 0 <= w < 2 ^ 32) ws -> words_taken ts = Z.of_nat (length ws) ->
  exists vs, Forall2 value_ok ts vs /\ arg_words ts vs = ws.
Proof.
  induction ts as [|t ts IH]; intros ws Hw L; cbn [words_taken] in L.
  - destruct ws; [|cbn in L; lia]. exists []. auto.
  - pose proof (words_taken_pos ts) as P. destruct (wide t) eqn:W.
    + destruct ws as [|a [|b ws]]; cbn [length] in L; try lia. inversion_clear Hw as [|? ? Ha Hw']. inversion_clear Hw' as [|? ? Hb Hw''].
      destruct (IH ws Hw'') as (vs & V & E); [lia|]. exists (a + b * 2 ^ 32 :: vs). split.
      * constructor; [|auto]. unfold value_ok. rewrite W. lia.
      * replace (arg_words (t :: ts) (a + b * 2 ^ 32 :: vs)) with ((a + b * 2 ^ 32) mod 2 ^ 32 :: (a + b * 2 ^ 32) / 2 ^ 32 :: arg_words ts vs)
          by (destruct t; try discriminate W; reflexivity).
        rewrite Z_mod_plus_full, Z_div_plus_full by lia. rewrite Z.mod_small, Z.div_small by auto. now rewrite E.
    + destruct ws as [|a ws]; cbn [length] in L; try lia. inversion_clear Hw as [|? ? Ha Hw'].
      destruct (IH ws Hw') as (vs & V & E); [lia|]. exists (a :: vs). split.
      * constructor; [|auto]. unfold value_ok. rewrite W. lia.
      * replace (arg_words (t :: ts) (a :: vs)) with (a :: arg_words ts vs) by (destruct t; try discriminate W; reflexivity).
        now rewrite E.
Qed.

(** C148, what holds: if as many registers follow the returned one as the results have words, the
    call returns, and its results are those registers' words and nothing else. *)
Theorem C148_results_confined_partial :
  forall dbg m f As xs Rs p rs s q,
    can_call dbg m f As xs Rs -> m_ip m mod 256 = 0 -> Rs <> [] ->
    asteps (m_code m) (fi_body f - m_code_base m, initial_regs dbg m (fi_nregs f) As xs) (p, rs) ->
    op_at (m_code m) p (ORet32 s) q -> s + words_taken Rs <= fi_nregs f ->
    aligned_args (frame_base dbg m (fi_nregs f) + 4 * s) Rs ->
    exists vs fuel0 m',
      Forall2 value_ok Rs vs /\
      arg_words Rs vs = firstn (Z.to_nat (words_taken Rs)) (skipn (Z.to_nat s) rs) /\
      (forall fuel, (fuel0 <= fuel)%nat -> static_call fuel dbg m f As xs Rs = Ok (vs, m')).
Proof.
  intros dbg m f As xs Rs p rs s q Hcc Hip HRs Hs Ho Hlt Hal.
  pose proof Hcc as [Hroom Hb Hv Hn Ha Hh HA HR].
  pose proof Hroom as (R1 & R2 & R3 & R4 & R5 & R6 & R7 & R8 & R9 & R10).
  pose proof (op_regs _ _ _ _ _ Ho (or_introl eq_refl)) as Hsb. unfold is_byte in Hsb.
  pose proof (initial_regs_length _ _ _ _ _ _ Hcc) as L.
  destruct (asteps_cfg _ _ _ (fi_body f - m_code_base m) Hs) as (_ & L0); [constructor|]. cbn [snd] in L0.
  assert (0 < words_taken Rs) as Hpos.
  { destruct Rs as [|t Rs]; [congruence|]. cbn [words_taken]. pose proof (words_taken_pos Rs). destruct (wide t); lia. }
  assert (exit_reg rs (ORet32 s)) as Hxr.
  { cbn. unfold reg. destruct (nth_error rs (Z.to_nat s)) eqn:E; [eauto|exfalso]. apply nth_error_None in E. lia. }
  destruct (call_reach dbg m f As Rs xs Hroom Hb Hv Hn Ha Hh HA HR p rs (ORet32 s) q
    (frame_base dbg m (fi_nregs f) + 4 * s)) as (_ & mm & _ & _ & M1 & _ & _ & _ & M5); auto.
  assert (Forall (fun w => 0 <= w < 2 ^ 32) rs) as Hrs.
  { rewrite <- M1. unfold frame_words. apply Forall_forall. intros w Hw. apply in_map_iff in Hw as (k & <- & _).
    now apply word_bound. }
  set (ws := firstn (Z.to_nat (words_taken Rs)) (skipn (Z.to_nat s) rs)).
  assert (rs = firstn (Z.to_nat s) rs ++ ws ++ skipn (Z.to_nat (words_taken Rs)) (skipn (Z.to_nat s) rs)) as Ers.
  { unfold ws. now rewrite !firstn_skipn. }
  assert (length ws = Z.to_nat (words_taken Rs)) as Lw.
  { unfold ws. rewrite firstn_length, skipn_length. lia. }
  destruct (words_of_values Rs ws) as (vs & V & E).
  { rewrite Ers in Hrs. apply Forall_app in Hrs as (_ & Hrs). now apply Forall_app in Hrs as (Hrs & _). }
  { lia. }
  destruct (C147_results_in_own_registers dbg m f As xs Rs p rs s q vs Hcc Hip HRs Hs Ho V) as (fuel0 & m' & H1 & _); [|auto|].
  - rewrite E. exists (firstn (Z.to_nat s) rs), (skipn (Z.to_nat (words_taken Rs)) (skipn (Z.to_nat s) rs)).
    split; [exact Ers|]. rewrite firstn_length. lia.
  - exists vs, fuel0, m'. auto.
Qed.
Print Assumptions C148_results_confined_partial.

(** * Instances: on a new interpreter, a function that returns its register 0 or 1. *)

Definition code147 : bytes := [13; 0; 13; 1].
Definition m147 : mach := new_interpreter (fun _ => 0) 4096 code147 65536.

Lemma ret0_at147 : op_at code147 0 (ORet32 0) 2.
Proof. split; [repeat constructor; unfold is_byte; lia|]. split; [cbn; lia|]. exists [], [13; 1]. auto. Qed.
Lemma ret1_at147 : op_at code147 2 (ORet32 1) 4.
Proof. split; [repeat constructor; unfold is_byte; lia|]. split; [cbn; lia|]. exists [13; 0], []. auto. Qed.

(** Two wide arguments come back as two wide results. *)
Example C147_instance :
  let f := mkFI (mkFT [I64; F64] [I64; F64]) 4 65536 in
  let xs := [2 ^ 63 + 5; 2 ^ 40 + 7] in
  can_call true m147 f [Int64; Double] xs [Int64; Double] /\
  stands_at (initial_regs true m147 4 [Int64; Double] xs) 0 (arg_words [Int64; Double] xs) /\
  aligned_args (frame_base true m147 4 + 4 * 0) [Int64; Double] /\
  result (static_call 3 true m147 f [Int64; Double] xs [Int64; Double]) = Ok xs.
Proof.
  cbv zeta. split; [|split; [|split]].
  - constructor; try reflexivity.
    + apply C10_new_interpreter_has_room; [lia|lia|reflexivity|cbn; lia].
    + intros a. cbn. unfold is_byte. lia.
    + repeat constructor; cbn; lia.
    + vm_compute. repeat split; discriminate.
  - exists [], []. split; vm_compute; reflexivity.
  - vm_compute. repeat split; discriminate.
  - vm_compute. reflexivity.
Qed.

(** The same function, returning register 1: the wide result is not aligned. *)
Example C147_misaligned_instance :
  let f := mkFI (mkFT [I64; F64] [I64]) 4 65538 in
  can_call true m147 f [Int64; Double] [1; 2] [Int64] /\
  ~ aligned_args (frame_base true m147 4 + 4 * 1) [Int64] /\
  static_call 3 true m147 f [Int64; Double] [1; 2] [Int64] = UB Misaligned.
Proof.
  cbv zeta. split; [|split].
  - constructor; try reflexivity.
    + apply C10_new_interpreter_has_room; [lia|lia|reflexivity|cbn; lia].
    + intros a. cbn. unfold is_byte. lia.
    + repeat constructor; cbn; lia.
    + vm_compute. repeat split; discriminate.
  - intros (H & _). specialize (H eq_refl). vm_compute in H. discriminate.
  - vm_compute. reflexivity.
Qed.

(** A function of one register that is given 9 and hands out the interpreter's stack pointer. *)
Example C148_instance :
  let f := mkFI (mkFT [I32] [I32; I64; I64]) 1 65536 in
  can_call false m147 f [Int32] [9] [Int32; Int64; Uint64] /\
  result (static_call 3 false m147 f [Int32] [9] [Int32; Int64; Uint64]) = Ok [9; 0; 6144] /\ m_sp m147 = 6144.
Proof.
  cbv zeta. split.
  - constructor; try reflexivity.
    + apply C10_new_interpreter_has_room; [lia|lia|reflexivity|cbn; lia].
    + intros a. cbn. unfold is_byte. lia.
    + repeat constructor; cbn; lia.
    + vm_compute. repeat split; discriminate.
  - split; vm_compute; reflexivity.
Qed.
