(** Memory safety of calls, results, and straight-line code. *)

From Coq Require Import ZArith List Bool Lia ZifyBool ZifyNat.
From Verif Require Import Outcome BitLemmas VarIntModel CodecModel CodecSpec InterpModel InterpSpec
  InterpProofs InterpCallProofs.
Import ListNotations.
Local Open Scope Z_scope.

(** * Safety *)

Lemma tame_bind {A B} (x : outcome A) (k : A -> outcome B) :
  at_most_overflow x -> (forall a, x = Ok a -> at_most_overflow (k a)) -> at_most_overflow (bind x k).
Proof. destruct x as [a| |[]|[]|]; cbn; intros; try contradiction; auto. Qed.

Definition tag_ok (m : mach) (n : Z) : Prop :=
  (exists f, m_func m = Some f /\ fi_nregs f = n) /\ 0 <= 4 * n < 2 ^ 32 /\ stack_ok m (m_sp m + 4 * n) 4.

Lemma read_tag_ok m n : tag_ok m n -> is_ok (read_tag m).
Proof.
  intros ((f & E & En) & Hn & Hs). unfold read_tag. rewrite E, En. rewrite Z.mod_small by lia.
  rewrite (Z.mul_comm n 4). rewrite load_ok by auto. eexists; reflexivity.
Qed.

Lemma step_safe m ip o q n : op_at (m_code m) (ip - m_code_base m) o q ->
  Forall (fun i => i < n) (regs_of o) -> frame_in m n -> tag_ok m n -> bytes_mem (m_mem m) ->
  at_most_overflow (step m ip).
Proof.
  intros Ho Hr Hf Ht Hb.
  assert (forall i, In i (regs_of o) -> reg_ok m i) as R.
  { intros i Hi. eapply frame_reg_ok; eauto. pose proof (op_regs _ _ _ _ i Ho Hi).
    rewrite Forall_forall in Hr. specialize (Hr i Hi). lia. }
  destruct (read_tag_ok m n Ht) as (tag & Et).
  destruct o.
  - erewrite step_nop by eauto. exact I.
  - erewrite step_halt by eauto. exact I.
  - erewrite step_unreachable by eauto. exact I.
  - erewrite step_return by eauto. rewrite Et. cbn [bind]. destruct (_ =? _); exact I.
  - erewrite step_ret32 by eauto. rewrite load_ok by (apply R; cbn; auto). cbn [bind]. rewrite Et. cbn [bind]. destruct (_ =? _); exact I.
  - erewrite step_goto by eauto. exact I.
  - erewrite step_goto_if; eauto; [exact I|]. apply R. cbn; auto.
  - erewrite step_goto_unless; eauto; [exact I|]. apply R. cbn; auto.
  - erewrite step_add; eauto; try (apply R; cbn; auto). destruct (_ && _); exact I.
  - erewrite step_sub; eauto; try (apply R; cbn; auto). destruct (_ && _); exact I.
Qed.

Lemma effect_bytes m ip o q m' r : effect m ip o q m' r -> bytes_mem (m_mem m) -> bytes_mem (m_mem m').
Proof.
  intros He Hb. destruct o; cbn [effect] in He; try (destruct He as (-> & _); exact Hb).
  all: destruct He as (_ & v & ->); cbn; now apply update_bytes.
Qed.

Lemma run_safe fuel : forall m ip start n, is_bytes (m_code m) ->
  own_regs (m_code m) start n -> closed (m_code m) start -> cfg (m_code m) start (ip - m_code_base m) ->
  frame_in m n -> tag_ok m n -> bytes_mem (m_mem m) ->
  at_most_overflow (run fuel m ip) /\
  (forall m' a, run fuel m ip = Ok (m', a) -> bytes_mem (m_mem m')).
Proof.
  induction fuel as [|fuel IH]; intros m ip start n Hc Hown Hcl Hcfg Hf Ht Hb; [split; [exact I|discriminate]|].
  cbn [run]. destruct (Hcl _ Hcfg) as (o & q & Ho). pose proof (Hown _ _ _ Hcfg Ho) as Hr.
  pose proof (step_safe m ip o q n Ho Hr Hf Ht Hb) as Hs.
  destruct (step m ip) as [[m1 nx]| |[]|[]|] eqn:Es; cbn in Hs |- *; try contradiction; try (split; [exact I|discriminate]).
  clear Ho Hr o q. destruct (step_inv _ _ _ _ Hc Es) as (o & q & Ho & He).
  pose proof (Hown _ _ _ Hcfg Ho) as Hr.
  pose proof (effect_same _ _ _ _ _ _ _ Ho Hr He) as Hsame. pose proof (effect_bytes _ _ _ _ _ _ He Hb) as Hb1.
  destruct nx as [ip'|a].
  - pose proof (effect_succ _ _ _ _ _ _ Ho He) as Hsucc.
    pose proof Hsame as (S1 & S2 & S3 & S4 & S5 & S6 & S7 & S8 & S9).
    apply (IH m1 ip' start n); rewrite ?S3; auto.
    + rewrite S4. eapply cfg_next; eauto.
    + eapply frame_in_same; eauto.
    + destruct Ht as (T1 & T2 & T3). split; [now rewrite S7|split;[auto|]].
      unfold stack_ok in *. now rewrite S1, S2, S5.
  - split; [exact I|]. intros m' a' [= <- <-]. exact Hb1.
Qed.

Lemma call_safe dbg m f As xs Rs fuel : can_call dbg m f As xs Rs ->
  is_bytes (m_code m) ->
  own_regs (m_code m) (fi_body f - m_code_base m) (fi_nregs f) ->
  closed (m_code m) (fi_body f - m_code_base m) ->
  Rs = [] \/ (exists t, Rs = [t] /\ wide t = false /\ returns_word (m_code m) (fi_body f - m_code_base m)) ->
  at_most_overflow (static_call fuel dbg m f As xs Rs).
Proof.
  intros [Hroom Hb Hv Hn Ha Hh HA HR] Hc Hown Hcl HRs.
  pose proof Hroom as (R1 & R2 & R3 & R4 & R5 & R6 & R7 & R8 & R9 & R10).
  destruct (frame_bytes_facts dbg) as (F1 & F2).
  pose proof (call_entry dbg m f As xs Hroom Hb Hv Hn Ha) as CE. cbv zeta in CE.
  destruct CE as (m1 & mem & E1 & E2 & Hbm & Hfw & Hsv & Hout).
  set (n := fi_nregs f) in *. set (base := frame_base dbg m n) in *.
  assert (base + 4 * n = m_sp m - frame_bytes dbg) as Eb by (unfold base, frame_base; lia).
  unfold static_call.
  rewrite (proj2 (types_match_spec As _) HA), (proj2 (types_match_spec Rs _) HR). cbn [ab_assert bind].
  fold n. rewrite E1. cbn [bind]. rewrite E2. cbn [bind].
  set (m2 := with_regs (with_func (pushed m mem base) f) (fi_body f) base 0).
  assert (frame_in m2 n) as Hfi.
  { unfold frame_in, m2; cbn [m_stack m_sp m_size with_regs with_func pushed with_mem].
    unfold base, frame_base. lia. }
  assert (tag_ok m2 n) as Htag.
  { split; [exists f; split; reflexivity|]. split; [lia|].
    apply stack_ok4; unfold m2; cbn [m_stack m_sp m_size with_regs with_func pushed with_mem]; lia. }
  unfold enter_interpreter, ab_interpret_func, ab_act.
  change (m_sp (pushed m mem base)) with base. fold m2. change (m_ip m2) with (fi_body f).
  destruct (run_safe fuel m2 (fi_body f) (fi_body f - m_code_base m) n) as (Hs & Hb'); auto; [constructor|].
  destruct (run fuel m2 (fi_body f)) as [[m3 a]| |[]|[]|] eqn:Er; cbn in Hs; try contradiction; try exact I.
  cbn [bind]. apply (run_inv fuel m2 _ _ _ (fi_body f - m_code_base m) n) in Er; auto; [|constructor].
  destruct Er as ((S1 & S2 & S3 & S4 & S5 & S6 & S7 & S8 & S9) & p & o & q & Hcfg & Ho & Ea).
  change (m_sp m2) with base in *. change (m_mem m2) with mem in *. change (m_code m2) with (m_code m) in *.
  change (m_stack m2) with (m_stack m) in *. change (m_size m2) with (m_size m) in *.
  assert ((match a with EXIT ret => Ok (m3, ret) | HALT => Ok (m3, 0) end) =
    Ok (m3, match a with EXIT z => z | HALT => 0 end)) as -> by now destruct a.
  cbn [bind]. rewrite S8. change (m_halted m2) with (m_halted m). rewrite Hh. cbn [bind].
  assert (leave_native_frame dbg m3 n = Ok (with_regs m3 (m_ip m) (m_sp m) (m_fn m))) as Hleave.
  { apply leave_ok; rewrite S5, Eb; try (rewrite ?S1, ?S2; lia).
    eapply saved_ext; [|exact Hsv]. intros x Hx. apply S9. lia. }
  destruct HRs as [->|(t & -> & Ht & Hrw)].
  - cbn [get_stack_elements get_elements bind]. unfold get_stack_elements. cbn [get_elements bind].
    fold n. rewrite Hleave. exact I.
  - pose proof (Hrw _ _ _ Hcfg Ho) as Hno. pose proof (Hown _ _ _ Hcfg Ho) as Hreg.
    destruct o; try contradiction. cbn [regs_of] in Hreg. apply Forall_inv in Hreg. cbv beta in Hreg.
    pose proof (op_regs _ _ _ _ src Ho ltac:(cbn; auto)) as Hsrc.
    subst a. unfold get_stack_elements. cbn [get_elements].
    change (nth_slot_offset 0 [t]) with 0. rewrite Z.add_0_r.
    replace (base + 4 * src =? 0) with false by (unfold base, frame_base; lia).
    rewrite sizeof_wide, Ht. rewrite load_ok.
    2: { apply stack_ok4; rewrite ?S1, ?S2; unfold base, frame_base; try lia. }
    cbn [bind]. fold n. rewrite Hleave. exact I.
Qed.

(** * Results *)

Lemma bytes_of_app mem a i j : bytes_of mem a (i + j) = bytes_of mem a i ++ bytes_of mem (a + Z.of_nat i) j.
Proof.
  induction j; [now rewrite Nat.add_0_r, app_nil_r|]. rewrite Nat.add_succ_r, !bytes_of_S, IHj, <- app_assoc.
  now rewrite Nat2Z.inj_add, Z.add_assoc.
Qed.

Lemma read8 mem a : le_value (bytes_of mem a 8) = word mem a + 2 ^ 32 * word mem (a + 4).
Proof.
  change 8%nat with (4 + 4)%nat. rewrite bytes_of_app, le_value_app, bytes_of_length. reflexivity.
Qed.

Lemma frame_words_head mem a n x l : frame_words mem a n = x :: l ->
  word mem a = x /\ exists n', n = S n' /\ frame_words mem (a + 4) n' = l.
Proof.
  destruct n as [|n]; [discriminate|]. change (S n) with (1 + n)%nat. rewrite frame_words_app.
  unfold frame_words at 1. cbn [seq map app]. rewrite Z.mul_0_r, Z.add_0_r. intros [= <- <-]. eauto.
Qed.

(** Reading back words stored in a frame. *)
Lemma get_elements_ok ts xs : Forall2 value_ok ts xs -> forall pre m base,
  m_stack m <= base -> 0 < base -> base mod 4 = 0 ->
  base + 4 * words_taken (pre ++ ts) <= m_stack m + m_size m ->
  aligned_args (base + 4 * words_taken pre) ts ->
  frame_words (m_mem m) (base + 4 * words_taken pre) (length (arg_words ts xs)) = arg_words ts xs ->
  get_elements m base (pre ++ ts) (length pre) ts = Ok xs.
Proof.
  induction 1 as [|t x ts xs Hx Hv IH]; intros pre m base H1 H0 H2 H3 H4 H5; [reflexivity|].
  cbn [get_elements]. rewrite slot_offset. replace (base =? 0) with false by lia.
  destruct H4 as (Ha & H4). rewrite words_taken_app in H3. cbn [words_taken] in H3.
  pose proof (words_taken_pos pre) as Hp. pose proof (words_taken_pos ts) as Ht.
  set (a := base + 4 * words_taken pre) in *.
  assert (a mod 4 = 0) as Ha4.
  { unfold a. rewrite (Z.mul_comm 4), Z_mod_plus_full. auto. }
  rewrite load_ok.
  2: { rewrite sizeof_wide. destruct (wide t); [apply stack_ok8|apply stack_ok4]; auto; unfold a; lia. }
  cbn [bind].
  replace (S (length pre)) with (length (pre ++ [t])) by (rewrite app_length; cbn; lia).
  replace (pre ++ t :: ts) with ((pre ++ [t]) ++ ts) by now rewrite <- app_assoc.
  assert (base + 4 * words_taken (pre ++ [t]) = a + if wide t then 8 else 4) as E1.
  { rewrite words_taken_app. cbn [words_taken]. unfold a. destruct (wide t); lia. }
  unfold value_ok in Hx. rewrite sizeof_wide. destruct (wide t) eqn:W.
  - assert (arg_words (t :: ts) (x :: xs) = x mod 2 ^ 32 :: x / 2 ^ 32 :: arg_words ts xs) as Eq
      by (destruct t; try discriminate; reflexivity).
    rewrite Eq in H5. apply frame_words_head in H5 as (W1 & n' & En & H5).
    apply frame_words_head in H5 as (W2 & n'' & En' & H5). cbn [length] in En.
    replace n'' with (length (arg_words ts xs)) in H5 by lia.
    rewrite (IH (pre ++ [t]) m base); auto.
    + cbn [bind]. rewrite read8, W1, W2. do 2 f_equal. pose proof (Z.div_mod x (2 ^ 32)). lia.
    + rewrite !words_taken_app. cbn [words_taken]. rewrite W. lia.
    + now rewrite E1.
    + rewrite E1. replace (a + 8) with (a + 4 + 4) by lia. exact H5.
  - assert (arg_words (t :: ts) (x :: xs) = x :: arg_words ts xs) as Eq
      by (destruct t; try discriminate; reflexivity).
    rewrite Eq in H5. apply frame_words_head in H5 as (W1 & n' & En & H5). cbn [length] in En.
    replace n' with (length (arg_words ts xs)) in H5 by lia.
    rewrite (IH (pre ++ [t]) m base); auto.
    + cbn [bind]. fold (word (m_mem m) a). now rewrite W1.
    + rewrite !words_taken_app. cbn [words_taken]. rewrite W. lia.
    + now rewrite E1.
    + rewrite E1. exact H5.
Qed.

(** * Straight-line code *)

Lemma bytes_at_split code p g1 g2 p' : bytes_at code p (g1 ++ g2) p' ->
  bytes_at code p g1 (p + Z.of_nat (length g1)) /\ bytes_at code (p + Z.of_nat (length g1)) g2 p'.
Proof.
  intros (pre & post & -> & <- & ->). split.
  - exists pre, (g2 ++ post). rewrite <- app_assoc. auto.
  - exists (pre ++ g1), post. rewrite !app_length, <- !app_assoc. repeat split; auto; lia.
Qed.

Lemma eval_asteps code is : Forall insn_fits is -> forall p p' rs v,
  bytes_at code p (flat_map insn_code is) p' -> eval is rs = Some v ->
  exists p1 rs1 s q, asteps code (p, rs) (p1, rs1) /\ op_at code p1 (ORet32 s) q /\ reg rs1 s v.
Proof.
  induction 1 as [|i is Hi His IH]; intros p p' rs v Hb He; [discriminate|].
  cbn [flat_map] in Hb. apply bytes_at_split in Hb as (B1 & B2).
  destruct i; cbn [eval] in He; try discriminate.
  - destruct (IH _ _ _ _ B2 He) as (p1 & rs1 & s & q & H1 & H2 & H3).
    exists p1, rs1, s, q. split; [|auto]. eapply as_step; [|exact H1]. apply a_nop.
    split; [constructor|]. split; [cbn; lia|exact B1].
  - destruct (nth_error rs (Z.to_nat dst)) as [w|] eqn:Ed; [|discriminate].
    destruct (nth_error rs (Z.to_nat lhs)) as [x|] eqn:El; [|discriminate].
    destruct (nth_error rs (Z.to_nat rhs)) as [y|] eqn:Er; [|discriminate].
    destruct ((- 2 ^ 31 <=? signed x + signed y) && (signed x + signed y <? 2 ^ 31)) eqn:Eo; [|discriminate].
    destruct (IH _ _ _ _ B2 He) as (p1 & rs1 & s & q & H1 & H2 & H3).
    exists p1, rs1, s, q. split; [|auto]. eapply as_step; [|exact H1].
    assert (op_at code p (OAdd dst lhs rhs) (p + Z.of_nat (length (insn_code (I32Add dst lhs rhs))))) as Hop.
    { destruct Hi as (I1 & I2 & I3). split; [|split; [cbn; lia|exact B1]].
      repeat (apply Forall_cons; [assumption|]). apply Forall_nil. }
    eapply a_add; try exact Hop; eauto. unfold in_i32. lia.
  - exists p, rs, src, (p + 2). split; [constructor|]. split; [|exact He].
    split; [apply Forall_cons; [exact Hi|apply Forall_nil]|]. split; [cbn; lia|exact B1].
Qed.
