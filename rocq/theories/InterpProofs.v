(** Proofs about the interpreter. *)

From Coq Require Import ZArith List Bool Lia ZifyBool ZifyNat.
From Verif Require Import Outcome BitLemmas VarIntModel CodecModel CodecSpec InterpModel InterpSpec.
From Verif Require CodecProofs.
Import ListNotations.
Local Open Scope Z_scope.

(** * Lists *)

Lemma list_ext {A} (l l' : list A) : (forall i, nth_error l i = nth_error l' i) -> l = l'.
Proof.
  revert l'. induction l as [|x l IH]; intros [|y l'] H.
  - reflexivity.
  - specialize (H O). discriminate.
  - specialize (H O). discriminate.
  - f_equal; [specialize (H O); cbn in H; congruence|]. apply IH. intros i. apply (H (S i)).
Qed.

Lemma put_length rs i v : length (put rs i v) = length rs.
Proof. revert i; induction rs; intros [|i]; cbn; auto. Qed.

Lemma put_nth rs i v j : (i < length rs)%nat ->
  nth_error (put rs i v) j = if Nat.eqb i j then Some v else nth_error rs j.
Proof.
  revert i j; induction rs as [|r rs IH]; intros [|i] [|j] H; cbn in *; try lia; auto.
  apply IH. lia.
Qed.

Lemma nth_error_firstn_lt {A} (l : list A) n i : (i < n)%nat -> nth_error (firstn n l) i = nth_error l i.
Proof. revert n i; induction l; intros [|n] [|i] H; cbn; try lia; auto. apply IHl. lia. Qed.

Lemma nth_error_skipn_add {A} (l : list A) n i : nth_error (skipn n l) i = nth_error l (n + i).
Proof. revert n; induction l; intros [|n]; cbn; auto. now destruct i. Qed.

Lemma skipn_add {A} (l : list A) n k : skipn (n + k) l = skipn k (skipn n l).
Proof. revert l; induction n; intros [|x l]; cbn; auto. now rewrite skipn_nil. Qed.

(** * Memory *)

Lemma le_value_app a b : le_value (a ++ b) = le_value a + 256 ^ Z.of_nat (length a) * le_value b.
Proof.
  induction a as [|x a IH]; cbn [le_value app length].
  - rewrite Z.pow_0_r. lia.
  - rewrite IH. rewrite Nat2Z.inj_succ, Z.pow_succ_r by lia. ring.
Qed.

Lemma bytes_of_S mem a n : bytes_of mem a (S n) = bytes_of mem a n ++ [mem (a + Z.of_nat n)].
Proof. unfold bytes_of. rewrite seq_S, map_app. reflexivity. Qed.

Lemma bytes_of_length mem a n : length (bytes_of mem a n) = n.
Proof. unfold bytes_of. now rewrite map_length, seq_length. Qed.

(** Reading inside a written range gives the digits. *)
Lemma read_update mem a n v k j : 0 <= k -> k + Z.of_nat j <= Z.of_nat n ->
  le_value (bytes_of (update mem a n v) (a + k) j) = v / 2 ^ (8 * k) mod 2 ^ (8 * Z.of_nat j).
Proof.
  intros Hk. induction j as [|j IH]; intros H.
  - cbn. now rewrite Z.mod_1_r.
  - rewrite bytes_of_S, le_value_app, IH by lia. rewrite bytes_of_length. cbn [le_value].
    unfold update. replace ((a <=? a + k + Z.of_nat j) && (a + k + Z.of_nat j <? a + Z.of_nat n)) with true by lia.
    replace (a + k + Z.of_nat j - a) with (k + Z.of_nat j) by lia.
    rewrite Nat2Z.inj_succ. replace (8 * Z.succ (Z.of_nat j)) with (8 * Z.of_nat j + 8) by lia.
    rewrite (Z.pow_add_r 2 (8 * Z.of_nat j)) by lia.
    rewrite Z.rem_mul_r by (try apply Z.pow_nonzero; lia).
    rewrite Z.div_div by (try apply Z.pow_nonzero; try apply Z.pow_pos_nonneg; lia).
    rewrite <- Z.pow_add_r by lia. replace (8 * k + 8 * Z.of_nat j) with (8 * (k + Z.of_nat j)) by lia.
    replace (2 ^ (8 * Z.of_nat j)) with (256 ^ Z.of_nat j).
    2: { replace 256 with (2 ^ 8) by reflexivity. now rewrite <- Z.pow_mul_r by lia. }
    change (2 ^ 8) with 256. ring.
Qed.

Lemma read_update_same mem a n v : 0 <= v < 2 ^ (8 * Z.of_nat n) ->
  le_value (bytes_of (update mem a n v) a n) = v.
Proof.
  intros H. pose proof (read_update mem a n v 0 n ltac:(lia) ltac:(lia)) as E.
  rewrite Z.add_0_r in E. rewrite E. rewrite Z.mul_0_r, Z.pow_0_r, Z.div_1_r. now apply Z.mod_small.
Qed.

Lemma bytes_of_ext mem mem' a n : (forall x, a <= x < a + Z.of_nat n -> mem x = mem' x) ->
  bytes_of mem a n = bytes_of mem' a n.
Proof.
  intros H. unfold bytes_of. apply map_ext_in. intros i Hi. apply in_seq in Hi. apply H. lia.
Qed.

Lemma update_out mem a n v x : ~ (a <= x < a + Z.of_nat n) -> update mem a n v x = mem x.
Proof. intros H. unfold update. replace ((a <=? x) && (x <? a + Z.of_nat n)) with false by lia. auto. Qed.

Lemma update_word_in mem a v : 0 <= v < 2 ^ 32 -> word (update mem a 4 v) a = v.
Proof. intros. unfold word. apply read_update_same. exact H. Qed.

Lemma word_ext mem mem' a : (forall x, a <= x < a + 4 -> mem x = mem' x) -> word mem a = word mem' a.
Proof. intros H. unfold word. f_equal. apply bytes_of_ext. auto. Qed.

Lemma update_word_out mem a n v b : b + 4 <= a \/ a + Z.of_nat n <= b ->
  word (update mem a n v) b = word mem b.
Proof. intros H. apply word_ext. intros x Hx. apply update_out. lia. Qed.

Lemma frame_words_nth mem sp n k : nth_error (frame_words mem sp n) k =
  if Nat.ltb k n then Some (word mem (sp + 4 * Z.of_nat k)) else None.
Proof.
  unfold frame_words. destruct (Nat.ltb_spec k n).
  - rewrite nth_error_map. rewrite (nth_error_nth' _ 0%nat) by (rewrite seq_length; lia).
    rewrite seq_nth by lia. reflexivity.
  - apply nth_error_None. rewrite map_length, seq_length. lia.
Qed.

Lemma frame_words_length mem sp n : length (frame_words mem sp n) = n.
Proof. unfold frame_words. now rewrite map_length, seq_length. Qed.

Lemma frame_words_ext mem mem' sp n :
  (forall a, sp <= a < sp + 4 * Z.of_nat n -> mem a = mem' a) ->
  frame_words mem sp n = frame_words mem' sp n.
Proof.
  intros H. unfold frame_words. apply map_ext_in. intros k Hk. apply in_seq in Hk.
  apply word_ext. intros x Hx. apply H. lia.
Qed.

Lemma frame_words_put mem sp n d v : (d < n)%nat -> 0 <= v < 2 ^ 32 ->
  frame_words (update mem (sp + 4 * Z.of_nat d) 4 v) sp n = put (frame_words mem sp n) d v.
Proof.
  intros Hd Hv. apply list_ext. intros j. rewrite put_nth by (rewrite frame_words_length; lia).
  rewrite !frame_words_nth. destruct (Nat.eqb_spec d j) as [->|N].
  - replace (Nat.ltb j n) with true by (symmetry; apply Nat.ltb_lt; lia).
    now rewrite update_word_in.
  - destruct (Nat.ltb_spec j n); [|auto]. rewrite update_word_out; [auto|]. lia.
Qed.

Lemma frame_words_app mem sp a b :
  frame_words mem sp (a + b) = frame_words mem sp a ++ frame_words mem (sp + 4 * Z.of_nat a) b.
Proof.
  apply list_ext. intros j. rewrite frame_words_nth. destruct (Nat.ltb_spec j a).
  - rewrite nth_error_app1 by (rewrite frame_words_length; lia). rewrite frame_words_nth.
    replace (Nat.ltb j a) with true by (symmetry; apply Nat.ltb_lt; lia).
    replace (Nat.ltb j (a + b)) with true by (symmetry; apply Nat.ltb_lt; lia). auto.
  - rewrite nth_error_app2 by (rewrite frame_words_length; lia). rewrite frame_words_length, frame_words_nth.
    destruct (Nat.ltb_spec (j - a) b).
    + replace (Nat.ltb j (a + b)) with true by (symmetry; apply Nat.ltb_lt; lia).
      do 2 f_equal. lia.
    + replace (Nat.ltb j (a + b)) with false by (symmetry; apply Nat.ltb_ge; lia). auto.
Qed.

Definition bytes_mem (mem : memory) := forall a, is_byte (mem a).

Lemma le_value_bound bs : is_bytes bs -> 0 <= le_value bs < 256 ^ Z.of_nat (length bs).
Proof.
  induction 1 as [|b bs Hb _ IH]; cbn [le_value length]; [rewrite Z.pow_0_r; lia|].
  rewrite Nat2Z.inj_succ, Z.pow_succ_r by lia. unfold is_byte in Hb. lia.
Qed.

Lemma word_bound mem a : bytes_mem mem -> 0 <= word mem a < 2 ^ 32.
Proof.
  intros H. unfold word. pose proof (le_value_bound (bytes_of mem a 4)) as B.
  rewrite bytes_of_length in B. apply B. unfold bytes_of. apply Forall_forall.
  intros x Hx. apply in_map_iff in Hx as (i & <- & _). apply H.
Qed.

Lemma update_bytes mem a n v : bytes_mem mem -> bytes_mem (update mem a n v).
Proof.
  intros H x. unfold update. destruct (_ && _); [|apply H]. unfold is_byte. apply Z.mod_pos_bound. lia.
Qed.

(** * Stack accesses *)

Definition stack_ok (m : mach) (a : Z) (n : nat) : Prop :=
  m_stack m <= a /\ a + Z.of_nat n <= m_stack m + m_size m /\ a mod Z.of_nat n = 0.

Lemma check_stack_ok m a n : check_stack m a n = Ok tt <-> stack_ok m a n.
Proof.
  unfold check_stack, stack_ok.
  destruct ((m_stack m <=? a) && (a + Z.of_nat n <=? m_stack m + m_size m)) eqn:E; cbn [negb].
  - destruct (Z.eqb_spec (a mod Z.of_nat n) 0); cbn [negb]; split; intros H; try discriminate; auto; lia.
  - split; [discriminate|lia].
Qed.

Lemma load_ok m a n : stack_ok m a n -> load_stack m a n = Ok (le_value (bytes_of (m_mem m) a n)).
Proof. intros H. unfold load_stack. apply check_stack_ok in H. now rewrite H. Qed.

Lemma store_ok m a n v : stack_ok m a n -> store_stack m a n v = Ok (with_mem m (update (m_mem m) a n v)).
Proof. intros H. unfold store_stack. apply check_stack_ok in H. now rewrite H. Qed.

Lemma load_inv m a n v : load_stack m a n = Ok v -> stack_ok m a n /\ v = le_value (bytes_of (m_mem m) a n).
Proof.
  unfold load_stack. destruct (check_stack m a n) as [[]| | | |] eqn:E; cbn; try discriminate.
  intros [= <-]. apply check_stack_ok in E. auto.
Qed.

Lemma store_inv m a n v m' : store_stack m a n v = Ok m' ->
  stack_ok m a n /\ m' = with_mem m (update (m_mem m) a n v).
Proof.
  unfold store_stack. destruct (check_stack m a n) as [[]| | | |] eqn:E; cbn; try discriminate.
  intros [= <-]. apply check_stack_ok in E. auto.
Qed.

(** * Fetching code *)

Lemma u8_at_nth m p b : nth_error (m_code m) (Z.to_nat p) = Some b -> 0 <= p ->
  u8_at m (m_code_base m + p) = Ok b.
Proof.
  intros H Hp. unfold u8_at.
  assert (Z.to_nat p < length (m_code m))%nat by (apply nth_error_Some; congruence).
  replace ((m_code_base m <=? m_code_base m + p) &&
    (m_code_base m + p <? m_code_base m + Z.of_nat (length (m_code m)))) with true by lia.
  cbn [negb]. replace (m_code_base m + p - m_code_base m) with p by lia. now rewrite H.
Qed.

Lemma bytes_at_nth code p g p' i b : bytes_at code p g p' -> nth_error g i = Some b ->
  nth_error code (Z.to_nat (p + Z.of_nat i)) = Some b.
Proof.
  intros (pre & post & -> & <- & _) H.
  assert (i < length g)%nat by (apply nth_error_Some; congruence).
  replace (Z.to_nat (Z.of_nat (length pre) + Z.of_nat i)) with (length pre + i)%nat by lia.
  rewrite nth_error_app2 by lia. replace (length pre + i - length pre)%nat with i by lia.
  now rewrite nth_error_app1 by lia.
Qed.

Lemma to_signed_off off : -128 <= off < 128 -> to_signed 8 (off mod 256) = off.
Proof.
  intros H. unfold to_signed. change (2 ^ 8) with 256. change (2 ^ (8 - 1)) with 128.
  rewrite Z.mod_mod by lia.
  destruct (Z.ltb_spec off 0).
  - assert (off mod 256 = off + 256) as ->.
    { symmetry. apply (Z.mod_unique off 256 (-1)); lia. }
    replace (off + 256 <? 128) with false by lia. lia.
  - rewrite Z.mod_small by lia. replace (off <? 128) with true by lia. lia.
Qed.

(** Operand [i] of an instruction at [ip]. *)
Lemma fetch m ip g p' i b : bytes_at (m_code m) (ip - m_code_base m) g p' -> nth_error g i = Some b ->
  u8_at m (ip + Z.of_nat i) = Ok b.
Proof.
  intros H Hi. pose proof (bytes_at_nth _ _ _ _ _ _ H Hi) as N.
  assert (0 <= ip - m_code_base m) by (destruct H as (pre & post & _ & <- & _); lia).
  pose proof (u8_at_nth m _ _ N ltac:(lia)) as U.
  replace (m_code_base m + (ip - m_code_base m + Z.of_nat i)) with (ip + Z.of_nat i) in U by lia. exact U.
Qed.

Lemma signed_to_signed w : 0 <= w < 2 ^ 32 -> to_signed 32 w = signed w.
Proof. intros H. unfold to_signed, signed. rewrite Z.mod_small by lia. reflexivity. Qed.

Lemma signed_mod w : exists k, signed w = w + k * 2 ^ 32.
Proof. unfold signed. destruct (w <? 2 ^ 31); [exists 0|exists (-1)]; lia. Qed.

Lemma signed_sum_mod x y : (signed x + signed y) mod 2 ^ 32 = (x + y) mod 2 ^ 32.
Proof.
  destruct (signed_mod x) as (k & ->). destruct (signed_mod y) as (j & ->).
  replace (x + k * 2 ^ 32 + (y + j * 2 ^ 32)) with (x + y + (k + j) * 2 ^ 32) by ring.
  apply Z_mod_plus_full.
Qed.
Lemma signed_diff_mod x y : (signed x - signed y) mod 2 ^ 32 = (x - y) mod 2 ^ 32.
Proof.
  destruct (signed_mod x) as (k & ->). destruct (signed_mod y) as (j & ->).
  replace (x + k * 2 ^ 32 - (y + j * 2 ^ 32)) with (x - y + (k - j) * 2 ^ 32) by ring.
  apply Z_mod_plus_full.
Qed.

Lemma i32_result_ok v : in_i32 v -> i32_result v = Ok (v mod 2 ^ 32).
Proof.
  intros H. unfold i32_result, in_i32 in *.
  now replace ((- 2 ^ 31 <=? v) && (v <? 2 ^ 31)) with true by lia.
Qed.

Ltac fetch0 H :=
  let F := fresh "F" in
  pose proof (fetch _ _ _ _ 0%nat _ H eq_refl) as F; cbn [Z.of_nat] in F; rewrite Z.add_0_r in F;
  rewrite F; clear F; cbn [bind].
Ltac fetchn H i := 
  let F := fresh "F" in
  pose proof (fetch _ _ _ _ i _ H eq_refl) as F; cbn [Z.of_nat Pos.of_succ_nat Pos.succ] in F; rewrite F; clear F; cbn [bind].

(** * One step *)

Definition reg_ok (m : mach) (i : Z) : Prop := stack_ok m (m_sp m + 4 * i) 4.

Lemma load_reg m i : reg_ok m i -> load_stack m (reg_addr (m_sp m) i) 4 = Ok (word (m_mem m) (m_sp m + 4 * i)).
Proof.
  intros H. unfold reg_addr, SIZEOF_SLOT. replace (i * 4) with (4 * i) by lia. now rewrite load_ok.
Qed.
Lemma store_reg m i v : reg_ok m i -> store_stack m (reg_addr (m_sp m) i) 4 v =
  Ok (with_mem m (update (m_mem m) (m_sp m + 4 * i) 4 v)).
Proof.
  intros H. unfold reg_addr, SIZEOF_SLOT. replace (i * 4) with (4 * i) by lia. now rewrite store_ok.
Qed.

Section Steps.
Variables (m : mach) (ip q : Z).
Hypothesis Hmem : bytes_mem (m_mem m).
Let cb := m_code_base m.

Lemma step_nop : op_at (m_code m) (ip - cb) ONop q -> step m ip = Ok (m, inl (cb + q)).
Proof.
  intros (_ & _ & H). unfold step. fetch0 H. cbn. do 3 f_equal.
  destruct H as (? & ? & _ & _ & ->). cbn. lia.
Qed.

Lemma step_goto off : op_at (m_code m) (ip - cb) (OGoto off) q -> step m ip = Ok (m, inl (cb + q + off)).
Proof.
  intros (_ & Ho & H). unfold step. fetch0 H. unfold i8_at. fetchn H 1%nat.
  cbn [Z.eqb Pos.eqb]. cbn in Ho. rewrite to_signed_off by auto. do 3 f_equal.
  destruct H as (? & ? & _ & _ & ->). cbn. lia.
Qed.

Lemma step_goto_if t off : op_at (m_code m) (ip - cb) (OGotoIf t off) q -> reg_ok m t ->
  step m ip = Ok (m, inl (if word (m_mem m) (m_sp m + 4 * t) =? 0 then cb + q else cb + q + off)).
Proof.
  intros (_ & Ho & H) Ht. unfold step. fetch0 H. unfold i8_at. fetchn H 1%nat. fetchn H 2%nat.
  cbn [Z.eqb Pos.eqb]. cbn in Ho. rewrite to_signed_off by auto. rewrite load_reg by auto. cbn [bind].
  do 3 f_equal. destruct H as (? & ? & _ & _ & ->).
  destruct (word (m_mem m) (m_sp m + 4 * t) =? 0); cbn; lia.
Qed.

Lemma step_goto_unless t off : op_at (m_code m) (ip - cb) (OGotoUnless t off) q -> reg_ok m t ->
  step m ip = Ok (m, inl (if word (m_mem m) (m_sp m + 4 * t) =? 0 then cb + q + off else cb + q)).
Proof.
  intros (_ & Ho & H) Ht. unfold step. fetch0 H. unfold i8_at. fetchn H 1%nat. fetchn H 2%nat.
  cbn [Z.eqb Pos.eqb]. cbn in Ho. rewrite to_signed_off by auto. rewrite load_reg by auto. cbn [bind].
  do 3 f_equal. destruct H as (? & ? & _ & _ & ->).
  destruct (word (m_mem m) (m_sp m + 4 * t) =? 0); cbn; lia.
Qed.

Lemma step_add d l r : op_at (m_code m) (ip - cb) (OAdd d l r) q ->
  reg_ok m d -> reg_ok m l -> reg_ok m r ->
  let x := word (m_mem m) (m_sp m + 4 * l) in let y := word (m_mem m) (m_sp m + 4 * r) in
  step m ip =
    if (- 2 ^ 31 <=? signed x + signed y) && (signed x + signed y <? 2 ^ 31)
    then Ok (with_mem m (update (m_mem m) (m_sp m + 4 * d) 4 ((x + y) mod 2 ^ 32)), inl (cb + q))
    else UB SignedOverflow.
Proof.
  intros (_ & _ & H) Hd Hl Hr. cbv zeta. unfold step. fetch0 H. fetchn H 1%nat. fetchn H 2%nat. fetchn H 3%nat.
  cbn [Z.eqb Pos.eqb]. rewrite !load_reg by auto. cbn [bind].
  rewrite !signed_to_signed by now apply word_bound. unfold i32_result.
  destruct ((- 2 ^ 31 <=? _) && (_ <? 2 ^ 31)); cbn [bind]; [|reflexivity].
  rewrite store_reg by auto. cbn [bind]. rewrite signed_sum_mod. do 3 f_equal.
  destruct H as (? & ? & _ & _ & ->). cbn. lia.
Qed.

Lemma step_sub d l r : op_at (m_code m) (ip - cb) (OSub d l r) q ->
  reg_ok m d -> reg_ok m l -> reg_ok m r ->
  let x := word (m_mem m) (m_sp m + 4 * l) in let y := word (m_mem m) (m_sp m + 4 * r) in
  step m ip =
    if (- 2 ^ 31 <=? signed x - signed y) && (signed x - signed y <? 2 ^ 31)
    then Ok (with_mem m (update (m_mem m) (m_sp m + 4 * d) 4 ((x - y) mod 2 ^ 32)), inl (cb + q))
    else UB SignedOverflow.
Proof.
  intros (_ & _ & H) Hd Hl Hr. cbv zeta. unfold step. fetch0 H. fetchn H 1%nat. fetchn H 2%nat. fetchn H 3%nat.
  cbn [Z.eqb Pos.eqb]. rewrite !load_reg by auto. cbn [bind].
  rewrite !signed_to_signed by now apply word_bound. unfold i32_result.
  destruct ((- 2 ^ 31 <=? _) && (_ <? 2 ^ 31)); cbn [bind]; [|reflexivity].
  rewrite store_reg by auto. cbn [bind]. rewrite signed_diff_mod. do 3 f_equal.
  destruct H as (? & ? & _ & _ & ->). cbn. lia.
Qed.
End Steps.

(** Instructions that end the run. *)
Section Exits.
Variables (m : mach) (ip q : Z).
Let cb := m_code_base m.

Lemma step_unreachable : op_at (m_code m) (ip - cb) OUnreachable q ->
  step m ip = Ok (with_error (commit m ip), inr (EXIT 0)).
Proof. intros (_ & _ & H). unfold step. fetch0 H. reflexivity. Qed.

Lemma step_halt : op_at (m_code m) (ip - cb) OHalt q -> step m ip = Ok (commit m ip, inr HALT).
Proof. intros (_ & _ & H). unfold step. fetch0 H. reflexivity. Qed.

Lemma step_return : op_at (m_code m) (ip - cb) OReturn q ->
  step m ip = do tag <- read_tag m;
              if frame_kind tag =? NATIVE then Ok (commit m ip, inr (EXIT 0)) else Trap Assertion.
Proof. intros (_ & _ & H). unfold step. fetch0 H. reflexivity. Qed.

Lemma step_ret32 s : op_at (m_code m) (ip - cb) (ORet32 s) q ->
  step m ip = do _ <- load_stack m (m_sp m + 4 * s) 4;
              do tag <- read_tag m;
              if frame_kind tag =? NATIVE then Ok (commit m ip, inr (EXIT (m_sp m + 4 * s))) else Trap Assertion.
Proof.
  intros (_ & _ & H). unfold step. fetch0 H. fetchn H 1%nat. cbn [Z.eqb Pos.eqb].
  unfold reg_addr, SIZEOF_SLOT. now replace (s * 4) with (4 * s) by lia.
Qed.
End Exits.

(** * Inversion: a step that succeeds executes an instruction *)

Lemma u8_at_inv m a b : u8_at m a = Ok b ->
  nth_error (m_code m) (Z.to_nat (a - m_code_base m)) = Some b /\ 0 <= a - m_code_base m.
Proof.
  unfold u8_at. destruct (negb _) eqn:E; [discriminate|].
  destruct (nth_error _ _) eqn:N; [|discriminate]. intros [= <-]. split; [auto|lia].
Qed.

(** Consecutive bytes at a position. *)
Lemma bytes_at_of_nth code p g : 0 <= p ->
  (forall i b, nth_error g i = Some b -> nth_error code (Z.to_nat (p + Z.of_nat i)) = Some b) ->
  g <> [] -> bytes_at code p g (p + Z.of_nat (length g)).
Proof.
  intros Hp H Hg. exists (firstn (Z.to_nat p) code), (skipn (Z.to_nat p + length g) code).
  assert (Z.to_nat p < length code)%nat.
  { destruct g as [|b g]; [congruence|]. specialize (H O b eq_refl). apply nth_error_Some.
    replace (Z.to_nat (p + Z.of_nat 0)) with (Z.to_nat p) in H by lia. congruence. }
  split; [|split; [rewrite firstn_length; lia|reflexivity]].
  rewrite <- (firstn_skipn (Z.to_nat p) code) at 1. f_equal.
  rewrite <- (firstn_skipn (length g) (skipn (Z.to_nat p) code)). f_equal.
  - apply list_ext. intros i. destruct (Nat.ltb_spec i (length g)).
    + destruct (nth_error g i) as [b|] eqn:E; [|apply nth_error_None in E; lia].
      specialize (H i b E).
      rewrite nth_error_firstn_lt by auto. rewrite nth_error_skipn_add.
      rewrite <- H. f_equal. lia.
    + rewrite (proj2 (nth_error_None g i)) by lia. apply nth_error_None. rewrite firstn_length. lia.
  - now rewrite skipn_add.
Qed.

(** What a successful step of instruction [o], ending at [q], does. *)
Definition effect (m : mach) (ip : Z) (o : op) (q : Z) (m' : mach) (r : Z + action) : Prop :=
  match o with
  | ONop => m' = m /\ r = inl (m_code_base m + q)
  | OGoto off => m' = m /\ r = inl (m_code_base m + q + off)
  | OGotoIf t off | OGotoUnless t off =>
    m' = m /\ (r = inl (m_code_base m + q) \/ r = inl (m_code_base m + q + off))
  | OAdd d _ _ | OSub d _ _ =>
    r = inl (m_code_base m + q) /\
    exists v, m' = with_mem m (update (m_mem m) (m_sp m + 4 * d) 4 v)
  | OHalt => m' = commit m ip /\ r = inr HALT
  | OUnreachable => m' = with_error (commit m ip) /\ r = inr (EXIT 0)
  | OReturn => m' = commit m ip /\ r = inr (EXIT 0)
  | ORet32 s => m' = commit m ip /\ r = inr (EXIT (m_sp m + 4 * s))
  end.

Lemma nth_bytes code i b : is_bytes code -> nth_error code i = Some b -> is_byte b.
Proof. intros H E. eapply Forall_forall in H; [exact H|]. eapply nth_error_In; eauto. Qed.

Lemma to_signed_8 b : is_byte b -> -128 <= to_signed 8 b < 128 /\ to_signed 8 b mod 256 = b.
Proof.
  unfold is_byte, to_signed. intros H. change (2 ^ 8) with 256. change (2 ^ (8 - 1)) with 128.
  rewrite Z.mod_small by lia. destruct (Z.ltb_spec b 128).
  - split; [lia|]. apply Z.mod_small. lia.
  - split; [lia|]. symmetry. apply (Z.mod_unique _ _ (-1)); lia.
Qed.

Lemma op_at_intro code p o : 0 <= p -> is_bytes code -> enc o <> [] ->
  Forall is_byte (regs_of o) -> -128 <= off_of o < 128 ->
  (forall i b, nth_error (enc o) i = Some b -> nth_error code (Z.to_nat (p + Z.of_nat i)) = Some b) ->
  op_at code p o (p + Z.of_nat (length (enc o))).
Proof. intros. split; [auto|split;[auto|]]. now apply bytes_at_of_nth. Qed.

Lemma step_inv m ip m' r : is_bytes (m_code m) -> step m ip = Ok (m', r) ->
  exists o q, op_at (m_code m) (ip - m_code_base m) o q /\ effect m ip o q m' r.
Proof.
  intros Hc H. unfold step in H.
  apply bind_ok in H as (opc & F0 & H). apply u8_at_inv in F0 as (N0 & Hp).
  assert (forall i b, 0 <= i -> u8_at m (ip + i) = Ok b ->
    nth_error (m_code m) (Z.to_nat (ip - m_code_base m + i)) = Some b /\ is_byte b) as Fi.
  { intros i b Hi E. apply u8_at_inv in E as (E & _).
    replace (ip - m_code_base m + i) with (ip + i - m_code_base m) by lia.
    split; [auto|]. eapply nth_bytes; eauto. }
  assert (forall i b, 0 <= i -> i8_at m (ip + i) = Ok b -> 
    nth_error (m_code m) (Z.to_nat (ip - m_code_base m + i)) = Some (b mod 256) /\ -128 <= b < 128) as Gi.
  { intros i b Hi E. unfold i8_at in E. apply bind_ok in E as (c & E & [= <-]).
    apply Fi in E as (E & B); auto. apply to_signed_8 in B as (B1 & B2). rewrite B2. auto. }
  set (cb := m_code_base m) in *. set (code := m_code m) in *.
  Ltac nth_enc := intros [|[|[|[|i]]]] b; cbn [nth_error enc]; intros E;
    try (destruct i; discriminate E); try discriminate E; injection E as <-;
    first [ eassumption | rewrite Z.add_0_r; eassumption | idtac ].
  Ltac mk o := exists o; eexists; split; [apply op_at_intro; [assumption|assumption|discriminate|cbn [regs_of]; auto|cbn [off_of]; lia|nth_enc]|].
  destruct (Z.eqb_spec opc 0) as [->|].
  { injection H as <- <-. mk OUnreachable. cbn; auto. }
  destruct (Z.eqb_spec opc 1) as [->|].
  { injection H as <- <-. mk ONop. cbn; split; auto. f_equal; lia. }
  destruct (Z.eqb_spec opc 4) as [->|].
  { injection H as <- <-. mk OHalt. cbn; auto. }
  destruct (Z.eqb_spec opc 12) as [->|].
  { inv_ok. destruct (_ =? _) in Hk; [|discriminate]. injection Hk as <- <-. mk OReturn. cbn; auto. }
  destruct (Z.eqb_spec opc 13) as [->|].
  { apply bind_ok in H as (idx & E1 & H). apply (Fi 1) in E1 as (E1 & B1); [|lia].
    apply bind_ok in H as (? & _ & H). inv_ok. destruct (_ =? _) in Hk; [|discriminate]. injection Hk as <- <-.
    mk (ORet32 idx). cbn; split; auto. unfold reg_addr, SIZEOF_SLOT. now replace (idx * 4) with (4 * idx) by lia. }
  destruct (Z.eqb_spec opc 22) as [->|].
  { apply bind_ok in H as (off & E1 & H). apply (Gi 1) in E1 as (E1 & B1); [|lia].
    injection H as <- <-. mk (OGoto off). cbn; split; auto. f_equal. lia. }
  destruct (Z.eqb_spec opc 23) as [->|].
  { apply bind_ok in H as (idx & E1 & H). apply (Fi 1) in E1 as (E1 & B1); [|lia].
    apply bind_ok in H as (off & E2 & H). apply (Gi 2) in E2 as (E2 & B2); [|lia].
    apply bind_ok in H as (val & _ & [= <- <-]). mk (OGotoIf idx off). cbn; split; auto.
    destruct (negb _); [right|left]; f_equal; lia. }
  destruct (Z.eqb_spec opc 24) as [->|].
  { apply bind_ok in H as (idx & E1 & H). apply (Fi 1) in E1 as (E1 & B1); [|lia].
    apply bind_ok in H as (off & E2 & H). apply (Gi 2) in E2 as (E2 & B2); [|lia].
    apply bind_ok in H as (val & _ & [= <- <-]). mk (OGotoUnless idx off). cbn; split; auto.
    destruct (val =? 0); [right|left]; f_equal; lia. }
  destruct (Z.eqb_spec opc 106) as [->|].
  { apply bind_ok in H as (d & E1 & H). apply (Fi 1) in E1 as (E1 & B1); [|lia].
    apply bind_ok in H as (l & E2 & H). apply (Fi 2) in E2 as (E2 & B2); [|lia].
    apply bind_ok in H as (rr & E3 & H). apply (Fi 3) in E3 as (E3 & B3); [|lia].
    apply bind_ok in H as (x & _ & H). apply bind_ok in H as (y & _ & H). apply bind_ok in H as (v & _ & H).
    apply bind_ok in H as (m1 & E & [= <- <-]). apply store_inv in E as (_ & ->).
    mk (OAdd d l rr). cbn. split; [f_equal; lia|]. exists v. unfold reg_addr, SIZEOF_SLOT.
    now replace (d * 4) with (4 * d) by lia. }
  destruct (Z.eqb_spec opc 107) as [->|].
  { apply bind_ok in H as (d & E1 & H). apply (Fi 1) in E1 as (E1 & B1); [|lia].
    apply bind_ok in H as (l & E2 & H). apply (Fi 2) in E2 as (E2 & B2); [|lia].
    apply bind_ok in H as (rr & E3 & H). apply (Fi 3) in E3 as (E3 & B3); [|lia].
    apply bind_ok in H as (x & _ & H). apply bind_ok in H as (y & _ & H). apply bind_ok in H as (v & _ & H).
    apply bind_ok in H as (m1 & E & [= <- <-]). apply store_inv in E as (_ & ->).
    mk (OSub d l rr). cbn. split; [f_equal; lia|]. exists v. unfold reg_addr, SIZEOF_SLOT.
    now replace (d * 4) with (4 * d) by lia. }
  discriminate.
Qed.

(** * Frames of registers *)

Definition frame_in (m : mach) (n : Z) : Prop :=
  m_stack m <= m_sp m /\ m_sp m + 4 * n <= m_stack m + m_size m /\ m_sp m mod 4 = 0.

Lemma frame_reg_ok m n i : frame_in m n -> 0 <= i < n -> reg_ok m i.
Proof.
  intros (H1 & H2 & H3) Hi. repeat split; [lia|lia|]. change (Z.of_nat 4) with 4.
  rewrite Z.add_comm, (Z.mul_comm 4), Z.add_comm, Z_mod_plus_full. exact H3.
Qed.

(** The machines differ at most in memory inside [lo, hi), ip and the error flag. *)
Definition same_frame (m m' : mach) (lo hi : Z) : Prop :=
  m_stack m' = m_stack m /\ m_size m' = m_size m /\ m_code m' = m_code m /\
  m_code_base m' = m_code_base m /\ m_sp m' = m_sp m /\ m_fn m' = m_fn m /\
  m_func m' = m_func m /\ m_halted m' = m_halted m /\
  (forall a, ~ (lo <= a < hi) -> m_mem m' a = m_mem m a).

Lemma same_frame_refl m lo hi : same_frame m m lo hi.
Proof. repeat split; auto. Qed.

Lemma same_frame_trans m1 m2 m3 lo hi : same_frame m1 m2 lo hi -> same_frame m2 m3 lo hi -> same_frame m1 m3 lo hi.
Proof.
  intros (A1 & A2 & A3 & A4 & A5 & A6 & A7 & A8 & A9) (B1 & B2 & B3 & B4 & B5 & B6 & B7 & B8 & B9).
  repeat split; try congruence. intros a Ha. rewrite B9, A9 by auto. reflexivity.
Qed.

Lemma same_frame_update m lo hi a n v : lo <= a -> a + Z.of_nat n <= hi ->
  same_frame m (with_mem m (update (m_mem m) a n v)) lo hi.
Proof. intros. repeat split; auto. cbn. intros x Hx. apply update_out. lia. Qed.

Lemma same_frame_commit m ip lo hi : same_frame m (commit m ip) lo hi.
Proof. repeat split; auto. Qed.

Lemma frame_in_same m m' lo hi n : same_frame m m' lo hi -> frame_in m n -> frame_in m' n.
Proof. intros (A1 & A2 & A3 & A4 & A5 & _). unfold frame_in. rewrite A1, A2, A5. auto. Qed.

(** * Simulation of the abstract machine *)

Lemma reg_frame mem sp n i v : 0 <= i -> reg (frame_words mem sp n) i v ->
  (i < Z.of_nat n) /\ v = word mem (sp + 4 * i).
Proof.
  unfold reg. intros Hi H. rewrite frame_words_nth in H. destruct (Nat.ltb_spec (Z.to_nat i) n); [|discriminate].
  injection H as <-. split; [lia|]. now rewrite Z2Nat.id by lia.
Qed.

Lemma op_regs code p o q i : op_at code p o q -> In i (regs_of o) -> 0 <= i < 256.
Proof. intros (H & _) Hi. rewrite Forall_forall in H. exact (H i Hi). Qed.


Lemma sim_step m n p rs p' rs' :
  bytes_mem (m_mem m) -> frame_in m (Z.of_nat n) -> frame_words (m_mem m) (m_sp m) n = rs ->
  astep (m_code m) (p, rs) (p', rs') ->
  exists mem', step m (m_code_base m + p) = Ok (with_mem m mem', inl (m_code_base m + p')) /\
    bytes_mem mem' /\ frame_words mem' (m_sp m) n = rs' /\
    (forall a, ~ (m_sp m <= a < m_sp m + 4 * Z.of_nat n) -> mem' a = m_mem m a).
Proof.
  intros Hb Hf Hrs H.
  assert (forall o q, op_at (m_code m) p o q ->
    op_at (m_code m) (m_code_base m + p - m_code_base m) o q) as Eq.
  { intros. now replace (m_code_base m + p - m_code_base m) with p by lia. }
  assert (with_mem m (m_mem m) = m) as Em by now destruct m.
  assert (forall i v, 0 <= i -> reg rs i v -> v = word (m_mem m) (m_sp m + 4 * i) /\ reg_ok m i) as R.
  { intros i v Hi E. rewrite <- Hrs in E. apply reg_frame in E as (E1 & E2); [|auto]. split; [auto|].
    eapply frame_reg_ok; eauto. }
  inversion H; subst; clear H.
  - exists (m_mem m). rewrite Em. rewrite (step_nop m _ p') by auto. auto.
  - exists (m_mem m). rewrite Em. rewrite (step_goto m _ q off) by auto. replace (m_code_base m + (q + off)) with (m_code_base m + q + off) by lia; conjs; auto.
  - match goal with X : op_at _ _ _ _ |- _ => pose proof (op_regs _ _ _ _ t X ltac:(cbn; auto)) as Ht end.
    destruct (R t v) as (E & Ro); [lia|auto|].
    exists (m_mem m). rewrite Em. rewrite (step_goto_if m _ q t off) by auto. rewrite <- E.
    replace (v =? 0) with false by lia. replace (m_code_base m + (q + off)) with (m_code_base m + q + off) by lia; conjs; auto.
  - match goal with X : op_at _ _ _ _ |- _ => pose proof (op_regs _ _ _ _ t X ltac:(cbn; auto)) as Ht end.
    destruct (R t 0) as (E & Ro); [lia|auto|].
    exists (m_mem m). rewrite Em. rewrite (step_goto_if m _ p' t off) by auto. rewrite <- E.
    conjs; auto.
  - match goal with X : op_at _ _ _ _ |- _ => pose proof (op_regs _ _ _ _ t X ltac:(cbn; auto)) as Ht end.
    destruct (R t 0) as (E & Ro); [lia|auto|].
    exists (m_mem m). rewrite Em. rewrite (step_goto_unless m _ q t off) by auto. rewrite <- E.
    replace (m_code_base m + (q + off)) with (m_code_base m + q + off) by lia; conjs; auto.
  - match goal with X : op_at _ _ _ _ |- _ => pose proof (op_regs _ _ _ _ t X ltac:(cbn; auto)) as Ht end.
    destruct (R t v) as (E & Ro); [lia|auto|].
    exists (m_mem m). rewrite Em. rewrite (step_goto_unless m _ p' t off) by auto. rewrite <- E.
    replace (v =? 0) with false by lia. conjs; auto.
  - match goal with X : op_at _ _ _ _ |- _ =>
      pose proof (op_regs _ _ _ _ d X ltac:(cbn; auto)) as Hd;
      pose proof (op_regs _ _ _ _ l X ltac:(cbn; auto)) as Hl;
      pose proof (op_regs _ _ _ _ r X ltac:(cbn; auto)) as Hr end.
    destruct (R d w) as (_ & Rd); [lia|auto|]. destruct (R l x) as (El & Rl); [lia|auto|].
    destruct (R r y) as (Er & Rr); [lia|auto|].
    match goal with X : reg _ d w |- _ => apply reg_frame in X as (Ld & _); [|lia] end.
    pose proof (Z.mod_pos_bound (x + y) (2 ^ 32) ltac:(lia)) as B.
    exists (update (m_mem m) (m_sp m + 4 * d) 4 ((x + y) mod 2 ^ 32)).
    rewrite (step_add m _ p' Hb d l r) by auto. cbv zeta. rewrite <- El, <- Er.
    match goal with X : in_i32 _ |- _ => unfold in_i32 in X end.
    replace (_ && _) with true by lia. conjs; auto.
    + now apply update_bytes.
    + rewrite <- frame_words_put by (auto; lia). do 3 f_equal. lia.
    + intros a Ha. apply update_out. lia.
  - match goal with X : op_at _ _ _ _ |- _ =>
      pose proof (op_regs _ _ _ _ d X ltac:(cbn; auto)) as Hd;
      pose proof (op_regs _ _ _ _ l X ltac:(cbn; auto)) as Hl;
      pose proof (op_regs _ _ _ _ r X ltac:(cbn; auto)) as Hr end.
    destruct (R d w) as (_ & Rd); [lia|auto|]. destruct (R l x) as (El & Rl); [lia|auto|].
    destruct (R r y) as (Er & Rr); [lia|auto|].
    match goal with X : reg _ d w |- _ => apply reg_frame in X as (Ld & _); [|lia] end.
    pose proof (Z.mod_pos_bound (x - y) (2 ^ 32) ltac:(lia)) as B.
    exists (update (m_mem m) (m_sp m + 4 * d) 4 ((x - y) mod 2 ^ 32)).
    rewrite (step_sub m _ p' Hb d l r) by auto. cbv zeta. rewrite <- El, <- Er.
    match goal with X : in_i32 _ |- _ => unfold in_i32 in X end.
    replace (_ && _) with true by lia. conjs; auto.
    + now apply update_bytes.
    + rewrite <- frame_words_put by (auto; lia). do 3 f_equal. lia.
    + intros a Ha. apply update_out. lia.
Qed.

Lemma sim_steps code s s' : asteps code s s' -> forall m n, m_code m = code ->
  bytes_mem (m_mem m) -> frame_in m (Z.of_nat n) -> frame_words (m_mem m) (m_sp m) n = snd s ->
  exists k mem', (forall fuel, run (k + fuel) m (m_code_base m + fst s) =
                   run fuel (with_mem m mem') (m_code_base m + fst s')) /\
    bytes_mem mem' /\ frame_words mem' (m_sp m) n = snd s' /\
    (forall a, ~ (m_sp m <= a < m_sp m + 4 * Z.of_nat n) -> mem' a = m_mem m a).
Proof.
  induction 1 as [s|s s1 s2 H1 _ IH]; intros m n Hc Hb Hf Hrs.
  - exists O, (m_mem m). replace (with_mem m (m_mem m)) with m by now destruct m. auto.
  - destruct s as [p rs], s1 as [p1 rs1]. cbn [fst snd] in *. subst code.
    destruct (sim_step m n p rs p1 rs1) as (mem1 & E & Hb1 & Hr1 & Ho1); auto.
    destruct (IH (with_mem m mem1) n) as (k & mem2 & E2 & Hb2 & Hr2 & Ho2); auto.
    exists (S k), mem2. conjs; auto.
    + intros fuel. cbn [run Nat.add]. rewrite E. cbn [bind]. apply E2.
    + intros a Ha. rewrite (Ho2 a) by auto. now apply Ho1.
Qed.

(** * Confinement *)

Lemma effect_succ m ip o q m' ip' : op_at (m_code m) (ip - m_code_base m) o q ->
  effect m ip o q m' (inl ip') -> succ (m_code m) (ip - m_code_base m) (ip' - m_code_base m).
Proof.
  intros Ho He. destruct o; cbn [effect] in He.
  all: try (destruct He as (_ & He); discriminate He).
  - destruct He as (_ & [= ->]). replace (m_code_base m + q - m_code_base m) with q by lia.
    eapply s_next; eauto; exact I.
  - destruct He as (_ & [= ->]). replace (m_code_base m + q + off - m_code_base m) with (q + off) by lia.
    change off with (off_of (OGoto off)). eapply s_jump; eauto; exact I.
  - destruct He as (_ & [[= ->]|[= ->]]).
    + replace (m_code_base m + q - m_code_base m) with q by lia. eapply s_next; eauto; exact I.
    + replace (m_code_base m + q + off - m_code_base m) with (q + off) by lia.
      change off with (off_of (OGotoIf tst off)). eapply s_jump; eauto; exact I.
  - destruct He as (_ & [[= ->]|[= ->]]).
    + replace (m_code_base m + q - m_code_base m) with q by lia. eapply s_next; eauto; exact I.
    + replace (m_code_base m + q + off - m_code_base m) with (q + off) by lia.
      change off with (off_of (OGotoUnless tst off)). eapply s_jump; eauto; exact I.
  - destruct He as ([= ->] & _). replace (m_code_base m + q - m_code_base m) with q by lia.
    eapply s_next; eauto; exact I.
  - destruct He as ([= ->] & _). replace (m_code_base m + q - m_code_base m) with q by lia.
    eapply s_next; eauto; exact I.
Qed.

Lemma effect_same m ip o q m' r n : op_at (m_code m) (ip - m_code_base m) o q ->
  Forall (fun i => i < n) (regs_of o) -> effect m ip o q m' r ->
  same_frame m m' (m_sp m) (m_sp m + 4 * n).
Proof.
  intros Ho Hr He. destruct o; cbn [effect] in He.
  all: try (destruct He as (-> & _); repeat split; auto; fail).
  - destruct He as (_ & v & ->). 
    pose proof (op_regs _ _ _ _ dst Ho ltac:(cbn; auto)) as Hd.
    pose proof (Forall_inv Hr) as Hn. cbv beta in Hn. apply same_frame_update; lia.
  - destruct He as (_ & v & ->). 
    pose proof (op_regs _ _ _ _ dst Ho ltac:(cbn; auto)) as Hd.
    pose proof (Forall_inv Hr) as Hn. cbv beta in Hn. apply same_frame_update; lia.
Qed.

(** What a finished run did: the exit instruction [o] stands at a reachable position. *)
Lemma run_inv fuel : forall m ip m' a start n, is_bytes (m_code m) ->
  own_regs (m_code m) start n -> cfg (m_code m) start (ip - m_code_base m) ->
  run fuel m ip = Ok (m', a) ->
  same_frame m m' (m_sp m) (m_sp m + 4 * n) /\
  exists p o q, cfg (m_code m) start p /\ op_at (m_code m) p o q /\
    match o with
    | OHalt => a = HALT
    | OUnreachable | OReturn => a = EXIT 0
    | ORet32 s => a = EXIT (m_sp m + 4 * s)
    | _ => False
    end.
Proof.
  induction fuel as [|fuel IH]; intros m ip m' a start n Hc Hown Hcfg H; [discriminate|].
  cbn [run] in H. apply bind_ok in H as ([m1 nx] & Hs & H).
  destruct (step_inv _ _ _ _ Hc Hs) as (o & q & Ho & He).
  pose proof (Hown _ _ _ Hcfg Ho) as Hr. pose proof (effect_same _ _ _ _ _ _ _ Ho Hr He) as Hsame.
  destruct nx as [ip'|a'].
  - pose proof (effect_succ _ _ _ _ _ _ Ho He) as Hsucc.
    pose proof Hsame as (S1 & S2 & S3 & S4 & S5 & S6 & S7 & S8 & S9).
    rewrite <- S3 in Hc, Hown.
    apply (IH _ _ _ _ start n) in H; auto.
    2: { rewrite S3, S4. eapply cfg_next; eauto. }
    rewrite S3, S5 in H. destruct H as (H1 & H2). split; [|auto]. eapply same_frame_trans; eauto.
  - injection H as <- <-. split; [auto|]. exists (ip - m_code_base m), o, q. split; [auto|split;[auto|]].
    destruct o; cbn [effect] in He;
      first [ destruct He as (_ & [He|He]); discriminate He
            | destruct He as (_ & [=He]); congruence
            | destruct He as (He & _); discriminate He
            | destruct He as (_ & He); congruence ].
Qed.
