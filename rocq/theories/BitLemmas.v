(** Arithmetic readings of the bit operations used by the models. *)

From Coq Require Import ZArith List Lia Bool ZifyBool.
From Verif Require Import Outcome.
Import ListNotations.
Local Open Scope Z_scope.
Ltac Zify.zify_post_hook ::= Z.div_mod_to_equations.

Lemma land_disjoint a b k :
  0 <= k -> 0 <= a < 2 ^ k -> b mod 2 ^ k = 0 -> Z.land a b = 0.
Proof.
  intros Hk Ha Hb. apply Z.bits_inj'. intros n Hn.
  rewrite Z.land_spec, Z.bits_0.
  destruct (Z_lt_le_dec n k) as [Hlt|Hge].
  - assert (Z.testbit b n = false) as ->; [|apply andb_false_r].
    rewrite <- (Z.mod_pow2_bits_low b k n) by lia. rewrite Hb. apply Z.bits_0.
  - assert (Z.testbit a n = false) as ->; [|reflexivity].
    destruct (Z.eq_dec a 0) as [->|Hne]; [apply Z.bits_0|].
    apply Z.bits_above_log2; [lia|].
    assert (Z.log2 a < k) by (apply Z.log2_lt_pow2; lia). lia.
Qed.

Lemma lor_disjoint a b k :
  0 <= k -> 0 <= a < 2 ^ k -> b mod 2 ^ k = 0 -> Z.lor a b = a + b.
Proof.
  intros Hk Ha Hb. pose proof (land_disjoint a b k Hk Ha Hb) as H0.
  rewrite Z.add_nocarry_lxor by exact H0. symmetry. apply Z.lxor_lor. exact H0.
Qed.

Lemma lor_disjoint_mul a c k :
  0 <= k -> 0 <= a < 2 ^ k -> Z.lor a (c * 2 ^ k) = a + c * 2 ^ k.
Proof.
  intros Hk Ha. apply lor_disjoint with (k := k); auto.
  apply Z.mod_mul. pose proof (Z.pow_pos_nonneg 2 k). lia.
Qed.

Lemma land_127 x : Z.land x 127 = x mod 128.
Proof. change 127 with (Z.ones 7). rewrite Z.land_ones by lia. reflexivity. Qed.

Lemma shiftr_7 x : Z.shiftr x 7 = x / 128.
Proof. rewrite Z.shiftr_div_pow2 by lia. reflexivity. Qed.

Lemma lor_128 x : 0 <= x < 128 -> Z.lor x 128 = x + 128.
Proof. intros H. apply lor_disjoint with (k := 7); [lia| |reflexivity]. exact H. Qed.

(** Exhaustive check over one byte, lifted to a universally quantified statement. *)
Definition all_bytes : list Z := map Z.of_nat (seq 0 256).

Lemma all_bytes_in b : is_byte b -> In b all_bytes.
Proof.
  intros [H1 H2]. unfold all_bytes. apply in_map_iff. exists (Z.to_nat b).
  split; [lia|]. apply in_seq. lia.
Qed.

Lemma byte_sweep (P : Z -> bool) :
  forallb P all_bytes = true -> forall b, is_byte b -> P b = true.
Proof. intros H b Hb. rewrite forallb_forall in H. auto using all_bytes_in. Qed.

Lemma land_128_byte b : is_byte b -> (Z.land b 128 =? 0) = (b <? 128).
Proof.
  intros Hb. apply eqb_prop.
  apply (byte_sweep (fun b => Bool.eqb (Z.land b 128 =? 0) (b <? 128))); auto.
Qed.

Lemma land_64_byte b : is_byte b -> (Z.land b 64 =? 0) = (b mod 128 <? 64).
Proof.
  intros Hb. apply eqb_prop.
  apply (byte_sweep (fun b => Bool.eqb (Z.land b 64 =? 0) (b mod 128 <? 64))); auto.
Qed.

Lemma mod_mul_pow x s w :
  0 <= s <= w -> (x * 2 ^ s) mod 2 ^ w = (x mod 2 ^ (w - s)) * 2 ^ s.
Proof.
  intros H. replace (2 ^ w) with (2 ^ (w - s) * 2 ^ s).
  - rewrite Z.mul_mod_distr_r; [reflexivity| |]; apply Z.pow_nonzero; lia.
  - rewrite <- Z.pow_add_r by lia. f_equal. lia.
Qed.

Lemma pow2_pos k : 0 <= k -> 0 < 2 ^ k.
Proof. intros. apply Z.pow_pos_nonneg; lia. Qed.

(** Adding a word below [2^s] to a multiple of [2^s] commutes with truncation to [w] bits. *)
Lemma add_mod_aligned r x s w :
  0 <= s <= w -> 0 <= r < 2 ^ s ->
  (r + x * 2 ^ s) mod 2 ^ w = r + (x mod 2 ^ (w - s)) * 2 ^ s.
Proof.
  intros Hs Hr.
  assert (Hw : 2 ^ w = 2 ^ (w - s) * 2 ^ s) by (rewrite <- Z.pow_add_r by lia; f_equal; lia).
  pose proof (pow2_pos s). pose proof (pow2_pos (w - s)). pose proof (pow2_pos w).
  rewrite <- Z.add_mod_idemp_r by lia. rewrite mod_mul_pow by lia.
  apply Z.mod_small.
  assert (0 <= x mod 2 ^ (w - s) < 2 ^ (w - s)) by (apply Z.mod_pos_bound; lia).
  rewrite Hw. nia.
Qed.
