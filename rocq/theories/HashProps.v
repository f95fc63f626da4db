(** Properties C17 (type and limits equality), C36 (integer hash), C37 and C54 (powers of two). *)

From Coq Require Import ZArith List Bool Lia.
From Verif Require Import Outcome CodecModel HashModel HashProofs.
Import ListNotations.
Local Open Scope Z_scope.

(** C17: comparing two function types always gives an answer (no out-of-range element is
    touched), "equal" exactly when both lists are equal element by element. *)
Theorem C17_functype_eq_is_structural : forall a b : functype,
  exists r, functype_eq a b = Ok r /\
            (r = true <-> ft_args a = ft_args b /\ ft_rets a = ft_rets b).
Proof.
  intros a b. destruct (functype_eq_total a b) as (r & E & H). exists r. split; [exact E|].
  rewrite H. destruct a, b. cbn. split; [intros [= -> ->]; auto|intros (-> & ->); auto].
Qed.
Print Assumptions C17_functype_eq_is_structural.

(** The comparison is an equivalence relation. *)
Theorem C17_functype_eq_equivalence :
  (forall a, functype_eq a a = Ok true) /\
  (forall a b, functype_eq a b = functype_eq b a) /\
  (forall a b c, functype_eq a b = Ok true -> functype_eq b c = Ok true -> functype_eq a c = Ok true).
Proof.
  assert (T : forall a b, functype_eq a b = Ok true <-> a = b).
  { intros a b. destruct (functype_eq_total a b) as (r & E & H). rewrite E. split.
    - intros [= ->]. now apply H.
    - intros ->. f_equal. now apply H. }
  split; [intros a; now apply T|]. split.
  - intros a b. destruct (functype_eq_total a b) as (r & E & H), (functype_eq_total b a) as (r' & E' & H').
    rewrite E, E'. f_equal. destruct r, r'; auto.
    + symmetry. apply H'. symmetry. now apply H.
    + apply H. symmetry. now apply H'.
  - intros a b c Ha Hb. apply T in Ha, Hb. apply T. congruence.
Qed.
Print Assumptions C17_functype_eq_equivalence.

(** Equal function types have equal hashes, whatever std::hash<ValType> computes. *)
Theorem C17_functype_hash_agrees : forall std_hash a b,
  functype_eq a b = Ok true -> functype_hash std_hash a = functype_hash std_hash b.
Proof.
  intros sh a b E. destruct (functype_eq_total a b) as (r & E' & H). rewrite E in E'.
  injection E' as <-. now rewrite (proj1 H eq_refl).
Qed.
Print Assumptions C17_functype_hash_agrees.

(** Limits: equality compares the maximum only when there is one; equal limits hash equal. *)
Theorem C17_limits : forall std_hash a b,
  (limits_eq a b = true <->
     l_min a = l_min b /\ l_has_max a = l_has_max b /\ (l_has_max a = true -> l_max a = l_max b)) /\
  (limits_eq a b = true -> limits_hash std_hash a = limits_hash std_hash b).
Proof. intros sh a b. split; [apply limits_eq_spec|apply limits_hash_eq]. Qed.
Print Assumptions C17_limits.

Theorem C17_limits_equivalence :
  (forall a, limits_eq a a = true) /\
  (forall a b, limits_eq a b = limits_eq b a) /\
  (forall a b c, limits_eq a b = true -> limits_eq b c = true -> limits_eq a c = true).
Proof.
  split; [intros a; now apply limits_eq_spec|]. split.
  - intros a b. apply eq_true_iff_eq. rewrite !limits_eq_spec. split; intros (H1 & H2 & H3); repeat split; auto;
      intros; symmetry; apply H3; congruence.
  - intros a b c Ha Hb. apply limits_eq_spec in Ha as (H1 & H2 & H3), Hb as (K1 & K2 & K3).
    apply limits_eq_spec. repeat split; try congruence. intros. rewrite H3 by auto. apply K3. congruence.
Qed.
Print Assumptions C17_limits_equivalence.

(** Types of the same shape but different contents, a permuted list, and a type moved from the
    arguments to the results are all told apart; limits with different, unused maxima are equal. *)
Example ex_eq :
  functype_eq (mkFT [I32; I64] [F32]) (mkFT [I32; I64] [F32]) = Ok true /\
  functype_eq (mkFT [I32; I64] [F32]) (mkFT [I64; I32] [F32]) = Ok false /\
  functype_eq (mkFT [I32; I64] []) (mkFT [I32] [I64]) = Ok false /\
  limits_eq (mkLimits 1 7 false) (mkLimits 1 9 false) = true /\
  limits_eq (mkLimits 1 7 true) (mkLimits 1 9 true) = false.
Proof. vm_compute. repeat split. Qed.

(** C36: the hash of a 64-bit integer is a 64-bit integer; different integers have different
    hashes, and every 64-bit integer is the hash of one. *)
Theorem C36_hash_is_a_bijection :
  (forall x, is_u64 x -> is_u64 (hash_size x)) /\
  (forall x y, is_u64 x -> is_u64 y -> hash_size x = hash_size y -> x = y) /\
  (forall y, is_u64 y -> exists x, is_u64 x /\ hash_size x = y).
Proof.
  split; [exact hash_size_range|]. split; [exact hash_size_inj|].
  intros y Hy. exists (unhash y). split; [now apply unhash_range|now apply hash_unhash].
Qed.
Print Assumptions C36_hash_is_a_bijection.

(** Mixing is injective in either argument when the other is fixed. *)
Theorem C36_mix_injective : forall a a' b b',
  is_u64 a -> is_u64 a' -> is_u64 b -> is_u64 b' ->
  (mix a b = mix a b' -> b = b') /\ (mix a b = mix a' b -> a = a').
Proof. intros. split; [now apply mix_inj_r|now apply mix_inj_l]. Qed.
Print Assumptions C36_mix_injective.

(** Hashing several integers together: changing exactly one of them, at any position, changes the
    result. *)
Theorem C36_changing_one_component_changes_the_hash : forall before after x y,
  is_u64 x -> is_u64 y -> x <> y ->
  hash_sizes (before ++ x :: after) <> hash_sizes (before ++ y :: after).
Proof. intros before after x y Hx Hy N E. apply N. eapply hash_sizes_inj; eauto. Qed.
Print Assumptions C36_changing_one_component_changes_the_hash.

Example ex_hash : hash_size 0 = 0 /\ hash_size 1 = 0x5692161d100b05e5 /\
  hash_sizes [1; 2] <> hash_sizes [2; 1] /\ is_u64 (2 ^ 64 - 1).
Proof. vm_compute. repeat split; congruence. Qed.

(** C37: for every exponent below 64 the operators agree with multiplication, division and
    remainder by 2^exponent. *)
Theorem C37_sizep2_arithmetic : forall e a, 0 <= e < 64 -> is_u64 a ->
  p2_get e = Ok (2 ^ e) /\
  p2_mul a e = Ok ((a * 2 ^ e) mod 2 ^ 64) /\
  p2_div a e = Ok (a / 2 ^ e) /\
  p2_rem a e = Ok (a mod 2 ^ e) /\
  p2_modmask e = Ok (2 ^ e - 1) /\
  p2_mod2 e = Ok (2 ^ e mod 2).
Proof.
  intros e a He Ha. repeat split.
  - now apply p2_get_eq.
  - now apply p2_mul_eq.
  - now apply p2_div_eq.
  - now apply p2_rem_eq.
  - now apply p2_modmask_eq.
  - now apply p2_mod2_eq.
Qed.
Print Assumptions C37_sizep2_arithmetic.

(** An exponent of 64 or more, which the constructor accepts, makes every operator undefined. *)
Theorem C37_exponent_out_of_range : forall e a, 64 <= e < 256 ->
  p2_get e = UB BadShift /\ p2_mul a e = UB BadShift /\ p2_div a e = UB BadShift /\
  p2_rem a e = UB BadShift.
Proof.
  intros e a He. unfold p2_get, p2_mul, p2_div, p2_rem, p2_modmask, p2_get, p2_log2, shl64, shr64.
  destruct (Z.ltb_spec e 64); [lia|]. repeat split.
Qed.
Print Assumptions C37_exponent_out_of_range.

Example ex_p2 : p2_mul 5 3 = Ok 40 /\ p2_div 41 3 = Ok 5 /\ p2_rem 41 3 = Ok 1 /\ p2_mod2 0 = Ok 1.
Proof. vm_compute. repeat split. Qed.

(** C54: pow(n) is 2^(exponent + n - 1), so it is the n-th power only if n = 1 or the size is 2. *)
Theorem C54_pow_partial : forall e n, 0 <= e < 256 -> 0 <= n < 2 ^ 64 -> 1 <= e + n <= 31 ->
  p2_pow e n = Ok (2 ^ (e + n - 1)) /\
  (1 <= n -> (p2_pow e n = Ok ((2 ^ e) ^ n) <-> e = 1 \/ n = 1)).
Proof.
  intros e n He Hn H. rewrite p2_pow_eq by assumption. split; [reflexivity|]. intros Hn1.
  rewrite <- Z.pow_mul_r by lia. split.
  - intros [= E]. apply Z.pow_inj_r in E; nia.
  - intros [-> | ->]; do 2 f_equal; lia.
Qed.
Print Assumptions C54_pow_partial.
Example C54_case : p2_pow 3 4 = Ok 64 /\ (2 ^ 3) ^ 4 = 4096 /\ p2_pow 1 5 = Ok 32 /\ p2_pow 7 1 = Ok 128.
Proof. repeat split. Qed.

(** Four squared comes out as eight, and one to the power zero is undefined. *)
Theorem C54_pow_refuted :
  (exists e n, 0 <= e < 64 /\ (2 ^ e) ^ n < 2 ^ 31 /\ p2_pow e n = Ok 8 /\ (2 ^ e) ^ n = 16) /\
  p2_pow 0 0 = UB BadShift.
Proof. split; [exists 2, 2; vm_compute; repeat split; congruence|reflexivity]. Qed.
(** ... and the result has 31 bits at most: the 32nd gives 2^64 - 2^31 (the sign of an int, extended), and
    more are undefined. *)
Theorem C54_large_pow_refuted : forall e n, 0 <= e < 256 -> 0 <= n < 2 ^ 32 -> 32 <= e + n ->
  p2_pow e n = if e + n =? 32 then Ok 18446744071562067968 else UB BadShift.
Proof.
  intros e n He Hn H. unfold p2_pow. assert (E : u64 (u64 (e + n) - 1) = e + n - 1) by (unfold u64; rewrite (Z.mod_small (e + n)) by lia; rewrite Z.mod_small; lia).
  rewrite E. replace (e + n - 1 <? 31) with false by lia. replace (e + n - 1 =? 31) with (e + n =? 32) by lia. reflexivity.
Qed.
Print Assumptions C54_large_pow_refuted.
Print Assumptions C54_pow_refuted.
