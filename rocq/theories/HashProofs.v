(** Proofs about hashing, type equality and powers of two. *)

From Coq Require Import ZArith List Bool Lia.
From Verif Require Import Outcome CodecModel HashModel.
Import ListNotations.
Local Open Scope Z_scope.

Definition is_u64 (x : Z) : Prop := 0 <= x < 2 ^ 64.

Lemma u64_range x : is_u64 (u64 x).
Proof. unfold is_u64, u64. apply Z.mod_pos_bound. lia. Qed.

Lemma u64_small x : is_u64 x -> u64 x = x.
Proof. unfold is_u64, u64. intros. apply Z.mod_small. lia. Qed.

Lemma lxor_range x y : is_u64 x -> is_u64 y -> is_u64 (Z.lxor x y).
Proof.
  unfold is_u64. intros [Hx Hx'] [Hy Hy'].
  assert (0 <= Z.lxor x y) by (apply Z.lxor_nonneg; lia).
  split; [assumption|].
  destruct (Z.eq_dec (Z.lxor x y) 0) as [->|]; [lia|].
  apply Z.log2_lt_pow2; [lia|].
  pose proof (Z.log2_lxor x y Hx Hy) as HL.
  assert (Z.log2 x < 64) by (destruct (Z.eq_dec x 0) as [->|]; [cbn; lia|apply Z.log2_lt_pow2; lia]).
  assert (Z.log2 y < 64) by (destruct (Z.eq_dec y 0) as [->|]; [cbn; lia|apply Z.log2_lt_pow2; lia]).
  lia.
Qed.

Lemma shiftr_range x n : 0 <= n -> is_u64 x -> is_u64 (Z.shiftr x n).
Proof.
  unfold is_u64. intros Hn [Hx Hx']. rewrite Z.shiftr_div_pow2 by lia.
  pose proof (Z.pow_pos_nonneg 2 n ltac:(lia) Hn).
  split; [apply Z.div_pos; lia|].
  apply Z.le_lt_trans with x; [|lia]. apply Z.div_le_upper_bound; nia.
Qed.

Lemma shiftr_out x n : 64 <= n -> is_u64 x -> Z.shiftr x n = 0.
Proof.
  unfold is_u64. intros Hn [Hx Hx']. rewrite Z.shiftr_div_pow2 by lia.
  apply Z.div_small. split; [lia|].
  apply Z.lt_le_trans with (2 ^ 64); [lia|]. apply Z.pow_le_mono_r; lia.
Qed.

(** x ^= x >> s is undone by xoring the shifts by s, 2s, ... *)
Definition xs (s x : Z) : Z := Z.lxor x (Z.shiftr x s).
Definition unxs (s x : Z) : Z := Z.lxor x (Z.lxor (Z.shiftr x s) (Z.shiftr x (2 * s))).

Lemma xs_range s x : 0 <= s -> is_u64 x -> is_u64 (xs s x).
Proof. intros. unfold xs. apply lxor_range; auto using shiftr_range. Qed.

Lemma unxs_range s x : 0 <= s -> is_u64 x -> is_u64 (unxs s x).
Proof.
  intros. unfold unxs. apply lxor_range; auto. apply lxor_range; apply shiftr_range; auto; lia.
Qed.

Lemma unxs_xs s x : 22 <= s -> is_u64 x -> unxs s (xs s x) = x.
Proof.
  intros Hs Hx. unfold unxs, xs.
  rewrite !Z.shiftr_lxor, !Z.shiftr_shiftr by lia.
  rewrite (shiftr_out x (s + 2 * s)) by (auto; lia).
  replace (s + s) with (2 * s) by lia.
  rewrite Z.lxor_0_r.
  set (a := Z.shiftr x s). set (b := Z.shiftr x (2 * s)).
  rewrite !Z.lxor_assoc, Z.lxor_nilpotent, Z.lxor_0_r, Z.lxor_nilpotent, Z.lxor_0_r.
  reflexivity.
Qed.

Lemma xs_unxs s x : 22 <= s -> is_u64 x -> xs s (unxs s x) = x.
Proof.
  intros Hs Hx. unfold unxs, xs.
  rewrite !Z.shiftr_lxor, !Z.shiftr_shiftr by lia.
  rewrite (shiftr_out x (2 * s + s)) by (auto; lia).
  replace (s + s) with (2 * s) by lia.
  rewrite Z.lxor_0_r.
  set (a := Z.shiftr x s). set (b := Z.shiftr x (2 * s)).
  rewrite Z.lxor_assoc, Z.lxor_nilpotent, Z.lxor_0_r. reflexivity.
Qed.

(** Multiplication by an odd constant is undone by its inverse modulo 2^64. *)
Lemma mul_unmul c d x : u64 (c * d) = 1 -> is_u64 x -> u64 (u64 (x * c) * d) = x.
Proof.
  unfold u64, is_u64. intros H Hx. rewrite Z.mul_mod_idemp_l by lia.
  rewrite <- Z.mul_assoc, Z.mul_mod, H, Z.mul_1_r by lia.
  rewrite Z.mod_mod by lia. apply Z.mod_small. lia.
Qed.

Definition C1 := 0xbf58476d1ce4e5b9.
Definition C2 := 0x94d049bb133111eb.
Definition D1 := 0x96de1b173f119089.
Definition D2 := 0x319642b2d24d8ec3.

Lemma C1D1 : u64 (C1 * D1) = 1. Proof. vm_compute. reflexivity. Qed.
Lemma D1C1 : u64 (D1 * C1) = 1. Proof. vm_compute. reflexivity. Qed.
Lemma C2D2 : u64 (C2 * D2) = 1. Proof. vm_compute. reflexivity. Qed.
Lemma D2C2 : u64 (D2 * C2) = 1. Proof. vm_compute. reflexivity. Qed.

Lemma hash_size_eq x : hash_size x = xs 31 (u64 (xs 27 (u64 (xs 30 x * C1)) * C2)).
Proof. reflexivity. Qed.

Definition unhash (y : Z) : Z := unxs 30 (u64 (unxs 27 (u64 (unxs 31 y * D2)) * D1)).

Lemma hash_size_range x : is_u64 x -> is_u64 (hash_size x).
Proof. intros. rewrite hash_size_eq. apply xs_range; [lia|apply u64_range]. Qed.

Lemma unhash_range x : is_u64 x -> is_u64 (unhash x).
Proof. intros. unfold unhash. apply unxs_range; [lia|apply u64_range]. Qed.

Lemma unhash_hash x : is_u64 x -> unhash (hash_size x) = x.
Proof.
  intros Hx. rewrite hash_size_eq. unfold unhash.
  rewrite unxs_xs by (lia || apply u64_range).
  rewrite (mul_unmul C2 D2) by (exact C2D2 || (apply xs_range; [lia|apply u64_range])).
  rewrite unxs_xs by (lia || apply u64_range).
  rewrite (mul_unmul C1 D1) by (exact C1D1 || (apply xs_range; [lia|assumption])).
  apply unxs_xs; [lia|assumption].
Qed.

Lemma hash_unhash x : is_u64 x -> hash_size (unhash x) = x.
Proof.
  intros Hx. rewrite hash_size_eq. unfold unhash.
  rewrite xs_unxs by (lia || apply u64_range).
  rewrite (mul_unmul D1 C1) by (exact D1C1 || (apply unxs_range; [lia|apply u64_range])).
  rewrite xs_unxs by (lia || apply u64_range).
  rewrite (mul_unmul D2 C2) by (exact D2C2 || (apply unxs_range; [lia|assumption])).
  apply xs_unxs; [lia|assumption].
Qed.

Lemma hash_size_inj x y : is_u64 x -> is_u64 y -> hash_size x = hash_size y -> x = y.
Proof.
  intros Hx Hy H. rewrite <- (unhash_hash x), <- (unhash_hash y) by assumption. now f_equal.
Qed.

(** * Mixing *)

Lemma mix_range a b : is_u64 (mix a b).
Proof. apply u64_range. Qed.

Lemma mix_eq a b : mix a b = u64 (a * 37 + b).
Proof. unfold mix, u64. now rewrite Z.add_mod_idemp_l by lia. Qed.

Lemma mix_inj_r a b b' : is_u64 b -> is_u64 b' -> mix a b = mix a b' -> b = b'.
Proof.
  unfold is_u64. rewrite !mix_eq. unfold u64. intros Hb Hb' H.
  assert (E : (a * 37 + b - (a * 37 + b')) mod 2 ^ 64 = 0).
  { rewrite Zminus_mod, H, Z.sub_diag. reflexivity. }
  apply Z.mod_divide in E; [|lia]. destruct E as [k E]. nia.
Qed.

Definition INV37 := 0x14c1bacf914c1bad.
Lemma inv37 : u64 (37 * INV37) = 1. Proof. vm_compute. reflexivity. Qed.

Lemma mix_inj_l a a' b : is_u64 a -> is_u64 a' -> mix a b = mix a' b -> a = a'.
Proof.
  rewrite !mix_eq. unfold u64. intros Ha Ha' H.
  assert (E : u64 (a * 37) = u64 (a' * 37)).
  { unfold u64. replace (a * 37) with (a * 37 + b - b) by lia.
    replace (a' * 37) with (a' * 37 + b - b) by lia.
    rewrite (Zminus_mod (a * 37 + b)), H, <- Zminus_mod. reflexivity. }
  rewrite <- (mul_unmul 37 INV37 a), <- (mul_unmul 37 INV37 a') by (exact inv37 || assumption).
  now rewrite E.
Qed.

Lemma mix_all_app a xs ys : mix_all a (xs ++ ys) = mix_all (mix_all a xs) ys.
Proof. revert a. induction xs as [|x xs IH]; intros a; cbn [app mix_all]; auto. Qed.

Lemma mix_all_range a xs : is_u64 a -> is_u64 (mix_all a xs).
Proof.
  revert a. induction xs as [|x xs IH]; intros a Ha; cbn [mix_all]; auto. apply IH, mix_range.
Qed.

Lemma mix_all_inj_base xs : forall a a', is_u64 a -> is_u64 a' ->
  mix_all a xs = mix_all a' xs -> a = a'.
Proof.
  induction xs as [|x xs IH]; intros a a' Ha Ha' H; cbn [mix_all] in H; auto.
  apply IH in H; auto using mix_range. eapply mix_inj_l; eauto.
Qed.

Lemma combine_inj xs ys b b' : is_u64 b -> is_u64 b' ->
  combine_hashes (xs ++ b :: ys) = combine_hashes (xs ++ b' :: ys) -> b = b'.
Proof.
  unfold combine_hashes. rewrite !mix_all_app. cbn [mix_all]. intros Hb Hb' H.
  apply mix_all_inj_base in H; try apply mix_range. eapply mix_inj_r; eauto.
Qed.

Lemma hash_sizes_inj xs ys b b' : is_u64 b -> is_u64 b' ->
  hash_sizes (xs ++ b :: ys) = hash_sizes (xs ++ b' :: ys) -> b = b'.
Proof.
  unfold hash_sizes. rewrite !map_app. cbn [map]. intros Hb Hb' H.
  apply combine_inj in H; auto using hash_size_range. now apply hash_size_inj.
Qed.

(** * Type equality *)

Lemma types_loop_spec k : forall i a b,
  length a = length b -> (k + i = length a)%nat ->
  types_loop k i a b = Ok (if list_eq_dec Z.eq_dec (skipn i a) (skipn i b) then true else false).
Proof.
  induction k as [|k IH]; intros i a b HL Hk.
  - cbn [types_loop]. rewrite !skipn_all2 by lia.
    destruct (list_eq_dec Z.eq_dec [] []); congruence.
  - cbn [types_loop].
    destruct (nth_error a i) as [x|] eqn:Ea; [|apply nth_error_None in Ea; lia].
    destruct (nth_error b i) as [y|] eqn:Eb; [|apply nth_error_None in Eb; lia].
    assert (Sa : skipn i a = x :: skipn (S i) a).
    { clear -Ea. revert i Ea. induction a as [|z a IHa]; intros [|i] Ea; cbn in *; try discriminate.
      - congruence.
      - rewrite (IHa i Ea). destruct a; auto. }
    assert (Sb : skipn i b = y :: skipn (S i) b).
    { clear -Eb. revert i Eb. induction b as [|z b IHb]; intros [|i] Eb; cbn in *; try discriminate.
      - congruence.
      - rewrite (IHb i Eb). destruct b; auto. }
    destruct (Z.eqb_spec x y) as [->|N]; cbn [negb].
    + rewrite IH by lia. rewrite Sa, Sb.
      destruct (list_eq_dec Z.eq_dec (skipn (S i) a) (skipn (S i) b)) as [E|E];
        destruct (list_eq_dec Z.eq_dec (y :: skipn (S i) a) (y :: skipn (S i) b)); congruence.
    + destruct (list_eq_dec Z.eq_dec (skipn i a) (skipn i b)); congruence.
Qed.

Lemma functype_eq_total a b : exists r, functype_eq a b = Ok r /\ (r = true <-> a = b).
Proof.
  destruct a as [aa ar], b as [ba br]. unfold functype_eq. cbn [ft_args ft_rets].
  destruct (Nat.eqb_spec (length aa) (length ba)) as [La|La]; cbn [negb].
  2:{ exists false. split; auto. split; [discriminate|]. intros E. injection E. congruence. }
  destruct (Nat.eqb_spec (length ar) (length br)) as [Lr|Lr]; cbn [negb].
  2:{ exists false. split; auto. split; [discriminate|]. intros E. injection E. congruence. }
  rewrite (types_loop_spec _ 0 aa ba) by lia. cbn [bind].
  rewrite (types_loop_spec _ 0 ar br) by lia. rewrite !skipn_O.
  destruct (list_eq_dec Z.eq_dec aa ba) as [->|N]; cbn [negb].
  2:{ exists false. split; auto. split; [discriminate|congruence]. }
  destruct (list_eq_dec Z.eq_dec ar br) as [->|N]; eexists; split; eauto; split; try discriminate; congruence.
Qed.

Lemma limits_eq_spec a b :
  limits_eq a b = true <->
  l_min a = l_min b /\ l_has_max a = l_has_max b /\ (l_has_max a = true -> l_max a = l_max b).
Proof.
  unfold limits_eq. destruct (Z.eqb_spec (l_min a) (l_min b)) as [E1|E1]; cbn [negb].
  2:{ split; [discriminate|]. intros (H & _). congruence. }
  destruct (eqb (l_has_max a) (l_has_max b)) eqn:E2; cbn [negb].
  2:{ apply eqb_false_iff in E2. split; [discriminate|]. intros (_ & H & _). congruence. }
  apply eqb_prop in E2.
  destruct (l_has_max a) eqn:E3; cbn [andb].
  - destruct (Z.eqb_spec (l_max a) (l_max b)) as [E4|E4]; cbn [negb].
    + split; auto.
    + split; [discriminate|]. intros (_ & _ & H). exfalso; auto.
  - split; auto. intros _. repeat split; auto. discriminate.
Qed.

Lemma limits_hash_eq sh a b : limits_eq a b = true -> limits_hash sh a = limits_hash sh b.
Proof.
  intros H. apply limits_eq_spec in H as (H1 & H2 & H3). unfold limits_hash.
  rewrite <- H2, <- H1. destruct (l_has_max a); auto. now rewrite H3.
Qed.

(** * Powers of two *)

Section P2.
Context (e : Z) (He : 0 <= e < 64).

Lemma p2_pos : 0 < 2 ^ e. Proof. apply Z.pow_pos_nonneg; lia. Qed.

Lemma p2_lt : 2 ^ e < 2 ^ 64.
Proof. apply Z.pow_lt_mono_r; lia. Qed.

Lemma p2_get_eq : p2_get e = Ok (2 ^ e).
Proof.
  unfold p2_get, shl64. destruct (Z.ltb_spec e 64); [|lia]. rewrite Z.shiftl_1_l.
  rewrite u64_small; auto. pose proof p2_pos. pose proof p2_lt. split; lia.
Qed.

Lemma p2_modmask_eq : p2_modmask e = Ok (2 ^ e - 1).
Proof.
  unfold p2_modmask. rewrite p2_get_eq. cbn [bind]. rewrite u64_small; auto.
  pose proof p2_pos. pose proof p2_lt. split; lia.
Qed.

Lemma p2_mul_eq a : p2_mul a e = Ok ((a * 2 ^ e) mod 2 ^ 64).
Proof.
  unfold p2_mul, p2_log2, shl64. destruct (Z.ltb_spec e 64); [|lia].
  now rewrite Z.shiftl_mul_pow2 by lia.
Qed.

Lemma p2_div_eq a : p2_div a e = Ok (a / 2 ^ e).
Proof.
  unfold p2_div, p2_log2, shr64. destruct (Z.ltb_spec e 64); [|lia].
  now rewrite Z.shiftr_div_pow2 by lia.
Qed.

Lemma p2_rem_eq a : p2_rem a e = Ok (a mod 2 ^ e).
Proof.
  unfold p2_rem. rewrite p2_modmask_eq. cbn [bind]. f_equal.
  replace (2 ^ e - 1) with (Z.ones e). { apply Z.land_ones; lia. }
  rewrite Z.ones_equiv. lia.
Qed.

Lemma p2_mod2_eq : p2_mod2 e = Ok (2 ^ e mod 2).
Proof.
  unfold p2_mod2. rewrite p2_get_eq. cbn [bind]. f_equal.
  change 1 with (Z.ones 1). now rewrite Z.land_ones by lia.
Qed.
End P2.

Lemma p2_pow_eq e n : 0 <= e < 256 -> 0 <= n < 2 ^ 64 -> 1 <= e + n <= 31 ->
  p2_pow e n = Ok (2 ^ (e + n - 1)).
Proof.
  intros He Hn H. unfold p2_pow. rewrite (u64_small (e + n)) by (split; lia).
  rewrite u64_small by (split; lia). destruct (Z.ltb_spec (e + n - 1) 31); [auto|lia].
Qed.
