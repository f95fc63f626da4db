From Coq Require Import ZArith List Bool Lia SpecFloat.
From Verif Require Import FloatSpec.
Import ListNotations.
Local Open Scope Z_scope.

(** Facts about the standard library's floating-point numbers ([Coq.Floats.SpecFloat]), used to say
    which doubles real literals are read as.  Nothing here models /repo. *)

(** The number of binary digits. *)
Lemma digits2_bounds p : 2 ^ (Z.pos (digits2_pos p) - 1) <= Z.pos p < 2 ^ Z.pos (digits2_pos p).
Proof.
  induction p as [p IH|p IH|]; cbn [digits2_pos]; [| |cbn; lia];
    rewrite Pos2Z.inj_succ, Z.pow_succ_r by lia;
    replace (Z.succ (Z.pos (digits2_pos p)) - 1) with (Z.succ (Z.pos (digits2_pos p) - 1)) by lia;
    rewrite Z.pow_succ_r by lia; lia.
Qed.
Lemma digits2_unique p d : 0 < d -> 2 ^ (d - 1) <= Z.pos p < 2 ^ d -> Z.pos (digits2_pos p) = d.
Proof.
  intros Hd [A B]. pose proof (digits2_bounds p) as [C D].
  destruct (Z.lt_trichotomy (Z.pos (digits2_pos p)) d) as [H|[H|H]]; [|exact H|]; exfalso.
  - assert (2 ^ Z.pos (digits2_pos p) <= 2 ^ (d - 1)) by (apply Z.pow_le_mono_r; lia). lia.
  - assert (2 ^ d <= 2 ^ (Z.pos (digits2_pos p) - 1)) by (apply Z.pow_le_mono_r; lia). lia.
Qed.
Lemma digits2_shift p q k : 0 <= k -> Z.pos q = Z.pos p * 2 ^ k -> Z.pos (digits2_pos q) = Z.pos (digits2_pos p) + k.
Proof.
  intros Hk E. apply digits2_unique; [lia|]. rewrite E. pose proof (digits2_bounds p) as [A B].
  replace (Z.pos (digits2_pos p) + k - 1) with (Z.pos (digits2_pos p) - 1 + k) by lia.
  rewrite !Z.pow_add_r by lia. assert (0 < 2 ^ k) by (apply Z.pow_pos_nonneg; lia). split; nia.
Qed.
Lemma digits2_small p : Z.pos p < 2 ^ 53 -> 1 <= Z.pos (digits2_pos p) <= 53.
Proof.
  intros H. split; [lia|]. pose proof (digits2_bounds p) as [A _].
  destruct (Z.le_gt_cases (Z.pos (digits2_pos p)) 53) as [L|L]; [exact L|exfalso].
  assert (2 ^ 53 <= 2 ^ (Z.pos (digits2_pos p) - 1)) by (apply Z.pow_le_mono_r; lia). lia.
Qed.

Lemma fexp_small d : 1 <= d <= 53 -> fexp 53 1024 d = d - 53.
Proof. intros H. unfold fexp, emin. lia. Qed.

Lemma iter_pos_nat {A} (f : A -> A) p x : iter_pos f p x = Nat.iter (Pos.to_nat p) f x.
Proof.
  assert (Add : forall n m (x : A), Nat.iter (n + m) f x = Nat.iter n f (Nat.iter m f x)).
  { induction n as [|n IH]; intros m y; [reflexivity|]. cbn [plus]. change (f (Nat.iter (n + m) f y) = f (Nat.iter n f (Nat.iter m f y))). now rewrite IH. }
  assert (Comm : forall n (x : A), Nat.iter n f (f x) = f (Nat.iter n f x)).
  { induction n as [|n IH]; intros y; [reflexivity|]. change (f (Nat.iter n f (f y)) = f (f (Nat.iter n f y))). now rewrite IH. }
  revert x. induction p as [p IH|p IH|]; intros x; cbn [iter_pos].
  - rewrite !IH, Pos2Nat.inj_xI. replace (S (2 * Pos.to_nat p)) with (S (Pos.to_nat p + Pos.to_nat p)) by lia.
    rewrite <- Add. apply Comm.
  - rewrite !IH, Pos2Nat.inj_xO. replace (2 * Pos.to_nat p)%nat with (Pos.to_nat p + Pos.to_nat p)%nat by lia. now rewrite <- Add.
  - reflexivity.
Qed.
(** shifting zeros out loses nothing *)
Lemma shr_zeros k : forall M, 0 < M -> Nat.iter k shr_1 {| shr_m := M * 2 ^ Z.of_nat k; shr_r := false; shr_s := false |} = {| shr_m := M; shr_r := false; shr_s := false |}.
Proof.
  induction k as [|k IH]; intros M HM; [cbn; now rewrite Z.mul_1_r|].
  change (Nat.iter (S k) shr_1 ?x) with (shr_1 (Nat.iter k shr_1 x)).
  replace (M * 2 ^ Z.of_nat (S k)) with ((2 * M) * 2 ^ Z.of_nat k) by (rewrite Nat2Z.inj_succ, Z.pow_succ_r by lia; lia).
  rewrite IH by lia. destruct M as [|M|M]; try lia. reflexivity.
Qed.
Lemma shr_exact M e k : 0 < M -> 0 <= k ->
  shr {| shr_m := M * 2 ^ k; shr_r := false; shr_s := false |} e k = ({| shr_m := M; shr_r := false; shr_s := false |}, e + k).
Proof.
  intros HM Hk. destruct k as [|p|p]; [|cbn [shr]|lia].
  - cbn [shr]. change (2 ^ 0) with 1. now rewrite Z.mul_1_r, Z.add_0_r.
  - rewrite iter_pos_nat. rewrite <- (positive_nat_Z p) at 1. now rewrite shr_zeros.
Qed.

(** The double that is the integer [n] with sign [s], for n < 2^53. *)
Definition canon (s : bool) (n : Z) : spec_float :=
  match n with
  | Z.pos p => S754_finite s (Z.to_pos (n * 2 ^ (53 - Zdigits2 n))) (Zdigits2 n - 53)
  | _ => S754_zero s
  end.

Lemma round_exact s m e n : 0 < n < 2 ^ 53 -> e <= Zdigits2 n - 53 -> Z.pos m = n * 2 ^ (- e) ->
  binary_round_aux 53 1024 s (Z.pos m) e loc_Exact = canon s n.
Proof.
  intros Hn He Hm. destruct n as [|p|p]; try lia. set (d := Zdigits2 (Z.pos p)) in *.
  pose proof (digits2_small p (proj2 Hn)) as Hd. change (Z.pos (digits2_pos p)) with d in Hd.
  assert (Dm : Z.pos (digits2_pos m) = d - e).
  { rewrite (digits2_shift p m (- e)) by (lia || exact Hm). change (Z.pos (digits2_pos p)) with d. lia. }
  unfold binary_round_aux, shr_fexp at 1. cbn [shr_record_of_loc Zdigits2]. rewrite Dm.
  replace (d - e + e) with d by lia. rewrite (fexp_small d Hd).
  set (M := Z.pos p * 2 ^ (53 - d)).
  assert (HM : 0 < M) by (apply Z.mul_pos_pos; [lia|apply Z.pow_pos_nonneg; lia]).
  replace (Z.pos m) with (M * 2 ^ (d - 53 - e)).
  2:{ rewrite Hm. unfold M. rewrite <- Z.mul_assoc, <- Z.pow_add_r by lia. do 2 f_equal. lia. }
  rewrite shr_exact by lia. cbn [shr_m loc_of_shr_record round_nearest_even].
  replace (e + (d - 53 - e)) with (d - 53) by lia.
  assert (DM : Zdigits2 M = 53).
  { destruct M as [|q|q] eqn:EM; try lia. cbn [Zdigits2]. rewrite (digits2_shift p q (53 - d)); [|lia|symmetry; exact EM].
    change (Z.pos (digits2_pos p)) with d. lia. }
  unfold shr_fexp. rewrite DM. replace (53 + (d - 53)) with d by lia. rewrite (fexp_small d Hd).
  replace (d - 53 - (d - 53)) with 0 by lia. cbn [shr shr_record_of_loc shr_m].
  assert (C : canon s (Z.pos p) = S754_finite s (Z.to_pos M) (d - 53)) by reflexivity. rewrite C.
  destruct M as [|q|q]; try lia. destruct (Z.leb_spec (d - 53) (1024 - 53)); [reflexivity|lia].
Qed.

Lemma shift_pos_value d m : Z.pos (shift_pos d m) = Z.pos m * 2 ^ Z.pos d.
Proof. rewrite shift_pos_correct, Z.mul_comm. reflexivity. Qed.

Lemma binary_round_exact s m e n : 0 < n < 2 ^ 53 -> e <= 0 -> Z.pos m = n * 2 ^ (- e) ->
  binary_round 53 1024 s m e = canon s n.
Proof.
  intros Hn He Hm. destruct n as [|p|p]; try lia. pose proof (digits2_small p (proj2 Hn)) as Hd.
  assert (Dm : Z.pos (digits2_pos m) = Z.pos (digits2_pos p) - e).
  { rewrite (digits2_shift p m (- e)) by (lia || exact Hm). lia. }
  unfold binary_round. rewrite Dm. replace (Z.pos (digits2_pos p) - e + e) with (Z.pos (digits2_pos p)) by lia.
  rewrite fexp_small by exact Hd. unfold shl_align.
  destruct (Z.pos (digits2_pos p) - 53 - e) as [|q|q] eqn:Eq.
  - apply round_exact; cbn [Zdigits2]; [exact Hn|lia|exact Hm].
  - apply round_exact; cbn [Zdigits2]; [exact Hn|lia|exact Hm].
  - apply round_exact; cbn [Zdigits2]; [exact Hn|lia|].
    rewrite shift_pos_value, Hm, <- Z.mul_assoc, <- Z.pow_add_r by lia. do 2 f_equal. lia.
Qed.

Lemma of_Z_exact n : Z.abs n < 2 ^ 53 -> binary_normalize 53 1024 n 0 false = canon (n <? 0) (Z.abs n).
Proof.
  intros H. destruct n as [|p|p]; [reflexivity| |]; cbn [binary_normalize Z.abs] in *;
    (rewrite (binary_round_exact _ p 0 (Z.pos p)); [reflexivity|lia|lia|change (2 ^ (- 0)) with 1; lia]).
Qed.

Lemma mul_exact s1 s2 a b : 0 <= a -> 0 <= b -> a < 2 ^ 53 -> b < 2 ^ 53 -> a * b < 2 ^ 53 ->
  SFmul 53 1024 (canon s1 a) (canon s2 b) = canon (xorb s1 s2) (a * b).
Proof.
  intros Ha Hb La Lb L. destruct a as [|a|a]; try lia; destruct b as [|b|b]; try lia; try reflexivity.
  assert (Ca : canon s1 (Z.pos a) = S754_finite s1 (Z.to_pos (Z.pos a * 2 ^ (53 - Zdigits2 (Z.pos a)))) (Zdigits2 (Z.pos a) - 53)) by reflexivity.
  assert (Cb : canon s2 (Z.pos b) = S754_finite s2 (Z.to_pos (Z.pos b * 2 ^ (53 - Zdigits2 (Z.pos b)))) (Zdigits2 (Z.pos b) - 53)) by reflexivity.
  rewrite Ca, Cb. cbn [SFmul]. change (Z.pos a * Z.pos b) with (Z.pos (a * b)) in *.
  pose proof (digits2_small a La) as Da. pose proof (digits2_small b Lb) as Db.
  pose proof (digits2_bounds a) as [Aa _]. pose proof (digits2_bounds b) as [Ab _]. pose proof (digits2_bounds (a * b)) as [_ Bab].
  cbn [Zdigits2].
  assert (Dab : Z.pos (digits2_pos a) + Z.pos (digits2_pos b) - 1 <= Z.pos (digits2_pos (a * b))).
  { destruct (Z.le_gt_cases (Z.pos (digits2_pos a) + Z.pos (digits2_pos b) - 1) (Z.pos (digits2_pos (a * b)))) as [|G]; [assumption|exfalso].
    assert (2 ^ Z.pos (digits2_pos (a * b)) <= 2 ^ ((Z.pos (digits2_pos a) - 1) + (Z.pos (digits2_pos b) - 1))) by (apply Z.pow_le_mono_r; lia).
    rewrite Z.pow_add_r in H by lia. rewrite Pos2Z.inj_mul in Bab.
    assert (0 < 2 ^ (Z.pos (digits2_pos a) - 1)) by (apply Z.pow_pos_nonneg; lia).
    assert (0 < 2 ^ (Z.pos (digits2_pos b) - 1)) by (apply Z.pow_pos_nonneg; lia). nia. }
  assert (Pa : 0 < 2 ^ (53 - Z.pos (digits2_pos a))) by (apply Z.pow_pos_nonneg; lia).
  assert (Pb : 0 < 2 ^ (53 - Z.pos (digits2_pos b))) by (apply Z.pow_pos_nonneg; lia).
  apply round_exact; [lia|cbn [Zdigits2]; lia|].
  rewrite Pos2Z.inj_mul, !Z2Pos.id by nia. rewrite Pos2Z.inj_mul.
  replace (- (Z.pos (digits2_pos a) - 53 + (Z.pos (digits2_pos b) - 53))) with ((53 - Z.pos (digits2_pos a)) + (53 - Z.pos (digits2_pos b))) by lia.
  rewrite Z.pow_add_r by lia. lia.
Qed.

Lemma shl_align_value m e ez : ez <= e -> Z.pos (fst (shl_align m e ez)) = Z.pos m * 2 ^ (e - ez).
Proof.
  intros H. unfold shl_align. destruct (ez - e) as [|q|q] eqn:E; [|lia|].
  - cbn [fst]. replace (e - ez) with 0 by lia. change (2 ^ 0) with 1. lia.
  - cbn [fst]. rewrite shift_pos_value. do 2 f_equal. lia.
Qed.

Lemma add_exact a b : 0 <= a -> 0 <= b -> a + b < 2 ^ 53 ->
  SFadd 53 1024 (canon false a) (canon false b) = canon false (a + b).
Proof.
  intros Ha Hb L. destruct a as [|a|a]; try lia; destruct b as [|b|b]; try lia; try reflexivity.
  assert (La : Z.pos a < 2 ^ 53) by lia. assert (Lb : Z.pos b < 2 ^ 53) by lia.
  pose proof (digits2_small a La) as Da. pose proof (digits2_small b Lb) as Db.
  assert (Ca : canon false (Z.pos a) = S754_finite false (Z.to_pos (Z.pos a * 2 ^ (53 - Zdigits2 (Z.pos a)))) (Zdigits2 (Z.pos a) - 53)) by reflexivity.
  assert (Cb : canon false (Z.pos b) = S754_finite false (Z.to_pos (Z.pos b * 2 ^ (53 - Zdigits2 (Z.pos b)))) (Zdigits2 (Z.pos b) - 53)) by reflexivity.
  rewrite Ca, Cb. cbn [SFadd cond_Zopp]. set (ez := Z.min _ _).
  rewrite !shl_align_value by lia. cbn [Zdigits2] in *.
  assert (Pa : 0 < 2 ^ (53 - Z.pos (digits2_pos a))) by (apply Z.pow_pos_nonneg; lia).
  assert (Pb : 0 < 2 ^ (53 - Z.pos (digits2_pos b))) by (apply Z.pow_pos_nonneg; lia).
  rewrite !Z2Pos.id by nia. rewrite <- !Z.mul_assoc, <- !Z.pow_add_r by lia.
  replace (53 - Z.pos (digits2_pos a) + (Z.pos (digits2_pos a) - 53 - ez)) with (- ez) by lia.
  replace (53 - Z.pos (digits2_pos b) + (Z.pos (digits2_pos b) - 53 - ez)) with (- ez) by lia.
  rewrite <- Z.mul_add_distr_r.
  assert (Pz : 0 < 2 ^ (- ez)) by (apply Z.pow_pos_nonneg; lia).
  destruct ((Z.pos a + Z.pos b) * 2 ^ (- ez)) as [|m|m] eqn:Em; [nia| |nia]. cbn [binary_normalize].
  apply binary_round_exact; [lia|lia|]. now rewrite <- Em.
Qed.

Lemma canon_valid s n : n < 2 ^ 53 -> valid_binary 53 1024 (canon s n) = true.
Proof.
  intros H. destruct n as [|p|p]; try reflexivity.
  assert (C : canon s (Z.pos p) = S754_finite s (Z.to_pos (Z.pos p * 2 ^ (53 - Zdigits2 (Z.pos p)))) (Zdigits2 (Z.pos p) - 53)) by reflexivity.
  rewrite C. pose proof (digits2_small p H) as Hd. cbn [Zdigits2 valid_binary]. unfold bounded, canonical_mantissa.
  assert (Pp : 0 < 2 ^ (53 - Z.pos (digits2_pos p))) by (apply Z.pow_pos_nonneg; lia).
  rewrite (digits2_shift p (Z.to_pos (Z.pos p * 2 ^ (53 - Z.pos (digits2_pos p)))) (53 - Z.pos (digits2_pos p))) by (try rewrite Z2Pos.id; nia).
  replace (Z.pos (digits2_pos p) + (53 - Z.pos (digits2_pos p)) + (Z.pos (digits2_pos p) - 53)) with (Z.pos (digits2_pos p)) by lia.
  rewrite fexp_small by exact Hd. 
  assert (Q : forall z, Zeq_bool z z = true) by (intros z; now apply Zeq_is_eq_bool). rewrite Q. cbn [andb].
  apply Z.leb_le. lia.
Qed.

(** * Rounding to the nearest double *)

(** what the shifted-out bits say about the remainder [t] of a division by [b] *)
Definition says (t b : Z) (r s : bool) : Prop :=
  0 <= t < b /\ (r = true <-> b <= 2 * t) /\ (s = true <-> t <> 0 /\ 2 * t <> b).
Lemma shr_says k m : 0 <= m -> exists r s,
  Nat.iter (S k) shr_1 {| shr_m := m; shr_r := false; shr_s := false |} =
    {| shr_m := m / 2 ^ Z.of_nat (S k); shr_r := r; shr_s := s |} /\ says (m mod 2 ^ Z.of_nat (S k)) (2 ^ Z.of_nat (S k)) r s.
Proof.
  intros Hm.
  assert (Step : forall q r s, 0 <= q -> shr_1 {| shr_m := q; shr_r := r; shr_s := s |} = {| shr_m := q / 2; shr_r := Z.odd q; shr_s := r || s |}).
  { intros q r s Hq. destruct q as [|[q|q|]|q]; try lia; cbn [shr_1 Z.odd]; f_equal.
    - rewrite Pos2Z.inj_xI. apply (Z.div_unique _ 2 _ 1); lia.
    - rewrite Pos2Z.inj_xO. apply (Z.div_unique _ 2 _ 0); lia. }
  induction k as [|k (r & s & E & R)].
  - change (Nat.iter 1 shr_1 ?x) with (shr_1 x). rewrite Step by exact Hm. exists (Z.odd m), false.
    change (2 ^ Z.of_nat 1) with 2. split; [reflexivity|]. unfold says. rewrite Zmod_odd. destruct (Z.odd m); repeat split; intros; (lia || easy).
  - change (Nat.iter (S (S k)) shr_1 ?x) with (shr_1 (Nat.iter (S k) shr_1 x)). rewrite E.
    rewrite Step by (apply Z.div_pos; [lia|apply Z.pow_pos_nonneg; lia]).
    set (b := 2 ^ Z.of_nat (S k)) in *. assert (Hb : 0 < b) by (apply Z.pow_pos_nonneg; lia).
    replace (2 ^ Z.of_nat (S (S k))) with (b * 2) by (unfold b; rewrite (Nat2Z.inj_succ (S k)), Z.pow_succ_r by lia; lia).
    rewrite Z.div_div by lia. exists (Z.odd (m / b)), (r || s)%bool. split; [reflexivity|].
    destruct R as ((R0 & R1) & Rr & Rs). unfold says. rewrite Z.rem_mul_r by lia. rewrite (Zmod_odd (m / b)).
    destruct (Z.odd (m / b)), r, s; cbn [orb]; repeat split; intros; try discriminate; try (exfalso; intuition (try discriminate; lia)); try (intuition (try discriminate; lia)).
Qed.
Lemma nearest_multiple m b r s : 0 < b -> says (m mod b) b r s -> 0 <= m ->
  let M := round_nearest_even (m / b) (loc_of_shr_record {| shr_m := m / b; shr_r := r; shr_s := s |}) in
  (m / b <= M <= m / b + 1) /\ forall j, Z.abs (M * b - m) <= Z.abs (j * b - m).
Proof.
  intros Hb ((T0 & T1) & Rr & Rs) Hm. pose proof (Z.div_mod m b ltac:(lia)) as D. set (q := m / b) in *. set (t := m mod b) in *.
  assert (Low : 2 * t <= b -> forall j, Z.abs (q * b - m) <= Z.abs (j * b - m)).
  { intros H j. replace (q * b - m) with (- t) by lia. replace (j * b - m) with ((j - q) * b - t) by lia.
    destruct (Z.le_gt_cases (j - q) 0) as [L|L]; [assert ((j - q) * b <= 0) by nia|assert (b <= (j - q) * b) by nia]; lia. }
  assert (High : b <= 2 * t -> forall j, Z.abs ((q + 1) * b - m) <= Z.abs (j * b - m)).
  { intros H j. replace ((q + 1) * b - m) with (b - t) by lia. replace (j * b - m) with ((j - q) * b - t) by lia.
    destruct (Z.le_gt_cases (j - q) 0) as [L|L]; [assert ((j - q) * b <= 0) by nia|assert (b <= (j - q) * b) by nia]; lia. }
  destruct r, s; cbn [loc_of_shr_record round_nearest_even]; cbv zeta.
  - split; [lia|]. apply High. tauto.
  - assert (2 * t = b) by (destruct (Z.eq_dec t 0), (Z.eq_dec (2 * t) b); intuition (try discriminate; lia)).
    destruct (Z.even q); (split; [lia|]); [apply Low|apply High]; lia.
  - split; [lia|]. apply Low. destruct (Z.le_gt_cases b (2 * t)) as [L|L]; [apply Rr in L; discriminate|lia].
  - split; [lia|]. apply Low. destruct (Z.le_gt_cases b (2 * t)) as [L|L]; [apply Rr in L; discriminate|lia].
Qed.

Lemma fexp_normal d : -1021 <= d -> fexp 53 1024 d = d - 53.
Proof. intros H. unfold fexp, emin. lia. Qed.

(** the mantissa a number m * 2^e of more than 53 binary digits is rounded to *)
Lemma round_long s m e (d := Z.pos (digits2_pos m)) : 53 < d -> -1021 <= d + e <= 1023 -> 0 <= e + 1074 ->
  exists x u, binary_round_aux 53 1024 s (Z.pos m) e loc_Exact = x /\ valid_binary 53 1024 x = true /\
    units x = Some ((if s then -1 else 1) * (u * 2 ^ (d - 53) * 2 ^ (e + 1074))) /\
    forall j, Z.abs (u * 2 ^ (d - 53) - Z.pos m) <= Z.abs (j * 2 ^ (d - 53) - Z.pos m).
Proof.
  intros Hd Hr He. pose proof (digits2_bounds m) as Bm. fold d in Bm.
  unfold binary_round_aux, shr_fexp at 1. cbn [shr_record_of_loc Zdigits2]. fold d. rewrite fexp_normal by lia.
  replace (d + e - 53 - e) with (d - 53) by lia.
  destruct (d - 53) as [|k|k] eqn:Ek; try lia. cbn [shr]. rewrite iter_pos_nat.
  destruct (Pos2Nat.is_succ k) as (k' & Ek'). rewrite Ek'.
  destruct (shr_says k' (Z.pos m) ltac:(lia)) as (r & st & E & R). rewrite E.
  rewrite <- Ek', positive_nat_Z in *. set (b := 2 ^ Z.pos k) in *.
  assert (Hb : 0 < b) by (apply Z.pow_pos_nonneg; lia).
  destruct (nearest_multiple (Z.pos m) b r st Hb R ltac:(lia)) as (BM & N). cbv zeta in BM, N.
  cbn [shr_m]. set (M := round_nearest_even _ _) in *.
  assert (Eb : 2 ^ d = 2 ^ 53 * b) by (unfold b; rewrite <- Z.pow_add_r by lia; f_equal; lia).
  assert (Eb' : 2 ^ (d - 1) = 2 ^ 52 * b) by (unfold b; rewrite <- Z.pow_add_r by lia; f_equal; lia).
  assert (Q : 2 ^ 52 <= Z.pos m / b < 2 ^ 53).
  { split; [apply Z.div_le_lower_bound; lia|apply Z.div_lt_upper_bound; lia]. }
  assert (QM : 2 ^ 52 <= M <= 2 ^ 53) by lia.
  assert (Pe : forall z, Zeq_bool z z = true) by (intros z; now apply Zeq_is_eq_bool).
  unfold shr_fexp. cbn [shr_record_of_loc].
  destruct M as [|p|p] eqn:EM; try lia. cbn [Zdigits2].
  destruct (Z.eq_dec (Z.pos p) (2 ^ 53)) as [E53|N53].
  - (* the mantissa became 2^53 *)
    assert (D : Z.pos (digits2_pos p) = 54) by (apply digits2_unique; [lia|rewrite E53; cbn; lia]).
    rewrite D, fexp_normal by lia. replace (54 + (e + Z.pos k) - 53 - (e + Z.pos k)) with 1 by lia.
    cbn [shr iter_pos]. assert (Ep : Z.pos p = 2 ^ 53) by exact E53. injection Ep as ->.
    cbn [shr_1 shr_m]. destruct (Z.leb_spec (e + Z.pos k + 1) (1024 - 53)); [|lia].
    eexists _, (2 ^ 53). split; [reflexivity|]. split; [|split].
    + cbn [valid_binary]. unfold bounded, canonical_mantissa. change (Z.pos (digits2_pos 4503599627370496)) with 53.
      rewrite fexp_normal by lia. replace (53 + (e + Z.pos k + 1) - 53) with (e + Z.pos k + 1) by lia. rewrite Pe.
      cbn [andb]. apply Z.leb_le. lia.
    + cbn [units]. f_equal. change (2 ^ Z.pos k) with b. 
      replace (e + Z.pos k + 1 + 1074) with (1 + Z.pos k + (e + 1074)) by lia. rewrite !Z.pow_add_r by lia. fold b.
        change (2 ^ 53) with (4503599627370496 * 2). change (2 ^ 1) with 2. lia.
    + exact N.
  - assert (D : Z.pos (digits2_pos p) = 53) by (apply digits2_unique; lia).
    rewrite D, fexp_normal by lia. replace (53 + (e + Z.pos k) - 53 - (e + Z.pos k)) with 0 by lia.
    cbn [shr shr_m]. destruct (Z.leb_spec (e + Z.pos k) (1024 - 53)); [|lia].
    eexists _, (Z.pos p). split; [reflexivity|]. split; [|split].
    + cbn [valid_binary]. unfold bounded, canonical_mantissa. rewrite D, fexp_normal by lia.
      replace (53 + (e + Z.pos k) - 53) with (e + Z.pos k) by lia. rewrite Pe. cbn [andb]. apply Z.leb_le. lia.
    + cbn [units]. f_equal. replace (e + Z.pos k + 1074) with (Z.pos k + (e + 1074)) by lia. rewrite Z.pow_add_r by lia.
      unfold b. lia.
    + exact N.
Qed.

(** Hence the result is the nearest double. *)
Lemma round_nearest s m e v (d := Z.pos (digits2_pos m)) : 53 < d -> -1021 <= d + e <= 1023 -> 0 <= e + 1074 ->
  Z.pos m * 2 ^ (e + 1074) = v * 2 ^ 1074 ->
  is_nearest (binary_round_aux 53 1024 s (Z.pos m) e loc_Exact) ((if s then -1 else 1) * v).
Proof.
  intros Hd Hr He Hv. destruct (round_long s m e Hd Hr He) as (x & u & -> & V & U & N). fold d in U, N.
  split; [exact V|]. eexists. split; [exact U|].
  set (b := 2 ^ (d - 53)) in *. set (c := 2 ^ (e + 1074)) in *.
  assert (Hb : 0 < b) by (apply Z.pow_pos_nonneg; lia). assert (Hc : 0 < c) by (apply Z.pow_pos_nonneg; lia).
  pose proof (digits2_bounds m) as [Bm _]. fold d in Bm.
  assert (Eb : 2 ^ (d - 1) = 2 ^ 52 * b) by (unfold b; rewrite <- Z.pow_add_r by lia; f_equal; lia).
  (* no double w is nearer, sign aside *)
  assert (K : forall y w, valid_binary 53 1024 y = true -> units y = Some w -> Z.abs (u * b * c - v * 2 ^ 1074) <= Z.abs (w - v * 2 ^ 1074)).
  { intros y w Vy Uy. rewrite <- Hv.
    assert (J : forall j, Z.abs (u * b * c - Z.pos m * c) <= Z.abs (j * b * c - Z.pos m * c)).
    { intros j. rewrite <- !Z.mul_sub_distr_r, !Z.abs_mul. apply Z.mul_le_mono_nonneg_r; [lia|apply N]. }
    assert (Multiple : forall j, w = j * b * c -> Z.abs (u * b * c - Z.pos m * c) <= Z.abs (w - Z.pos m * c)) by (intros j ->; apply J).
    assert (Small : w <= 2 ^ 52 * b * c -> Z.abs (u * b * c - Z.pos m * c) <= Z.abs (w - Z.pos m * c)).
    { intros L. pose proof (J (2 ^ 52)) as J0. assert (2 ^ 52 * b * c <= Z.pos m * c) by nia. lia. }
    destruct y as [sy|sy| |sy my ey]; cbn [units] in Uy; try discriminate.
    - apply (Multiple 0). injection Uy as <-. lia.
    - assert (Ew : w = (if sy then -1 else 1) * (Z.pos my * 2 ^ (ey + 1074))) by congruence. clear Uy. subst w.
      cbn [valid_binary] in Vy. unfold bounded, canonical_mantissa in Vy. apply andb_true_iff in Vy as [Vy _].
      apply Zeq_is_eq_bool in Vy. unfold fexp, emin in Vy.
      destruct (Z.le_gt_cases (e + (d - 53)) ey) as [L|L].
      + apply (Multiple ((if sy then -1 else 1) * (Z.pos my * 2 ^ (ey - (e + (d - 53)))))).
        assert (P : 2 ^ (ey + 1074) = 2 ^ (ey - (e + (d - 53))) * b * c) by (unfold b, c; rewrite <- !Z.pow_add_r by lia; f_equal; lia).
        rewrite P. ring.
      + apply Small. destruct sy; [assert (0 <= Z.pos my * 2 ^ (ey + 1074)) by (apply Z.mul_nonneg_nonneg; [lia|apply Z.pow_nonneg; lia]); nia|].
        pose proof (digits2_bounds my) as [_ By].
        assert (2 ^ Z.pos (digits2_pos my) <= 2 ^ 53) by (apply Z.pow_le_mono_r; lia).
        assert (P : 2 ^ (ey + 1074) * 2 <= b * c).
        { unfold b, c. rewrite <- Z.pow_add_r by lia. change 2 with (2 ^ 1) at 2. rewrite <- Z.pow_add_r by lia. apply Z.pow_le_mono_r; lia. }
        assert (0 < 2 ^ (ey + 1074)) by (apply Z.pow_pos_nonneg; lia).
        change (2 ^ 53) with (2 ^ 52 * 2) in *. nia. }
  intros y w Vy Uy. destruct s.
  - destruct y as [sy|sy| |sy my ey]; cbn [units] in Uy; try discriminate.
    + injection Uy as <-. pose proof (K (S754_zero sy) 0 eq_refl eq_refl). lia.
    + assert (Ew : w = (if sy then -1 else 1) * (Z.pos my * 2 ^ (ey + 1074))) by congruence. subst w.
      pose proof (K (S754_finite (negb sy) my ey) _ Vy eq_refl). destruct sy; cbn [negb] in *; lia.
  - pose proof (K y w Vy Uy). lia.
Qed.

Lemma canon_units s n : 0 <= n < 2 ^ 53 -> units (canon s n) = Some ((if s then -1 else 1) * (n * 2 ^ 1074)).
Proof.
  intros [H0 H]. destruct n as [|p|p]; try lia; [destruct s; reflexivity|].
  assert (C : canon s (Z.pos p) = S754_finite s (Z.to_pos (Z.pos p * 2 ^ (53 - Zdigits2 (Z.pos p)))) (Zdigits2 (Z.pos p) - 53)) by reflexivity.
  rewrite C. pose proof (digits2_small p H) as Hd. cbn [units Zdigits2].
  assert (Pp : 0 < 2 ^ (53 - Z.pos (digits2_pos p))) by (apply Z.pow_pos_nonneg; lia).
  rewrite Z2Pos.id by nia. rewrite <- (Z.mul_assoc (Z.pos p)), <- Z.pow_add_r by lia. do 4 f_equal. lia.
Qed.

(** An integer times a power of ten, both exactly doubles: the nearest double to the product. *)
Lemma power_of_ten k : 0 <= k <= 22 -> exists m e, binary_normalize 53 1024 (10 ^ k) 0 false = S754_finite false m e /\
  Z.pos (digits2_pos m) = 53 /\ Z.pos m * 2 ^ (e + 1074) = 10 ^ k * 2 ^ 1074 /\ -52 <= e <= 21.
Proof.
  intros Hk. assert (Cs : In k [0;1;2;3;4;5;6;7;8;9;10;11;12;13;14;15;16;17;18;19;20;21;22]) by (cbn [In]; lia).
  cbn [In] in Cs. repeat (destruct Cs as [<-|Cs]; [eexists _, _; split; [vm_compute; reflexivity|split; [vm_compute; reflexivity|split; [vm_compute; reflexivity|split; lia]]]|]).
  easy.
Qed.
Lemma mul_power_of_ten s n k : 0 <= n < 2 ^ 53 -> 0 <= k <= 22 ->
  is_nearest (SFmul 53 1024 (canon s n) (binary_normalize 53 1024 (10 ^ k) 0 false)) ((if s then -1 else 1) * (n * 10 ^ k)).
Proof.
  intros Hn Hk. destruct (power_of_ten k Hk) as (m2 & e2 & -> & D2 & V2 & E2).
  destruct n as [|p|p]; try lia.
  - cbn [canon SFmul]. split; [reflexivity|]. exists 0. split; [reflexivity|]. intros y w _ _. destruct s; lia.
  - pose proof (digits2_small p (proj2 Hn)) as Hd.
    assert (C : canon s (Z.pos p) = S754_finite s (Z.to_pos (Z.pos p * 2 ^ (53 - Zdigits2 (Z.pos p)))) (Zdigits2 (Z.pos p) - 53)) by reflexivity.
    rewrite C. clear C. cbn [SFmul Zdigits2]. set (dp := Z.pos (digits2_pos p)) in *.
    assert (Pp : 0 < 2 ^ (53 - dp)) by (apply Z.pow_pos_nonneg; lia).
    set (m1 := Z.to_pos _). assert (E1 : Z.pos m1 = Z.pos p * 2 ^ (53 - dp)) by (unfold m1; rewrite Z2Pos.id; nia).
    assert (D1 : Z.pos (digits2_pos m1) = 53) by (rewrite (digits2_shift p m1 (53 - dp)); [fold dp|..]; lia).
    pose proof (digits2_bounds m1) as B1. pose proof (digits2_bounds m2) as B2. rewrite D1 in B1. rewrite D2 in B2.
    assert (D : 105 <= Z.pos (digits2_pos (m1 * m2)) <= 106).
    { pose proof (digits2_bounds (m1 * m2)) as [L U]. rewrite Pos2Z.inj_mul in L, U. set (dd := Z.pos (digits2_pos (m1 * m2))) in *.
      change (53 - 1) with 52 in *.
      split.
      - destruct (Z.le_gt_cases 105 dd) as [G|G]; [exact G|exfalso].
        assert (2 ^ dd <= 2 ^ 52 * 2 ^ 52) by (rewrite <- Z.pow_add_r by lia; apply Z.pow_le_mono_r; lia). nia.
      - destruct (Z.le_gt_cases dd 106) as [G|G]; [exact G|exfalso].
        assert (2 ^ 53 * 2 ^ 53 <= 2 ^ (dd - 1)) by (rewrite <- Z.pow_add_r by lia; apply Z.pow_le_mono_r; lia). nia. }
    replace (xorb s false) with s by (destruct s; reflexivity).
    apply round_nearest; [lia|lia|lia|].
    rewrite Pos2Z.inj_mul, E1.
    replace (dp - 53 + e2 + 1074) with ((e2 + 1074) - (53 - dp)) by lia.
    assert (P : 2 ^ (53 - dp) * 2 ^ (e2 + 1074 - (53 - dp)) = 2 ^ (e2 + 1074)) by (rewrite <- Z.pow_add_r by lia; f_equal; lia).
    replace (Z.pos p * 2 ^ (53 - dp) * Z.pos m2 * 2 ^ (e2 + 1074 - (53 - dp))) with (Z.pos p * (Z.pos m2 * (2 ^ (53 - dp) * 2 ^ (e2 + 1074 - (53 - dp))))) by lia.
    rewrite P, V2. lia.
Qed.
Lemma mul_small_power s n k : 0 <= n -> 0 <= k <= 22 -> n * 10 ^ k < 2 ^ 53 -> 10 ^ k < 2 ^ 53 ->
  SFmul 53 1024 (canon s n) (binary_normalize 53 1024 (10 ^ k) 0 false) = canon s (n * 10 ^ k).
Proof.
  intros Hn Hk L L'. assert (0 < 10 ^ k) by (apply Z.pow_pos_nonneg; lia). rewrite of_Z_exact by lia.
  destruct (Z.ltb_spec (10 ^ k) 0); [lia|]. rewrite Z.abs_eq by lia. rewrite mul_exact by nia.
  now destruct s.
Qed.
