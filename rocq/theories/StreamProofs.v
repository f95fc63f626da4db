From Coq Require Import ZArith List Lia Bool ZifyBool ZifyNat.
From Verif Require Import Outcome BitLemmas LebSpec VarIntModel VarIntProofs StreamModel.
Import ListNotations.
Local Open Scope Z_scope.
Ltac Zify.zify_post_hook ::= Z.div_mod_to_equations.

Lemma leb_loop_cons fuel shift result b r o :
  is_byte b -> shift <= 63 ->
  leb_loop (S fuel) shift result (mkStream (b :: r) false o) =
  let result' := Z.lor result (Z.shiftl (b mod 128) shift mod 2 ^ 64) in
  if (128 <=? b) && (shift + 7 <? 64)
  then leb_loop fuel (shift + 7) result' (mkStream r false (o + 1))
  else Ok (b, shift + 7, result', mkStream r false (o + 1)).
Proof.
  intros Hb Hs. cbn [leb_loop s_get s_rest s_eof s_offset].
  replace (63 <? shift) with false by lia.
  rewrite land_127, land_128_byte by exact Hb. cbn [negb].
  rewrite andb_true_r. replace (negb (b <? 128)) with (128 <=? b) by lia. reflexivity.
Qed.

Lemma leb_loop_ok g :
  leb_shape g -> forall fuel shift result post o,
  0 <= shift -> shift + 7 * (Z.of_nat (length g) - 1) <= 63 ->
  (length g <= fuel)%nat -> 0 <= result < 2 ^ shift ->
  leb_loop fuel shift result (mkStream (g ++ post) false o) =
  Ok (last g 0, shift + 7 * Z.of_nat (length g),
      (result + uleb_value g * 2 ^ shift) mod 2 ^ 64,
      mkStream post false (o + Z.of_nat (length g))).
Proof.
  intros Hg. induction Hg as [b Hb|b bs Hb Hbs IH];
    intros fuel shift result post o Hs Hfit Hfuel Hres; destruct fuel as [|fuel];
    cbn [length] in *; try lia.
  - cbn [app]. rewrite leb_loop_cons by (unfold is_byte; lia). cbn zeta.
    replace (128 <=? b) with false by lia. cbn [andb].
    cbn [uleb_value last]. rewrite Z.shiftl_mul_pow2 by lia.
    rewrite mod_mul_pow, lor_disjoint_mul by lia.
    rewrite Z.mul_0_r, Z.add_0_r, add_mod_aligned by lia.
    replace (o + Z.of_nat 1) with (o + 1) by lia.
    replace (shift + 7 * Z.of_nat 1) with (shift + 7) by lia. reflexivity.
  - cbn [app]. rewrite leb_loop_cons by (unfold is_byte; lia). cbn zeta.
    assert (Hlen : 1 <= Z.of_nat (length bs)).
    { pose proof (leb_nonempty _ Hbs). destruct bs; [congruence|cbn [length]; lia]. }
    replace (128 <=? b) with true by lia. cbn [andb].
    replace (shift + 7 <? 64) with true by lia.
    assert (Hpos : 0 < 2 ^ shift) by (apply pow2_pos; lia).
    rewrite Z.shiftl_mul_pow2 by lia.
    rewrite (Z.mod_small (b mod 128 * 2 ^ shift)).
    2:{ assert (H : 2 ^ (shift + 7) <= 2 ^ 64) by (apply Z.pow_le_mono_r; lia).
        rewrite Z.pow_add_r in H by lia. change (2 ^ 7) with 128 in H. nia. }
    rewrite lor_disjoint_mul by lia.
    rewrite IH; try lia.
    + replace (last (b :: bs) 0) with (last bs 0)
        by (pose proof (leb_nonempty _ Hbs); destruct bs; [congruence|reflexivity]).
      cbn [uleb_value].
      replace (result + b mod 128 * 2 ^ shift + uleb_value bs * 2 ^ (shift + 7))
        with (result + (b mod 128 + 128 * uleb_value bs) * 2 ^ shift)
        by (rewrite Z.pow_add_r by lia; change (2 ^ 7) with 128; ring).
      replace (shift + 7 + 7 * Z.of_nat (length bs))
        with (shift + 7 * Z.of_nat (S (length bs))) by lia.
      replace (o + 1 + Z.of_nat (length bs)) with (o + Z.of_nat (S (length bs))) by lia.
      reflexivity.
    + rewrite Z.pow_add_r by lia. change (2 ^ 7) with 128. nia.
Qed.

Lemma uleb128_ok g post o :
  leb_shape g -> (length g <= 10)%nat ->
  uleb128 (mkStream (g ++ post) false o) =
  Ok (uleb_value g mod 2 ^ 64, mkStream post false (o + Z.of_nat (length g))).
Proof.
  intros Hg Hl. unfold uleb128. rewrite leb_loop_ok by (auto; lia). cbn [bind].
  change (2 ^ 0) with 1. rewrite Z.add_0_l, Z.mul_1_r. reflexivity.
Qed.

Lemma leb128_ok g post o :
  leb_shape g -> (length g <= 9)%nat ->
  leb128 (mkStream (g ++ post) false o) =
  Ok (sleb_value g, mkStream post false (o + Z.of_nat (length g))).
Proof.
  intros Hg Hl. unfold leb128. rewrite leb_loop_ok by (auto; lia). cbn [bind].
  change (2 ^ 0) with 1. rewrite Z.add_0_l, Z.mul_1_r, Z.add_0_l.
  pose proof (leb_last_byte _ Hg) as Hlast.
  rewrite land_64_byte by (unfold is_byte; lia).
  pose proof (uleb_bound g) as Hb. rewrite sleb_uleb by exact Hg.
  replace (128 ^ Z.of_nat (length g)) with (2 ^ (7 * Z.of_nat (length g))) in *
    by (rewrite Z.pow_mul_r by lia; reflexivity).
  set (k := 7 * Z.of_nat (length g)) in *.
  assert (Hk : 0 <= k <= 63) by lia.
  assert (H63 : 2 ^ k <= 2 ^ 63) by (apply Z.pow_le_mono_r; lia).
  assert (Hpk : 0 < 2 ^ k) by (apply pow2_pos; lia).
  rewrite (Z.mod_small (uleb_value g)) by lia.
  destruct (last g 0 mod 128 <? 64).
  - rewrite to_signed_small by (change (2 ^ (64 - 1)) with (2 ^ 63); lia). reflexivity.
  - replace (64 <=? k) with false by lia.
    rewrite Z.shiftl_mul_pow2, mod_mul_pow by lia.
    assert (E64 : 2 ^ 64 = 2 ^ (64 - k) * 2 ^ k)
      by (rewrite <- Z.pow_add_r by lia; f_equal; lia).
    rewrite lor_disjoint_mul by lia.
    assert (Em : (2 ^ 64 - 1) mod 2 ^ (64 - k) = 2 ^ (64 - k) - 1).
    { assert (0 < 2 ^ (64 - k)) by (apply pow2_pos; lia).
      symmetry. apply Z.mod_unique with (q := 2 ^ k - 1); [lia|]. rewrite E64. ring. }
    rewrite Em. rewrite Z.mul_sub_distr_r, <- E64, Z.mul_1_l.
    do 2 f_equal.
    unfold to_signed.
    assert (E1 : (uleb_value g + (2 ^ 64 - 2 ^ k)) mod 2 ^ 64 = uleb_value g + (2 ^ 64 - 2 ^ k)).
    { apply Z.mod_small. lia. }
    rewrite E1.
    replace (uleb_value g + (2 ^ 64 - 2 ^ k) <? 2 ^ (64 - 1)) with false.
    + lia.
    + change (2 ^ (64 - 1)) with (2 ^ 63). change (2 ^ 64) with (2 * 2 ^ 63). lia.
Qed.

Lemma leb128_ten g post o :
  leb_shape g -> length g = 10%nat ->
  leb128 (mkStream (g ++ post) false o) =
  if last g 0 <? 64
  then Ok (to_signed 64 (uleb_value g), mkStream post false (o + 10))
  else UB BadShift.
Proof.
  intros Hg Hl. unfold leb128. rewrite leb_loop_ok by (auto; lia). cbn [bind].
  change (2 ^ 0) with 1. rewrite Z.add_0_l, Z.mul_1_r, Z.add_0_l, Hl.
  pose proof (leb_last_byte _ Hg) as Hlast.
  rewrite land_64_byte by (unfold is_byte; lia).
  replace (last g 0 mod 128) with (last g 0) by lia.
  destruct (last g 0 <? 64).
  - rewrite (to_signed_mod 64 (uleb_value g mod 2 ^ 64) (uleb_value g)); [reflexivity|lia|].
    apply Z.mod_mod. lia.
  - reflexivity.
Qed.

(** The readers never report anything: the loop cannot throw, whatever the stream. *)
Lemma leb_loop_never_throws fuel : forall shift result s,
  0 <= shift <= 63 -> (64 <= shift + 7 * Z.of_nat fuel) ->
  exists b sh r s', leb_loop fuel shift result s = Ok (b, sh, r, s').
Proof.
  induction fuel as [|fuel IH]; intros shift result s Hs Hf; [lia|].
  cbn [leb_loop]. replace (63 <? shift) with false by lia.
  destruct (s_get s) as [byte s1].
  destruct (_ && _ && _) eqn:E; [|eauto 10].
  apply IH; lia.
Qed.

Lemma uleb128_never_throws s : exists r s', uleb128 s = Ok (r, s').
Proof.
  unfold uleb128. destruct (leb_loop_never_throws 12 0 0 s) as (b & sh & r & s' & ->); [lia|lia|].
  cbn [bind]. eauto.
Qed.

Lemma s_read_total n s :
  s_read n s = Throw ReaderError \/
  exists b r, s_rest s = b ++ r /\ length b = n /\
    s_read n s = Ok (b, mkStream r (s_eof s) (s_offset s + Z.of_nat n)).
Proof.
  unfold s_read. destruct (Nat.ltb_spec (length (s_rest s)) n) as [|H]; [auto|].
  right. exists (firstn n (s_rest s)), (skipn n (s_rest s)).
  rewrite firstn_skipn, firstn_length. repeat split. lia.
Qed.

(** Bytes that continue are accumulated. *)
Lemma leb_loop_more g : forall fuel shift result post o,
  Forall (fun b => 128 <= b < 256) g -> 0 <= shift -> shift + 7 * Z.of_nat (length g) <= 63 ->
  (length g <= fuel)%nat -> 0 <= result < 2 ^ shift ->
  leb_loop fuel shift result (mkStream (g ++ post) false o) =
  leb_loop (fuel - length g) (shift + 7 * Z.of_nat (length g))
           (result + uleb_value g * 2 ^ shift) (mkStream post false (o + Z.of_nat (length g)))
  /\ 0 <= result + uleb_value g * 2 ^ shift < 2 ^ (shift + 7 * Z.of_nat (length g)).
Proof.
  induction g as [|b g IH]; intros fuel shift result post o Hg Hs Hfit Hfuel Hres.
  - cbn [length uleb_value app]. rewrite Z.mul_0_l, !Z.add_0_r, Nat.sub_0_r. auto.
  - inversion Hg as [|? ? Hb Hg']; subst. destruct fuel as [|fuel]; cbn [length] in *; [lia|].
    cbn [app]. rewrite leb_loop_cons by (unfold is_byte; lia). cbn zeta.
    replace (128 <=? b) with true by lia. cbn [andb].
    replace (shift + 7 <? 64) with true by lia.
    assert (Hpos : 0 < 2 ^ shift) by (apply pow2_pos; lia).
    rewrite Z.shiftl_mul_pow2 by lia.
    rewrite (Z.mod_small (b mod 128 * 2 ^ shift)).
    2:{ assert (H : 2 ^ (shift + 7) <= 2 ^ 64) by (apply Z.pow_le_mono_r; lia).
        rewrite Z.pow_add_r in H by lia. change (2 ^ 7) with 128 in H. nia. }
    rewrite lor_disjoint_mul by lia.
    destruct (IH fuel (shift + 7) (result + b mod 128 * 2 ^ shift) post (o + 1)) as [E B];
      auto; try lia.
    + rewrite Z.pow_add_r by lia. change (2 ^ 7) with 128. nia.
    + assert (V : result + b mod 128 * 2 ^ shift + uleb_value g * 2 ^ (shift + 7)
                  = result + uleb_value (b :: g) * 2 ^ shift).
      { cbn [uleb_value]. rewrite Z.pow_add_r by lia. change (2 ^ 7) with 128. ring. }
      rewrite V in E, B. rewrite E.
      replace (shift + 7 + 7 * Z.of_nat (length g))
        with (shift + 7 * Z.of_nat (S (length g))) in * by lia.
      replace (o + 1 + Z.of_nat (length g)) with (o + Z.of_nat (S (length g))) by lia.
      cbn [Nat.sub]. auto.
Qed.

Lemma uleb_app a b :
  uleb_value (a ++ b) = uleb_value a + uleb_value b * 128 ^ Z.of_nat (length a).
Proof.
  induction a as [|x a IH]; cbn [app uleb_value length]; [rewrite Z.pow_0_r; ring|].
  rewrite IH, Nat2Z.inj_succ, Z.pow_succ_r by lia. ring.
Qed.

Lemma pow_128_7 n : 0 <= n -> 128 ^ n = 2 ^ (7 * n).
Proof. intros. rewrite Z.pow_mul_r by lia. reflexivity. Qed.

(** The stream ends inside the number: the byte 255 that get() returns there is used. *)
Lemma uleb128_cut g o :
  Forall (fun b => 128 <= b < 256) g -> (length g < 10)%nat ->
  uleb128 (mkStream g false o) =
  Ok ((uleb_value g + 127 * 128 ^ Z.of_nat (length g)) mod 2 ^ 64,
      mkStream [] true (o + Z.of_nat (length g))).
Proof.
  intros Hg Hl. unfold uleb128.
  destruct (leb_loop_more g 12 0 0 [] o Hg) as [E B]; try lia.
  rewrite List.app_nil_r in E. rewrite E. clear E. change (2 ^ 0) with 1 in *.
  rewrite Z.mul_1_r, !Z.add_0_l in *.
  remember (12 - length g)%nat as f. destruct f as [|f]; [lia|].
  cbn [leb_loop]. replace (63 <? _) with false by lia.
  cbn [s_get s_rest s_eof s_offset]. cbn [negb]. rewrite andb_false_r. cbn [bind].
  change (Z.land 255 127) with 127. rewrite Z.shiftl_mul_pow2 by lia.
  rewrite mod_mul_pow, lor_disjoint_mul, pow_128_7 by lia. rewrite add_mod_aligned by lia. reflexivity.
Qed.

(** Ten bytes that continue: all are taken, the eleventh is not looked at. *)
Lemma uleb128_overlong g post o :
  Forall (fun b => 128 <= b < 256) g -> length g = 10%nat ->
  uleb128 (mkStream (g ++ post) false o) = Ok (uleb_value g mod 2 ^ 64, mkStream post false (o + 10)).
Proof.
  intros Hg Hl. unfold uleb128.
  destruct (exists_last (l := g)) as (g9 & b & ->); [intros ->; discriminate|].
  apply Forall_app in Hg as [Hg Hb]. inversion Hb as [|? ? Hb' _]; subst.
  rewrite app_length in Hl. cbn [length] in Hl.
  rewrite <- app_assoc. cbn [app].
  destruct (leb_loop_more g9 12 0 0 (b :: post) o Hg) as [E B]; try lia.
  rewrite E. clear E. change (2 ^ 0) with 1 in *.
  rewrite Z.mul_1_r, !Z.add_0_l in *.
  replace (12 - length g9)%nat with 3%nat by lia.
  replace (7 * Z.of_nat (length g9)) with 63 in * by lia.
  rewrite leb_loop_cons by (unfold is_byte; lia). cbn zeta.
  change (63 + 7 <? 64) with false. rewrite andb_false_r. cbn [bind].
  rewrite Z.shiftl_mul_pow2, mod_mul_pow, lor_disjoint_mul by lia.
  replace (o + Z.of_nat (length g9) + 1) with (o + 10) by lia.
  rewrite uleb_app. cbn [uleb_value]. rewrite pow_128_7 by lia.
  replace (7 * Z.of_nat (length g9)) with 63 by lia.
  rewrite Z.mul_0_r, Z.add_0_r, add_mod_aligned by lia. reflexivity.
Qed.
