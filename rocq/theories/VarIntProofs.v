From Coq Require Import ZArith List Lia Bool ZifyBool ZifyNat.
From Verif Require Import Outcome BitLemmas LebSpec VarIntModel.
Import ListNotations.
Local Open Scope Z_scope.
Ltac Zify.zify_post_hook ::= Z.div_mod_to_equations.

(** * Encoder *)

Lemma append_loop_S fuel v :
  append_varuint_loop (S fuel) v =
  if v / 128 =? 0 then Ok [v mod 128]
  else do rest <- append_varuint_loop fuel (v / 128); Ok (Z.lor (v mod 128) 128 :: rest).
Proof. cbn [append_varuint_loop]. rewrite land_127, shiftr_7. reflexivity. Qed.

Lemma append_loop_spec fuel v :
  0 <= v < 128 ^ Z.of_nat fuel -> (0 < fuel)%nat ->
  exists enc, append_varuint_loop fuel v = Ok enc
    /\ leb_shape enc /\ uleb_value enc = v /\ (length enc <= fuel)%nat
    /\ (v <> 0 -> 128 ^ (Z.of_nat (length enc) - 1) <= v) /\ (v = 0 -> length enc = 1%nat).
Proof.
  revert v. induction fuel as [|fuel IH]; intros v Hv Hf; [lia|].
  rewrite append_loop_S. destruct (v / 128 =? 0) eqn:E.
  - exists [v mod 128]. repeat split; cbn [length uleb_value]; try lia.
    constructor. lia.
  - assert (0 < fuel)%nat.
    { destruct fuel; [|lia]. change (128 ^ Z.of_nat 1) with 128 in Hv. lia. }
    rewrite Nat2Z.inj_succ, Z.pow_succ_r in Hv by lia.
    destruct (IH (v / 128)) as (enc & He & Hs & Hval & Hlen & Hmin & Hz); [lia|lia|].
    rewrite He. cbn [bind]. exists (Z.lor (v mod 128) 128 :: enc).
    rewrite lor_128 by lia.
    repeat split; cbn [length uleb_value]; try lia.
    + constructor; [lia|exact Hs].
    + intros _. assert (Hne : v / 128 <> 0) by lia. specialize (Hmin Hne).
      replace (Z.of_nat (S (length enc)) - 1) with (Z.succ (Z.of_nat (length enc) - 1)) by lia.
      destruct enc as [|e enc]; [inversion Hs|].
      rewrite Z.pow_succ_r by (cbn [length]; lia). lia.
Qed.

(** * Facts about the specification *)

Lemma leb_nonempty bs : leb_shape bs -> bs <> [].
Proof. intros H; inversion H; discriminate. Qed.

Lemma leb_bytes bs : leb_shape bs -> is_bytes bs.
Proof.
  induction 1 as [b Hb|b bs Hb Hbs IH]; constructor; auto; unfold is_byte; lia.
Qed.

Lemma uleb_bound bs : 0 <= uleb_value bs < 128 ^ Z.of_nat (length bs).
Proof.
  induction bs as [|b bs IH]; cbn [uleb_value length].
  - change (128 ^ Z.of_nat 0) with 1. lia.
  - rewrite Nat2Z.inj_succ, Z.pow_succ_r by lia. lia.
Qed.

Lemma leb_prefix_free a b r s :
  leb_shape a -> leb_shape b -> a ++ r = b ++ s -> a = b /\ r = s.
Proof.
  intros Ha. revert b. induction Ha as [x Hx|x xs Hx Hxs IH]; intros b Hb E.
  - inversion Hb; subst; cbn in E; injection E; intros; subst; [auto|lia].
  - inversion Hb as [y Hy|y ys Hy Hys]; subst; cbn in E; injection E; intros; subst; [lia|].
    destruct (IH ys) as [-> ->]; auto.
Qed.

(** * Raw reads *)

Lemma load_bytes_app pre mid post :
  load_bytes (pre ++ mid ++ post) (length pre) (length mid) = Some mid.
Proof.
  revert pre. induction mid as [|m mid IH]; intros pre; [reflexivity|].
  cbn [length load_bytes]. rewrite nth_error_app2 by lia. rewrite Nat.sub_diag. cbn [nth_error app].
  specialize (IH (pre ++ [m])). rewrite <- app_assoc, app_length in IH. cbn [app length] in IH.
  replace (length pre + 1)%nat with (S (length pre)) in IH by lia. rewrite IH. reflexivity.
Qed.

Lemma load_app pre mid post n :
  n = length mid ->
  load (pre ++ mid ++ post) (Z.of_nat (length pre)) n = Ok mid.
Proof.
  intros ->. unfold load. replace (Z.of_nat (length pre) <? 0) with false by lia.
  rewrite Nat2Z.id, load_bytes_app. reflexivity.
Qed.

Lemma read_raw_app n pre mid post :
  n = length mid ->
  read_raw n (pre ++ mid ++ post) (Z.of_nat (length pre)) =
  Ok (le_value mid, Z.of_nat (length pre) + Z.of_nat (length mid)).
Proof.
  intros ->. unfold read_raw. rewrite !app_length.
  match goal with |- (if ?c then _ else _) = _ => replace c with false by lia end.
  rewrite load_app by reflexivity. reflexivity.
Qed.

Lemma load_ok bs p n :
  0 <= p -> p + Z.of_nat n <= Z.of_nat (length bs) ->
  load bs p n = Ok (firstn n (skipn (Z.to_nat p) bs)).
Proof.
  intros Hp Hle. unfold load. replace (p <? 0) with false by lia.
  pose proof (firstn_skipn (Z.to_nat p) bs) as E1.
  pose proof (firstn_skipn n (skipn (Z.to_nat p) bs)) as E2.
  set (pre := firstn (Z.to_nat p) bs) in *.
  set (mid := firstn n (skipn (Z.to_nat p) bs)) in *.
  assert (Hpre : length pre = Z.to_nat p) by (unfold pre; rewrite firstn_length; lia).
  assert (Hmid : length mid = n)
    by (unfold mid; rewrite firstn_length, skipn_length; lia).
  rewrite <- E1, <- E2, <- Hpre, <- Hmid, load_bytes_app. reflexivity.
Qed.

(** [read_raw] is total: it returns the little-endian value of the bytes at the position
    or throws, and never reads outside the span. *)
Lemma read_raw_total n bs p :
  0 <= p ->
  read_raw n bs p =
  if Z.of_nat (length bs) - Z.of_nat n <? p then Throw DecodeError
  else Ok (le_value (firstn n (skipn (Z.to_nat p) bs)), p + Z.of_nat n).
Proof.
  intros Hp. unfold read_raw. destruct (_ <? p) eqn:E; [reflexivity|].
  rewrite load_ok by lia. reflexivity.
Qed.

Lemma read_byte_cons pre b post :
  read_byte (pre ++ b :: post) (Z.of_nat (length pre)) = Ok (b, Z.of_nat (length pre) + 1).
Proof.
  unfold read_byte. change (b :: post) with ([b] ++ post).
  rewrite read_raw_app by reflexivity. cbn. do 2 f_equal. lia.
Qed.

Lemma read_byte_end bs : read_byte bs (Z.of_nat (length bs)) = Throw DecodeError.
Proof.
  unfold read_byte, read_raw.
  match goal with |- (if ?c then _ else _) = _ => replace c with true by lia end. reflexivity.
Qed.

(** * The unsigned reader *)

Lemma read_varu_loop_S fuel n w shift result pre b post :
  is_byte b -> shift < n ->
  read_varu_loop (S fuel) n w shift result (pre ++ b :: post) (Z.of_nat (length pre)) =
  let result' := Z.lor result (Z.shiftl (b mod 128) shift mod 2 ^ w) in
  if b <? 128 then Ok (result', Z.of_nat (length pre) + 1)
  else read_varu_loop fuel n w (shift + 7) result' (pre ++ b :: post) (Z.of_nat (length pre) + 1).
Proof.
  intros Hb Hn. cbn [read_varu_loop].
  replace (n <=? shift) with false by lia.
  unfold dbind at 1. rewrite read_byte_cons. cbn [bind].
  rewrite land_127, land_128_byte by exact Hb.
  destruct (b <? 128); reflexivity.
Qed.

(** Value accumulated by the loop when it succeeds on a LEB128 number [g]. *)
Lemma read_varu_loop_ok n w g :
  leb_shape g -> forall fuel shift result pre post,
  0 <= shift -> n <= w -> shift + 7 * (Z.of_nat (length g) - 1) < n ->
  (length g <= fuel)%nat ->
  0 <= result < 2 ^ shift ->
  read_varu_loop fuel n w shift result (pre ++ g ++ post) (Z.of_nat (length pre)) =
  Ok ((result + uleb_value g * 2 ^ shift) mod 2 ^ w, Z.of_nat (length pre) + Z.of_nat (length g)).
Proof.
  intros Hg. induction Hg as [b Hb|b bs Hb Hbs IH];
    intros fuel shift result pre post Hs Hnw Hfit Hfuel Hres; destruct fuel as [|fuel];
    cbn [length] in *; try lia.
  - cbn [app]. rewrite read_varu_loop_S by (unfold is_byte; lia).
    cbn zeta. replace (b <? 128) with true by lia. do 2 f_equal.
    cbn [uleb_value]. rewrite Z.shiftl_mul_pow2 by lia.
    rewrite mod_mul_pow by lia. rewrite lor_disjoint_mul by lia.
    rewrite Z.mul_0_r, Z.add_0_r. symmetry. apply add_mod_aligned; lia.
  - cbn [app]. rewrite read_varu_loop_S by (unfold is_byte; lia).
    cbn zeta. replace (b <? 128) with false by lia.
    rewrite Z.shiftl_mul_pow2 by lia.
    assert (Hpos : 0 < 2 ^ shift) by (apply pow2_pos; lia).
    assert (Hlen : 1 <= Z.of_nat (length bs)).
    { pose proof (leb_nonempty _ Hbs). destruct bs; [congruence|cbn [length]; lia]. }
    rewrite (Z.mod_small (b mod 128 * 2 ^ shift)).
    2:{ assert (2 ^ (shift + 7) <= 2 ^ w) by (apply Z.pow_le_mono_r; lia).
        rewrite Z.pow_add_r in H by lia. change (2 ^ 7) with 128 in H. nia. }
    rewrite lor_disjoint_mul by lia.
    replace (pre ++ b :: bs ++ post) with ((pre ++ [b]) ++ bs ++ post)
      by (rewrite <- app_assoc; reflexivity).
    replace (Z.of_nat (length pre) + 1) with (Z.of_nat (length (pre ++ [b])))
      by (rewrite app_length; cbn; lia).
    rewrite IH; try lia.
    + rewrite app_length. cbn [length uleb_value]. do 2 f_equal; [|lia].
      f_equal. rewrite Z.pow_add_r by lia. change (2 ^ 7) with 128. ring.
    + rewrite Z.pow_add_r by lia. change (2 ^ 7) with 128. nia.
Qed.

(** The loop throws when the number does not end within the allowed groups or the span. *)
Lemma read_varu_loop_throw n w g :
  Forall (fun b => 128 <= b < 256) g -> forall fuel shift result pre post,
  (length g < fuel)%nat ->
  post = [] \/ n <= shift + 7 * Z.of_nat (length g) ->
  read_varu_loop fuel n w shift result (pre ++ g ++ post) (Z.of_nat (length pre)) = Throw DecodeError.
Proof.
  intros Hg. induction Hg as [|b g Hb Hg IH]; intros fuel shift result pre post Hfuel Hend;
    destruct fuel as [|fuel]; cbn [length] in *; try lia.
  - cbn [app]. cbn [read_varu_loop].
    destruct (n <=? shift) eqn:E; [reflexivity|].
    destruct Hend as [->|Hend]; [|lia].
    rewrite app_nil_r. unfold dbind. rewrite read_byte_end. reflexivity.
  - cbn [app].
    destruct (n <=? shift) eqn:E.
    + cbn [read_varu_loop]. rewrite E. reflexivity.
    + rewrite read_varu_loop_S by (unfold is_byte; lia).
      cbn zeta. replace (b <? 128) with false by lia.
      replace (pre ++ b :: g ++ post) with ((pre ++ [b]) ++ g ++ post)
        by (rewrite <- app_assoc; reflexivity).
      replace (Z.of_nat (length pre) + 1) with (Z.of_nat (length (pre ++ [b])))
        by (rewrite app_length; cbn; lia).
      apply IH; [lia|]. destruct Hend; [auto|right; lia].
Qed.

(** Splitting: any byte string starts with a LEB128 number or is made of continuation bytes
    up to any bound. *)
Lemma leb_split k bs :
  is_bytes bs ->
  (exists g post, bs = g ++ post /\ leb_shape g /\ (length g <= k)%nat) \/
  (exists g post, bs = g ++ post /\ Forall (fun b => 128 <= b < 256) g /\ (length g <= k)%nat
     /\ (post = [] \/ length g = k)).
Proof.
  revert bs. induction k as [|k IH]; intros bs Hbs.
  - right. exists [], bs. repeat split; auto.
  - destruct bs as [|b bs].
    + right. exists [], []. repeat split; auto. cbn; lia.
    + inversion Hbs as [|? ? Hb Hbs']; subst. unfold is_byte in Hb.
      destruct (Z_lt_le_dec b 128) as [Hlt|Hge].
      * left. exists [b], bs. repeat split; [constructor; lia|cbn; lia].
      * destruct (IH bs Hbs') as [(g & post & -> & Hs & Hl)|(g & post & -> & Hs & Hl & He)].
        -- left. exists (b :: g), post. repeat split; [constructor; auto; lia|cbn; lia].
        -- right. exists (b :: g), post. repeat split; [constructor; auto; lia|cbn; lia|].
           destruct He; [auto|right; cbn; lia].
Qed.

Lemma read_varu32_ok g pre post :
  leb_shape g -> (length g <= 5)%nat ->
  read_varu32 (pre ++ g ++ post) (Z.of_nat (length pre)) =
  Ok (uleb_value g mod 2 ^ 32, Z.of_nat (length pre) + Z.of_nat (length g)).
Proof.
  intros Hg Hl. unfold read_varu32, read_varu.
  rewrite read_varu_loop_ok with (g := g); auto; try lia.
  change (2 ^ 0) with 1. do 3 f_equal. lia.
Qed.

Lemma read_varu32_throw g pre post :
  Forall (fun b => 128 <= b < 256) g -> (length g <= 5)%nat ->
  post = [] \/ length g = 5%nat ->
  read_varu32 (pre ++ g ++ post) (Z.of_nat (length pre)) = Throw DecodeError.
Proof.
  intros Hg Hl He. unfold read_varu32, read_varu. apply read_varu_loop_throw; auto; try lia.
  destruct He as [->|He]; [auto|right; lia].
Qed.

Lemma read_varu7_ok b pre post :
  0 <= b < 128 ->
  read_varu7 (pre ++ b :: post) (Z.of_nat (length pre)) = Ok (b, Z.of_nat (length pre) + 1).
Proof.
  intros Hb. unfold read_varu7, read_varu. change (b :: post) with ([b] ++ post).
  rewrite read_varu_loop_ok with (g := [b]); auto; cbn [length]; try lia.
  - change (2 ^ 0) with 1. cbn [uleb_value]. do 2 f_equal.
    change (2 ^ 8) with 256. lia.
  - constructor; lia.
Qed.

Lemma read_varu7_throw b pre post :
  128 <= b < 256 ->
  read_varu7 (pre ++ b :: post) (Z.of_nat (length pre)) = Throw DecodeError.
Proof.
  intros Hb. unfold read_varu7, read_varu. change (b :: post) with ([b] ++ post).
  apply read_varu_loop_throw; cbn [length]; try lia. constructor; auto.
Qed.

Lemma append_varuint32_spec v :
  exists enc, append_varuint32 v = Ok enc
    /\ leb_shape enc /\ uleb_value enc = v mod 2 ^ 32
    /\ (1 <= length enc <= 5)%nat
    /\ (forall bs, leb_shape bs -> uleb_value bs = v mod 2 ^ 32 -> (length enc <= length bs)%nat).
Proof.
  assert (Hv : 0 <= v mod 2 ^ 32 < 2 ^ 32) by (apply Z.mod_pos_bound; lia).
  unfold append_varuint32, append_varuint. set (u := v mod 2 ^ 32) in *.
  destruct (append_loop_spec 11 u) as (enc & He & Hs & Hval & Hlen & Hmin & Hz).
  { assert (2 ^ 32 < 128 ^ Z.of_nat 11) by reflexivity. lia. }
  { lia. }
  exists enc. split; [exact He|]. split; [exact Hs|]. split; [exact Hval|].
  assert (H1 : (1 <= length enc)%nat)
    by (pose proof (leb_nonempty _ Hs); destruct enc; [congruence|cbn; lia]).
  split; [split; [exact H1|]|].
  - destruct (Z.eq_dec u 0) as [E|E]; [rewrite Hz by exact E; lia|].
    specialize (Hmin E).
    destruct (le_lt_dec (length enc) 5) as [|Hgt]; [assumption|].
    assert (128 ^ 5 <= 128 ^ (Z.of_nat (length enc) - 1)) by (apply Z.pow_le_mono_r; lia).
    assert (2 ^ 32 < 128 ^ 5) by reflexivity. lia.
  - intros bs Hbs E.
    destruct (Z.eq_dec u 0) as [E0|E0].
    + rewrite Hz by exact E0. pose proof (leb_nonempty _ Hbs). destruct bs; [congruence|cbn; lia].
    + specialize (Hmin E0). pose proof (uleb_bound bs) as Hb. rewrite E in Hb.
      destruct (le_lt_dec (length enc) (length bs)) as [|Hgt]; [assumption|].
      assert (128 ^ Z.of_nat (length bs) <= 128 ^ (Z.of_nat (length enc) - 1))
        by (apply Z.pow_le_mono_r; lia). lia.
Qed.

(** * The signed reader *)

Lemma sleb_uleb g :
  leb_shape g ->
  sleb_value g = if last g 0 mod 128 <? 64 then uleb_value g
                 else uleb_value g - 128 ^ Z.of_nat (length g).
Proof.
  induction 1 as [b Hb|b bs Hb Hbs IH].
  - cbn [sleb_value uleb_value last length]. change (128 ^ Z.of_nat 1) with 128.
    destruct (b mod 128 <? 64); lia.
  - pose proof (leb_nonempty _ Hbs) as Hne. destruct bs as [|c bs]; [congruence|].
    change (sleb_value (b :: c :: bs)) with (b mod 128 + 128 * sleb_value (c :: bs)).
    change (uleb_value (b :: c :: bs)) with (b mod 128 + 128 * uleb_value (c :: bs)).
    change (last (b :: c :: bs) 0) with (last (c :: bs) 0).
    change (length (b :: c :: bs)) with (S (length (c :: bs))).
    rewrite Nat2Z.inj_succ, Z.pow_succ_r by lia. rewrite IH.
    destruct (last (c :: bs) 0 mod 128 <? 64); lia.
Qed.

Lemma leb_last_byte g : leb_shape g -> 0 <= last g 0 < 128.
Proof.
  induction 1 as [b Hb|b bs Hb Hbs IH]; [exact Hb|].
  destruct bs; [inversion Hbs|exact IH].
Qed.

Lemma to_signed_small w x : 0 <= x < 2 ^ (w - 1) -> to_signed w x = x.
Proof.
  intros H. assert (1 <= w).
  { destruct (Z_lt_le_dec w 1); [|lia]. rewrite (Z.pow_neg_r 2 (w - 1)) in H by lia. lia. }
  assert (2 ^ w = 2 * 2 ^ (w - 1)) by (rewrite <- Z.pow_succ_r by lia; f_equal; lia).
  unfold to_signed. rewrite Z.mod_small by lia. replace (x <? 2 ^ (w - 1)) with true by lia.
  reflexivity.
Qed.

Lemma to_signed_mod w x y : 0 <= w -> x mod 2 ^ w = y mod 2 ^ w -> to_signed w x = to_signed w y.
Proof. intros Hw E. unfold to_signed. rewrite E. reflexivity. Qed.

Lemma read_vari_loop_S fuel n w shift result pre b post :
  is_byte b -> shift < n ->
  read_vari_loop (S fuel) n w shift result (pre ++ b :: post) (Z.of_nat (length pre)) =
  do v <- shl_int (b mod 128) shift;
  let result' := to_signed w (Z.lor result v) in
  if b <? 128 then Ok (b, shift + 7, result', Z.of_nat (length pre) + 1)
  else read_vari_loop fuel n w (shift + 7) result' (pre ++ b :: post) (Z.of_nat (length pre) + 1).
Proof.
  intros Hb Hn. cbn [read_vari_loop].
  replace (n <=? shift) with false by lia.
  unfold dbind at 1. rewrite read_byte_cons. cbn [bind].
  rewrite land_127, land_128_byte by exact Hb.
  unfold dbind at 1.
  destruct (shl_int (b mod 128) shift); cbn [bind]; try reflexivity.
  destruct (b <? 128); reflexivity.
Qed.

Lemma to_signed_range x : 0 <= x < 2 ^ 32 ->
  to_signed 32 x = x \/ to_signed 32 x = x - 2 ^ 32.
Proof.
  intros H. unfold to_signed. rewrite Z.mod_small by lia. destruct (_ <? _); auto.
Qed.

Lemma lor_to_signed r x s :
  0 <= s <= 31 -> 0 <= r < 2 ^ s -> 0 <= x * 2 ^ s < 2 ^ 32 ->
  to_signed 32 (Z.lor r (to_signed 32 (x * 2 ^ s))) = to_signed 32 (r + x * 2 ^ s).
Proof.
  intros Hs Hr Hx.
  assert (E : 2 ^ 32 = 2 ^ (32 - s) * 2 ^ s) by (rewrite <- Z.pow_add_r by lia; f_equal; lia).
  assert (Hp : 0 < 2 ^ s) by (apply pow2_pos; lia).
  assert (Hz : to_signed 32 (x * 2 ^ s) mod 2 ^ s = 0).
  { destruct (to_signed_range _ Hx) as [-> | ->].
    - apply Z.mod_mul; lia.
    - rewrite E, <- Z.mul_sub_distr_r. apply Z.mod_mul; lia. }
  rewrite (lor_disjoint r _ s) by (auto; lia).
  apply to_signed_mod; [lia|].
  destruct (to_signed_range _ Hx) as [-> | ->]; [reflexivity|].
  replace (r + (x * 2 ^ s - 2 ^ 32)) with (r + x * 2 ^ s + (-1) * 2 ^ 32) by ring.
  apply Z.mod_add. lia.
Qed.

Lemma read_vari32_loop_ok g :
  leb_shape g -> forall fuel shift result pre post,
  0 <= shift -> shift + 7 * (Z.of_nat (length g) - 1) <= 28 ->
  (length g <= fuel)%nat ->
  0 <= result < 2 ^ shift ->
  read_vari_loop fuel 32 32 shift result (pre ++ g ++ post) (Z.of_nat (length pre)) =
  if result + uleb_value g * 2 ^ shift <? 2 ^ 32 then
    Ok (last g 0, shift + 7 * Z.of_nat (length g),
        to_signed 32 (result + uleb_value g * 2 ^ shift),
        Z.of_nat (length pre) + Z.of_nat (length g))
  else UB BadShift.
Proof.
  intros Hg. induction Hg as [b Hb|b bs Hb Hbs IH];
    intros fuel shift result pre post Hs Hfit Hfuel Hres; destruct fuel as [|fuel];
    cbn [length] in *; try lia.
  - cbn [app]. rewrite read_vari_loop_S by (unfold is_byte; lia).
    cbn [uleb_value last]. rewrite Z.mul_0_r, Z.add_0_r.
    replace (b mod 128) with b by lia.
    assert (Hp : 0 < 2 ^ shift) by (apply pow2_pos; lia).
    assert (E : 2 ^ 32 = 2 ^ (32 - shift) * 2 ^ shift)
      by (rewrite <- Z.pow_add_r by lia; f_equal; lia).
    unfold shl_int. replace ((shift <? 0) || (32 <=? shift)) with false by lia.
    destruct (b * 2 ^ shift <? 2 ^ 32) eqn:E1.
    + replace (result + b * 2 ^ shift <? 2 ^ 32) with true by (symmetry; nia).
      cbn [bind]. cbn zeta. replace (b <? 128) with true by lia.
      rewrite lor_to_signed by lia. repeat f_equal; lia.
    + replace (result + b * 2 ^ shift <? 2 ^ 32) with false by lia. reflexivity.
  - cbn [app]. rewrite read_vari_loop_S by (unfold is_byte; lia).
    assert (Hlen : 1 <= Z.of_nat (length bs)).
    { pose proof (leb_nonempty _ Hbs). destruct bs; [congruence|cbn [length]; lia]. }
    assert (Hp : 0 < 2 ^ shift) by (apply pow2_pos; lia).
    assert (Hb28 : 2 ^ (shift + 7) <= 2 ^ 28) by (apply Z.pow_le_mono_r; lia).
    rewrite Z.pow_add_r in Hb28 by lia. change (2 ^ 7) with 128 in Hb28.
    assert (Hx : 0 <= b mod 128 * 2 ^ shift < 2 ^ 32).
    { assert (2 ^ 28 < 2 ^ 32) by reflexivity. nia. }
    unfold shl_int. replace ((shift <? 0) || (32 <=? shift)) with false by lia.
    replace (b mod 128 * 2 ^ shift <? 2 ^ 32) with true by lia.
    cbn [bind]. cbn zeta. replace (b <? 128) with false by lia.
    rewrite lor_to_signed by lia.
    rewrite to_signed_small.
    2:{ assert (2 ^ 28 < 2 ^ (32 - 1)) by reflexivity. nia. }
    replace (pre ++ b :: bs ++ post) with ((pre ++ [b]) ++ bs ++ post)
      by (rewrite <- app_assoc; reflexivity).
    replace (Z.of_nat (length pre) + 1) with (Z.of_nat (length (pre ++ [b])))
      by (rewrite app_length; cbn; lia).
    rewrite IH; try lia.
    + cbn [uleb_value].
      replace (result + b mod 128 * 2 ^ shift + uleb_value bs * 2 ^ (shift + 7))
        with (result + (b mod 128 + 128 * uleb_value bs) * 2 ^ shift)
        by (rewrite Z.pow_add_r by lia; change (2 ^ 7) with 128; ring).
      destruct (_ <? _); [|reflexivity].
      rewrite app_length.
      replace (last (b :: bs) 0) with (last bs 0)
        by (pose proof (leb_nonempty _ Hbs); destruct bs; [congruence|reflexivity]).
      cbn [length].
      replace (shift + 7 + 7 * Z.of_nat (length bs))
        with (shift + 7 * Z.of_nat (S (length bs))) by lia.
      replace (Z.of_nat (length pre + 1) + Z.of_nat (length bs))
        with (Z.of_nat (length pre) + Z.of_nat (S (length bs))) by lia.
      reflexivity.
    + rewrite Z.pow_add_r by lia. change (2 ^ 7) with 128. nia.
Qed.

Lemma read_vari32_eq g pre post :
  leb_shape g -> (length g <= 5)%nat ->
  read_vari32 (pre ++ g ++ post) (Z.of_nat (length pre)) =
  if (uleb_value g <? 2 ^ 32) && (last g 0 <? 64)
  then Ok (to_signed 32 (uleb_value g), Z.of_nat (length pre) + Z.of_nat (length g))
  else UB BadShift.
Proof.
  intros Hg Hl. unfold read_vari32, read_vari, dbind at 1.
  rewrite read_vari32_loop_ok; auto; try lia. change (2 ^ 0) with 1.
  rewrite Z.add_0_l, Z.mul_1_r.
  destruct (uleb_value g <? 2 ^ 32) eqn:E; [|reflexivity]. cbn [bind andb].
  pose proof (leb_last_byte _ Hg) as Hlast.
  rewrite land_64_byte by (unfold is_byte; lia).
  replace (last g 0 mod 128) with (last g 0) by lia.
  destruct (last g 0 <? 64); [reflexivity|].
  assert (Hs : shl_int (2 ^ (32 - 1) - 1) (0 + 7 * Z.of_nat (length g)) = UB BadShift).
  { pose proof (leb_nonempty _ Hg).
    destruct g as [|? g]; [congruence|]. do 5 (destruct g as [|? g]; [reflexivity|]).
    cbn [length] in Hl. lia. }
  rewrite Hs. reflexivity.
Qed.

Lemma read_vari32_nonneg g pre post :
  leb_shape g -> (length g <= 5)%nat -> 0 <= sleb_value g < 2 ^ 31 ->
  read_vari32 (pre ++ g ++ post) (Z.of_nat (length pre)) =
  Ok (sleb_value g, Z.of_nat (length pre) + Z.of_nat (length g)).
Proof.
  intros Hg Hl Hv. rewrite read_vari32_eq by auto.
  pose proof (uleb_bound g) as Hb. pose proof (leb_last_byte _ Hg) as Hlast.
  rewrite sleb_uleb in * by auto. replace (last g 0 mod 128) with (last g 0) in * by lia.
  destruct (last g 0 <? 64); [|lia].
  replace (uleb_value g <? 2 ^ 32) with true by lia. cbn [andb].
  rewrite to_signed_small by exact Hv. reflexivity.
Qed.

Lemma read_vari32_negative g pre post :
  leb_shape g -> (length g <= 5)%nat -> sleb_value g < 0 ->
  read_vari32 (pre ++ g ++ post) (Z.of_nat (length pre)) = UB BadShift.
Proof.
  intros Hg Hl Hv. rewrite read_vari32_eq by auto.
  pose proof (uleb_bound g) as Hb. pose proof (leb_last_byte _ Hg) as Hlast.
  rewrite sleb_uleb in * by auto. replace (last g 0 mod 128) with (last g 0) in * by lia.
  destruct (last g 0 <? 64); [lia|]. rewrite andb_false_r. reflexivity.
Qed.

Lemma read_vari7_ok b pre post :
  0 <= b < 128 ->
  read_vari7 (pre ++ b :: post) (Z.of_nat (length pre)) =
  Ok (if b <? 64 then b else b - 128, Z.of_nat (length pre) + 1).
Proof.
  intros Hb. unfold read_vari7, read_vari, dbind at 1.
  rewrite read_vari_loop_S by (unfold is_byte; lia).
  replace (b mod 128) with b by lia.
  unfold shl_int at 1. change ((0 <? 0) || (32 <=? 0)) with false. cbn [orb].
  change (2 ^ 0) with 1. rewrite Z.mul_1_r.
  replace (b <? 2 ^ 32) with true by lia. cbn [bind]. cbn zeta.
  replace (b <? 128) with true by lia. cbn [bind].
  rewrite land_64_byte by (unfold is_byte; lia). replace (b mod 128) with b by lia.
  rewrite (to_signed_small 32) by lia.
  change (Z.lor 0 b) with b. rewrite (to_signed_small 8) by lia.
  destruct (b <? 64) eqn:E; [reflexivity|].
  change (shl_int (2 ^ (8 - 1) - 1) (0 + 7)) with (@Ok Z 16256). cbn [bind].
  do 2 f_equal. rewrite (lor_disjoint b 16256 7) by (auto; lia).
  unfold to_signed. change (2 ^ 8) with 256. change (2 ^ (8 - 1)) with 128.
  destruct (_ <? 128) eqn:E2; lia.
Qed.

Lemma read_vari7_throw b pre post :
  128 <= b < 256 ->
  read_vari7 (pre ++ b :: post) (Z.of_nat (length pre)) = Throw DecodeError.
Proof.
  intros Hb. unfold read_vari7, read_vari, dbind at 1.
  rewrite read_vari_loop_S by (unfold is_byte; lia).
  unfold shl_int at 1. change ((0 <? 0) || (32 <=? 0)) with false. cbn [orb].
  replace (b mod 128 * 2 ^ 0 <? 2 ^ 32) with true by (change (2 ^ 0) with 1; lia).
  cbn [bind]. cbn zeta. replace (b <? 128) with false by lia. reflexivity.
Qed.

Lemma read_vari7_end bs : read_vari7 bs (Z.of_nat (length bs)) = Throw DecodeError.
Proof.
  unfold read_vari7, read_vari, dbind. cbn [read_vari_loop].
  change (7 <=? 0) with false. cbv iota. unfold dbind.
  rewrite read_byte_end. reflexivity.
Qed.
