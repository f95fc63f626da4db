(** Property theorems C01-C04: variable-length integers in modules.
    Specification: LebSpec.v ([leb_shape], [uleb_value], [sleb_value]).
    [pre ++ g ++ post] at position [length pre] is "the bytes g, with anything around them". *)

From Coq Require Import ZArith List Lia.
From Verif Require Import Outcome LebSpec VarIntModel VarIntProofs.
Import ListNotations.
Local Open Scope Z_scope.

(** C01: decoding inverts encoding, in any surroundings. *)
Theorem C01_varuint32_roundtrip :
  forall (v : Z) (pre post : bytes),
    0 <= v < 2 ^ 32 ->
    exists enc,
      append_varuint32 v = Ok enc /\
      read_varu32 (pre ++ enc ++ post) (Z.of_nat (length pre))
      = Ok (v, Z.of_nat (length pre) + Z.of_nat (length enc)).
Proof.
  intros v pre post Hv.
  destruct (append_varuint32_spec v) as (enc & He & Hs & Hval & Hl & _).
  exists enc. split; [exact He|]. rewrite read_varu32_ok by (auto; lia).
  rewrite Hval, !Z.mod_small by (rewrite ?Z.mod_small; lia). reflexivity.
Qed.
Print Assumptions C01_varuint32_roundtrip.

Example C01_instance :
  append_varuint32 624485 = Ok [229; 142; 38] /\
  read_varu32 ([1; 2] ++ [229; 142; 38] ++ [200]) 2 = Ok (624485, 5).
Proof. vm_compute. auto. Qed.

(** C02: the encoding is a LEB128 spelling of the value, of minimal length, at most 5 bytes. *)
Theorem C02_varuint32_minimal :
  forall v, 0 <= v < 2 ^ 32 ->
    exists enc,
      append_varuint32 v = Ok enc /\ leb_shape enc /\ uleb_value enc = v /\
      (1 <= length enc <= 5)%nat /\
      forall bs, leb_shape bs -> uleb_value bs = v -> (length enc <= length bs)%nat.
Proof.
  intros v Hv. destruct (append_varuint32_spec v) as (enc & H).
  rewrite Z.mod_small in H by exact Hv. exists enc. exact H.
Qed.
Print Assumptions C02_varuint32_minimal.

(** C02: encodings are uniquely and self-delimitingly decodable: two encodings can only
    start the same byte string if they encode the same number. *)
Theorem C02_varuint32_prefix_free :
  forall v1 v2 e1 e2 r1 r2,
    0 <= v1 < 2 ^ 32 -> 0 <= v2 < 2 ^ 32 ->
    append_varuint32 v1 = Ok e1 -> append_varuint32 v2 = Ok e2 ->
    e1 ++ r1 = e2 ++ r2 -> v1 = v2 /\ e1 = e2 /\ r1 = r2.
Proof.
  intros v1 v2 e1 e2 r1 r2 H1 H2 E1 E2 E.
  destruct (append_varuint32_spec v1) as (e1' & E1' & S1 & V1 & _).
  destruct (append_varuint32_spec v2) as (e2' & E2' & S2 & V2 & _).
  rewrite E1 in E1'. rewrite E2 in E2'. injection E1' as <-. injection E2' as <-.
  destruct (leb_prefix_free _ _ _ _ S1 S2 E) as [-> ->].
  rewrite Z.mod_small in V1, V2 by assumption. split; [congruence|auto].
Qed.
Print Assumptions C02_varuint32_prefix_free.

Example C02_boundaries :
  append_varuint32 127 = Ok [127] /\ append_varuint32 128 = Ok [128; 1] /\
  append_varuint32 (2 ^ 32 - 1) = Ok [255; 255; 255; 255; 15].
Proof. vm_compute. auto. Qed.

(** C03: every byte span and position: the read returns the value (mod 2^32) of the LEB128
    number there and advances past it, if there is one of at most five bytes ... *)
Theorem C03_varu32_value :
  forall (g pre post : bytes),
    leb_shape g -> (length g <= 5)%nat ->
    read_varu32 (pre ++ g ++ post) (Z.of_nat (length pre))
    = Ok (uleb_value g mod 2 ^ 32, Z.of_nat (length pre) + Z.of_nat (length g)).
Proof. intros. now apply read_varu32_ok. Qed.
Print Assumptions C03_varu32_value.

(** ... and throws DecodeError otherwise: in particular it never traps, never reads outside
    the span and never runs out of fuel. *)
Theorem C03_varu32_total :
  forall (pre rest : bytes),
    is_bytes rest ->
    (exists g post, rest = g ++ post /\ leb_shape g /\ (length g <= 5)%nat) \/
    read_varu32 (pre ++ rest) (Z.of_nat (length pre)) = Throw DecodeError.
Proof.
  intros pre rest Hr.
  destruct (leb_split 5 rest Hr) as [H|(g & post & -> & Hg & Hl & He)]; [auto|].
  right. now apply read_varu32_throw.
Qed.
Print Assumptions C03_varu32_total.

(** C03 (same for the 7-bit read): one byte below 128 is accepted, anything else is rejected. *)
Theorem C03_varu7_total :
  forall pre rest, is_bytes rest ->
    read_varu7 (pre ++ rest) (Z.of_nat (length pre)) =
    match rest with
    | b :: _ => if b <? 128 then Ok (b, Z.of_nat (length pre) + 1) else Throw DecodeError
    | [] => Throw DecodeError
    end.
Proof.
  intros pre [|b rest] H.
  - rewrite app_nil_r. unfold read_varu7, read_varu. cbn [read_varu_loop].
    change (7 <=? 0) with false. cbv iota. unfold dbind. now rewrite read_byte_end.
  - inversion H as [|? ? Hb ?]; subst. unfold is_byte in Hb.
    destruct (Z.ltb_spec b 128); [apply read_varu7_ok|apply read_varu7_throw]; lia.
Qed.
Print Assumptions C03_varu7_total.

(** C45 is false of the code: a five-byte number above 2^32 - 1 is accepted
    and silently truncated (core/src/ab-core-Loading.cpp 94). *)
Theorem C45_varu32_range_refuted :
  exists g, leb_shape g /\ 2 ^ 32 <= uleb_value g /\
    read_varu32 g 0 = Ok (0, Z.of_nat (length g)).
Proof.
  exists [128; 128; 128; 128; 16].
  split; [repeat constructor; lia|]. vm_compute. split; [discriminate|reflexivity].
Qed.
Print Assumptions C45_varu32_range_refuted.

(** ... but every number of 2^35 or more, and every spelling of more than five bytes, is
    rejected; together with [C03_varu32_value] this says that what goes through unnoticed is
    exactly the numbers from 2^32 to 2^35 - 1 spelled in five bytes. *)
Theorem C45_large_numbers_rejected_partial :
  forall pre g post, leb_shape g -> is_bytes post ->
    2 ^ 35 <= uleb_value g \/ (5 < length g)%nat ->
    read_varu32 (pre ++ g ++ post) (Z.of_nat (length pre)) = Throw DecodeError.
Proof.
  intros pre g post Hg Hp H.
  assert (Hl : (5 < length g)%nat).
  { destruct H as [H|H]; [|exact H].
    pose proof (uleb_bound g) as Hb.
    destruct (Nat.le_gt_cases (length g) 5) as [Hle|]; [|assumption].
    exfalso. assert (128 ^ Z.of_nat (length g) <= 128 ^ 5) by (apply Z.pow_le_mono_r; lia).
    change (128 ^ 5) with (2 ^ 35) in *. lia. }
  destruct (C03_varu32_total pre (g ++ post)) as [(g' & post' & E & Hg' & Hl')|E]; [| |exact E].
  - apply Forall_app. split; [now apply leb_bytes|exact Hp].
  - destruct (leb_prefix_free _ _ _ _ Hg Hg' E) as [-> _]. lia.
Qed.
Print Assumptions C45_large_numbers_rejected_partial.

Example C45_instance :
  leb_shape [255; 255; 255; 255; 255; 1] /\ 2 ^ 35 <= uleb_value [255; 255; 255; 255; 255; 1].
Proof. split; [repeat constructor; lia|vm_compute; discriminate]. Qed.

Example C03_rejects_six_bytes :
  read_varu32 [128; 128; 128; 128; 128; 0] 0 = Throw DecodeError /\
  read_varu32 [128; 128] 0 = Throw DecodeError.
Proof. vm_compute. auto. Qed.

(** C04: the 7-bit signed read is the two's complement value of one byte, or DecodeError;
    never undefined. *)
Theorem C04_vari7_total :
  forall pre rest, is_bytes rest ->
    read_vari7 (pre ++ rest) (Z.of_nat (length pre)) =
    match rest with
    | b :: _ => if b <? 128 then Ok (sleb_value [b], Z.of_nat (length pre) + 1)
                else Throw DecodeError
    | [] => Throw DecodeError
    end.
Proof.
  intros pre [|b rest] H.
  - rewrite app_nil_r. apply read_vari7_end.
  - inversion H as [|? ? Hb ?]; subst. unfold is_byte in Hb.
    destruct (Z.ltb_spec b 128).
    + rewrite read_vari7_ok by lia. cbn [sleb_value]. rewrite Z.mod_small by lia. reflexivity.
    + apply read_vari7_throw. lia.
Qed.
Print Assumptions C04_vari7_total.

(** C04 for the 32-bit read: proved for non-negative numbers only. *)
Theorem C04_vari32_partial :
  forall g pre post,
    leb_shape g -> (length g <= 5)%nat -> 0 <= sleb_value g < 2 ^ 31 ->
    read_vari32 (pre ++ g ++ post) (Z.of_nat (length pre))
    = Ok (sleb_value g, Z.of_nat (length pre) + Z.of_nat (length g)).
Proof. intros. now apply read_vari32_nonneg. Qed.
Print Assumptions C04_vari32_partial.

(** What is missing: EVERY negative number makes the C++17 program shift a positive int out
    of range (line 63), i.e. is undefined behaviour. *)
Theorem C04_vari32_negative_refuted :
  (forall g pre post,
     leb_shape g -> (length g <= 5)%nat -> sleb_value g < 0 ->
     read_vari32 (pre ++ g ++ post) (Z.of_nat (length pre)) = UB BadShift) /\
  (leb_shape [127] /\ sleb_value [127] = -1 /\ read_vari32 [127] 0 = UB BadShift).
Proof.
  split; [intros; now apply read_vari32_negative|].
  split; [constructor; lia|]. vm_compute. auto.
Qed.
Print Assumptions C04_vari32_negative_refuted.

Example C04_instance :
  read_vari7 [127] 0 = Ok (-1, 1) /\ read_vari32 [229; 142; 38] 0 = Ok (624485, 3).
Proof. vm_compute. auto. Qed.
