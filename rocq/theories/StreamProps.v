(** Property theorems about LEB128 numbers in std::istreams (C05, C43, C44). *)

From Coq Require Import ZArith List Lia.
From Verif Require Import Outcome LebSpec VarIntModel StreamModel StreamProofs.
Import ListNotations.
Local Open Scope Z_scope.

(** C05: any LEB128 spelling [g] of a 64-bit unsigned number, in at most 10 bytes, is read
    back as that number; exactly [g] is consumed. *)
Theorem C05_uleb128_value :
  forall g post o, leb_shape g -> (length g <= 10)%nat -> uleb_value g < 2 ^ 64 ->
    uleb128 (mkStream (g ++ post) false o)
    = Ok (uleb_value g, mkStream post false (o + Z.of_nat (length g))).
Proof.
  intros g post o Hg Hl Hv. rewrite uleb128_ok by assumption.
  rewrite Z.mod_small; [reflexivity|].
  pose proof (VarIntProofs.uleb_bound g). lia.
Qed.
Print Assumptions C05_uleb128_value.

(** C05, signed: any spelling in at most 9 bytes (which covers [-2^62, 2^62)). *)
Theorem C05_leb128_value :
  forall g post o, leb_shape g -> (length g <= 9)%nat ->
    leb128 (mkStream (g ++ post) false o)
    = Ok (sleb_value g, mkStream post false (o + Z.of_nat (length g))).
Proof. intros. now apply leb128_ok. Qed.
Print Assumptions C05_leb128_value.

(** C05: the writer's numbers are read back by the stream reader, in particular. *)
Theorem C05_stream_reads_written_varuint32 :
  forall v post o, 0 <= v < 2 ^ 32 ->
    exists enc, append_varuint32 v = Ok enc /\
      uleb128 (mkStream (enc ++ post) false o)
      = Ok (v, mkStream post false (o + Z.of_nat (length enc))).
Proof.
  intros v post o Hv.
  destruct (VarIntProofs.append_varuint32_spec v) as (enc & He & Hs & Hval & Hl & _).
  rewrite Z.mod_small in Hval by exact Hv.
  exists enc. split; [exact He|]. rewrite C05_uleb128_value by (auto; lia). now rewrite Hval.
Qed.
Print Assumptions C05_stream_reads_written_varuint32.

(** C05: fixed-width reads take exactly n bytes or report an error. *)
Theorem C05_fixed_width_read :
  forall n s, is_bytes (s_rest s) ->
    (readNumber n s = Throw ReaderError /\ (length (s_rest s) < n)%nat) \/
    exists b r v, s_rest s = b ++ r /\ length b = n /\
      readNumber n s = Ok (v, mkStream r (s_eof s) (s_offset s + Z.of_nat n)) /\
      0 <= v < 256 ^ Z.of_nat n /\
      forall i, (i < n)%nat -> (v / 256 ^ Z.of_nat i) mod 256 = nth i b 0.
Proof.
  intros n s Hb. unfold readNumber, s_read.
  destruct (Nat.ltb_spec (length (s_rest s)) n) as [H|H]; [left; auto|right].
  exists (firstn n (s_rest s)), (skipn n (s_rest s)), (le_value (firstn n (s_rest s))).
  assert (Hl : length (firstn n (s_rest s)) = n) by (rewrite firstn_length; lia).
  assert (Hf : is_bytes (firstn n (s_rest s))).
  { rewrite <- (firstn_skipn n (s_rest s)) in Hb. apply Forall_app in Hb. tauto. }
  rewrite firstn_skipn. split; [reflexivity|]. split; [exact Hl|]. split; [reflexivity|].
  clear H. revert Hl Hf. generalize (firstn n (s_rest s)) as b. clear. intros b.
  revert n. induction b as [|x b IH]; intros n Hl Hf; cbn [length] in Hl; subst n.
  - cbn. split; [lia|]. intros i Hi. lia.
  - inversion Hf as [|? ? Hx Hb]; subst. unfold is_byte in Hx.
    destruct (IH _ eq_refl Hb) as (Hr & Hd). cbn [le_value]. rewrite Nat2Z.inj_succ, Z.pow_succ_r by lia.
    split; [lia|]. intros [|i] Hi.
    + cbn [nth]. change (256 ^ Z.of_nat 0) with 1. rewrite Z.div_1_r, Z.mul_comm, Z.mod_add by lia. apply Z.mod_small. lia.
    + cbn [nth]. rewrite <- (Hd i) by lia. rewrite Nat2Z.inj_succ, Z.pow_succ_r by lia.
      rewrite <- Z.div_div by lia. rewrite (Z.mul_comm 256 (le_value b)), Z.div_add by lia.
      rewrite (Z.div_small x 256) by lia. reflexivity.
Qed.
Print Assumptions C05_fixed_width_read.

Example C05_instance :
  leb128 (mkStream [128; 1; 7] false 0) = Ok (128, mkStream [7] false 2) /\
  leb128 (mkStream [127; 9] false 3) = Ok (-1, mkStream [9] false 4) /\
  uleb128 (mkStream [229; 142; 38] false 0) = Ok (624485, mkStream [] false 3).
Proof. vm_compute. auto. Qed.

(** C43 is false of the code.  No stream whatever makes uleb128 throw: the BadNumber test is
    dead code (the loop condition stops first); a 10-byte prefix of an over-long number and
    a number cut off by the end of the stream are both returned as values. *)
Theorem C43_bad_numbers_reported_refuted :
  (forall s, exists r s', uleb128 s = Ok (r, s')) /\
  (exists r s', uleb128 (mkStream [128; 128; 128; 128; 128; 128; 128; 128; 128; 128; 1] false 0)
                = Ok (r, s') /\ s_rest s' = [1]) /\
  uleb128 (mkStream [128] false 0) = Ok (16256, mkStream [] true 1) /\
  uleb128 (mkStream [] false 0) = Ok (127, mkStream [] true 0).
Proof.
  split; [exact uleb128_never_throws|]. split; [|vm_compute; auto].
  eexists _, _. vm_compute. auto.
Qed.
Print Assumptions C43_bad_numbers_reported_refuted.

(** What is returned instead, for every stream of bytes: the stream begins with a number, or
    with ten bytes that continue (over-long), or ends inside the number.  In the first two
    cases the 64 bits in what was read are returned, in the third seven bits set to 1 are
    added where the stream ended and eof() is set: eof() after reading from a good stream
    tells a number cut off from all others, nothing tells the over-long ones. *)
Theorem C43_what_is_returned_partial :
  forall l o, is_bytes l ->
    (exists g post, l = g ++ post /\ leb_shape g /\ (length g <= 10)%nat /\
       uleb128 (mkStream l false o)
       = Ok (uleb_value g mod 2 ^ 64, mkStream post false (o + Z.of_nat (length g)))) \/
    (exists g post, l = g ++ post /\ Forall (fun b => 128 <= b) g /\ length g = 10%nat /\
       uleb128 (mkStream l false o)
       = Ok (uleb_value g mod 2 ^ 64, mkStream post false (o + 10))) \/
    (Forall (fun b => 128 <= b) l /\ (length l < 10)%nat /\
       uleb128 (mkStream l false o)
       = Ok ((uleb_value l + 127 * 128 ^ Z.of_nat (length l)) mod 2 ^ 64,
             mkStream [] true (o + Z.of_nat (length l)))).
Proof.
  intros l o Hl.
  destruct (VarIntProofs.leb_split 10 l Hl) as [(g & post & -> & Hg & Hlen)
                                               |(g & post & -> & Hg & Hlen & He)].
  - left. exists g, post. rewrite uleb128_ok by assumption. auto.
  - right. destruct (Nat.eq_dec (length g) 10) as [E|E].
    + left. exists g, post. repeat split; auto; [eapply Forall_impl; [|exact Hg]; cbn; intros; lia|].
      apply uleb128_overlong; auto.
    + right. destruct post as [|b post]; [|exfalso; destruct He; [congruence|lia]].
      rewrite List.app_nil_r. repeat split; [eapply Forall_impl; [|exact Hg]; cbn; intros; lia|lia|].
      apply uleb128_cut; auto. lia.
Qed.
Print Assumptions C43_what_is_returned_partial.
(** One example of each case: a complete number, ten bytes that go on, and a number cut short. *)
Example C43_case :
  uleb128 (mkStream [229; 142; 38; 1] false 0) = Ok (624485, mkStream [1] false 3) /\
  uleb128 (mkStream (repeat 129 12) false 0) = Ok (uleb_value (repeat 129 10) mod 2 ^ 64, mkStream [129; 129] false 10) /\
  uleb128 (mkStream [229; 142] false 0) = Ok (uleb_value [229; 142] + 127 * 128 ^ 2, mkStream [] true 2).
Proof. repeat split; vm_compute; reflexivity. Qed.

(** C44 for ten-byte spellings: exactly the non-negative ones are defined ... *)
Theorem C44_leb128_ten_bytes_partial :
  forall g post o, leb_shape g -> length g = 10%nat -> last g 0 < 64 ->
    uleb_value g < 2 ^ 63 ->
    leb128 (mkStream (g ++ post) false o) = Ok (sleb_value g, mkStream post false (o + 10)).
Proof.
  intros g post o Hg Hl Hlast Hv. rewrite leb128_ten by assumption.
  pose proof (VarIntProofs.leb_last_byte _ Hg). pose proof (VarIntProofs.uleb_bound g).
  destruct (Z.ltb_spec (last g 0) 64); [|lia].
  rewrite VarIntProofs.sleb_uleb by assumption.
  rewrite (Z.mod_small (last g 0)) by lia.
  destruct (Z.ltb_spec (last g 0) 64); [|lia].
  rewrite VarIntProofs.to_signed_small; [reflexivity|]. change (2 ^ (64 - 1)) with (2 ^ 63). lia.
Qed.
Print Assumptions C44_leb128_ten_bytes_partial.
Example C44_case : let g := [255; 255; 255; 255; 255; 255; 255; 255; 255; 0] in
  leb_shape g /\ length g = 10%nat /\ last g 0 < 64 /\ uleb_value g < 2 ^ 63 /\
  leb128 (mkStream (g ++ [5]) false 0) = Ok (2 ^ 63 - 1, mkStream [5] false 10).
Proof. cbv zeta. split; [repeat constructor; lia|]. repeat split; vm_compute; reflexivity. Qed.

(** ... and every negative one shifts a 64-bit word by 70 (leb128.hpp 78): undefined. *)
Theorem C44_leb128_negative_refuted :
  (forall g post o, leb_shape g -> length g = 10%nat -> sleb_value g < 0 ->
     leb128 (mkStream (g ++ post) false o) = UB BadShift) /\
  (let min := [128; 128; 128; 128; 128; 128; 128; 128; 128; 127] in
   leb_shape min /\ sleb_value min = - 2 ^ 63).
Proof.
  split.
  - intros g post o Hg Hl Hv. rewrite leb128_ten by assumption.
    pose proof (VarIntProofs.leb_last_byte _ Hg). pose proof (VarIntProofs.uleb_bound g).
    rewrite VarIntProofs.sleb_uleb in Hv by assumption.
    rewrite (Z.mod_small (last g 0)) in Hv by lia.
    destruct (Z.ltb_spec (last g 0) 64); [lia|reflexivity].
  - split; [repeat constructor; lia|reflexivity].
Qed.
Print Assumptions C44_leb128_negative_refuted.
