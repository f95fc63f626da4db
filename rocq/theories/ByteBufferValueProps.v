From Coq Require Import ZArith List Bool Lia.
From Verif Require Import Outcome ByteBufferModel ByteBufferSpec ByteBufferProofs ByteBufferProps ByteBufferValueModel.
Import ListNotations.
Local Open Scope Z_scope.

(** * C154: values in a buffer *)
Lemma load_part h p pre mid post : load_cells h p 0 (Z.of_nat (length (pre ++ mid ++ post))) = Ok (pre ++ mid ++ post) -> 
  load_cells h p (Z.of_nat (length pre)) (Z.of_nat (length mid)) = Ok mid.
Proof.
  unfold load_cells. rewrite !app_length, !Nat2Z.inj_add. destruct (Z.eqb_spec (Z.of_nat (length mid)) 0) as [E|E].
  { destruct mid; [reflexivity|cbn in E; lia]. }
  destruct (Z.eqb_spec (Z.of_nat (length pre) + (Z.of_nat (length mid) + Z.of_nat (length post))) 0); [lia|].
  destruct (get_block h p) as [bl| | | |]; try discriminate. cbn [bind]. rewrite Z.add_0_l. cbn [Z.ltb].
  destruct (Z.ltb_spec 0 0); [lia|]. destruct (Z.ltb_spec (Z.of_nat (length pre) + (Z.of_nat (length mid) + Z.of_nat (length post))) 0); [lia|].
  destruct (Z.ltb_spec (Z.of_nat (length bl)) (Z.of_nat (length pre) + (Z.of_nat (length mid) + Z.of_nat (length post)))); [discriminate|].
  cbn [orb]. intros Hq. destruct (Z.ltb_spec (Z.of_nat (length pre)) 0); [lia|]. destruct (Z.ltb_spec (Z.of_nat (length mid)) 0); [lia|].
  destruct (Z.ltb_spec (Z.of_nat (length bl)) (Z.of_nat (length pre) + Z.of_nat (length mid))); [lia|]. cbn [orb]. f_equal.
  injection Hq as Hq. cbn [Z.to_nat skipn] in Hq. rewrite !Nat2Z.id.
  rewrite <- (firstn_skipn (Z.to_nat (Z.of_nat (length pre) + (Z.of_nat (length mid) + Z.of_nat (length post)))) bl), Hq.
  rewrite <- !app_assoc, skipn_app, skipn_all, Nat.sub_diag. cbn [app skipn]. rewrite firstn_app, firstn_all, Nat.sub_diag. cbn [firstn]. apply app_nil_r.
Qed.
Lemma reach_rel limit p w p' i b : limit < 2 ^ 62 -> allowed_run [] p -> reach (init limit) p w p' -> nth_error (w_bufs w) i = Some (Some b) ->
  exists a, brel (w_heap w) b a /\ h_limit (w_heap w) = limit /\ b_size b = alen a /\ alen a < 2 ^ 62.
Proof.
  intros Hl Ha E Hb. destruct (reach_inv _ _ _ _ E [] (Inv_init limit) Hl Ha) as (s1 & I1 & _ & L1). cbn in L1.
  pose proof (inv_rel _ _ I1 i) as R. rewrite Hb in R. destruct (nth_error s1 i) as [[a|]|]; cbn in R; try tauto.
  exists a. split; [exact R|]. split; [exact L1|]. unfold brel, alen in *. destruct (a_sto a).
  - destruct R as (id & k & _ & _ & H). lia.
  - destruct R as (-> & ->). cbn. lia.
Qed.

(** In every buffer a program can get, the bytes of a value at an offset that suits its type are read,
    and nothing is changed ... *)
Theorem C154_values_are_read_partial : forall limit p w p' i b pre mid post align,
  limit < 2 ^ 62 -> allowed_run [] p -> reach (init limit) p w p' -> nth_error (w_bufs w) i = Some (Some b) ->
  b_size b = Z.of_nat (length (pre ++ mid ++ post)) -> load_cells (w_heap w) (b_data b) 0 (b_size b) = Ok (pre ++ mid ++ post) ->
  Z.of_nat (length pre) mod align = 0 ->
  bb_read_as (w_heap w) b (Z.of_nat (length pre)) (Z.of_nat (length mid)) align = Ok mid.
Proof.
  intros limit p w p' i b pre mid post align Hl Ha E Hb Hs Hc Al.
  destruct (reach_rel _ _ _ _ _ _ Hl Ha E Hb) as (a & _ & _ & Ha1 & Ha2).
  unfold bb_read_as, SIZE_MOD. rewrite Hs in *. rewrite !app_length, !Nat2Z.inj_add in Hs. rewrite !app_length, !Nat2Z.inj_add in Ha1.
  rewrite Z.mod_small by lia. unfold ab_assert. rewrite !app_length, !Nat2Z.inj_add.
  destruct (Z.leb_spec (Z.of_nat (length pre) + Z.of_nat (length mid)) (Z.of_nat (length pre) + (Z.of_nat (length mid) + Z.of_nat (length post)))); [|lia].
  cbn [bind]. rewrite Al. cbn. now apply load_part with post.
Qed.
(** ... and at every other offset the behaviour is undefined. *)
Theorem C154_values_are_read_refuted : forall limit p w p' i b off n align,
  limit < 2 ^ 62 -> allowed_run [] p -> reach (init limit) p w p' -> nth_error (w_bufs w) i = Some (Some b) ->
  0 <= off -> 0 <= n -> off + n <= b_size b -> off mod align <> 0 ->
  bb_read_as (w_heap w) b off n align = UB Misaligned.
Proof.
  intros limit p w p' i b off n align Hl Ha E Hb H0 Hn Hs Al. destruct (reach_rel _ _ _ _ _ _ Hl Ha E Hb) as (a & _ & _ & Ha1 & Ha2).
  unfold bb_read_as, SIZE_MOD. rewrite Z.mod_small by lia. unfold ab_assert. destruct (Z.leb_spec (off + n) (b_size b)); [|lia]. cbn [bind].
  destruct (Z.eqb_spec (off mod align) 0); [contradiction|reflexivity].
Qed.
(** So the value that was appended last is read back, at the place where the buffer ended before, if that
    is a place for its type, and cannot be read otherwise *)
Theorem C154_appended_value_partial : forall limit p w p' i b src w' align,
  limit < 2 ^ 62 -> allowed_run [] p -> reach (init limit) p w p' -> nth_error (w_bufs w) i = Some (Some b) ->
  Z.of_nat (length src) < 2 ^ 62 -> step w (Append i src) = Ok (w', Done) ->
  exists b', nth_error (w_bufs w') i = Some (Some b') /\
    bb_read_as (w_heap w') b' (b_size b) (Z.of_nat (length src)) align =
      if b_size b mod align =? 0 then Ok (map Some src) else UB Misaligned.
Proof.
  intros limit p w p' i b src w' align Hl Ha E Hb Hn St. destruct (reach_rel _ _ _ _ _ _ Hl Ha E Hb) as (a & R & Lm & Ha1 & Ha2).
  unfold step in St. cbn [raw_step] in St. unfold get_buf in St. rewrite Hb in St. cbn [bind] in St.
  destruct (bb_append_spec (w_heap w) b a (map Some src) R) as [[Et _]|(h' & b' & Ea & _ & R')]; [lia|rewrite map_length; lia| |].
  { rewrite Et in St. cbn [bind] in St. discriminate. }
  rewrite Ea in St. cbn [bind] in St. injection St as <-. exists b'. split.
  { cbn. apply nth_set_nth_eq. now apply nth_some_lt in Hb. }
  cbn [put fst w_heap]. pose proof (load_own _ _ _ R') as L. cbn [appended a_cells] in L.
  assert (Sz : b_size b' = alen (appended a (map Some src))).
  { unfold brel in R'. destruct (a_sto (appended a (map Some src))); [destruct R' as (id & k & _ & _ & H); apply H|].
    destruct R' as (-> & Z). unfold alen. now rewrite Z. }
  unfold alen in Sz. cbn [appended a_cells] in Sz. rewrite Sz in L. replace (a_cells a ++ map Some src) with (a_cells a ++ map Some src ++ []) in L by now rewrite app_nil_r.
  apply load_part in L. rewrite map_length in L.
  unfold bb_read_as, SIZE_MOD, ab_assert. rewrite Ha1, Sz, app_length, map_length, Nat2Z.inj_add. unfold alen in *. rewrite Z.mod_small by lia.
  match goal with |- context [?x <=? ?y] => destruct (Z.leb_spec x y); [|lia] end. cbn [bind]. now rewrite L.
Qed.

(** Three bytes, then a 32-bit number: it is there, but cannot be read as a number; after four bytes it can *)
Example C154_case :
  allowed_run [] (straight [New 8; Append 0 [1; 2; 3]; Append 0 [4; 5; 6; 7]]) /\
  exists w p' b, reach (init 1000) (straight [New 8; Append 0 [1; 2; 3]; Append 0 [4; 5; 6; 7]]) w p' /\ nth_error (w_bufs w) 0 = Some (Some b) /\
    bb_read_as (w_heap w) b 3 4 4 = UB Misaligned /\ bb_read_as (w_heap w) b 0 4 4 = Ok (map Some [1; 2; 3; 4]) /\
    bb_read_as (w_heap w) b 3 4 1 = Ok (map Some [4; 5; 6; 7]).
Proof.
  split; [apply checked_correct; vm_compute; reflexivity|]. do 3 eexists. split.
  { unfold straight. do 3 (eapply reach_step; [vm_compute; reflexivity|]). apply reach_here. }
  split; [reflexivity|]. repeat split; vm_compute; reflexivity.
Qed.

Print Assumptions C154_values_are_read_partial.
Print Assumptions C154_values_are_read_refuted.
Print Assumptions C154_appended_value_partial.
