(** Theorems about line membership and the order of locations (C155, C156). *)
From Coq Require Import ZArith List Bool Lia.
From Coq Require Import ZifyBool.
From Verif Require Import Outcome HashModel HashProofs TablesModel TablesSpec TablesProofs TablesProps LineModel.
Import ListNotations.
Local Open Scope Z_scope.

(** * C155: locations are ordered like offsets *)

(** Reading order of two (line, column) pairs. *)
Definition before (a b : Z * Z) : Prop := fst a < fst b \/ (fst a = fst b /\ snd a < snd b).

Lemma walk_ge text : forall n l c, 0 <= c -> l <= fst (walk_text text n l c) /\
  (fst (walk_text text n l c) = l -> c <= snd (walk_text text n l c)).
Proof.
  induction text as [|ch text IH]; intros [|n] l c H; cbn [walk_text fst snd]; try lia.
  destruct (ch =? 10).
  - destruct (IH n (l + 1) 0 ltac:(lia)) as [A B]. lia.
  - destruct (IH n l (c + 1) ltac:(lia)) as [A B]. lia.
Qed.

Lemma walk_nil n : forall l c, walk_text [] n l c = (l, c + Z.of_nat n).
Proof.
  intros l c. destruct n; cbn [walk_text]; f_equal; lia.
Qed.

Lemma walk_before text : forall n k l c, 0 <= c -> (n < k)%nat ->
  before (walk_text text n l c) (walk_text text k l c).
Proof.
  induction text as [|ch text IH]; intros n k l c Hc H.
  - rewrite !walk_nil. unfold before. cbn [fst snd]. lia.
  - destruct k as [|k]; [lia|]. destruct n as [|n].
    + cbn [walk_text]. unfold before. cbn [fst snd]. destruct (ch =? 10).
      * destruct (walk_ge text k (l + 1) 0 ltac:(lia)). lia.
      * destruct (walk_ge text k l (c + 1) ltac:(lia)). lia.
    + cbn [walk_text]. destruct (ch =? 10); apply IH; lia.
Qed.

(** Of two offsets in a text's line table, the smaller one has the earlier location: in an earlier
    line, or further left in the same line. *)
Theorem C155_locations_are_in_order text a b fuel la lb :
  Z.of_nat (length text) < 2 ^ 62 - 1 -> (length text < fuel)%nat ->
  0 <= a < 2 ^ 64 -> 0 <= b < 2 ^ 64 ->
  location fuel (breaks_of new_line_info 0 text) a = Ok la ->
  location fuel (breaks_of new_line_info 0 text) b = Ok lb ->
  (a < b <-> before la lb) /\ (a = b <-> la = lb).
Proof.
  intros L F Ha Hb Ea Eb. rewrite location_ok in Ea, Eb by auto. injection Ea as <-. injection Eb as <-.
  assert (P : forall x y, 0 <= x -> x < y ->
     before (walk_text text (Z.to_nat x) 0 0) (walk_text text (Z.to_nat y) 0 0)).
  { intros x y H0 H. apply walk_before; lia. }
  assert (As : forall p q, before p q -> before q p -> False) by (unfold before; intros; lia).
  assert (Ir : forall p, before p p -> False) by (unfold before; intros; lia).
  destruct (Z.lt_trichotomy a b) as [H|[->|H]].
  - pose proof (P a b ltac:(lia) H) as Q. split; split; auto; try lia.
    intros E. rewrite E in Q. now apply Ir in Q.
  - split; split; auto; try lia. intros Q. now apply Ir in Q.
  - pose proof (P b a ltac:(lia) H) as Q. split; split; auto; try lia.
    + intros Q'. exfalso. eapply As; eauto.
    + intros E. rewrite E in Q. now apply Ir in Q.
Qed.
Print Assumptions C155_locations_are_in_order.

(** A range is the pair of the locations of its ends, in order when the offsets are. *)
Theorem C155_ranges_are_in_order text a b fuel :
  Z.of_nat (length text) < 2 ^ 62 - 1 -> (length text < fuel)%nat ->
  0 <= a -> a <= b -> b < 2 ^ 64 ->
  exists la lb, range fuel (breaks_of new_line_info 0 text) a b = Ok (la, lb) /\
    location fuel (breaks_of new_line_info 0 text) a = Ok la /\
    location fuel (breaks_of new_line_info 0 text) b = Ok lb /\
    (la = lb \/ before la lb) /\ (la = lb -> a = b).
Proof.
  intros L F H0 H1 H2. unfold range.
  pose proof (location_ok text a fuel L ltac:(lia) F) as Ea.
  pose proof (location_ok text b fuel L ltac:(lia) F) as Eb.
  destruct (C155_locations_are_in_order text a b fuel _ _ L F ltac:(lia) ltac:(lia) Ea Eb) as [[P _] [Q1 Q2]].
  rewrite Ea, Eb. cbn [bind]. do 2 eexists. split; [reflexivity|]. split; [reflexivity|]. split; [reflexivity|].
  split; [|auto]. destruct (Z.eq_dec a b) as [E|E]; [left; auto|right; apply P; lia].
Qed.
Print Assumptions C155_ranges_are_in_order.

(** The last recorded break is where the last line starts. *)
Theorem C155_last_break_starts_the_last_line text off fuel l c :
  Z.of_nat (length text) < 2 ^ 62 - 1 -> (length text < fuel)%nat -> 0 <= off < 2 ^ 64 ->
  Z.of_nat (length text) <= off ->
  location fuel (breaks_of new_line_info 0 text) off = Ok (l, c) ->
  last_break (breaks_of new_line_info 0 text) = Ok (off - c) /\
  l = Z.of_nat (count_occ Z.eq_dec text 10).
Proof.
  intros L F Ho Hl E. unfold last_break.
  set (li := breaks_of new_line_info 0 text) in *.
  assert (Eli : li = 0 :: breaks_at 0 text) by (unfold li; rewrite breaks_of_at; reflexivity).
  destruct (breaks_at_bound text 0) as [FB LB].
  assert (Len : Z.of_nat (length li) = 1 + Z.of_nat (length (breaks_at 0 text))) by (rewrite Eli; cbn [length]; lia).
  rewrite (u64_small (Z.of_nat (length li) - 1)) by (split; lia).
  destruct (brk_ok li (Z.of_nat (length li) - 1) ltac:(lia)) as (b & Eb & Nb).
  assert (Hb : 0 <= b <= off).
  { apply nth_error_In in Nb. rewrite Eli in Nb. destruct Nb as [<-|Nb]; [lia|].
    rewrite Forall_forall in FB. specialize (FB _ Nb). cbn in FB.
    assert (0 < b); [|lia]. apply In_nth_error in Nb. destruct Nb as [k Nk].
    assert (I : incr_from 0 (breaks_at 0 text)) by (apply breaks_at_incr; lia).
    apply (incr_nth _ 0 0%nat (S k) 0 b I); auto. lia. }
  assert (Ell : line fuel li off = Ok (Z.of_nat (length li) - 1)).
  { unfold line. rewrite (u64_small (Z.of_nat (length li) - 1)) by (split; lia). rewrite Eb. cbn [bind].
    destruct (Z.leb_spec b off); auto; lia. }
  pose proof E as E0. unfold location in E. rewrite Ell in E. cbn [bind] in E. rewrite Eb in E. cbn [bind] in E.
  rewrite u64_small in E by (split; lia). injection E as <- <-.
  split. { rewrite Eb. f_equal. lia. }
  pose proof (location_ok text off fuel L Ho F) as E2. fold li in E2. rewrite E0 in E2. injection E2 as E1. symmetry in E1.
  assert (W : forall t n l c, (length t <= n)%nat -> fst (walk_text t n l c) = l + Z.of_nat (count_occ Z.eq_dec t 10)).
  { clear. induction t as [|ch t IH]; intros n l c H.
    - rewrite walk_nil. cbn. lia.
    - destruct n as [|n]; cbn [length] in H; [lia|]. cbn [walk_text count_occ].
      destruct (Z.eqb_spec ch 10) as [->|N]; rewrite IH by lia; [destruct (Z.eq_dec 10 10); [|congruence]|destruct (Z.eq_dec ch 10); [congruence|]]; lia. }
  specialize (W text (Z.to_nat off) 0 0 ltac:(lia)). rewrite E1 in W. cbn [fst] in W. clear - W. lia.
Qed.
Print Assumptions C155_last_break_starts_the_last_line.

Example C155_case :
  range 20 (breaks_of new_line_info 0 [97; 10; 10; 98; 99; 10; 100]) 1 4 = Ok ((0, 1), (2, 1)) /\
  last_break (breaks_of new_line_info 0 [97; 10; 10; 98; 99; 10; 100]) = Ok 6.
Proof. split; reflexivity. Qed.

(** * C156: an offset is in the line that line() names, and in no other *)

(** The wish: for every offset and every line of the table, in_line answers whether line() names it. *)
Definition in_line_agrees_with_line (text : list Z) : Prop :=
  forall fuel off n l, (length text < fuel)%nat -> 0 <= off < 2 ^ 64 ->
  0 <= n <= Z.of_nat (count_occ Z.eq_dec text 10) ->
  line fuel (breaks_of new_line_info 0 text) off = Ok l ->
  in_line (breaks_of new_line_info 0 text) off n = Ok (n =? l).

(** It holds for every line but the last one, and for offsets before the last line's start also for that. *)
Theorem C156_in_line_agrees_except_in_the_last_line_partial text fuel off n l :
  Z.of_nat (length text) < 2 ^ 62 - 1 -> (length text < fuel)%nat -> 0 <= off < 2 ^ 64 ->
  0 <= n <= Z.of_nat (count_occ Z.eq_dec text 10) ->
  (n < Z.of_nat (count_occ Z.eq_dec text 10) \/ l < Z.of_nat (count_occ Z.eq_dec text 10)) ->
  line fuel (breaks_of new_line_info 0 text) off = Ok l ->
  in_line (breaks_of new_line_info 0 text) off n = Ok (n =? l).
Proof.
  intros L F Ho Hn Hc E.
  set (li := breaks_of new_line_info 0 text) in *.
  assert (Eli : li = 0 :: breaks_at 0 text) by (unfold li; rewrite breaks_of_at; reflexivity).
  destruct (breaks_at_bound text 0) as [FB LB].
  assert (I : incr_from 0 (breaks_at 0 text)) by (apply breaks_at_incr; lia).
  assert (G : good_breaks li).
  { exists (breaks_at 0 text). conjs; auto. { rewrite Eli. cbn [length]. lia. }
    eapply Forall_impl; [|exact FB]. cbn. intros. lia. }
  assert (LC : Z.of_nat (length li) = 1 + Z.of_nat (count_occ Z.eq_dec text 10)).
  { rewrite Eli. cbn [length]. rewrite Nat2Z.inj_succ. assert (length (breaks_at 0 text) = count_occ Z.eq_dec text 10); [|lia].
    clear. generalize 0. induction text as [|ch t IH]; intros p; cbn [breaks_at count_occ]; auto.
    destruct (Z.eqb_spec ch 10) as [->|N]; [destruct (Z.eq_dec 10 10); [|congruence]|destruct (Z.eq_dec ch 10); [congruence|]];
      cbn [length]; rewrite IH; auto. }
  assert (CB : Z.of_nat (count_occ Z.eq_dec text 10) < 2 ^ 62) by (rewrite Eli in LC; cbn [length] in LC; lia).
  destruct (line_ok li off fuel G Ho) as (m & Em & Hm); [rewrite Eli; cbn [length]; lia|]. rewrite Em in E. injection E as ->.
  destruct Hm as (Hl & (bl & Nl & Ll) & Ul).
  assert (Mono : forall i j x y, (i < j)%nat -> nth_error li i = Some x -> nth_error li j = Some y -> x < y).
  { rewrite Eli. intros. eapply (incr_nth (breaks_at 0 text) 0 i j); eauto. }
  unfold in_line, line_start, line_end.
  destruct (brk_ok li n ltac:(lia)) as (s & Es & Ns). rewrite Es. cbn [bind].
  destruct (Z.lt_trichotomy n l) as [H|[->|H]].
  - destruct (brk_ok li (n + 1) ltac:(lia)) as (e & Ee & Ne).
    assert (s < bl) by (eapply Mono; [|exact Ns|exact Nl]; lia).
    assert (e <= bl).
    { destruct (Z.eq_dec (n + 1) l) as [E1|E1]; [rewrite E1, Nl in Ne; injection Ne as ->; lia|].
      assert (e < bl); [|lia]. eapply Mono; [|exact Ne|exact Nl]. lia. }
    destruct (Z.leb_spec s off); [|lia]. rewrite u64_small by (split; lia). rewrite Ee. cbn [bind].
    destruct (Z.ltb_spec off e); [lia|]. destruct (Z.eqb_spec n l); [lia|]. reflexivity.
  - rewrite Nl in Ns. injection Ns as <-. destruct (Z.leb_spec bl off); [|lia].
    rewrite u64_small by (split; lia). destruct (brk_ok li (l + 1) ltac:(lia)) as (e & Ee & Ne). rewrite Ee. cbn [bind].
    specialize (Ul _ Ne). destruct (Z.ltb_spec off e); [|lia]. rewrite Z.eqb_refl. reflexivity.
  - destruct (nth_error li (Z.to_nat (l + 1))) as [c|] eqn:Nc; [|apply nth_error_None in Nc; lia].
    specialize (Ul _ eq_refl).
    assert (c <= s).
    { destruct (Z.eq_dec (l + 1) n) as [E1|E1]; [rewrite E1, Ns in Nc; injection Nc as ->; lia|].
      assert (c < s); [|lia]. eapply Mono; [|exact Nc|exact Ns]. lia. }
    destruct (Z.leb_spec s off); [lia|]. destruct (Z.eqb_spec n l); [lia|]. reflexivity.
Qed.
Print Assumptions C156_in_line_agrees_except_in_the_last_line_partial.

(** Asking about the last line reads past the end of the table whenever the offset is in it: for every text. *)
Theorem C156_in_line_of_the_last_line_refuted text :
  Z.of_nat (length text) < 2 ^ 62 - 1 ->
  in_line (breaks_of new_line_info 0 text) (Z.of_nat (length text)) (Z.of_nat (count_occ Z.eq_dec text 10)) = UB OutOfBounds /\
  ~ in_line_agrees_with_line text.
Proof.
  intros L.
  assert (U : in_line (breaks_of new_line_info 0 text) (Z.of_nat (length text)) (Z.of_nat (count_occ Z.eq_dec text 10)) = UB OutOfBounds).
  { set (k := Z.of_nat (count_occ Z.eq_dec text 10)).
    assert (Eli : breaks_of new_line_info 0 text = 0 :: breaks_at 0 text) by (rewrite breaks_of_at; reflexivity).
    destruct (breaks_at_bound text 0) as [FB LB]. rewrite Eli.
    assert (LC : length (breaks_at 0 text) = count_occ Z.eq_dec text 10).
    { clear. generalize 0. induction text as [|ch t IH]; intros p; cbn [breaks_at count_occ]; auto.
      destruct (Z.eqb_spec ch 10) as [->|N]; [destruct (Z.eq_dec 10 10); [|congruence]|destruct (Z.eq_dec ch 10); [congruence|]];
        cbn [length]; rewrite IH; auto. }
    unfold in_line, line_start, line_end.
    destruct (brk_ok (0 :: breaks_at 0 text) k) as (s & Es & Ns). { cbn [length]. lia. }
    rewrite Es. cbn [bind].
    assert (s <= Z.of_nat (length text)).
    { apply nth_error_In in Ns. destruct Ns as [<-|Ns]; [lia|]. rewrite Forall_forall in FB. specialize (FB _ Ns). cbn in FB. lia. }
    destruct (Z.leb_spec s (Z.of_nat (length text))); [|lia].
    unfold k in *. rewrite u64_small by (split; lia). unfold brk. match goal with |- context [?x <? 0] => destruct (Z.ltb_spec x 0); [lia|] end.
    match goal with |- context [nth_error ?a ?b] => destruct (nth_error a b) eqn:E; auto end.
    assert (nth_error (0 :: breaks_at 0 text) (Z.to_nat (Z.of_nat (count_occ Z.eq_dec text 10) + 1)) <> None) as NN by congruence. apply nth_error_Some in NN.
    cbn [length] in *. lia. }
  split; [exact U|]. intros W.
  destruct (C22_line_and_column_agree_with_location text (Z.of_nat (length text)) (S (length text)) L ltac:(lia) ltac:(lia)) as [E _].
  specialize (W (S (length text)) (Z.of_nat (length text)) (Z.of_nat (count_occ Z.eq_dec text 10)) _ ltac:(lia) ltac:(lia) ltac:(lia) E).
  rewrite U in W. discriminate.
Qed.
Print Assumptions C156_in_line_of_the_last_line_refuted.

Example C156_case :
  let li := breaks_of new_line_info 0 [97; 10; 10; 98; 99; 10; 100] in
  map (fun n => in_line li 4 n) [0; 1; 2; 3] = [Ok false; Ok false; Ok true; Ok false] /\
  in_line li 6 3 = UB OutOfBounds.
Proof. split; reflexivity. Qed.
