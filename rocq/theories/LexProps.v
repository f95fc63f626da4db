(** Theorems about the EDN lexer: C25, C26, C65, C66, C67, C69. *)

From Coq Require Import ZArith List Bool Lia SpecFloat.
From Verif Require Import Outcome FloatSpec FloatFacts TablesModel TablesSpec TablesProofs LexModel LexSpec LexProofs LexRun LexTiles LexStrings.
Import ListNotations.
Local Open Scope Z_scope.

(** * C25 *)

(** Asking for tokens until the end comes to an end, and the tokens tile the text: each is the
    longest match where it starts, with the first pattern in the list that matches.  The only other
    outcome is a signed overflow in a number, and then there is no tiling whose numbers all fit. *)
Theorem C25_tokens_tile_the_text pow10 text fuel : (length text < fuel)%nat ->
  match lex_all pow10 fuel (new_lexer new_line_info text) with
  | Ok (ts, e, lx) =>
      exists tail, tiles pow10 0 text ts tail /\ tk_data e = TkEnd /\ tk_begin e = tk_end e /\
        (length text - length tail <= tk_begin e <= length text)%nat /\
        next pow10 lx = Ok (e, lx)
  | UB SignedOverflow => ~ exists ts tail, tiles pow10 0 text ts tail
  | _ => False
  end.
Proof.
  intros L. pose proof (at_text_new new_line_info text) as A.
  assert (G : forall ts tail, tiles pow10 0 text ts tail -> exists e lx,
     lex_all pow10 fuel (new_lexer new_line_info text) = Ok (ts, e, lx) /\ tk_data e = TkEnd /\ tk_begin e = tk_end e /\
        (length text - length tail <= tk_begin e <= length text)%nat /\ next pow10 lx = Ok (e, lx)).
  { intros ts tail T. destruct (tiles_streams _ _ _ _ _ T _ A) as (e & lx & S & _ & B & Ee & Nx & _).
    exists e, lx. cbn [lx_text new_lexer] in B. pose proof (tiles_length _ _ _ _ _ T).
    rewrite (streams_lex_all _ _ _ _ _ S) by lia. rewrite Ee at 3 4 5. cbn. auto. }
  destruct (lex_total pow10 (length text) _ 0%nat text (le_n _) A) as [(ts & tail & T)|H].
  - destruct (G ts tail T) as (e & lx & E & Hs). rewrite E. exists tail. auto.
  - rewrite (H fuel L). intros (ts & tail & T). destruct (G ts tail T) as (e & lx & E & _).
    rewrite (H fuel L) in E. discriminate.
Qed.
Print Assumptions C25_tokens_tile_the_text.

(** A text has at most one tiling, and the lexer finds it. *)
Theorem C25_the_tiling_is_unique_and_found pow10 text ts tail fuel :
  tiles pow10 0 text ts tail -> (length text < fuel)%nat ->
  (exists e lx, lex_all pow10 fuel (new_lexer new_line_info text) = Ok (ts, e, lx)) /\
  (forall ts' tail', tiles pow10 0 text ts' tail' -> ts' = ts).
Proof.
  intros T L. pose proof (at_text_new new_line_info text) as A.
  destruct (tiles_streams _ _ _ _ _ T _ A) as (e & lx & S & _). pose proof (tiles_length _ _ _ _ _ T).
  split.
  - exists e, lx. apply (streams_lex_all _ _ _ _ _ S). lia.
  - intros ts' tail' T'. destruct (tiles_streams _ _ _ _ _ T' _ A) as (e' & lx' & S' & _).
    pose proof (tiles_length _ _ _ _ _ T').
    pose proof (streams_lex_all _ _ _ _ _ S fuel ltac:(lia)) as E.
    pose proof (streams_lex_all _ _ _ _ _ S' fuel ltac:(lia)) as E'. congruence.
Qed.
Print Assumptions C25_the_tiling_is_unique_and_found.

Lemma blank_app u v : blank u -> blank v -> blank (u ++ v).
Proof.
  induction 1 as [|c w C _ IH|body w B _ IH]; intros V; cbn [app]; auto.
  - constructor; auto.
  - rewrite <- app_assoc. cbn [app]. apply b_comment; auto.
Qed.

Lemma gap_blank r w : is_gap r -> matches r w -> blank w.
Proof.
  intros [->| ->] H; unfold matches, pattern, re_whitespace, re_comment in H.
  - apply lang_plus_chr in H as (_ & F). induction F as [|c w Hc F IH]; constructor; auto.
    unfold is_ws in Hc. rewrite !orb_true_iff, !Z.eqb_eq in Hc. tauto.
  - apply lang_cat in H as (u & v & -> & A & B). apply lang_ch in A as ->.
    apply lang_cat in B as (x & y & -> & X & Y). apply lang_ch in Y as ->. apply lang_star_chr in X.
    cbn [app]. apply b_comment; [|constructor]. intros I. rewrite Forall_forall in X. specialize (X 10 I). discriminate.
Qed.

Lemma lang_lit s : forall w, lang (lit s) w -> w = s.
Proof.
  induction s as [|c s IH]; intros w H; cbn [lit] in H.
  - now apply lang_eps in H.
  - apply lang_cat in H as (u & v & -> & A & B). apply lang_ch in A as ->. apply IH in B as ->. reflexivity.
Qed.

Lemma name_chars w : lang re_name w -> w <> [] /\ Forall (fun c => is_name_char c = true \/ c = 47) w.
Proof.
  unfold re_name. rewrite lang_alt. unfold re_name0, re_name1. rewrite !lang_cat. unfold is_name_char, is_special, is_alnum.
  intros [(u & v & -> & A & B)|(u & v & -> & A & B)].
  - apply lang_chr in A as (c & -> & Hc). apply lang_star_chr in B. split; [easy|]. cbn [app]. constructor.
    + left. rewrite !orb_true_iff in *. tauto.
    + eapply Forall_impl; [|exact B]. cbn beta. auto.
  - apply lang_chr in A as (c & -> & Hc). apply lang_cat in B as (x & y & -> & X & Y).
    apply lang_chr in X as (c' & -> & Hc'). apply lang_star_chr in Y. split; [easy|]. cbn [app]. constructor; [|constructor].
    + left. rewrite !orb_true_iff in *. tauto.
    + left. unfold is_special in Hc'. rewrite !orb_true_iff in *. tauto.
    + eapply Forall_impl; [|exact Y]. cbn beta. auto.
Qed.

Lemma symbol_chars w : lang re_symbol w -> w <> [] /\ Forall (fun c => is_name_char c = true \/ c = 47) w.
Proof.
  unfold re_symbol, opt. rewrite lang_cat. intros (u & v & -> & A & B). apply name_chars in B as (N & F).
  rewrite lang_alt, lang_eps, lang_cat in A. destruct A as [(x & y & -> & X & Y)| ->]; [|auto].
  apply name_chars in X as (_ & F'). apply lang_ch in Y as ->. split.
  - intros E. apply app_eq_nil in E. tauto.
  - apply Forall_app. split; auto. apply Forall_app. split; auto.
Qed.

Lemma shape_ok pow10 r w d : matches r w -> stands_for pow10 r w d -> has_shape d w.
Proof.
  intros M S. destruct r; cbn [stands_for] in S; subst; cbn [has_shape]; unfold matches, pattern in M; try easy;
    try (now apply lang_lit in M).
  - destruct S as (x & _ & ->). cbn [has_shape]. unfold re_real in M.
    apply lang_cat in M as (u & v & -> & A & B). apply lang_cat in B as (ds & y & -> & D & _).
    apply lang_plus_chr in D as (N & F). destruct ds as [|c ds]; [easy|]. inversion F; subst.
    apply lang_sign in A as [->|[->| ->]]; cbn [app]; eauto 6.
  - destruct S as (v & V & _ & ->). exact V.
  - now apply lang_ch in M.
  - now apply lang_ch in M.
  - unfold re_keyword in M. apply lang_cat in M as (u & v & -> & A & B). apply lang_ch in A as ->.
    exists v. split; [easy|]. now apply symbol_chars.
  - now apply symbol_chars.
  - unfold re_string in M. apply lang_cat in M as (u & v & -> & A & B). apply lang_ch in A as ->.
    apply lang_cat in B as (x & y & -> & X & Y). apply lang_ch in Y as ->. now exists x.
Qed.

Lemma skipn_plus {A} n m (l : list A) : skipn (n + m) l = skipn n (skipn m l).
Proof.
  revert l. induction m as [|m IH]; intros l; [now rewrite Nat.add_0_r|].
  rewrite Nat.add_succ_r. destruct l; cbn [skipn]; [now rewrite skipn_nil|apply IH].
Qed.

Lemma tiles_laid_out pow10 pos rest ts tail : tiles pow10 pos rest ts tail ->
  forall pos0 text g, skipn pos0 text = g ++ rest -> pos = (pos0 + length g)%nat -> blank g -> (pos0 <= length text)%nat ->
  laid_out text pos0 ts tail.
Proof.
  induction 1 as [pos rest N|pos w rest r ts tail L G _ IH|pos w rest r d ts tail L G _ IH]; intros pos0 text g E P B Lp; cbn [laid_out].
  - eauto.
  - apply (IH pos0 text (g ++ w)); auto.
    + now rewrite <- app_assoc.
    + rewrite app_length. lia.
    + apply blank_app; auto. apply (gap_blank r); auto. apply L.
  - cbn [tk_begin tk_end tk_data].
    assert (Nw : w <> []) by apply L. assert (0 < length w)%nat by (destruct w; [easy|cbn; lia]).
    assert (Lt : (length text = pos0 + length g + length w + length rest)%nat).
    { apply (f_equal (@length Z)) in E. rewrite skipn_length, !app_length in E. lia. }
    assert (S1 : skipn pos text = w ++ rest).
    { subst pos. replace (pos0 + length g)%nat with (length g + pos0)%nat by lia. rewrite skipn_plus, E.
      rewrite skipn_app, skipn_all, Nat.sub_diag. reflexivity. }
    conjs; try lia.
    + rewrite E. replace (pos - pos0)%nat with (length g) by lia.
      rewrite firstn_app, firstn_all, Nat.sub_diag. cbn [firstn]. now rewrite app_nil_r.
    + rewrite S1. replace (pos + length w - pos)%nat with (length w) by lia.
      rewrite firstn_app, firstn_all, Nat.sub_diag. cbn [firstn]. rewrite app_nil_r.
      apply (shape_ok pow10 r); auto. apply L.
    + apply (IH _ text []); auto; try lia.
      * replace (pos + length w)%nat with (length w + pos)%nat by lia. rewrite skipn_plus, S1.
        rewrite skipn_app, skipn_all, Nat.sub_diag. reflexivity.
      * constructor.
Qed.

(** In plain words: the ranges are non-empty, in order and inside the text, what lies between them
    is white space and comments, and each range holds a text of the token's kind; when the lexer
    gave up before the end, no token starts where it did. *)
Theorem C25_ranges_are_in_order_and_separated_by_blanks pow10 text fuel ts e lx :
  (length text < fuel)%nat ->
  lex_all pow10 fuel (new_lexer new_line_info text) = Ok (ts, e, lx) ->
  (length ts <= length text)%nat /\
  exists tail, laid_out text 0 ts tail /\ no_match tail.
Proof.
  intros L E. pose proof (C25_tokens_tile_the_text pow10 text fuel L) as H. rewrite E in H.
  destruct H as (tail & T & _). pose proof (tiles_length _ _ _ _ _ T). split; [lia|]. exists tail. split.
  - apply (tiles_laid_out _ _ _ _ _ T 0%nat text []); auto; try constructor; lia.
  - clear - T. induction T; auto.
Qed.
Print Assumptions C25_ranges_are_in_order_and_separated_by_blanks.

(** "(a ; x⏎ -12)" *)
Example C25_witness :
  lex_all (fun _ => f64_of_Z 1) 20 (new_lexer new_line_info [40; 97; 32; 59; 120; 10; 32; 45; 49; 50; 41])
  = Ok ([mkTok TkLParen 0 1; mkTok TkSymbol 1 2; mkTok (TkInteger (-12)) 7 10; mkTok TkRParen 10 11],
        end_token 11, mkLexer [40; 97; 32; 59; 120; 10; 32; 45; 49; 50; 41] 11 [] false [0; 6]).
Proof. vm_compute. reflexivity. Qed.

(** * C26 *)

(** An integer literal in the range -(2^63-1) .. 2^63-1, on its own, is one token with its value. *)
Theorem C26_integer_literals_have_their_decimal_value w v :
  matches RuInteger w -> int_value w v -> - 2 ^ 63 < v < 2 ^ 63 -> parse_integer w = Ok v.
Proof.
  intros _ V B. rewrite (parse_integer_spec w v V).
  destruct (Z.ltb_spec (- 2 ^ 63) v); [|lia]. destruct (Z.ltb_spec v (2 ^ 63)); [|lia]. reflexivity.
Qed.
Print Assumptions C26_integer_literals_have_their_decimal_value.

(** Every integer token of every text has the decimal value of its text. *)
Theorem C26_integer_tokens_have_the_value_of_their_text pow10 text fuel ts e lx t v :
  (length text < fuel)%nat ->
  lex_all pow10 fuel (new_lexer new_line_info text) = Ok (ts, e, lx) ->
  In t ts -> tk_data t = TkInteger v -> int_value (token_text text t) v.
Proof.
  intros L E I D. destruct (C25_ranges_are_in_order_and_separated_by_blanks _ _ _ _ _ _ L E) as (_ & tail & H & _).
  revert H. generalize O as pos. clear E L. induction ts as [|t' ts IH]; intros pos H; [easy|].
  cbn [laid_out] in H. destruct H as (_ & _ & _ & S & H). destruct I as [->|I].
  - rewrite D in S. exact S.
  - eapply IH; eauto.
Qed.
Print Assumptions C26_integer_tokens_have_the_value_of_their_text.

Example C26_witness :
  lex_all (fun _ => f64_of_Z 1) 50 (new_lexer new_line_info
    [45; 57; 50; 50; 51; 51; 55; 50; 48; 51; 54; 56; 53; 52; 55; 55; 53; 56; 48; 55; 44; 43; 48])
  = Ok ([mkTok (TkInteger (- (2 ^ 63 - 1))) 0 20; mkTok (TkInteger 0) 21 23], end_token 23,
        mkLexer [45; 57; 50; 50; 51; 51; 55; 50; 48; 51; 54; 56; 53; 52; 55; 55; 53; 56; 48; 55; 44; 43; 48] 23 [] false [0]).
Proof. vm_compute. reflexivity. Qed.

(** * C65 *)

(** The literal -9223372036854775808, the smallest machine integer, overflows: undefined behaviour. *)
Theorem C65_the_smallest_integer_overflows_refuted :
  let w := [45; 57; 50; 50; 51; 51; 55; 50; 48; 51; 54; 56; 53; 52; 55; 55; 53; 56; 48; 56] in
  matches RuInteger w /\ int_value w (- 2 ^ 63) /\ parse_integer w = UB SignedOverflow.
Proof.
  intros w. assert (D : digits (tl w)).
  { split; [easy|]. repeat constructor. }
  conjs.
  - unfold matches, pattern, re_integer. apply (l_cat _ _ [45] (tl w)).
    + apply lang_sign. auto.
    + apply l_alt_r. apply (l_cat _ _ [57] (tl (tl w))); [now constructor|]. apply lang_star_chr.
      repeat constructor.
  - replace (- 2 ^ 63) with (- decimal (tl w)) by reflexivity. now constructor.
  - vm_compute. reflexivity.
Qed.
Print Assumptions C65_the_smallest_integer_overflows_refuted.

(** Every literal outside the range does; none is reported as an error. *)
Theorem C65_every_literal_out_of_range_overflows w v :
  int_value w v -> ~ (- 2 ^ 63 < v < 2 ^ 63) -> parse_integer w = UB SignedOverflow.
Proof.
  intros V B. rewrite (parse_integer_spec w v V).
  destruct (Z.ltb_spec (- 2 ^ 63) v), (Z.ltb_spec v (2 ^ 63)); try reflexivity. exfalso. lia.
Qed.
Print Assumptions C65_every_literal_out_of_range_overflows.
(** What holds: exactly the literals whose value and its negation are machine integers are read,
    and never as another value. *)
Theorem C65_read_exactly_when_partial w v : matches RuInteger w -> int_value w v ->
  (parse_integer w = Ok v <-> - 2 ^ 63 <= v < 2 ^ 63 /\ - 2 ^ 63 <= - v < 2 ^ 63) /\
  (forall v', parse_integer w = Ok v' -> v' = v).
Proof.
  intros _ V. rewrite (parse_integer_spec w v V).
  destruct (Z.ltb_spec (- 2 ^ 63) v), (Z.ltb_spec v (2 ^ 63)); cbn [andb];
    (split; [split; [first [discriminate|lia]|first [reflexivity|lia]]|intros v' X; congruence]).
Qed.
Print Assumptions C65_read_exactly_when_partial.
Example C65_case : let w := [45; 57; 50; 50; 51; 51; 55; 50; 48; 51; 54; 56; 53; 52; 55; 55; 53; 56; 48; 55] in
  int_value w (- (2 ^ 63 - 1)) /\ parse_integer w = Ok (- (2 ^ 63 - 1)).
Proof.
  intros w. split; [|vm_compute; reflexivity]. replace (- (2 ^ 63 - 1)) with (- decimal (tl w)) by reflexivity.
  apply (iv_minus (tl w)). split; [easy|]. repeat constructor.
Qed.

(** * C66 *)

(** 0.3 is read as the double after the one nearest to 3/10 (whatever pow(10, 0) = 1 is used): the
    nearest one is 0x3fd3333333333333. *)
Theorem C66_real_literals_are_not_the_nearest_double_refuted pow10 :
  pow10 0 = double_of 1 ->
  (do x <- parse_real pow10 [48; 46; 51]; Ok (bits_of x)) = Ok 0x3fd3333333333334 /\
  bits_of (ddiv (double_of 3) (double_of 10)) = 0x3fd3333333333333.
Proof.
  intros H. split; [|vm_compute; reflexivity]. unfold parse_real.
  set (m := real_exec 0 _ _). vm_compute in m. subst m. cbn [bind rs_neg rs_ex_neg rs_ex rs_val]. rewrite H. vm_compute. reflexivity.
Qed.
Print Assumptions C66_real_literals_are_not_the_nearest_double_refuted.

(** An exponent of twenty digits overflows an integer: undefined behaviour. *)
Theorem C66_long_exponents_overflow_refuted pow10 :
  parse_real pow10 (49 :: 101 :: repeat 57 20) = UB SignedOverflow.
Proof. vm_compute. reflexivity. Qed.
Print Assumptions C66_long_exponents_overflow_refuted.

(** What does hold: reading a real token never fails an assertion, and the lexer's number is what
    parse_real computes. *)
Theorem C66_real_tokens_never_fail_an_assertion_partial pow10 w : matches RuReal w ->
  (exists x, parse_real pow10 w = Ok x) \/ parse_real pow10 w = UB SignedOverflow.
Proof.
  intros M. pose proof (parse_real_ok pow10 w M) as H. destruct (parse_real pow10 w) as [x| | |[]|]; cbn in H; try easy; eauto.
Qed.
Print Assumptions C66_real_tokens_never_fail_an_assertion_partial.

Lemma real_whole ds : forall st r rest, digits ds -> st <= 2 ->
  real_exec st r (ds ++ rest) = real_exec 2 (mkRS (rs_neg r)
    (fold_left (fun v c => f64_add (f64_mul v (f64_of_Z 10)) (f64_of_Z (c - 48))) ds (rs_val r)) (rs_factor r) (rs_ex r) (rs_ex_neg r)) rest.
Proof.
  induction ds as [|c ds IH]; intros st r rest (N & F) S; [easy|]. inversion F as [|? ? Hc F']; subst.
  rewrite <- app_comm_cons. cbn [real_exec fold_left]. rewrite Hc. destruct (Z.leb_spec st 2); [|lia].
  destruct ds as [|c' ds]; [reflexivity|]. rewrite IH by (try split; auto; try easy; lia). reflexivity.
Qed.

Lemma real_fraction ds : forall st n r rest, digits ds -> 3 <= st <= 4 -> rs_factor r = tenths n ->
  real_exec st r (ds ++ rest) = real_exec 4 (mkRS (rs_neg r) (add_fraction n (rs_val r) ds) (tenths (n + length ds)) (rs_ex r) (rs_ex_neg r)) rest.
Proof.
  induction ds as [|c ds IH]; intros st n r rest (N & F) S Hf; [easy|]. inversion F as [|? ? Hc F']; subst.
  rewrite <- app_comm_cons. cbn [real_exec add_fraction]. rewrite Hc. destruct (Z.leb_spec st 2); [lia|]. destruct (Z.leb_spec st 4); [|lia].
  rewrite Hf. change (f64_div (tenths n) (f64_of_Z 10)) with (tenths (Datatypes.S n)).
  destruct ds as [|c' ds]; [cbn [add_fraction length]; now rewrite Nat.add_1_r|].
  rewrite (IH 4 (Datatypes.S n)) by (try split; auto; try easy; lia). cbn [rs_neg rs_val rs_factor rs_ex rs_ex_neg length].
  replace (Datatypes.S n + Datatypes.S (length ds))%nat with (n + Datatypes.S (Datatypes.S (length ds)))%nat by lia. reflexivity.
Qed.

Lemma real_exponent ds : forall st r, digits ds -> 5 <= st -> 0 <= rs_ex r -> fold_left push ds (rs_ex r) < 2 ^ 63 ->
  real_exec st r ds = Ok (7, mkRS (rs_neg r) (rs_val r) (rs_factor r) (fold_left push ds (rs_ex r)) (rs_ex_neg r)).
Proof.
  induction ds as [|c ds IH]; intros st r (N & F) S P B; [easy|]. inversion F as [|? ? Hc F']; subst.
  cbn [real_exec]. rewrite Hc. destruct (Z.leb_spec st 2); [lia|]. destruct (Z.leb_spec st 4); [lia|].
  rewrite push_digit_spec by auto. cbn [fold_left] in B.
  assert (0 <= push (rs_ex r) c) by (apply is_digit_range in Hc; unfold push; lia).
  pose proof (fold_push_ge ds _ F' H1). destruct (Z.ltb_spec (push (rs_ex r) c) (2 ^ 63)); [|lia]. cbn [bind].
  destruct ds as [|c' ds]; [reflexivity|]. rewrite IH by (try split; auto; easy). reflexivity.
Qed.

(** Which double a literal is read as, digit by digit: the whole part, the fraction, the sign, and
    the power of ten its exponent says, whose sign is that of the exponent.  Literals whose exponent
    fits are read without undefined behaviour.  (That this is seldom the nearest double is the
    refuted theorem above.) *)
Theorem C66_what_a_real_literal_is_read_as_partial pow10 sg ds fr ex :
  In sg [[]; [43]; [45]] -> digits ds ->
  (fr = [] \/ exists fs, fr = 46 :: fs /\ digits fs) ->
  (ex = [] \/ exists e esg es, ex = e :: esg ++ es /\ (e = 101 \/ e = 69) /\ In esg [[]; [43]; [45]] /\ digits es /\ decimal es < 2 ^ 63) ->
  fr <> [] \/ ex <> [] ->
  parse_real pow10 (sg ++ ds ++ fr ++ ex) =
    Ok (dmul (negate (if list_eq_dec Z.eq_dec sg [45] then true else false)
                   (add_fraction 0 (whole_part ds) (tl fr)))
          (pow10 match ex with
                 | [] => 0
                 | _ :: 45 :: es => - decimal es
                 | _ :: 43 :: es => decimal es
                 | _ :: es => decimal es
                 end)).
Proof.
  intros Sg D Fr Ex Ne. unfold parse_real. set (r0 := mkRS false (f64_of_Z 0) (f64_of_Z 1) 0 false).
  set (neg := if list_eq_dec Z.eq_dec sg [45] then true else false).
  assert (E1 : exists st, st <= 2 /\ real_exec 0 r0 (sg ++ ds ++ fr ++ ex) = real_exec st (mkRS neg (f64_of_Z 0) (f64_of_Z 1) 0 false) (ds ++ fr ++ ex)).
  { cbn [In] in Sg. destruct Sg as [<-|[<-|[<-|[]]]]; [exists 0|exists 1|exists 1]; (split; [lia|reflexivity]). }
  destruct E1 as (st & St & ->). rewrite real_whole by auto. cbn [rs_neg rs_val rs_factor rs_ex rs_ex_neg].
  change (fold_left _ ds (f64_of_Z 0)) with (whole_part ds).
  assert (E2 : exists st' n, (st' = 2 /\ fr = [] \/ st' = 4 /\ fr <> []) /\
    real_exec 2 (mkRS neg (whole_part ds) (f64_of_Z 1) 0 false) (fr ++ ex) =
    real_exec st' (mkRS neg (add_fraction 0 (whole_part ds) (tl fr)) (tenths n) 0 false) ex).
  { destruct Fr as [->|(fs & -> & F)].
    - exists 2, 0%nat. split; auto.
    - exists 4, (0 + length fs)%nat. split; [right; easy|]. rewrite <- app_comm_cons. cbn [real_exec].
      change (is_digit 46) with false. cbn [andb orb Z.eqb Pos.eqb tl]. rewrite (real_fraction fs 3 0) by (auto; lia). reflexivity. }
  destruct E2 as (st' & n & St' & ->). set (v := add_fraction _ _ _).
  destruct Ex as [->|(e & esg & es & -> & He & Hs & De & Be)].
  - cbn [real_exec bind rs_neg rs_ex_neg rs_ex rs_val]. destruct St' as [(-> & ->)|(-> & _)]; [destruct Ne; easy|]. reflexivity.
  - assert (Be' : fold_left push es 0 < 2 ^ 63) by exact Be. pose proof (decimal_nonneg es (proj2 De)) as Pe.
    assert (Fin : forall st'' en, 5 <= st'' ->
      (do (st, r) <- real_exec st'' (mkRS neg v (tenths n) 0 en) es;
       let val := if rs_neg r then f64_mul (rs_val r) (f64_of_Z (-1)) else rs_val r in
       do ex <- (if rs_ex_neg r then intptr (rs_ex r * -1) else Ok (rs_ex r));
       let val := f64_mul val (pow10 ex) in
       ab_assert ((st =? 4) || (st =? 7));; Ok val) = Ok (dmul (negate neg v) (pow10 (if en then - decimal es else decimal es)))).
    { intros st'' en H. rewrite real_exponent by (auto; cbn; lia). cbn [bind rs_neg rs_ex_neg rs_ex rs_val].
      change (fold_left push es 0) with (decimal es). replace (decimal es * -1) with (- decimal es) by lia. unfold intptr.
      destruct en; [|reflexivity]. destruct (Z.leb_spec (- 2 ^ 63) (- decimal es)); [|lia].
      destruct (Z.ltb_spec (- decimal es) (2 ^ 63)); [|lia]. reflexivity. }
    assert (E3 : forall rest r, real_exec st' r (e :: rest) = real_exec 5 r rest).
    { intros rest r. cbn [real_exec]. destruct He as [->| ->]; destruct St' as [(-> & _)|(-> & _)]; reflexivity. }
    rewrite E3. destruct (digit_not_sign es De) as (c & u & Ec & Hc & N1 & N2).
    cbn [In] in Hs. destruct Hs as [<-|[<-|[<-|[]]]]; cbn [app].
    + rewrite Fin by lia. assert (X : forall (T : Type) (a b c' : T), match es with 45 :: _ => a | 43 :: _ => b | _ => c' end = c').
      { intros. rewrite Ec. destruct c as [|p|p]; try reflexivity. do 6 (destruct p as [p|p|]; try reflexivity); congruence. }
      rewrite Ec at 2. apply is_digit_range in Hc. f_equal. f_equal. f_equal.
      destruct c as [|p|p]; try lia. rewrite Ec. do 6 (destruct p as [p|p|]; try reflexivity); lia.
    + cbn [real_exec]. change (is_digit 43) with false. cbn [andb orb Z.eqb Pos.eqb rs_neg rs_val rs_factor rs_ex rs_ex_neg]. now rewrite Fin by lia.
    + cbn [real_exec]. change (is_digit 45) with false. cbn [andb orb Z.eqb Pos.eqb rs_neg rs_val rs_factor rs_ex rs_ex_neg]. now rewrite Fin by lia.
Qed.
Print Assumptions C66_what_a_real_literal_is_read_as_partial.

(** The factors 1/10, 1/100, ... never become infinite or not-a-number: after 324 of them they are 0. *)
Definition plain (x : spec_float) : bool := match x with S754_zero false | S754_finite false _ _ => true | _ => false end.
Fixpoint plain_until_zero (k : nat) (x : spec_float) : bool :=
  plain x && match x with
             | S754_zero _ => true
             | _ => match k with O => false | S k => plain_until_zero k (ddiv x (double_of 10)) end
             end.
Lemma tenths_plain : forall n, plain (tenths n) = true.
Proof.
  assert (A : forall k x, plain_until_zero k x = true -> forall n, plain (Nat.iter n (fun f => ddiv f (double_of 10)) x) = true).
  { induction k as [|k IH]; intros x H; cbn [plain_until_zero] in H; apply andb_true_iff in H as [P H].
    - destruct x as [[]|s| |s m e]; try discriminate. clear. intros n.
      assert (E : Nat.iter n (fun f => ddiv f (double_of 10)) (S754_zero false) = S754_zero false).
      { induction n as [|n E]; [reflexivity|]. change (ddiv (Nat.iter n (fun f => ddiv f (double_of 10)) (S754_zero false)) (double_of 10) = S754_zero false). rewrite E. vm_compute. reflexivity. }
      now rewrite E.
    - destruct x as [[]|s| |s m e]; try discriminate.
      + clear. intros n.
        assert (E : Nat.iter n (fun f => ddiv f (double_of 10)) (S754_zero false) = S754_zero false).
        { induction n as [|n E]; [reflexivity|]. change (ddiv (Nat.iter n (fun f => ddiv f (double_of 10)) (S754_zero false)) (double_of 10) = S754_zero false). rewrite E. vm_compute. reflexivity. }
        now rewrite E.
      + intros [|n]; [exact P|]. specialize (IH _ H n).
        assert (C : forall n x, Nat.iter (S n) (fun f => ddiv f (double_of 10)) x = Nat.iter n (fun f => ddiv f (double_of 10)) (ddiv x (double_of 10))).
        { clear. induction n as [|n IH]; intros x; [reflexivity|].
          change (ddiv (Nat.iter (S n) (fun f => ddiv f (double_of 10)) x) (double_of 10) = ddiv (Nat.iter n (fun f => ddiv f (double_of 10)) (ddiv x (double_of 10))) (double_of 10)). now rewrite IH. }
        rewrite C. exact IH. }
  intros n. unfold tenths. apply (A 400%nat). vm_compute. reflexivity.
Qed.
Lemma add_fraction_zeros z : forall n a, 0 <= a -> add_fraction n (canon false a) (repeat 48 z) = canon false a.
Proof.
  induction z as [|z IH]; intros n a Ha; [reflexivity|]. cbn [repeat add_fraction].
  assert (E : dadd (canon false a) (dmul (double_of (48 - 48)) (tenths (S n))) = canon false a).
  { change (double_of (48 - 48)) with (S754_zero false). pose proof (tenths_plain (S n)) as P.
    destruct (tenths (S n)) as [[]|s| |[] m e]; try discriminate; cbn [dmul SFmul xorb];
      (destruct a as [|p|p]; [reflexivity| |lia];
       match goal with |- context [canon false (Z.pos p)] => change (canon false (Z.pos p)) with (S754_finite false (Z.to_pos (Z.pos p * 2 ^ (53 - Zdigits2 (Z.pos p)))) (Zdigits2 (Z.pos p) - 53)) end; reflexivity). }
  rewrite E. apply IH. exact Ha.
Qed.
Lemma whole_part_exact ds : forall a, 0 <= a -> Forall (fun c => is_digit c = true) ds -> fold_left push ds a < 2 ^ 53 ->
  fold_left (fun v c => dadd (dmul v (double_of 10)) (double_of (c - 48))) ds (canon false a) = canon false (fold_left push ds a).
Proof.
  induction ds as [|c ds IH]; intros a Ha F L; [reflexivity|]. cbn [fold_left] in *.
  inversion F as [|? ? Hc F']; subst. apply is_digit_range in Hc.
  assert (Pc : 0 <= push a c) by (unfold push; lia). pose proof (fold_push_ge ds _ F' Pc) as G.
  assert (E : dadd (dmul (canon false a) (double_of 10)) (double_of (c - 48)) = canon false (push a c)).
  { unfold push in *. unfold dadd, dmul, double_of. rewrite !of_Z_exact by lia.
    destruct (Z.ltb_spec (c - 48) 0); [lia|]. change (10 <? 0) with false. rewrite !Z.abs_eq by lia.
    rewrite mul_exact by lia. cbn [xorb]. rewrite add_exact by lia. f_equal. lia. }
  rewrite E. apply IH; assumption.
Qed.
(** What holds of "nearest": a literal whose fraction is only zeros, whose digits before the point
    are a number below 2^53 and whose exponent is 0 to 22 is read as the nearest double, provided
    the library's pow is right about 1, 10, ..., 10^22 (which are doubles). *)
Theorem C66_nearest_without_fraction_partial pow10 sg ds fr ex k :
  (forall k, 0 <= k <= 22 -> pow10 k = double_of (10 ^ k)) ->
  In sg [[]; [43]; [45]] -> digits ds -> decimal ds < 2 ^ 53 ->
  (fr = [] \/ exists z, fr = 46 :: 48 :: repeat 48 z) ->
  (ex = [] /\ k = 0 \/ exists e esg es, ex = e :: esg ++ es /\ (e = 101 \/ e = 69) /\ In esg [[]; [43]] /\ digits es /\ decimal es = k) ->
  0 <= k <= 22 -> fr <> [] \/ ex <> [] ->
  exists x, parse_real pow10 (sg ++ ds ++ fr ++ ex) = Ok x /\
    is_nearest x ((if list_eq_dec Z.eq_dec sg [45] then -1 else 1) * (decimal ds * 10 ^ k)).
Proof.
  intros Hp Sg D Dn Fr Ex Hk Ne.
  assert (Fr' : exists z, tl fr = repeat 48 z) by (destruct Fr as [->|(z & ->)]; [now exists 0%nat|exists (S z); reflexivity]).
  pose proof (decimal_nonneg ds (proj2 D)) as D0.
  eexists. split.
  - apply C66_what_a_real_literal_is_read_as_partial; auto.
    + destruct Fr as [->|(z & ->)]; [now left|right]. exists (48 :: repeat 48 z). split; [reflexivity|]. split; [easy|].
      constructor; [reflexivity|]. apply Forall_forall. intros c Hc. apply repeat_spec in Hc. now subst.
    + destruct Ex as [(-> & _)|(e & esg & es & -> & He & Hs & De & Ek)]; [now left|right]. exists e, esg, es. repeat split; auto; try apply De; [|rewrite Ek; lia].
      cbn [In] in *. tauto.
  - destruct Fr' as (z & ->).
    assert (W : whole_part ds = canon false (decimal ds)) by (apply (whole_part_exact ds 0); [lia|apply D|exact Dn]).
    rewrite W, add_fraction_zeros by exact D0.
    match goal with |- context [pow10 ?e] => assert (Ek : e = k) end.
    { destruct Ex as [(-> & ->)|(e & esg & es & -> & He & Hs & (De & Df) & Ek)]; [reflexivity|].
      destruct Hs as [<-|[<-|[]]]; cbn [app].
      - destruct es as [|c es]; [easy|]. inversion Df as [|? ? Hc _]; subst. apply is_digit_range in Hc.
        destruct c as [|c|c]; try lia. do 6 (destruct c as [c|c|]; try lia; try reflexivity).
      - exact Ek. }
    rewrite Ek, Hp by exact Hk.
    assert (N : negate (if list_eq_dec Z.eq_dec sg [45] then true else false) (canon false (decimal ds)) = canon (if list_eq_dec Z.eq_dec sg [45] then true else false) (decimal ds)).
    { destruct (list_eq_dec Z.eq_dec sg [45]); [|reflexivity]. unfold negate, dmul, double_of. rewrite of_Z_exact by lia.
      change (-1 <? 0) with true. change (Z.abs (-1)) with 1. rewrite mul_exact by lia. now rewrite Z.mul_1_r. }
    rewrite N. pose proof (mul_power_of_ten (if list_eq_dec Z.eq_dec sg [45] then true else false) (decimal ds) k (conj D0 Dn) Hk) as M.
    unfold dmul, double_of. destruct (list_eq_dec Z.eq_dec sg [45]); exact M.
Qed.
Print Assumptions C66_nearest_without_fraction_partial.
(** -9007199254740991.00e22 *)
Example C66_nearest_example :
  digits [57;48;48;55;49;57;57;50;53;52;55;52;48;57;57;49] /\ decimal [57;48;48;55;49;57;57;50;53;52;55;52;48;57;57;49] = 2 ^ 53 - 1 /\
  parse_real (fun k => double_of (10 ^ k)) ([45] ++ [57;48;48;55;49;57;57;50;53;52;55;52;48;57;57;49] ++ [46; 48; 48] ++ [101; 50; 50]) =
    Ok (double_of (- (2 ^ 53 - 1) * 10 ^ 22)).
Proof. split; [split; [easy|repeat constructor]|]. split; vm_compute; reflexivity. Qed.

Example C66_witness : matches RuReal [48; 46; 51].
Proof.
  apply (proj1 (deriv_lang 48 _ _)), (proj1 (deriv_lang 46 _ _)), (proj1 (deriv_lang 51 _ _)), nullable_lang.
  vm_compute. reflexivity.
Qed.

(** * C67 *)

(** When the text is used up and no token contains a newline, the line table is that of the text,
    so that (C22) every offset has the line and column a reader counts. *)
Theorem C67_line_table_after_lexing pow10 text fuel ts e lx :
  (length text < fuel)%nat ->
  lex_all pow10 fuel (new_lexer new_line_info text) = Ok (ts, e, lx) ->
  tiles pow10 0 text ts [] ->
  Forall (fun t => ~ In 10 (token_text text t)) ts ->
  lx_lines lx = breaks_of new_line_info 0 text.
Proof.
  intros L E T F. pose proof (at_text_new new_line_info text) as A.
  destruct (tiles_streams _ _ _ _ _ T _ A) as (e' & lx' & S & _ & _ & _ & _ & Br). pose proof (tiles_length _ _ _ _ _ T).
  rewrite (streams_lex_all _ _ _ _ _ S) in E by lia. injection E as <- <-.
  rewrite Br by exact F. cbn [length]. rewrite Nat.sub_0_r, firstn_all. reflexivity.
Qed.
Print Assumptions C67_line_table_after_lexing.

Theorem C67_locations_after_lexing pow10 text fuel ts e lx off k :
  (length text < fuel)%nat -> Z.of_nat (length text) < 2 ^ 62 - 1 -> 0 <= off < 2 ^ 64 -> (length text < k)%nat ->
  lex_all pow10 fuel (new_lexer new_line_info text) = Ok (ts, e, lx) ->
  tiles pow10 0 text ts [] ->
  Forall (fun t => ~ In 10 (token_text text t)) ts ->
  location k (lx_lines lx) off = Ok (walk_text text (Z.to_nat off) 0 0).
Proof.
  intros L1 L2 O K E T F. rewrite (C67_line_table_after_lexing pow10 text fuel ts e lx L1 E T F).
  now apply location_ok.
Qed.
Print Assumptions C67_locations_after_lexing.
(** A list over two lines, with a comment: the hypotheses hold, and offset 7 is in the second line,
    column one (both from 0). *)
Example C67_case : let text := [40; 97; 32; 59; 120; 10; 32; 45; 49; 50; 41] in
  exists ts e lx, lex_all (fun _ => f64_of_Z 1) 20 (new_lexer new_line_info text) = Ok (ts, e, lx) /\
    tiles (fun _ => f64_of_Z 1) 0 text ts [] /\ Forall (fun t => ~ In 10 (token_text text t)) ts /\
    location 20 (lx_lines lx) 7 = Ok (walk_text text 7 0 0) /\ location 20 (lx_lines lx) 7 = Ok (1, 1).
Proof.
  cbv zeta. do 3 eexists. split; [apply C25_witness|].
  pose proof (C25_tokens_tile_the_text (fun _ => f64_of_Z 1) [40; 97; 32; 59; 120; 10; 32; 45; 49; 50; 41] 20 ltac:(cbn; lia)) as H.
  rewrite C25_witness in H. destruct H as (tail & T & _ & _ & B & _). cbn [tk_begin end_token length] in B.
  assert (tail = []) as ->.
  { pose proof (tiles_laid_out _ _ _ _ _ T 0%nat _ [] eq_refl eq_refl b_nil ltac:(cbn; lia)) as L.
    cbn [laid_out tk_end] in L. destruct L as (_ & _ & _ & _ & _ & _ & _ & _ & _ & _ & _ & _ & _ & _ & _ & _ & g & E & _).
    cbn in E. symmetry in E. now apply app_eq_nil in E. }
  split; [exact T|]. split; [repeat constructor; cbn; intuition discriminate|]. split; vm_compute; reflexivity.
Qed.

(** * C68 *)

(** A newline inside a string is not recorded: after "a⏎b" every location is a line too low. *)
Theorem C68_newlines_in_strings_are_not_counted_refuted pow10 :
  exists ts e lx, let text := [34; 97; 10; 98; 34; 32; 120] in
    lex_all pow10 20 (new_lexer new_line_info text) = Ok (ts, e, lx) /\
    In (mkTok TkSymbol 6 7) ts /\
    location 20 (lx_lines lx) 6 = Ok (0, 6) /\ walk_text text 6 0 0 = (1, 3).
Proof.
  exists [mkTok TkString 0 5; mkTok TkSymbol 6 7], (end_token 7). eexists. intros text.
  split; [vm_compute; reflexivity|]. split; [right; now left|]. split; vm_compute; reflexivity.
Qed.
Print Assumptions C68_newlines_in_strings_are_not_counted_refuted.

(** What the locations are, exactly: those of the text in which the newlines inside tokens are
    spaces. *)
Theorem C68_newlines_in_tokens_count_as_spaces_partial pow10 text fuel ts e lx off k :
  (length text < fuel)%nat -> Z.of_nat (length text) < 2 ^ 62 - 1 -> 0 <= off < 2 ^ 64 -> (length text < k)%nat ->
  lex_all pow10 fuel (new_lexer new_line_info text) = Ok (ts, e, lx) ->
  tiles pow10 0 text ts [] ->
  location k (lx_lines lx) off = Ok (walk_text (blot ts 0 text) (Z.to_nat off) 0 0).
Proof.
  intros L1 L2 O K E T. destruct (tiles_lines _ _ _ _ _ T _ (at_text_new new_line_info text)) as (e' & lx' & S & Br).
  pose proof (tiles_length _ _ _ _ _ T). rewrite (streams_lex_all _ _ _ _ _ S) in E by lia. injection E as <- <-.
  rewrite Br. cbn [length]. rewrite Nat.sub_0_r, firstn_all2 by (rewrite blot_length; lia).
  cbn [lx_lines new_lexer]. change (Z.of_nat 0) with 0.
  apply location_ok; rewrite ?blot_length; auto.
Qed.
Print Assumptions C68_newlines_in_tokens_count_as_spaces_partial.
(** In particular they are right up to the first newline inside a token, and the column is right on
    every line without one. *)
Example C68_blotted : blot [mkTok TkString 0 5; mkTok TkSymbol 6 7] 0 [34; 97; 10; 98; 34; 32; 120] = [34; 97; 32; 98; 34; 32; 120].
Proof. reflexivity. Qed.
Theorem C68_before_the_first_such_string_partial pow10 text fuel ts e lx off k :
  (length text < fuel)%nat -> Z.of_nat (length text) < 2 ^ 62 - 1 -> 0 <= off < 2 ^ 64 -> (length text < k)%nat ->
  lex_all pow10 fuel (new_lexer new_line_info text) = Ok (ts, e, lx) ->
  tiles pow10 0 text ts [] ->
  (forall t i, In t ts -> (tk_begin t <= i < tk_end t)%nat -> Z.of_nat i < off -> nth i text 0 <> 10) ->
  location k (lx_lines lx) off = Ok (walk_text text (Z.to_nat off) 0 0).
Proof.
  intros L1 L2 O K E T H. rewrite (C68_newlines_in_tokens_count_as_spaces_partial pow10 text fuel ts e lx off k) by auto.
  f_equal. apply walk_blot. intros t i I B N. rewrite Nat.sub_0_r. apply (H t); auto. lia.
Qed.
Print Assumptions C68_before_the_first_such_string_partial.

(** * C69 *)

(** A string whose last escape is a backslash swallows the text up to the next quote: the text
    contains the strings "\\" and "x" but is read as one token. *)
Theorem C69_a_string_ending_in_a_backslash_swallows_the_next_refuted pow10 :
  let text := [34; 92; 92; 34; 32; 34; 120; 34] in
  (* the two literals are strings of the grammar *)
  matches RuString [34; 92; 92; 34] /\ matches RuString [34; 120; 34] /\
  exists ts e lx, lex_all pow10 20 (new_lexer new_line_info text) = Ok (ts, e, lx) /\
    token_text text (hd e ts) = [34; 92; 92; 34; 32; 34].
Proof.
  intros text. conjs.
  - apply (proj1 (deriv_lang 34 _ _)), (proj1 (deriv_lang 92 _ _)), (proj1 (deriv_lang 92 _ _)), (proj1 (deriv_lang 34 _ _)), nullable_lang.
    vm_compute. reflexivity.
  - apply (proj1 (deriv_lang 34 _ _)), (proj1 (deriv_lang 120 _ _)), (proj1 (deriv_lang 34 _ _)), nullable_lang.
    vm_compute. reflexivity.
  - do 3 eexists. split; vm_compute; reflexivity.
Qed.
Print Assumptions C69_a_string_ending_in_a_backslash_swallows_the_next_refuted.

(** What holds: a string ends at the first quote that has no backslash directly before it, if that
    is also true of the apostrophes before it. *)
Theorem C69_where_a_string_ends_partial pow10 body rest :
  quotes_escaped 0 body -> last body 0 <> 92 ->
  exists lx, next pow10 (new_lexer new_line_info (34 :: body ++ 34 :: rest)) =
    Ok (mkTok TkString 0 (length body + 2), lx).
Proof.
  intros Q L. pose proof (string_longest body rest Q L) as Lo.
  eexists. replace (34 :: body ++ 34 :: rest) with ((34 :: body ++ [34]) ++ rest) by (cbn; rewrite <- app_assoc; reflexivity).
  rewrite (next_token pow10 _ 0 (34 :: body ++ [34]) rest RuString TkString) by (auto using at_text_new; reflexivity).
  cbn [length]. rewrite app_length. cbn [length]. do 3 f_equal. lia.
Qed.
Print Assumptions C69_where_a_string_ends_partial.
(** And a string token is never anything else: between its quotes every quote and apostrophe has a
    backslash before it. *)
Theorem C69_what_a_string_token_is_partial pow10 text fuel ts e lx t :
  (length text < fuel)%nat ->
  lex_all pow10 fuel (new_lexer new_line_info text) = Ok (ts, e, lx) ->
  In t ts -> tk_data t = TkString ->
  exists body, token_text text t = 34 :: body ++ [34] /\ quotes_escaped 0 body.
Proof.
  intros L E I D. pose proof (C25_tokens_tile_the_text pow10 text fuel L) as H. rewrite E in H.
  destruct H as (tail & T & _). apply string_lang. eapply tiles_strings; eauto.
Qed.
Print Assumptions C69_what_a_string_token_is_partial.
Example C69_witness : quotes_escaped 0 [97; 92; 34; 98] /\ last [97; 92; 34; 98] 0 <> 92.
Proof. cbn. lia. Qed.
