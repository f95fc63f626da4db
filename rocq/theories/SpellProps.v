(** Theorems about the spelling of tokens: C108, C109, C110. *)

From Coq Require Import String ZArith List Bool Lia ZifyBool SpecFloat.
From Verif Require Import Outcome TablesModel LexModel LexSpec LexProofs LexRun LexTiles LexProps ParseSpec ParseText SpellSpec.
Import ListNotations.
Local Open Scope Z_scope.

(** * Character classes *)

Lemma in_dec c l : In c l <-> existsb (Z.eqb c) l = true.
Proof.
  rewrite existsb_exists. split.
  - intros H. exists c. split; auto. apply Z.eqb_refl.
  - intros (x & H & E). apply Z.eqb_eq in E. now subst.
Qed.

Ltac cls := unfold opens, leads, follows_lead, inside, letters, figures, edn_char, edn_first, quote, apostrophe, backslash, newline, tab in *;
  rewrite ?in_dec in *; unfold is_name_char, is_alnum, is_special, is_num_char, is_inner_only, is_misc, is_alpha, is_digit, is_ws, is_str_char in *;
  match goal with |- context [chars ?s] => idtac | _ => idtac end;
  repeat match goal with |- context [chars ?s] => let x := eval vm_compute in (chars s) in change (chars s) with x in * end;
  repeat match goal with H : context [chars ?s] |- _ => let x := eval vm_compute in (chars s) in change (chars s) with x in * end;
  cbn [existsb] in *; lia.

Ltac cls0 := vm_compute; intuition (discriminate || congruence).

Lemma figure_digit c : In c figures <-> is_digit c = true.
Proof. cls. Qed.
Lemma letter_alpha c : In c letters <-> is_alpha c = true.
Proof. cls. Qed.
Lemma opens_ok c : opens c <-> is_alpha c || is_misc c = true.
Proof. unfold opens. rewrite letter_alpha, orb_true_iff. cls. Qed.
Lemma leads_ok c : leads c <-> is_num_char c = true.
Proof. cls. Qed.
Lemma follows_ok c : follows_lead c <-> is_alpha c || is_special c = true.
Proof. unfold follows_lead. rewrite letter_alpha. cls. Qed.
Lemma inside_ok c : inside c <-> is_name_char c = true.
Proof. unfold inside. rewrite letter_alpha, figure_digit. cls. Qed.

Lemma edn_char_ok c : edn_char c <-> is_name_char c || (c =? 62) = true.
Proof. unfold edn_char. rewrite letter_alpha, figure_digit. cls. Qed.
Lemma edn_first_ok c : edn_first c <-> is_alpha c || is_misc c || (c =? 43) || (c =? 45) || (c =? 62) = true.
Proof. unfold edn_first. rewrite letter_alpha. cls. Qed.

Lemma edn_chars_ok w : forallb (fun c => is_name_char c || (c =? 62)) w = true -> Forall edn_char w.
Proof. intros H. apply Forall_forall. intros x I. apply edn_char_ok. revert x I. now apply forallb_forall. Qed.

Lemma Forall_iff {A} (P Q : A -> Prop) l : (forall x, P x <-> Q x) -> Forall P l <-> Forall Q l.
Proof. intros H. split; apply Forall_impl; intros x; apply H. Qed.

Lemma all_figures_ok ds : all_figures ds <-> digits ds.
Proof. unfold all_figures, digits. rewrite (Forall_iff _ _ ds figure_digit). reflexivity. Qed.

(** * Spellings and patterns *)

Lemma name_ok w : name w <-> lang re_name w.
Proof.
  unfold re_name, re_name0, re_name1. rewrite lang_alt, !lang_cat. split.
  - intros [c u O F|c c' u L O F].
    + left. exists [c], u. split; auto. rewrite lang_chr, lang_star_chr. split; [exists c; split; auto; now apply opens_ok|].
      now apply (Forall_iff _ _ u inside_ok).
    + right. exists [c], (c' :: u). split; auto. rewrite lang_chr, lang_cat. split; [exists c; split; auto; now apply leads_ok|].
      exists [c'], u. split; auto. rewrite lang_chr, lang_star_chr. split; [exists c'; split; auto; now apply follows_ok|].
      now apply (Forall_iff _ _ u inside_ok).
  - intros [(u & v & -> & A & B)|(u & v & -> & A & B)].
    + apply lang_chr in A as (c & -> & A). apply lang_star_chr in B. constructor; [now apply opens_ok|].
      now apply (Forall_iff _ _ v inside_ok).
    + apply lang_chr in A as (c & -> & A). apply lang_cat in B as (x & y & -> & X & Y). apply lang_chr in X as (c' & -> & X).
      apply lang_star_chr in Y. constructor; [now apply leads_ok|now apply follows_ok|]. now apply (Forall_iff _ _ y inside_ok).
Qed.

Lemma symbol_ok w : symbol w <-> lang re_symbol w.
Proof.
  unfold re_symbol, opt. rewrite lang_cat. split.
  - intros [n N|p n P N]; rewrite name_ok in *.
    + exists [], n. split; auto. split; auto. apply l_alt_r. constructor.
    + exists (p ++ [47]), n. split; [now rewrite <- app_assoc|]. split; auto. apply l_alt_l. constructor; auto. now apply lang_ch.
  - intros (u & v & -> & A & B). apply lang_alt in A as [A|A].
    + apply lang_cat in A as (x & y & -> & X & Y). apply lang_ch in Y as ->. rewrite <- app_assoc. apply sy_prefixed; now apply name_ok.
    + apply lang_eps in A as ->. apply sy_name. now apply name_ok.
Qed.

Lemma signed_ok (P : list Z -> Prop) r w : (forall u, P u <-> lang r u) -> signed P w <-> lang (RCat re_sign r) w.
Proof.
  intros H. rewrite lang_cat. split.
  - intros [u U|u U|u U]; apply H in U; [exists [], u|exists [43], u|exists [45], u]; (split; [reflexivity|]); rewrite lang_sign; auto.
  - intros (u & v & -> & A & B). apply H in B. apply lang_sign in A as [->|[->| ->]]; now constructor.
Qed.

Lemma natural_ok w : natural w <-> lang (RAlt (ch 48) (RCat (RChr (fun c => (49 <=? c) && (c <=? 57))) (RStar (RChr is_digit)))) w.
Proof.
  unfold natural. rewrite all_figures_ok, lang_alt, lang_ch, lang_cat. split.
  - intros ((N & F) & [->|Z]); [now left|]. right. destruct w as [|c w]; [easy|]. inversion F as [|? ? Hc F']; subst.
    exists [c], w. split; auto. rewrite lang_chr, lang_star_chr. split; auto. exists c. split; auto.
    assert (c <> 48) by (intros ->; apply (Z w); reflexivity). apply is_digit_range in Hc. lia.
  - intros [->|(u & v & -> & A & B)].
    + split; [|now left]. split; [easy|]. constructor; auto.
    + apply lang_chr in A as (c & -> & A). apply lang_star_chr in B. split.
      * split; [easy|]. constructor; auto. unfold is_digit. lia.
      * right. intros r E. injection E as E _. change (Z.of_nat _) with 48 in E. lia.
Qed.

Lemma fraction_ok w : fraction w <-> lang re_real_pt w.
Proof.
  unfold fraction, re_real_pt. rewrite lang_cat. split.
  - intros (ds & D & ->). apply all_figures_ok in D. exists [46], ds. split; auto. rewrite lang_ch, lang_plus_chr. auto.
  - intros (u & v & -> & A & B). apply lang_ch in A as ->. apply lang_plus_chr in B. exists v. split; auto. now apply all_figures_ok.
Qed.

Lemma exponent_ok w : exponent w <-> lang re_real_ex w.
Proof.
  unfold exponent, re_real_ex. rewrite lang_cat. split.
  - intros (e & ds & D & E & ->). apply (signed_ok _ (plus (RChr is_digit))) in D.
    2: { intros u. rewrite all_figures_ok, lang_plus_chr. reflexivity. }
    exists e, ds. split; auto. split; auto. unfold one_of. rewrite lang_chr. destruct E as [->| ->]; [exists 101|exists 69]; auto.
  - intros (u & v & -> & A & B). unfold one_of in A. apply lang_chr in A as (c & -> & A). exists [c], v. split.
    + apply (signed_ok _ (plus (RChr is_digit))); auto. intros u. rewrite all_figures_ok, lang_plus_chr. reflexivity.
    + split; auto. cbn [existsb] in A. assert (c = 101 \/ c = 69) as [->| ->] by lia; auto.
Qed.

Lemma magnitude_ok w : magnitude w <->
  lang (RCat (plus (RChr is_digit)) (RAlt re_real_pt (RAlt re_real_ex (RCat re_real_pt re_real_ex)))) w.
Proof.
  rewrite lang_cat. split.
  - intros [ds f D F|ds e D E|ds f e D F E]; apply all_figures_ok, (lang_plus_chr is_digit ds) in D;
      rewrite ?fraction_ok, ?exponent_ok in *.
    + exists ds, f. split; auto. split; auto. now apply l_alt_l.
    + exists ds, e. split; auto. split; auto. now apply l_alt_r, l_alt_l.
    + exists ds, (f ++ e). split; auto. split; auto. apply l_alt_r, l_alt_r. now constructor.
  - intros (u & v & -> & A & B). apply lang_plus_chr, all_figures_ok in A. rewrite !lang_alt in B. destruct B as [B|[B|B]].
    + apply fraction_ok in B. now constructor.
    + apply exponent_ok in B. now constructor.
    + apply lang_cat in B as (x & y & -> & X & Y). apply fraction_ok in X. apply exponent_ok in Y. now constructor.
Qed.

Lemma quotable_ok w : quotable w <-> lang (RStar (RAlt (RChr is_str_char) re_str_escape)) w.
Proof.
  split.
  - induction 1 as [|c w A B _ IH|c w C _ IH]; [constructor| |].
    + apply (l_star_cons _ [c] w); auto. apply l_alt_l. constructor. unfold quote, apostrophe in *. unfold is_str_char. lia.
    + apply (l_star_cons _ [92; c] w); auto. apply l_alt_r. apply (l_cat _ _ [92] [c]); [now apply lang_ch|].
      constructor. cls.
  - remember (RStar (RAlt (RChr is_str_char) re_str_escape)) as r eqn:E. intros H. revert E.
    induction H as [| | | | | |a0 u v A _ B IH]; intros E; try discriminate; [constructor|]. injection E as ->. specialize (IH eq_refl).
    apply lang_alt in A as [A|A].
    + apply lang_chr in A as (c & -> & A). unfold is_str_char in A. constructor; auto; unfold quote, apostrophe; lia.
    + unfold re_str_escape in A. apply lang_cat in A as (x & y & -> & X & Y). apply lang_ch in X as ->.
      unfold one_of in Y. apply lang_chr in Y as (c & -> & Y). apply q_escape; auto. cls.
Qed.

(** * C108 *)

(** The kinds are spelled as the specification says. *)
Theorem C108_token_spellings r w : matches r w <-> spelled r w.
Proof.
  assert (L : forall s, lang (lit s) w <-> s = w) by (intros s; split; [intros H; apply lang_lit in H; now subst|intros <-; apply lit_lang]).
  assert (C : forall c, lang (ch c) w <-> [c] = w) by (intros c; rewrite lang_ch; split; auto).
  unfold matches. destruct r; cbn [pattern spelled]; try apply L; try apply C.
  - symmetry. apply signed_ok, magnitude_ok.
  - symmetry. apply signed_ok, natural_ok.
  - unfold re_keyword, keyword. fold re_symbol. rewrite lang_cat. split.
    + intros (u & v & -> & A & B). apply lang_ch in A as ->. exists v. split; auto. now apply symbol_ok.
    + intros (s & S & ->). exists [58], s. split; auto. rewrite lang_ch. split; auto. now apply symbol_ok.
  - symmetry. apply symbol_ok.
  - unfold re_string, string_literal. rewrite lang_cat. split.
    + intros (u & v & -> & A & B). apply lang_ch in A as ->. apply lang_cat in B as (x & y & -> & X & Y). apply lang_ch in Y as ->.
      exists x. split; auto. now apply quotable_ok.
    + intros (b & B & ->). exists [34], (b ++ [34]). split; auto. rewrite lang_ch, lang_cat. split; auto. exists b, [34].
      split; auto. rewrite lang_ch. split; auto. now apply quotable_ok.
  - unfold re_whitespace, spaces. rewrite lang_plus_chr. apply and_iff_compat_l. apply Forall_iff. intros c. cls.
  - unfold re_comment, remark. rewrite lang_cat. split.
    + intros (u & v & -> & A & B). apply lang_ch in A as ->. apply lang_cat in B as (x & y & -> & X & Y). apply lang_ch in Y as ->.
      apply lang_star_chr in X. exists x. split; auto. intros I. rewrite Forall_forall in X. specialize (X 10 I). discriminate.
    + intros (b & B & ->). exists [59], (b ++ [10]). split; auto. rewrite lang_ch, lang_cat. split; auto. exists b, [10].
      split; auto. rewrite lang_ch, lang_star_chr. split; auto. apply Forall_forall. intros c I.
      assert (c <> 10) by (intros ->; now apply B). lia.
Qed.
Print Assumptions C108_token_spellings.

Lemma no_match_nil : no_match [].
Proof. intros w rest r E N _. symmetry in E. apply app_eq_nil in E. tauto. Qed.

Lemma single_word pow10 w d : single pow10 w d -> word pow10 w d.
Proof.
  assert (B : forall r c, bracket r = true -> matches r [c] -> word pow10 [c] match r with
    | RuLParen => TkLParen | RuRParen => TkRParen | RuLBracket => TkLBracket | RuRBracket => TkRBracket | RuLBrace => TkLBrace | _ => TkRBrace end)
    by (intros; now apply word_bracket).
  intros [| | | | | | | | |w' v I V R|w' x I P|w' I|w' I N1 N2 N3|w' I].
  - apply word_nil.
  - apply word_true.
  - apply word_false.
  - apply (B RuLParen); auto. now apply C108_token_spellings.
  - apply (B RuRParen); auto. now apply C108_token_spellings.
  - apply (B RuLBracket); auto. now apply C108_token_spellings.
  - apply (B RuRBracket); auto. now apply C108_token_spellings.
  - apply (B RuLBrace); auto. now apply C108_token_spellings.
  - apply (B RuRBrace); auto. now apply C108_token_spellings.
  - apply word_int; auto. now apply C108_token_spellings.
  - apply word_real; auto. now apply C108_token_spellings.
  - apply word_key; auto. now apply C108_token_spellings.
  - apply word_sym; auto; [now apply C108_token_spellings|]. intros [E|[E|E]]; auto.
  - apply word_str; auto. now apply C108_token_spellings.
Qed.

Lemma longest_single pow10 w r d : longest w w r -> stands_for pow10 r w d -> single pow10 w d.
Proof.
  intros (_ & _ & M & F & _) S. pose proof (proj1 (C108_token_spellings r w) M) as Sp.
  destruct r; cbn [spelled stands_for] in *; try contradiction; try (subst; constructor).
  - destruct S as (x & P & ->). now constructor.
  - destruct S as (v & V & R & ->). now constructor.
  - exact Sp.
  - exact Sp.
  - intros ->. apply (F RuNil); [|apply lit_lang]. exists [], [RuTrue; RuFalse; RuReal; RuInteger; RuLParen; RuRParen; RuLBracket; RuRBracket; RuLBrace; RuRBrace; RuKeyword], [RuString; RuWhitespace; RuComment]. reflexivity.
  - intros ->. apply (F RuTrue); [|apply lit_lang]. exists [RuNil], [RuFalse; RuReal; RuInteger; RuLParen; RuRParen; RuLBracket; RuRBracket; RuLBrace; RuRBrace; RuKeyword], [RuString; RuWhitespace; RuComment]. reflexivity.
  - intros ->. apply (F RuFalse); [|apply lit_lang]. exists [RuNil; RuTrue], [RuReal; RuInteger; RuLParen; RuRParen; RuLBracket; RuRBracket; RuLBrace; RuRBrace; RuKeyword], [RuString; RuWhitespace; RuComment]. reflexivity.
  - exact Sp.
Qed.

Lemma tiles_begin_after pow10 pos text ts tail : tiles pow10 pos text ts tail ->
  match ts with [] => True | t :: _ => (pos <= tk_begin t)%nat end.
Proof. induction 1 as [|pos w text r toks tail L G T IH|]; auto; try (cbn; lia). destruct toks; auto. lia. Qed.

(** A text is lexed as one token that covers it all exactly when it is spelled as one, and then the
    token is of that kind and value. *)
Theorem C108_single_tokens pow10 w d fuel : (length w < fuel)%nat ->
  (exists e lx, lex_all pow10 fuel (new_lexer new_line_info w) = Ok ([mkTok d 0 (length w)], e, lx)) <-> single pow10 w d.
Proof.
  intros L. split.
  - intros (e & lx & E). pose proof (C25_tokens_tile_the_text pow10 w fuel L) as T. rewrite E in T. destruct T as (tail & T & _). clear E L.
    assert (G : forall pos text, tiles pow10 pos text [mkTok d 0 (length w)] tail -> (pos + length text)%nat = length w ->
      pos = O -> single pow10 text d).
    { intros pos text T'. inversion T' as [| p x t r ts tl Lg Gp T1|p x t r dd ts tl Lg St T1]; subst; intros Len Pos; subst.
      - exfalso. destruct Lg as (Nx & _). apply tiles_begin_after in T1. destruct x; [easy|]. cbn in *. lia.
      - rewrite app_length in Len. cbn in *. assert (t = []) by (apply length_zero_iff_nil; lia). subst t. rewrite app_nil_r in *.
        eapply longest_single; eauto. }
    apply (G O w T); auto.
  - intros S. apply single_word in S. 
    destruct (word_longest pow10 w [] d S) as (r & Lg & St).
    { right. destruct w as [|[|p|p] w]; auto. do 6 (destruct p as [p|p|]; auto). }
    rewrite app_nil_r in Lg.
    assert (T : tiles pow10 0 w [mkTok d 0 (length w)] []).
    { rewrite <- (app_nil_r w) at 1. apply (t_tok pow10 0 w [] r d [] []); auto; [now rewrite app_nil_r|]. apply t_end, no_match_nil. }
    now apply (C25_the_tiling_is_unique_and_found pow10 w _ _ fuel T L).
Qed.
Print Assumptions C108_single_tokens.

Lemma lang_fold w : forall r, nullable (fold_left (fun r c => deriv c r) w r) = true <-> lang r w.
Proof.
  induction w as [|c w IH]; intros r; cbn [fold_left]; [apply nullable_lang|]. rewrite IH. apply deriv_lang.
Qed.

Example C108_witness : single (fun _ => f64_of_Z 1) (chars "a:b/.<c-d9*") TkSymbol /\
  single (fun _ => f64_of_Z 1) (chars "-42") (TkInteger (-42)) /\
  (exists x, single (fun _ => f64_of_Z 1) (chars "+3.25E-7") (TkReal x)).
Proof.
  split; [|split].
  - constructor; try discriminate. apply symbol_ok, lang_fold. vm_compute. reflexivity.
  - constructor; [apply (C108_token_spellings RuInteger), lang_fold; vm_compute; reflexivity| |lia].
    apply (iv_minus [52; 50]). split; [easy|repeat constructor].
  - eexists. apply si_real; [apply (C108_token_spellings RuReal), lang_fold; vm_compute; reflexivity|].
    vm_compute. reflexivity.
Qed.

(** * C109 *)

(** A text that begins with none of the tokens' spellings is lexed as nothing at all. *)
Lemma nothing_read pow10 text fuel : (length text < fuel)%nat -> no_match text ->
  exists e lx, lex_all pow10 fuel (new_lexer new_line_info text) = Ok ([], e, lx).
Proof. intros L N. now apply (C25_the_tiling_is_unique_and_found pow10 text _ _ fuel (t_end pow10 0 text N) L). Qed.

(** After [p] the pattern can no longer match, and it has not matched before. *)
Fixpoint fails (p : list Z) (r : re) : bool :=
  match p with
  | [] => dead r
  | c :: p => let r := deriv c r in dead r || (negb (nullable r) && fails p r)
  end.

Lemma fails_lang p : forall r w rest tail, fails p r = true -> p ++ tail = w ++ rest -> w <> [] -> ~ lang r w.
Proof.
  assert (D : forall r w, dead r = true -> ~ lang r w) by (intros [] w H L; try discriminate; inversion L).
  induction p as [|c p IH]; intros r w rest tail F E N L; cbn [fails] in F; [now apply (D r w)|].
  destruct w as [|c' w]; [easy|]. rewrite <- !app_comm_cons in E. injection E as <- E. apply deriv_lang in L.
  apply orb_true_iff in F as [F|F]; [now apply (D _ _ F L)|]. apply andb_true_iff in F as (F1 & F2).
  destruct w as [|c' w].
  - apply nullable_lang in L. rewrite L in F1. discriminate.
  - apply (IH _ (c' :: w) rest tail F2 E); easy.
Qed.

Lemma fails_no_match p rest : (forall r, fails p (pattern r) = true) -> no_match (p ++ rest).
Proof. intros F w tl r E N. exact (fails_lang p (pattern r) w tl rest (F r) E N). Qed.

(** Plus, minus, the division sign, greater-than and the arrow are EDN symbols, but the lexer reads a
    text that begins with one of them, followed by a space, as having no tokens at all: everything
    after is dropped and no error is reported. *)
Theorem C109_operators_end_the_text_refuted pow10 w rest fuel :
  In w [chars "+"; chars "-"; chars "/"; chars ">"; chars "->"; chars ">="] ->
  (length (w ++ chars " " ++ rest) < fuel)%nat ->
  edn_symbol w /\
  exists e lx, lex_all pow10 fuel (new_lexer new_line_info (w ++ chars " " ++ rest)) = Ok ([], e, lx).
Proof.
  intros I L. split.
  - assert (N : In w [chars "+"; chars "-"; chars ">"; chars "->"; chars ">="] \/ w = chars "/").
    { cbn [In] in *. decompose [or] I; subst; auto 10. }
    destruct N as [N| ->]; [|now right; left]. left.
    cbn [In] in N. decompose [or] N; try contradiction; subst w; clear;
      (eexists _, _; split; [reflexivity|]; split; [apply edn_first_ok; vm_compute; reflexivity|]; split; [apply edn_chars_ok; vm_compute; reflexivity|]); intros _ c' u' E; try discriminate;
      injection E as <- <-; cls0.
  - apply nothing_read; auto. rewrite app_assoc. apply fails_no_match. cbn [In] in I.
    intros r. decompose [or] I; try contradiction; subst w; destruct r; vm_compute; reflexivity.
Qed.
Print Assumptions C109_operators_end_the_text_refuted.

(** The EDN symbols that are read as symbol tokens are exactly those without a greater-than sign
    whose parts are not a lone plus or minus. *)
Theorem C109_edn_names_partial w : edn_name w ->
  (symbol w <-> ~ In 62 w /\ w <> chars "+" /\ w <> chars "-").
Proof.
  intros (c & u & -> & Fc & Fu & Nd). split.
  - intros S. apply symbol_ok in S. pose proof (symbol_chars _ S) as (_ & Ch). split.
    + intros I. rewrite Forall_forall in Ch. destruct (Ch 62 I) as [H|H]; discriminate.
    + split; intros E; injection E as -> ->; apply lang_fold in S; vm_compute in S; discriminate.
  - intros (G & P & M). apply sy_name.
    assert (Fi : Forall inside u).
    { rewrite Forall_forall in *. intros x I. specialize (Fu x I). apply edn_char_ok in Fu.
      assert (x <> 62) by (intros ->; apply G; now right). apply inside_ok. lia. }
    assert (c <> 62) by (intros ->; apply G; now left).
    destruct (is_alpha c || is_misc c) eqn:O; [constructor; auto; now apply opens_ok|].
    destruct u as [|c' u].
    + exfalso. apply edn_first_ok in Fc. assert (c = 43 \/ c = 45) as [->| ->] by lia; auto.
    + inversion Fi as [|? ? Hc' Fi']; subst. apply edn_first_ok in Fc. apply inside_ok in Hc'.
      assert (c = 43 \/ c = 45) as Hs by lia.
      assert (Hc : In c (chars "-+.")) by (destruct Hs as [->| ->]; cls0). specialize (Nd Hc c' u eq_refl). rewrite figure_digit in Nd.
      constructor; auto; [apply leads_ok; destruct Hs as [->| ->]; reflexivity|]. apply follows_ok.
      unfold is_name_char, is_alnum in Hc'. lia.
Qed.
Print Assumptions C109_edn_names_partial.

Corollary C109_edn_symbols_that_are_tokens_partial pow10 w fuel : (length w < fuel)%nat ->
  edn_name w -> ~ In 62 w -> w <> chars "+" -> w <> chars "-" -> w <> chars "nil" -> w <> chars "true" -> w <> chars "false" ->
  exists e lx, lex_all pow10 fuel (new_lexer new_line_info w) = Ok ([mkTok TkSymbol 0 (length w)], e, lx).
Proof. intros L E G P M N1 N2 N3. apply C108_single_tokens; auto. constructor; auto. now apply C109_edn_names_partial. Qed.
Print Assumptions C109_edn_symbols_that_are_tokens_partial.

Example C109_witness : edn_name (chars "-foo.bar#1?").
Proof.
  eexists _, _. split; [reflexivity|]. split; [apply edn_first_ok; vm_compute; reflexivity|]. split; [apply edn_chars_ok; vm_compute; reflexivity|].
  intros _ c' u' E. injection E as <- <-. cls0.
Qed.

(** * C110 *)

(** An EDN string with an apostrophe in it: a text that begins with one is read as having no
    tokens, and no error is reported. *)
Theorem C110_apostrophes_end_the_text_refuted pow10 rest fuel :
  let w := quote :: chars "it" ++ apostrophe :: chars "s" ++ [quote] in
  (length (w ++ rest) < fuel)%nat ->
  edn_string w /\ exists e lx, lex_all pow10 fuel (new_lexer new_line_info (w ++ rest)) = Ok ([], e, lx).
Proof.
  intros w L. split.
  - exists (chars "it" ++ apostrophe :: chars "s"). split; [|reflexivity]. repeat (constructor; try discriminate).
  - apply nothing_read; auto. apply fails_no_match. intros []; vm_compute; reflexivity.
Qed.
Print Assumptions C110_apostrophes_end_the_text_refuted.

(** Without apostrophes, EDN strings are string tokens. *)
Theorem C110_strings_without_apostrophes_partial pow10 w fuel : (length w < fuel)%nat ->
  edn_string w -> ~ In apostrophe w ->
  exists e lx, lex_all pow10 fuel (new_lexer new_line_info w) = Ok ([mkTok TkString 0 (length w)], e, lx).
Proof.
  intros L (b & B & ->) N. apply C108_single_tokens; auto. constructor. exists b. split; auto.
  assert (Nb : ~ In apostrophe b) by (intros I; apply N; right; apply in_or_app; now left). clear L N.
  induction B as [|c b A1 A2 B IH|c b C B IH]; [constructor| |]; cbn [In] in Nb; constructor; auto; tauto.
Qed.
Print Assumptions C110_strings_without_apostrophes_partial.

Example C110_witness : edn_string (quote :: chars "a" ++ [backslash; quote; newline] ++ chars "b" ++ [quote]).
Proof. exists (chars "a" ++ [backslash; quote; newline] ++ chars "b"). split; [|reflexivity].
  apply eq_char; try discriminate. apply eq_escape; auto. apply eq_char; try discriminate. apply eq_char; try discriminate. constructor. Qed.
