(** Words written with blanks between them are the tokens of a text. *)

From Coq Require Import ZArith List Bool Lia ZifyBool SpecFloat.
From Verif Require Import Outcome LexModel LexSpec LexProofs LexRun LexTiles LexProps ParseSpec.
Import ListNotations.
Local Open Scope Z_scope.

Ltac chars := unfold is_name_char, is_alnum, is_special, is_num_char, is_inner_only, is_misc, is_alpha, is_digit, is_ws, is_str_char in *;
  cbn [existsb] in *; lia.

(** * How words begin *)

Definition head_ok (r : rule) (c : Z) : bool :=
  match r with
  | RuNil => c =? 110 | RuTrue => c =? 116 | RuFalse => c =? 102
  | RuReal | RuInteger => is_digit c || (c =? 43) || (c =? 45)
  | RuLParen => c =? 40 | RuRParen => c =? 41 | RuLBracket => c =? 91 | RuRBracket => c =? 93
  | RuLBrace => c =? 123 | RuRBrace => c =? 125
  | RuKeyword => c =? 58 | RuSymbol => is_alpha c || is_misc c || is_num_char c
  | RuString => c =? 34 | RuWhitespace => is_ws c | RuComment => c =? 59
  end.

Lemma name_head c w : lang re_name (c :: w) ->
  (is_alpha c || is_misc c = true) \/ (is_num_char c = true /\ exists c' w', w = c' :: w' /\ is_alpha c' || is_special c' = true).
Proof.
  unfold re_name. rewrite lang_alt. unfold re_name0, re_name1. rewrite !lang_cat.
  intros [(u & v & E & A & B)|(u & v & E & A & B)].
  - apply lang_chr in A as (x & -> & Hx). injection E as <- ->. auto.
  - apply lang_chr in A as (x & -> & Hx). injection E as <- ->. right. split; auto.
    apply lang_cat in B as (y & z & -> & Y & _). apply lang_chr in Y as (c' & -> & Hc'). cbn [app]. eauto.
Qed.

Lemma symbol_head c w : lang re_symbol (c :: w) ->
  (is_alpha c || is_misc c = true) \/ (is_num_char c = true /\ exists c' w', w = c' :: w' /\ is_alpha c' || is_special c' = true).
Proof.
  unfold re_symbol, opt. rewrite lang_cat. intros (u & v & E & A & B).
  rewrite lang_alt, lang_eps, lang_cat in A. destruct A as [(x & y & -> & X & Y)| ->].
  - destruct x as [|x0 x]; [now apply name_chars in X|]. cbn [app] in E. injection E as <- ->.
    apply name_head in X as [X|(X & c' & w' & -> & H)]; auto. right. split; auto. cbn [app]. eauto.
  - cbn [app] in E. subst v. now apply name_head in B.
Qed.

Lemma number_head r c w : r = RuReal \/ r = RuInteger -> matches r (c :: w) ->
  is_digit c = true \/ ((c = 43 \/ c = 45) /\ exists c' w', w = c' :: w' /\ is_digit c' = true).
Proof.
  intros Hr M.
  assert (G : exists u v d, c :: w = u ++ d :: v /\ lang re_sign u /\ is_digit d = true).
  { destruct Hr as [-> | ->]; unfold matches, pattern in M.
    - unfold re_real in M. apply lang_cat in M as (u & v & E & A & B). apply lang_cat in B as (ds & y & -> & D & _).
      apply lang_plus_chr in D as (N & F). destruct ds as [|d ds]; [easy|]. inversion F; subst. exists u, (ds ++ y), d. auto.
    - unfold re_integer in M. apply lang_cat in M as (u & v & E & A & B). apply lang_alt in B as [B|B].
      + apply lang_ch in B as ->. exists u, [], 48. auto.
      + apply lang_cat in B as (x & y & -> & X & _). apply lang_chr in X as (d & -> & Hd). exists u, y, d. split; auto. split; auto. chars. }
  destruct G as (u & v & d & E & A & D). apply lang_sign in A as [->|[-> | ->]]; cbn [app] in E; injection E as -> ->; eauto 8.
Qed.

Lemma head r c w : matches r (c :: w) -> head_ok r c = true.
Proof.
  intros M. destruct r; unfold matches, pattern in M; cbn [head_ok];
    try (apply lang_lit in M; injection M as -> _; reflexivity); try (apply lang_ch in M; injection M as -> _; reflexivity).
  - apply (number_head RuReal) in M as [M|([-> | ->] & _)]; auto. now rewrite M.
  - apply (number_head RuInteger) in M as [M|([-> | ->] & _)]; auto. now rewrite M.
  - unfold re_keyword in M. apply lang_cat in M as (u & v & E & A & B). apply lang_ch in A as ->. injection E as -> _. reflexivity.
  - apply symbol_head in M. destruct M as [M|(M & _)]; rewrite M; auto. apply orb_true_r.
  - unfold re_string in M. apply lang_cat in M as (u & v & E & A & B). apply lang_ch in A as ->. injection E as -> _. reflexivity.
  - unfold re_whitespace in M. apply lang_plus_chr in M as (_ & F). now inversion F.
  - unfold re_comment in M. apply lang_cat in M as (u & v & E & A & B). apply lang_ch in A as ->. injection E as -> _. reflexivity.
Qed.

Lemma matches_nonempty r w : matches r w -> w <> [].
Proof.
  intros M ->. assert (nullable (pattern r) = true) by now apply nullable_lang. destruct r; discriminate.
Qed.

Definition atom (r : rule) : bool :=
  match r with RuNil | RuTrue | RuFalse | RuReal | RuInteger | RuKeyword | RuSymbol => true | _ => false end.
Definition bracket (r : rule) : bool :=
  match r with RuLParen | RuRParen | RuLBracket | RuRBracket | RuLBrace | RuRBrace => true | _ => false end.
Definition name_or_slash (c : Z) : Prop := is_name_char c = true \/ c = 47.

Lemma digits_name ds : Forall (fun c => is_digit c = true) ds -> Forall name_or_slash ds.
Proof. apply Forall_impl. intros c H. left. chars. Qed.

Lemma sign_name u : lang re_sign u -> Forall name_or_slash u.
Proof. intros A. apply lang_sign in A as [->|[-> | ->]]; repeat constructor. Qed.

Lemma atom_chars r w : atom r = true -> matches r w -> Forall name_or_slash w.
Proof.
  intros A M. destruct r; try discriminate; unfold matches, pattern in M;
    try (apply lang_lit in M; subst w; repeat constructor).
  - unfold re_real in M. apply lang_cat in M as (u & v & -> & S & B). apply lang_cat in B as (ds & y & -> & D & X).
    apply lang_plus_chr in D as (_ & F). apply Forall_app. split; [now apply sign_name|]. apply Forall_app. split; [now apply digits_name|].
    assert (Pt : forall y, lang re_real_pt y -> Forall name_or_slash y).
    { intros z H. apply lang_pt in H as (d & -> & (_ & Hd)). constructor; [now left|now apply digits_name]. }
    assert (Ex : forall y, lang re_real_ex y -> Forall name_or_slash y).
    { intros z H. apply lang_ex in H as (c & sg & d & -> & C & Sg & (_ & Hd)). constructor; [left; destruct C as [-> | ->]; reflexivity|].
      apply Forall_app. split; [now apply sign_name|now apply digits_name]. }
    apply lang_alt in X as [X|X]; auto. apply lang_alt in X as [X|X]; auto. apply lang_cat in X as (p & q & -> & P & Q).
    apply Forall_app. auto.
  - unfold re_integer in M. apply lang_cat in M as (u & v & -> & S & B). apply Forall_app. split; [now apply sign_name|].
    apply lang_alt in B as [B|B].
    + apply lang_ch in B as ->. repeat constructor.
    + apply lang_cat in B as (x & y & -> & X & Y). apply lang_chr in X as (d & -> & Hd). constructor; [left; chars|].
      apply digits_name. now apply lang_star_chr in Y.
  - unfold re_keyword in M. apply lang_cat in M as (u & v & -> & S & B). apply lang_ch in S as ->. constructor; [now left|].
    now apply symbol_chars in B.
  - now apply symbol_chars in M.
Qed.

Lemma bracket_one r w : bracket r = true -> matches r w -> exists c, w = [c] /\ In w [[40]; [41]; [91]; [93]; [123]; [125]].
Proof.
  intros B M. destruct r; try discriminate; unfold matches, pattern in M; cbn [In];
    try (apply lang_lit in M; subst w; eauto 10); apply lang_ch in M; subst w; eauto 10.
Qed.

Lemma rule_cases r : atom r = true \/ bracket r = true \/ r = RuString \/ r = RuWhitespace \/ r = RuComment.
Proof. destruct r; auto. Qed.

(** * Longest matches *)

Lemma prefix_longer (w rest w' rest' : list Z) : w ++ rest = w' ++ rest' -> (length w < length w')%nat ->
  exists c x, w' = w ++ c :: x /\ rest = c :: x ++ rest'.
Proof.
  revert w'. induction w as [|a w IH]; intros w' E L; cbn [app length] in *.
  - destruct w' as [|c x]; [cbn in L; lia|]. exists c, x. auto.
  - destruct w' as [|a' w']; [cbn in L; lia|]. cbn in E. injection E as <- E. cbn [length] in L.
    destruct (IH w' E ltac:(lia)) as (c & x & -> & ->). exists c, x. auto.
Qed.

(** [r] is the first pattern that describes [w]. *)
Definition first_rule (w : list Z) (r : rule) : Prop := matches r w /\ forall r', before r' r -> ~ matches r' w.

Lemma atom_head r c w : atom r = true -> matches r (c :: w) -> name_or_slash c.
Proof. intros A M. apply atom_chars in M; auto. now inversion M. Qed.

Lemma longest_atom w rest r : first_rule w r -> atom r = true ->
  match rest with [] => True | c :: _ => is_name_char c = false /\ c <> 47 end -> longest (w ++ rest) w r.
Proof.
  intros (M & B) A Ap. pose proof (matches_nonempty _ _ M) as N. split; auto. split; [eauto|]. split; auto. split; auto.
  intros w' rest' r' E L M'. destruct (prefix_longer _ _ _ _ E L) as (c & x & -> & ->). destruct Ap as [Ap1 Ap2].
  destruct w as [|a w]; [easy|]. pose proof (atom_head _ _ _ A M) as Ha.
  destruct (rule_cases r') as [A'|[A'|A']].
  - apply atom_chars in M'; auto. apply Forall_app in M' as (_ & F). inversion F as [|? ? [H|H] _]; congruence.
  - apply bracket_one in M' as (d & E' & _); auto. apply (f_equal (@length Z)) in E'. rewrite app_length in E'. cbn in E'. lia.
  - cbn [app] in M'. apply head in M'. destruct Ha as [Ha|Ha]; destruct A' as [->|[->| ->]]; cbn [head_ok] in M'; chars.
Qed.

Lemma longest_bracket w rest r : first_rule w r -> bracket r = true -> longest (w ++ rest) w r.
Proof.
  intros (M & B) A. pose proof (matches_nonempty _ _ M) as N. split; auto. split; [eauto|]. split; auto. split; auto.
  intros w' rest' r' E L M'. destruct (prefix_longer _ _ _ _ E L) as (c & x & -> & ->).
  apply bracket_one in M as (a & -> & I); auto. cbn [app] in M'.
  assert (Ia : a = 40 \/ a = 41 \/ a = 91 \/ a = 93 \/ a = 123 \/ a = 125).
  { cbn [In] in I. decompose [or] I; try easy; match goal with H : [_] = [_] |- _ => injection H as <- end; auto 7. }
  destruct (rule_cases r') as [A'|[A'|A']].
  - apply atom_head in M'; auto. destruct M' as [H|H]; chars.
  - apply bracket_one in M' as (d & E' & _); auto. discriminate.
  - apply head in M'. destruct A' as [->|[->| ->]]; cbn [head_ok] in M'; chars.
Qed.

Lemma string_shape w : matches RuString w -> exists body, w = 34 :: body ++ [34] /\
  lang (RStar (RAlt (RChr is_str_char) re_str_escape)) body.
Proof.
  intros M. unfold matches, pattern, re_string in M. apply lang_cat in M as (u & v & -> & A & B). apply lang_ch in A as ->.
  apply lang_cat in B as (x & y & -> & X & Y). apply lang_ch in Y as ->. exists x. auto.
Qed.

(** A quote inside a string comes after a backslash. *)
Lemma quote_escaped w : lang (RStar (RAlt (RChr is_str_char) re_str_escape)) w ->
  forall u v, w = u ++ 34 :: v -> exists u', u = u' ++ [92].
Proof.
  remember (RStar (RAlt (RChr is_str_char) re_str_escape)) as R eqn:ER. intros L.
  induction L as [| | | | |a|a u0 v0 H1 _ H2 IH]; try discriminate; intros u v E.
  - destruct u; discriminate.
  - injection ER as ->. apply lang_alt in H1 as [H1|H1].
    + apply lang_chr in H1 as (c & -> & Hc). destruct u as [|c' u]; cbn [app] in E.
      * injection E as -> _. discriminate.
      * injection E as <- E. destruct (IH eq_refl u v E) as (u' & ->). now exists (c :: u').
    + unfold re_str_escape in H1. apply lang_cat in H1 as (x & y & -> & X & Y). apply lang_ch in X as ->.
      apply lang_chr in Y as (c & -> & Hc). cbn [app] in E. destruct u as [|c1 u]; cbn [app] in E; [discriminate|].
      injection E as <- E. destruct u as [|c2 u]; cbn [app] in E; [now exists []|]. injection E as <- E.
      destruct (IH eq_refl u v E) as (u' & ->). now exists (92 :: c :: u').
Qed.

Lemma longest_string w rest : first_rule w RuString ->
  (forall body, w = 34 :: body -> (forall b, body <> b ++ [92; 34]) \/ ~ In 34 rest) -> longest (w ++ rest) w RuString.
Proof.
  intros (M & B) Ap. pose proof (matches_nonempty _ _ M) as N. split; auto. split; [eauto|]. split; auto. split; auto.
  intros w' rest' r' E L M'. destruct (prefix_longer _ _ _ _ E L) as (c & x & -> & ->).
  apply string_shape in M as (body & -> & _). specialize (Ap _ eq_refl). cbn [app] in M'.
  pose proof (head _ _ _ M') as Hh. assert (r' = RuString) as -> by (destruct r'; cbn [head_ok] in Hh; try reflexivity; chars).
  apply string_shape in M' as (body' & E' & Lb). injection E' as E'.
  destruct Ap as [Ap|Ap].
  - assert (exists z, body' = body ++ 34 :: z) as (z & ->).
    { rewrite <- app_assoc in E'. cbn [app] in E'.
      destruct (@exists_last Z (c :: x)) as (z & q & Ez); [easy|]. exists z.
      rewrite Ez in E'. replace (body ++ 34 :: z ++ [q]) with ((body ++ 34 :: z) ++ [q]) in E' by now rewrite <- app_assoc.
      now apply app_inj_tail in E' as (<- & _). }
    destruct (quote_escaped _ Lb _ _ eq_refl) as (u' & ->). apply (Ap u'). now rewrite <- app_assoc.
  - apply Ap. destruct (@exists_last Z (c :: x)) as (z & q & Ez); [easy|].
    rewrite Ez in E'. rewrite app_assoc in E'. apply app_inj_tail in E' as (_ & ->).
    change (In 34 ((c :: x) ++ rest')). rewrite Ez. rewrite <- app_assoc. apply in_or_app. right. now left.
Qed.

Lemma longest_ws u rest : u <> [] -> Forall (fun c => is_ws c = true) u ->
  match rest with [] => True | c :: _ => is_ws c = false end -> longest (u ++ rest) u RuWhitespace.
Proof.
  intros N F Ap. destruct u as [|a u]; [easy|]. assert (Ha : is_ws a = true) by now inversion F.
  assert (Only : forall r w, matches r (a :: w) -> r = RuWhitespace).
  { intros r w M. apply head in M. destruct r; cbn [head_ok] in M; try reflexivity; chars. }
  split; auto. split; [eauto|]. split; [now apply lang_plus_chr|]. split.
  - intros r' Bf M'. apply Only in M'. subst r'. apply (before_in _ _ _ _ (eq_refl : rules =
      [RuNil; RuTrue; RuFalse; RuReal; RuInteger; RuLParen; RuRParen; RuLBracket; RuRBracket; RuLBrace; RuRBrace; RuKeyword; RuSymbol; RuString]
       ++ RuWhitespace :: [RuComment])) in Bf. cbn in Bf. decompose [or] Bf; try discriminate; easy.
  - intros w' rest' r' E L M'. destruct (prefix_longer _ _ _ _ E L) as (c & x & -> & ->). pose proof (Only _ _ M'). subst r'.
    apply lang_plus_chr in M' as (_ & F'). apply Forall_app in F' as (_ & F'). inversion F'; congruence.
Qed.

Lemma comment_shape w : matches RuComment w -> exists body, w = 59 :: body ++ [10] /\ ~ In 10 body.
Proof.
  intros M. unfold matches, pattern, re_comment in M. apply lang_cat in M as (u & v & -> & A & B). apply lang_ch in A as ->.
  apply lang_cat in B as (x & y & -> & X & Y). apply lang_ch in Y as ->. apply lang_star_chr in X. exists x. split; auto.
  intros I. rewrite Forall_forall in X. specialize (X 10 I). discriminate.
Qed.

Lemma longest_comment body rest : ~ In 10 body -> longest ((59 :: body ++ [10]) ++ rest) (59 :: body ++ [10]) RuComment.
Proof.
  intros Nb.
  assert (Only : forall r w, matches r (59 :: w) -> r = RuComment).
  { intros r w M. apply head in M. destruct r; cbn [head_ok] in M; try reflexivity; chars. }
  split; [easy|]. split; [eauto|]. split; [|split].
  - unfold matches, pattern, re_comment. apply (l_cat _ _ [59]); [now constructor|]. apply (l_cat _ _ body); [|now constructor].
    apply lang_star_chr. apply Forall_forall. intros c I. destruct (Z.eqb_spec c 10); [congruence|reflexivity].
  - intros r' Bf M'. apply Only in M'. subst r'. apply (before_in _ _ _ _ (eq_refl : rules =
      [RuNil; RuTrue; RuFalse; RuReal; RuInteger; RuLParen; RuRParen; RuLBracket; RuRBracket; RuLBrace; RuRBrace; RuKeyword; RuSymbol; RuString; RuWhitespace]
       ++ RuComment :: [])) in Bf. cbn in Bf. decompose [or] Bf; try discriminate; easy.
  - intros w' rest' r' E L M'. destruct (prefix_longer _ _ _ _ E L) as (c & x & -> & ->). pose proof (Only _ _ M'). subst r'.
    apply comment_shape in M' as (b' & E' & N'). injection E' as E'. apply N'.
    destruct (@exists_last Z (c :: x)) as (z & q & Ez); [easy|]. rewrite Ez, app_assoc in E'.
    apply app_inj_tail in E' as (<- & _). apply in_or_app. left. apply in_or_app. right. now left.
Qed.

(** * Blanks *)

Lemma ws_run g : blank g -> exists u g', g = u ++ g' /\ Forall (fun c => is_ws c = true) u /\ blank g' /\
  match g' with [] => True | c :: _ => c = 59 end.
Proof.
  induction 1 as [|c w C _ (u & g' & -> & F & B & H)|body w N B _].
  - exists [], []. conjs; auto. constructor.
  - exists (c :: u), g'. conjs; auto. constructor; auto. chars.
  - exists [], (59 :: body ++ 10 :: w). conjs; auto. now apply b_comment.
Qed.

Lemma tiles_blank pow10 n : forall g pos text toks tail, (length g <= n)%nat -> blank g ->
  match text with [] => True | c :: _ => is_ws c = false end ->
  tiles pow10 (pos + length g) text toks tail -> tiles pow10 pos (g ++ text) toks tail.
Proof.
  induction n as [|n IH]; intros g pos text toks tail L B Ap T.
  - destruct g; [|cbn in L; lia]. cbn in *. now rewrite Nat.add_0_r in T.
  - destruct B as [|c w C B|body w N B].
    + cbn in *. now rewrite Nat.add_0_r in T.
    + assert (Bw : blank (c :: w)) by now constructor. destruct (ws_run w B) as (u & g' & -> & F & B' & H).
      cbn [app]. rewrite <- app_assoc.
      change (c :: u ++ g' ++ text) with ((c :: u) ++ (g' ++ text)).
      eapply t_gap with (r := RuWhitespace).
      * apply longest_ws; [easy| |].
        -- constructor; auto. chars.
        -- destruct g' as [|c' g']; cbn [app]; auto. subst c'. reflexivity.
      * now left.
      * apply IH; auto.
        -- cbn [length] in L. rewrite app_length in L. lia.
        -- replace (pos + length (c :: u) + length g')%nat with (pos + length (c :: u ++ g'))%nat; auto.
           cbn [length]. rewrite app_length. lia.
    + replace ((59 :: body ++ 10 :: w) ++ text) with ((59 :: body ++ [10]) ++ (w ++ text)).
      2: { cbn [app]. rewrite <- !app_assoc. reflexivity. }
      eapply t_gap with (r := RuComment).
      * now apply longest_comment.
      * now right.
      * apply IH; auto.
        -- cbn [length] in L. rewrite app_length in L. cbn in L. lia.
        -- replace (pos + length (59%Z :: body ++ [10%Z]) + length w)%nat with (pos + length (59%Z :: body ++ 10%Z :: w))%nat; auto.
           cbn [length]. rewrite !app_length. cbn. lia.
Qed.

(** * Words *)

Section Words.
Context (pow10 : Z -> spec_float).

(** A word that is one token of kind [d]. *)
Definition word (w : list Z) (d : token_data) : Prop :=
  exists r, first_rule w r /\ stands_for pow10 r w d /\ (r = RuString \/ atom r = true \/ bracket r = true).

Lemma word_longest w rest d : word w d -> set_apart w rest -> exists r, longest (w ++ rest) w r /\ stands_for pow10 r w d.
Proof.
  intros (r & Fr & St & C) Ap. exists r. split; auto. destruct C as [->|[C|C]].
  - apply longest_string; auto. intros body ->. destruct Ap as [I|Ap]; auto.
    cbn [In] in I. decompose [or] I; try discriminate; easy.
  - apply longest_atom; auto. destruct Fr as (M & _). destruct w as [|c w]; [now apply matches_nonempty in M|].
    pose proof (atom_head _ _ _ C M) as Hc. destruct Ap as [I|Ap].
    + exfalso. cbn [In] in I.
      assert (Ia : c = 40 \/ c = 41 \/ c = 91 \/ c = 93 \/ c = 123 \/ c = 125) by (decompose [or] I; try easy;
        match goal with H : [_] = _ :: _ |- _ => injection H as <- <- end; auto 7).
      destruct Hc as [H|H]; chars.
    + assert (c <> 34) by (destruct Hc as [H|H]; chars). revert Ap.
      destruct c as [|c|c]; auto. do 6 (destruct c as [c|c|]; auto). congruence.
  - now apply longest_bracket.
Qed.

Lemma word_head w d rest : word w d -> match w ++ rest with [] => True | c :: _ => is_ws c = false end.
Proof.
  intros (r & (M & _) & _ & C). destruct w as [|c w]; [now apply matches_nonempty in M|]. cbn [app].
  destruct C as [->|[C|C]].
  - apply head in M. cbn in M. chars.
  - apply atom_head in M; auto. destruct M as [M|M]; chars.
  - apply head in M. destruct r; try discriminate; cbn in M; chars.
Qed.

Definition token_is (text w : list Z) (d : token_data) (t : token) : Prop := text_of text t = w /\ tk_data t = d.

(** The tokens of words written out; the text before is [past]. *)
Lemma written_tiles ws rest : written ws rest -> forall ds past, Forall2 word ws ds ->
  exists toks, tiles pow10 (length past) rest toks [] /\ length toks = length ws /\
    Forall2 (fun wd t => token_is (past ++ rest) (fst wd) (snd wd) t) (combine ws ds) toks.
Proof.
  induction 1 as [g B|g w ws rest B _ IH Ap]; intros ds past F.
  - inversion F; subst. exists []. split; [|split; [reflexivity|constructor]]. rewrite <- (app_nil_r g).
    apply (tiles_blank pow10 (length g)); auto. constructor. apply no_match_nil.
  - inversion F as [|? d ? ds' W F']; subst.
    destruct (IH ds' (past ++ g ++ w) F') as (toks & T & Lt & Ft).
    destruct (word_longest _ _ _ W Ap) as (r & Lg & St).
    exists (mkTok d (length past + length g) (length past + length g + length w) :: toks). split; [|split].
    + apply (tiles_blank pow10 (length g)); auto.
      * eapply word_head; eauto.
      * eapply t_tok; eauto. rewrite !app_length in T. now replace (length past + length g + length w)%nat with (length past + (length g + length w))%nat by lia.
    + cbn [length]. now rewrite Lt.
    + cbn [combine]. constructor.
      * split; auto. unfold text_of. cbn [tk_begin tk_end fst snd].
        replace (length past + length g + length w - (length past + length g))%nat with (length w) by lia.
        replace (past ++ g ++ w ++ rest) with ((past ++ g) ++ (w ++ rest)) by now rewrite <- app_assoc.
        rewrite skipn_app, skipn_all2 by (rewrite app_length; lia).
        rewrite app_length, Nat.sub_diag. cbn [app skipn]. rewrite firstn_app, firstn_all, Nat.sub_diag. cbn. now rewrite app_nil_r.
      * replace (past ++ g ++ w ++ rest) with ((past ++ g ++ w) ++ rest) by now rewrite <- !app_assoc. exact Ft.
Qed.

(** * The words of trees *)

Lemma first_rule_by w r l1 l2 : rules = l1 ++ r :: l2 -> matches r w -> (forall r', In r' l1 -> ~ matches r' w) -> first_rule w r.
Proof. intros E M N. split; auto. intros r' B. apply N. eapply before_in; eauto. Qed.

Ltac no_head M := apply head in M; cbn [head_ok] in M; chars.

Lemma lit_lang s : lang (lit s) s.
Proof. induction s as [|c s IH]; [constructor|]. apply (l_cat _ _ [c] s); auto. constructor. apply Z.eqb_refl. Qed.

Lemma word_nil : word [110; 105; 108] TkNil.
Proof. exists RuNil. split; [|split; [reflexivity|auto]]. apply (first_rule_by _ _ [] (tl rules)); [reflexivity|apply lit_lang|easy]. Qed.
Lemma word_true : word [116; 114; 117; 101] (TkBool true).
Proof. exists RuTrue. split; [|split; [reflexivity|auto]]. apply (first_rule_by _ _ [RuNil] (tl (tl rules))); [reflexivity|apply lit_lang|].
  intros r' [<-|[]] M. no_head M. Qed.
Lemma word_false : word [102; 97; 108; 115; 101] (TkBool false).
Proof. exists RuFalse. split; [|split; [reflexivity|auto]]. apply (first_rule_by _ _ [RuNil; RuTrue] (tl (tl (tl rules)))); [reflexivity|apply lit_lang|].
  intros r' [<-|[<-|[]]] M; no_head M. Qed.

Lemma number_not_letter r w r' : r = RuReal \/ r = RuInteger -> matches r w -> In r' [RuNil; RuTrue; RuFalse] -> ~ matches r' w.
Proof.
  intros Hr M I M'. destruct w as [|c w]; [now apply matches_nonempty in M|]. apply (number_head r) in M; auto. apply head in M'.
  cbn [In] in I. decompose [or] I; subst; try easy; cbn [head_ok] in M'; destruct M as [M|([-> | ->] & _)]; chars.
Qed.

Lemma word_real w x : matches RuReal w -> parse_real pow10 w = Ok x -> word w (TkReal (bits_of x)).
Proof.
  intros M P. exists RuReal. split; [|split; [cbn; eauto|auto]].
  apply (first_rule_by _ _ [RuNil; RuTrue; RuFalse] (tl (tl (tl (tl rules))))); [reflexivity|exact M|].
  intros r' I. apply (number_not_letter RuReal); auto.
Qed.

Lemma integer_no_e w : matches RuInteger w -> Forall (fun c => is_digit c = true \/ c = 43 \/ c = 45) w.
Proof.
  intros M. unfold matches, pattern, re_integer in M. apply lang_cat in M as (u & v & -> & S & B). apply Forall_app. split.
  - apply lang_sign in S as [->|[-> | ->]]; constructor; auto.
  - apply lang_alt in B as [B|B].
    + apply lang_ch in B as ->. constructor; [now left|constructor].
    + apply lang_cat in B as (x & y & -> & X & Y). apply lang_chr in X as (d & -> & Hd). constructor; [left; chars|].
      apply lang_star_chr in Y. eapply Forall_impl; [|exact Y]. cbn. auto.
Qed.

Lemma real_has_e w : matches RuReal w -> exists c, In c w /\ (c = 46 \/ c = 101 \/ c = 69).
Proof.
  intros M. unfold matches, pattern, re_real in M. apply lang_cat in M as (u & v & -> & S & B). apply lang_cat in B as (ds & y & -> & D & X).
  assert (Pt : forall y, lang re_real_pt y -> exists c, In c y /\ (c = 46 \/ c = 101 \/ c = 69)).
  { intros z H. apply lang_pt in H as (d & -> & _). exists 46. split; auto. now left. }
  assert (G : exists c, In c y /\ (c = 46 \/ c = 101 \/ c = 69)).
  { apply lang_alt in X as [X|X]; auto. apply lang_alt in X as [X|X].
    - apply lang_ex in X as (c & sg & d & -> & C & _). exists c. split; [now left|]. tauto.
    - apply lang_cat in X as (p & q & -> & P & Q). destruct (Pt p P) as (c & I & H). exists c. split; auto. apply in_or_app. auto. }
  destruct G as (c & I & H). exists c. split; auto. apply in_or_app. right. apply in_or_app. auto.
Qed.

Lemma word_int w v : matches RuInteger w -> int_value w v -> - 2 ^ 63 < v < 2 ^ 63 -> word w (TkInteger v).
Proof.
  intros M V B. exists RuInteger. split; [|split; [cbn; eauto|auto]].
  apply (first_rule_by _ _ [RuNil; RuTrue; RuFalse; RuReal] (tl (tl (tl (tl (tl rules)))))); [reflexivity|exact M|].
  intros r' I. destruct (in_app_or [RuNil; RuTrue; RuFalse] [RuReal] r' I) as [I'|[<-|[]]].
  - apply (number_not_letter RuInteger); auto.
  - intros M'. apply integer_no_e in M. apply real_has_e in M' as (c & Ic & Hc). rewrite Forall_forall in M.
    specialize (M c Ic). destruct M as [M|M]; chars.
Qed.

Lemma word_sym w : matches RuSymbol w -> ~ reserved w -> word w TkSymbol.
Proof.
  intros M R. exists RuSymbol. split; [|split; [reflexivity|auto]].
  apply (first_rule_by _ _ [RuNil; RuTrue; RuFalse; RuReal; RuInteger; RuLParen; RuRParen; RuLBracket; RuRBracket; RuLBrace; RuRBrace; RuKeyword]
    [RuString; RuWhitespace; RuComment]); [reflexivity|exact M|].
  intros r' I M'. unfold reserved in R. destruct w as [|c w]; [now apply matches_nonempty in M|].
  pose proof (symbol_head _ _ M) as H.
  assert (Num : r' = RuReal \/ r' = RuInteger -> False).
  { intros Hr. apply (number_head r') in M'; auto. destruct M' as [D|(C & c' & w' & -> & D)].
    - destruct H as [H|(H & _)]; chars.
    - destruct H as [H|(H & c2 & w2 & E & H2)]; [destruct C as [-> | ->]; discriminate|].
      injection E as <- <-. chars. }
  destruct r'; try (apply Num; tauto); try (cbn in I; decompose [or] I; easy); clear I Num.
  1-3: unfold matches, pattern in M'; apply lang_lit in M'; tauto.
  all: apply head in M'; cbn [head_ok] in M'; destruct H as [H|(H & _)]; chars.
Qed.

Lemma word_key w : matches RuKeyword w -> word w TkKeyword.
Proof.
  intros M. exists RuKeyword. split; [|split; [reflexivity|auto]].
  apply (first_rule_by _ _ [RuNil; RuTrue; RuFalse; RuReal; RuInteger; RuLParen; RuRParen; RuLBracket; RuRBracket; RuLBrace; RuRBrace]
    [RuSymbol; RuString; RuWhitespace; RuComment]); [reflexivity|exact M|].
  intros r' I M'. destruct w as [|c w]; [now apply matches_nonempty in M|]. apply head in M, M'. cbn [head_ok] in M.
  destruct r'; cbn [head_ok] in M'; try chars; cbn in I; decompose [or] I; easy.
Qed.

Lemma word_str w : matches RuString w -> word w TkString.
Proof.
  intros M. exists RuString. split; [|split; [reflexivity|auto]].
  apply (first_rule_by _ _ [RuNil; RuTrue; RuFalse; RuReal; RuInteger; RuLParen; RuRParen; RuLBracket; RuRBracket; RuLBrace; RuRBrace; RuKeyword; RuSymbol]
    [RuWhitespace; RuComment]); [reflexivity|exact M|].
  intros r' I M'. destruct w as [|c w]; [now apply matches_nonempty in M|]. apply head in M, M'. cbn [head_ok] in M.
  destruct r'; cbn [head_ok] in M'; try chars; cbn in I; decompose [or] I; easy.
Qed.

Lemma word_bracket r c : bracket r = true -> matches r [c] -> word [c] match r with
  | RuLParen => TkLParen | RuRParen => TkRParen | RuLBracket => TkLBracket | RuRBracket => TkRBracket | RuLBrace => TkLBrace | _ => TkRBrace end.
Proof.
  intros B M. exists r. split; [|split; [destruct r; try discriminate; reflexivity|auto]]. split; auto.
  intros r' Bf M'. apply head in M, M'.
  assert (r' = r).
  { destruct r; try discriminate; cbn [head_ok] in M; destruct r'; cbn [head_ok] in M'; try reflexivity; chars. }
  subst r'. destruct Bf as (l1 & l2 & l3 & E). pose proof rules_nodup as N. rewrite E in N. apply NoDup_remove_2 in N. apply N.
  apply in_or_app. right. apply in_or_app. right. now left.
Qed.

(** Trees written as words are spelled by their tokens. *)
Definition toks_for (text : list Z) (ws : list (list Z)) (ds : list token_data) (toks : list token) : Prop :=
  length toks = length ws /\ Forall2 (fun wd t => token_is text (fst wd) (snd wd) t) (combine ws ds) toks.

Scheme writes_min := Minimality for writes Sort Prop
  with writes_all_min := Minimality for writes_all Sort Prop.
Combined Scheme writes_both from writes_min, writes_all_min.

Definition meant text (P : list token -> Prop) (ws : list (list Z)) : Prop :=
  exists ds, Forall2 word ws ds /\ forall toks, Forall2 (fun wd t => token_is text (fst wd) (snd wd) t) (combine ws ds) toks -> P toks.

Lemma combine_app {A B} (a1 a2 : list A) (b1 b2 : list B) : length a1 = length b1 -> combine (a1 ++ a2) (b1 ++ b2) = combine a1 b1 ++ combine a2 b2.
Proof. revert b1. induction a1 as [|x a1 IH]; intros [|y b1] L; try discriminate; auto. cbn. f_equal. apply IH. now injection L. Qed.

Lemma Forall2_length' {A B} (R : A -> B -> Prop) l r : Forall2 R l r -> length l = length r.
Proof. induction 1; cbn; auto. Qed.

Lemma meant_one text (P : list token -> Prop) w d : word w d -> (forall t, text_of text t = w -> tk_data t = d -> P [t]) -> meant text P [w].
Proof.
  intros W H. exists [d]. split; [repeat constructor; auto|]. cbn [combine]. intros toks F.
  inversion F as [|? t ? ? [A B] F']; subst. inversion F'; subst. now apply H.
Qed.

Lemma meant_app text (P Q R : list token -> Prop) w1 w2 : meant text P w1 -> meant text Q w2 ->
  (forall a b, P a -> Q b -> R (a ++ b)) -> meant text R (w1 ++ w2).
Proof.
  intros (d1 & F1 & H1) (d2 & F2 & H2) G. exists (d1 ++ d2). split; [now apply Forall2_app|].
  rewrite combine_app by (eapply Forall2_length'; eauto). intros toks F. apply Forall2_app_inv_l in F as (a & b & A & B & ->). auto.
Qed.

Lemma writes_spells text :
  (forall t ws, writes pow10 t ws -> meant text (spells text t) ws) /\
  (forall l ws, writes_all pow10 l ws -> meant text (spells_all text l) ws).
Proof.
  assert (Br : forall (P : list token -> Prop) (Q : list token -> Prop) ws a b da db, word [a] da -> word [b] db -> meant text P ws ->
    (forall o c ts, tk_data o = da -> tk_data c = db -> P ts -> Q (o :: ts ++ [c])) -> meant text Q ([a] :: ws ++ [[b]])).
  { intros P Q ws a b da db Wa Wb M H.
    change ([a] :: ws ++ [[b]]) with ([[a]] ++ (ws ++ [[b]])).
    apply (meant_app text (fun x => exists o, x = [o] /\ tk_data o = da) (fun x => exists ts c, x = ts ++ [c] /\ P ts /\ tk_data c = db)).
    - apply (meant_one _ _ _ da); auto. intros t _ D. eauto.
    - apply (meant_app text P (fun x => exists c, x = [c] /\ tk_data c = db)); auto.
      + apply (meant_one _ _ _ db); auto. intros t _ D. eauto.
      + intros x y Px (c & -> & D). eauto.
    - intros x y (o & -> & Do) (ts & c & -> & Pt & Dc). cbn [app]. auto. }
  assert (W40 : word [40] TkLParen) by (apply (word_bracket RuLParen); [reflexivity|apply (lit_lang [40])]).
  assert (W41 : word [41] TkRParen) by (apply (word_bracket RuRParen); [reflexivity|apply (lit_lang [41])]).
  assert (W91 : word [91] TkLBracket) by (apply (word_bracket RuLBracket); [reflexivity|apply (lit_lang [91])]).
  assert (W93 : word [93] TkRBracket) by (apply (word_bracket RuRBracket); [reflexivity|apply (lit_lang [93])]).
  assert (W123 : word [123] TkLBrace) by (apply (word_bracket RuLBrace); [reflexivity|now constructor]).
  assert (W125 : word [125] TkRBrace) by (apply (word_bracket RuRBrace); [reflexivity|now constructor]).
  apply (writes_both pow10 (fun t ws => meant text (spells text t) ws) (fun l ws => meant text (spells_all text l) ws)).
  - eapply meant_one; [apply word_nil|]. intros t _ D. now constructor.
  - eapply meant_one; [apply word_true|]. intros t _ D. now constructor.
  - eapply meant_one; [apply word_false|]. intros t _ D. now constructor.
  - intros w v M V B. eapply meant_one; [apply word_int; eauto|]. intros t _ D. now constructor.
  - intros w x M P. eapply meant_one; [apply word_real; eauto|]. intros t _ D. now constructor.
  - intros w M R. eapply meant_one; [apply word_sym; eauto|]. intros t <- D. constructor. auto.
  - intros w M. eapply meant_one; [apply word_key; eauto|]. intros t <- D. constructor. auto.
  - intros w M. eapply meant_one; [apply word_str; eauto|]. intros t <- D. now constructor.
  - intros l ws _ IH. eapply Br; eauto. intros o c ts Do Dc S. now constructor.
  - intros l ws _ IH. eapply Br; eauto. intros o c ts Do Dc S. now constructor.
  - intros l ws _ IH. eapply Br; eauto. intros o c ts Do Dc S. now constructor.
  - exists []. split; [constructor|]. cbn. intros toks F. inversion F; subst. constructor.
  - intros t ws l us _ IH1 _ IH2. eapply meant_app; eauto. intros a b A B. now constructor.
Qed.

Lemma written_spells trees ws text : writes_all pow10 trees ws -> written ws text ->
  exists toks, tiles pow10 0 text toks [] /\ spells_all text trees toks /\ length toks = length ws.
Proof.
  intros W Wr. destruct (proj2 (writes_spells text) _ _ W) as (ds & F & H).
  destruct (written_tiles ws text Wr ds [] F) as (toks & T & L & Ft). exists toks. auto.
Qed.

End Words.
