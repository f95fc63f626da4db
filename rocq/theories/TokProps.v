(** Theorems about tokens as values: C127 to C129. *)

From Coq Require Import ZArith String Ascii List Bool Lia ZifyBool.
From Verif Require Import Outcome IrModel IrSpec IrProofs LexModel SexprModel DisModel AsmSpec AsmProofs TokModel TokSpec.
Import ListNotations.
Local Open Scope Z_scope.

(** * C127 *)
Lemma kind_number_inj a b : kind_number a = kind_number b -> a = b.
Proof. destruct a, b; intros E; try reflexivity; discriminate E. Qed.
Lemma real_eq_iff x y : real_eq x y = true <-> same_real x y.
Proof.
  unfold real_eq. destruct (is_nan x) eqn:X; [|destruct (is_nan y) eqn:Y].
  - cbn [orb]. apply is_nan_true in X. split; [discriminate|]. intros (N & _). contradiction.
  - cbn [orb]. apply is_nan_true in Y. split; [discriminate|]. intros (_ & N & _). contradiction.
  - apply is_nan_false in X, Y. rewrite <- (real_eq_same x y X Y). unfold real_eq.
    rewrite (proj2 (is_nan_false x) X), (proj2 (is_nan_false y) Y). reflexivity.
Qed.
Lemma range_eq_iff a b : range_eq a b = true <-> a = b.
Proof.
  unfold range_eq. rewrite andb_true_iff, !Z.eqb_eq. destruct a, b; cbn. split; [intros [-> ->]; reflexivity|]. intros E. injection E. auto.
Qed.

Theorem C127_equality a b : made a -> made b ->
  exists r, tok_eq a b = Ok r /\ (r = true <-> same_token a b).
Proof.
  intros A B. unfold tok_eq, same_token. destruct (Z.eqb_spec (kind_number (et_kind a)) (kind_number (et_kind b))) as [K|K]; cbn [negb].
  2: { exists false. split; [reflexivity|]. split; [discriminate|]. intros (E & _). congruence. }
  apply kind_number_inj in K. destruct (range_eq (et_range a) (et_range b)) eqn:R; cbn [negb].
  2: { exists false. split; [reflexivity|]. split; [discriminate|]. intros (_ & E & _). apply range_eq_iff in E. congruence. }
  apply range_eq_iff in R. unfold made in A, B. rewrite <- K in B. unfold same_value. destruct (et_kind a) eqn:Ka; try contradiction;
    try (exists true; split; [reflexivity|]; tauto).
  - destruct A as (x & A), B as (y & B). unfold bool_data. rewrite A, B. cbn [bind]. eexists. split; [reflexivity|]. rewrite eqb_true_iff. tauto.
  - destruct A as (x & A), B as (y & B). unfold integer_data. rewrite A, B. cbn [bind]. eexists. split; [reflexivity|]. rewrite Z.eqb_eq. tauto.
  - destruct A as (x & A), B as (y & B). unfold real_data. rewrite A, B. cbn [bind]. eexists. split; [reflexivity|]. rewrite real_eq_iff. tauto.
Qed.
Print Assumptions C127_equality.

(** The lexer's tokens are made this way, so that any two of them can be compared. *)
Theorem C127_lexed_tokens_compare t u : made (of_lexed t) /\ exists r, tok_eq (of_lexed t) (of_lexed u) = Ok r.
Proof.
  assert (M : forall t, made (of_lexed t)) by (intros [[] ? ?]; cbn; eauto; exact I).
  split; [apply M|]. destruct (C127_equality _ _ (M t) (M u)) as (r & E & _). eauto.
Qed.
Print Assumptions C127_lexed_tokens_compare.

(** Equality is an equivalence, except that a token with a NaN is not equal to itself. *)
Theorem C127_equivalence a b c : made a -> made b -> made c ->
  (tok_eq a b = Ok true -> tok_eq b a = Ok true) /\
  (tok_eq a b = Ok true -> tok_eq b c = Ok true -> tok_eq a c = Ok true) /\
  (tok_eq a a = Ok true <-> forall x, et_kind a = REAL -> et_data a = DReal x -> ~ nan x).
Proof.
  intros A B C.
  assert (Q : forall a b, made a -> made b -> (tok_eq a b = Ok true <-> same_token a b)).
  { clear. intros a b A B. destruct (C127_equality a b A B) as (r & -> & H). rewrite <- H. split; congruence. }
  rewrite !Q by assumption. split; [|split].
  - intros (K & R & V). split; [auto|]. split; [auto|]. rewrite <- K. revert V. unfold same_value.
    destruct (et_kind a), (et_data a), (et_data b); auto. apply same_real_sym.
  - intros (K & R & V) (K' & R' & V'). split; [congruence|]. split; [congruence|]. rewrite <- K in V'. revert V V'. unfold same_value.
    destruct (et_kind a), (et_data a), (et_data b), (et_data c); auto; try contradiction; try congruence. apply same_real_trans.
  - split.
    + intros (_ & _ & V) x K D. rewrite K, D in V. apply V.
    + intros H. split; [reflexivity|]. split; [reflexivity|]. unfold made in A. unfold same_value. destruct (et_kind a) eqn:K; auto.
      * destruct A as (v & ->). reflexivity.
      * destruct A as (v & ->). reflexivity.
      * destruct A as (x & D). rewrite D. specialize (H x eq_refl D). split; [exact H|]. split; [exact H|]. now left.
Qed.
Print Assumptions C127_equivalence.

(** Tokens of the three kinds that have no tokens, at the same place, end the process. *)
Theorem C127_other_kinds_refuted k r d d' : k = UNINITIALIZED \/ k = DELIMITER \/ k = HASH ->
  tok_eq (mkET k r d) (mkET k r d') = Trap Assertion.
Proof.
  intros H. unfold tok_eq. cbn [et_kind et_range]. rewrite Z.eqb_refl. cbn [negb]. rewrite (proj2 (range_eq_iff r r) eq_refl).
  destruct H as [->|[->| ->]]; reflexivity.
Qed.
Print Assumptions C127_other_kinds_refuted.

Example C127_instance :
  made (mkET INTEGER (mkSR 3 5) (DInteger 42)) /\ made (mkET SYMBOL (mkSR 3 5) DDummy) /\
  tok_eq (mkET INTEGER (mkSR 3 5) (DInteger 42)) (mkET INTEGER (mkSR 3 5) (DInteger 43)) = Ok false /\
  tok_eq (mkET REAL (mkSR 0 2) (DReal 0)) (mkET REAL (mkSR 0 2) (DReal (2 ^ 63))) = Ok true.
Proof. conjs; [eexists; reflexivity|exact I|reflexivity|vm_compute; reflexivity]. Qed.

(** * C128 *)
Lemma cut_space a : forall b r r', ~ In SP a -> ~ In SP b -> a ++ SP :: r = b ++ SP :: r' -> a = b /\ r = r'.
Proof.
  induction a as [|x a IH]; intros [|y b] r r' Ha Hb E; cbn [app] in E.
  - injection E as ->. auto.
  - exfalso. injection E as <- _. apply Hb. now left.
  - exfalso. injection E as -> _. apply Ha. now left.
  - injection E as <- E. apply IH in E as [-> ->]; auto; intros H; [apply Ha|apply Hb]; now right.
Qed.
Lemma decimal_chars n : 0 <= n -> Forall fig_char (decimal n).
Proof. intros H. now apply (figures_chars n), decimal_figures. Qed.
Lemma fig_not c l : Forall fig_char l -> ~ fig_char c -> ~ In c l.
Proof. intros F N H. rewrite Forall_forall in F. auto. Qed.
Lemma decimal_inj a b x y c d : 0 <= a -> 0 <= b -> ~ fig_char c -> ~ fig_char d -> decimal a ++ c :: x = decimal b ++ d :: y -> a = b /\ c :: x = d :: y.
Proof.
  intros Ha Hb Nc Nd E. apply split_figures in E as (E & E'); auto using decimal_chars. split; [|exact E'].
  apply (figures_fun a (decimal a)); [now apply decimal_figures|]. rewrite E. now apply decimal_figures.
Qed.
Lemma range_text_inj a b x y : in_range a -> in_range b -> range_text a ++ x = range_text b ++ y -> a = b /\ x = y.
Proof.
  intros (A & A') (B & B') E. unfold range_text, pos_text in E. rewrite <- !app_assoc in E. do 2 apply app_inv_head in E.
  change (lit ")") with [")"%char] in E. cbn [app] in E. apply decimal_inj in E as (E1 & E); [|lia|lia|notfig|notfig].
  injection E as E. apply decimal_inj in E as (E2 & E); [|lia|lia|notfig|notfig].
  injection E as E. split; [|exact E]. destruct a, b; cbn in *; congruence.
Qed.
Lemma integer_text_chars v : ~ In SP (integer_text v).
Proof.
  unfold integer_text. destruct (Z.ltb_spec v 0).
  - intros [H'|H']; [discriminate H'|]. revert H'. apply fig_not; [apply decimal_chars; lia|notfig].
  - apply fig_not; [apply decimal_chars; lia|notfig].
Qed.
Lemma integer_text_inj v w : integer_text v = integer_text w -> v = w.
Proof.
  assert (D : forall a b, 0 <= a -> 0 <= b -> decimal a = decimal b -> a = b).
  { intros a b Ha Hb E. apply (figures_fun a (decimal a)); [now apply decimal_figures|]. rewrite E. now apply decimal_figures. }
  assert (N : forall a b, 0 <= b -> lit "-" ++ decimal a <> decimal b).
  { intros a b Hb E. pose proof (decimal_chars b Hb) as F. rewrite <- E in F. inversion F as [|? ? H _]. revert H. notfig. }
  unfold integer_text. destruct (Z.ltb_spec v 0), (Z.ltb_spec w 0); intros E.
  - apply app_inv_head in E. apply D in E; lia.
  - exfalso. eapply N; [|exact E]. lia.
  - exfalso. symmetry in E. eapply N; [|exact E]. lia.
  - apply D in E; auto.
Qed.
(** What is printed: an opening paren, words that are one each, the range, a closing paren. *)
Definition first_word (k : tkind) : str :=
  match k with
  | UNINITIALIZED | ERROR | NIL | BOOL | DELIMITER | HASH => lit "unknown"
  | _ => kind_text k
  end.
Definition middle (rt : Z -> str) (t : etok) : option str :=
  match et_kind t, et_data t with
  | INTEGER, DInteger v => Some (integer_text v)
  | REAL, DReal x => Some (rt x)
  | (UNINITIALIZED | ERROR | NIL | BOOL | DELIMITER | HASH), _ => Some (integer_text (kind_number (et_kind t)))
  | _, _ => None
  end.
Lemma tok_text_shape rt t s : tok_text rt t = Ok s ->
  s = "("%char :: first_word (et_kind t) ++ SP :: match middle rt t with Some m => m ++ [SP] | None => [] end ++ range_text (et_range t) ++ lit ")".
Proof.
  unfold tok_text, middle, integer_data, real_data. destruct (et_kind t) eqn:K, (et_data t) eqn:D; cbn [bind]; intros E; try discriminate E;
    apply (f_equal (fun o => match o with Ok s => s | _ => [] end)) in E; cbv beta iota in E; subst s;
    cbn [first_word]; unfold kind_text, lit; cbn [list_ascii_of_string app]; rewrite <- ?app_assoc; cbn [app]; reflexivity.
Qed.
Lemma first_word_one k : ~ In SP (first_word k).
Proof. intros H. destruct k; cbn in H; repeat destruct H as [H|H]; try discriminate H; exact H. Qed.
Definition named (k : tkind) : Prop := first_word k <> lit "unknown".
Lemma first_word_inj a b : first_word a = first_word b -> a = b \/ ~ named a /\ ~ named b.
Proof. destruct a, b; intros E; try discriminate E; auto; right; split; intros H; apply H; reflexivity. Qed.

(** Two tokens that print the same are of the same kind, at the same place, and have the same number. *)
Theorem C128_printed_tokens rt a b s : (forall x, ~ In SP (rt x)) -> in_range (et_range a) -> in_range (et_range b) ->
  tok_text rt a = Ok s -> tok_text rt b = Ok s ->
  et_kind a = et_kind b /\ et_range a = et_range b /\
  (forall v w, et_kind a = INTEGER -> et_data a = DInteger v -> et_data b = DInteger w -> v = w) /\
  (forall x y, et_kind a = REAL -> et_data a = DReal x -> et_data b = DReal y -> rt x = rt y).
Proof.
  intros Hrt Ra Rb Ea Eb. pose proof (tok_text_shape rt a s Ea) as Sa. pose proof (tok_text_shape rt b s Eb) as Sb.
  rewrite Sa in Sb. apply (f_equal (@tl ascii)) in Sb. cbn [tl] in Sb. apply cut_space in Sb as (W & Sb); [|apply first_word_one..].
  assert (M : forall t m, middle rt t = Some m -> ~ In SP m).
  { intros t m. unfold middle. destruct (et_kind t), (et_data t); intros H; try discriminate H; injection H as <-;
      first [apply integer_text_chars|apply Hrt]. }
  assert (Md : forall t s, tok_text rt t = Ok s -> middle rt t = None <-> (named (et_kind t) /\ et_kind t <> INTEGER /\ et_kind t <> REAL)).
  { clear. intros t s. unfold tok_text, middle, named, integer_data, real_data. destruct (et_kind t), (et_data t); cbn [bind]; intros E; try discriminate E;
      split; intros H; try discriminate H; try reflexivity; try (destruct H as (H & H1 & H2); exfalso; now apply H || now apply H1 || now apply H2);
      conjs; discriminate. }
  pose proof (Md a s Ea) as Ma. pose proof (Md b s Eb) as Mb.
  assert (K : et_kind a = et_kind b).
  { destruct (first_word_inj _ _ W) as [K|(Na & Nb)]; [exact K|].
    assert (Ka : middle rt a = Some (integer_text (kind_number (et_kind a)))) by (clear - Na; unfold middle, named in *; destruct (et_kind a); try reflexivity; exfalso; apply Na; discriminate).
    assert (Kb : middle rt b = Some (integer_text (kind_number (et_kind b)))) by (clear - Nb; unfold middle, named in *; destruct (et_kind b); try reflexivity; exfalso; apply Nb; discriminate).
    rewrite Ka, Kb, <- !app_assoc in Sb. cbn [app] in Sb. apply cut_space in Sb as (E & _); [|apply integer_text_chars..].
    apply integer_text_inj, kind_number_inj in E. exact E. }
  split; [exact K|].
  destruct (middle rt a) as [ma|] eqn:A.
  - destruct (middle rt b) as [mb|] eqn:B; [|exfalso; assert (@None str = None) as Z by reflexivity; apply Mb in Z; rewrite <- K in Z; apply Ma in Z; discriminate Z].
    rewrite <- !app_assoc in Sb. cbn [app] in Sb. apply cut_space in Sb as (E & Sb); [|eapply M; eauto..].
    apply range_text_inj in Sb as (R & _); [|assumption..]. split; [exact R|]. subst mb.
    unfold middle in A, B. split.
    + intros v w Hk Da Db. rewrite <- K, Hk in B. rewrite Hk in A. rewrite Da in A. rewrite Db in B. apply integer_text_inj. congruence.
    + intros x y Hk Da Db. rewrite <- K, Hk in B. rewrite Hk in A. rewrite Da in A. rewrite Db in B. congruence.
  - assert (Z : middle rt b = None) by (apply Mb; rewrite <- K; now apply Ma). rewrite Z in Sb. cbn [app] in Sb.
    apply range_text_inj in Sb as (R & _); [|assumption..]. split; [exact R|].
    destruct (proj1 Ma eq_refl) as (_ & NI & NR). split; intros; contradiction.
Qed.
Print Assumptions C128_printed_tokens.

(** C128 is false of the code where the value is true or false: both print the same, and like an unknown
    kind; nil too has no name. *)
Theorem C128_booleans_refuted rt r : in_range r ->
  tok_text rt (mkET BOOL r (DBool true)) = tok_text rt (mkET BOOL r (DBool false)) /\
  tok_eq (mkET BOOL r (DBool true)) (mkET BOOL r (DBool false)) = Ok false /\
  (exists rest, tok_text rt (mkET BOOL r (DBool true)) = Ok (lit "(unknown 4 " ++ rest)) /\
  (exists rest, tok_text rt (mkET NIL r DDummy) = Ok (lit "(unknown 3 " ++ rest)) /\ kind_text BOOL = kind_text NIL.
Proof.
  intros H. unfold tok_eq. cbn [et_kind et_range]. rewrite (proj2 (range_eq_iff r r) eq_refl). conjs; [reflexivity|reflexivity|exists (range_text r ++ lit ")"); reflexivity|exists (range_text r ++ lit ")"); reflexivity|reflexivity].
Qed.
Print Assumptions C128_booleans_refuted.

Example C128_instance rt :
  tok_text rt (mkET INTEGER (mkSR 3 6) (DInteger (-42))) = Ok (lit "(integer -42 (src-range (src-pos 3) (src-pos 6)))") /\
  tok_text rt (mkET LPAREN (mkSR 0 1) DDummy) = Ok (lit "(lparen (src-range (src-pos 0) (src-pos 1)))").
Proof. split; vm_compute; reflexivity. Qed.

(** * C129 *)
(** The text of a range that lies in the buffer. *)
Theorem C129_text_of_a_range r pre w post :
  in_range r -> sr_begin r = Z.of_nat (length pre) -> sr_end r = Z.of_nat (length (pre ++ w)) ->
  range_strv r (pre ++ w ++ post) = Ok w /\ range_length r = Z.of_nat (length w).
Proof.
  intros (B & E) Hb He. assert (L : range_length r = Z.of_nat (length w)).
  { unfold range_length. rewrite He, Hb, app_length in *. rewrite Z.mod_small; lia. }
  split; [|exact L]. unfold range_strv. rewrite L, Hb, Nat2Z.id, !app_length. replace (_ <? _) with false by lia.
  rewrite Z.min_l by lia. rewrite Nat2Z.id, skipn_app, skipn_all, Nat.sub_diag. cbn [skipn app].
  rewrite firstn_app, firstn_all, Nat.sub_diag. cbn [firstn]. now rewrite app_nil_r.
Qed.
Print Assumptions C129_text_of_a_range.
(** ... and of any other: refused when it begins after the buffer, cut where the buffer ends; a range that ends
    before it begins is not empty but goes to the end of the buffer. *)
Theorem C129_other_ranges r buffer : in_range r -> Z.of_nat (length buffer) < 2 ^ 62 -> sr_begin r < 2 ^ 62 ->
  (Z.of_nat (length buffer) < sr_begin r -> range_strv r buffer = Throw StdException) /\
  (sr_begin r <= Z.of_nat (length buffer) -> Z.of_nat (length buffer) < sr_end r \/ sr_end r < sr_begin r ->
     range_strv r buffer = Ok (skipn (Z.to_nat (sr_begin r)) buffer)).
Proof.
  intros (B & E) L S. unfold range_strv. split.
  - intros H. now replace (_ <? _) with true by lia.
  - intros H H'. replace (_ <? _) with false by lia. f_equal. apply firstn_all2. rewrite skipn_length. unfold range_length.
    destruct (Z.le_gt_cases (sr_begin r) (sr_end r)).
    + rewrite Z.mod_small by lia. lia.
    + assert (M : (sr_end r - sr_begin r) mod 2 ^ 64 = sr_end r - sr_begin r + 2 ^ 64) by (symmetry; apply (Z.mod_unique _ _ (-1)); lia).
      rewrite M. lia.
Qed.
Print Assumptions C129_other_ranges.
Example C129_instance :
  range_strv (mkSR 1 4) (lit "(nop)") = Ok (lit "nop") /\ range_strv (mkSR 3 9) (lit "(nop)") = Ok (lit "p)") /\
  range_strv (mkSR 3 2) (lit "(nop)") = Ok (lit "p)") /\ range_strv (mkSR 6 7) (lit "(nop)") = Throw StdException.
Proof. conjs; vm_compute; reflexivity. Qed.
