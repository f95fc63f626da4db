(** C161, C162: numbers in an s-expression *)
From Coq Require Import ZArith String Ascii List Bool Lia.
From Verif Require Import SexprModel SexprSpec SexprProps DisModel DisProofs AsmSpec AsmProofs TokModel TokProps SexprNumModel.
Import ListNotations.
Local Open Scope Z_scope.

(** * Specification *)
(** [t] is the integer [v] in decimal: figures without leading zeros ([figures_of], AsmSpec.v),
    after a minus sign if [v] is negative *)
Definition is_decimal (v : Z) (t : str) : Prop :=
  (0 <= v /\ figures_of v t) \/ (v < 0 /\ exists u, figures_of (- v) u /\ t = "-"%char :: u).
(** The tokens that were asked for: an atom with the decimal text for each number *)
Inductive asked_items : list item -> list tok -> Prop :=
| ai_none : asked_items [] []
| ai_atom s l ts : asked_items l ts -> asked_items (Req (Atom s) :: l) (TAtom s :: ts)
| ai_start l ts : asked_items l ts -> asked_items (Req Start :: l) (TOpen :: ts)
| ai_end l ts : asked_items l ts -> asked_items (Req End :: l) (TClose :: ts)
| ai_fresh l ts : asked_items l ts -> asked_items (Req Fresh :: l) ts
| ai_number t v w l ts : is_decimal v w -> asked_items l ts -> asked_items (Number t v :: l) (TAtom w :: ts).
Definition good_item (i : item) : Prop :=
  match i with Req r => good_request r | Number t v => int_min t <= v <= int_max t end.

(** * Proofs *)
Definition as_request (i : item) : request :=
  match i with Req r => r | Number _ v => Atom (integer_text v) end.

Lemma write_buffer l : forall s, fst (fold_left put_item l s) = fold_left put (map as_request l) (fst s).
Proof. induction l as [|[r|t v] l IH]; intros s; cbn [fold_left map]; [reflexivity| |]; rewrite IH; reflexivity. Qed.
Lemma write_stdout l : forall s, snd (fold_left put_item l s) =
  snd s ++ flat_map (fun i => match i with Req _ => [] | Number t _ => debug_print t end) l.
Proof.
  induction l as [|[r|t v] l IH]; intros s; cbn [fold_left flat_map]; [now rewrite app_nil_r| |]; rewrite IH;
    cbn [put_item put_number snd]; [reflexivity|now rewrite <- app_assoc].
Qed.

Lemma integer_decimal v : is_decimal v (integer_text v).
Proof.
  unfold is_decimal, integer_text. destruct (Z.ltb_spec v 0).
  - right. split; [lia|]. exists (decimal (- v)). split; [apply decimal_figures; lia|reflexivity].
  - left. split; [lia|]. apply decimal_figures. lia.
Qed.
Lemma figures_unique n w : figures_of n w -> forall u, figures_of n u -> w = u.
Proof.
  assert (C : forall (c e : ascii) d, Z.of_nat (nat_of_ascii c) = 48 + d -> Z.of_nat (nat_of_ascii e) = 48 + d -> c = e).
  { intros c e d Hc He. rewrite <- (ascii_nat_embedding c), <- (ascii_nat_embedding e). f_equal. lia. }
  induction 1 as [d c Hd Hc|n d w c Hn F IH Hd Hc]; intros u G.
  - inversion G as [d' c' Hd' Hc'|n' d' w' c' Hn' F' Hd' Hc' E]; subst; [f_equal; eauto|lia].
  - inversion G as [d' c' Hd' Hc'|n' d' w' c' Hn' F' Hd' Hc' E]; subst; [lia|].
    assert (n' = n) by (change (10 * n' + d' = 10 * n + d) in E; lia). assert (d' = d) by (change (10 * n' + d' = 10 * n + d) in E; lia). subst. f_equal; [auto|f_equal; eauto].
Qed.
Lemma decimal_unique v t : is_decimal v t -> t = integer_text v.
Proof.
  assert (U : forall a w, 0 <= a -> figures_of a w -> w = decimal a).
  { intros a w Ha F. apply (figures_unique a); [exact F|now apply decimal_figures]. }
  unfold is_decimal, integer_text. destruct (Z.ltb_spec v 0); intros [(Hv & F)|(Hv & u & F & ->)]; try lia.
  - apply U in F; [|lia]. now rewrite F.
  - apply U in F; [|lia]. exact F.
Qed.

Lemma asked_items_iff l : forall ts, asked_items l ts <-> ts = asked (map as_request l).
Proof.
  induction l as [|i l IH]; intros ts.
  - split; [inversion 1; reflexivity|intros ->; constructor].
  - split.
    + inversion 1 as [|? ? ? A|? ? A|? ? A|? ? A|? ? ? ? ? D A]; subst; apply IH in A; subst; try reflexivity.
      apply decimal_unique in D. now subst.
    + intros ->. destruct i as [[]|t v]; cbn [map as_request asked]; constructor; try (now apply IH). apply integer_decimal.
Qed.
Lemma integer_good v : good_request (Atom (integer_text v)).
Proof.
  assert (P : forall c, fig_char c \/ c = "-"%char -> plain c).
  { intros c [H| ->].
    - unfold fig_char in H. split; intros [->| ->]; cbn in H; lia.
    - split; intros [H|H]; discriminate H. }
  assert (D : forall n, 0 <= n -> decimal n <> [] /\ Forall fig_char (decimal n)).
  { intros n Hn. split; [apply decimal_nonempty|now apply decimal_chars]. }
  cbn [good_request]. unfold integer_text. destruct (Z.ltb_spec v 0).
  - destruct (D (- v)) as (_ & F); [lia|]. split; [discriminate|]. constructor; [apply P; now right|].
    eapply Forall_impl; [|exact F]. intros c Hc. apply P. now left.
  - destruct (D v) as (N & F); [lia|]. split; [exact N|]. eapply Forall_impl; [|exact F]. intros c Hc. apply P. now left.
Qed.

(** * C161 *)
(** Reading the text back gives what was asked for, every number as one atom holding its decimal
    text, whatever the types of the numbers. *)
Theorem C161_numbers_read_back l : Forall good_item l ->
  forall ts, reads (buffer (fst (write_items l))) ts <-> asked_items l ts.
Proof.
  intros H ts. unfold write_items. rewrite write_buffer. cbn [fst]. rewrite asked_items_iff.
  apply (C35_output_reads_back (map as_request l)). apply Forall_map. eapply Forall_impl; [|exact H].
  intros [r|t v]; cbn [good_item as_request]; [auto|intros _; apply integer_good].
Qed.
Print Assumptions C161_numbers_read_back.

(** Two texts that are the same have the same number in the same place. *)
Theorem C161_a_number_is_read_as_its_value l l' : Forall good_item l -> Forall good_item l' ->
  buffer (fst (write_items l)) = buffer (fst (write_items l')) ->
  forall pre t v post pre' t' v' post',
    l = pre ++ Number t v :: post -> l' = pre' ++ Number t' v' :: post' ->
    (forall ts ts', asked_items pre ts -> asked_items pre' ts' -> length ts = length ts') -> v = v'.
Proof.
  intros H H' E pre t v post pre' t' v' post' -> -> L.
  assert (A : asked (map as_request (pre ++ Number t v :: post)) = asked (map as_request (pre' ++ Number t' v' :: post'))).
  { apply (proj1 (asked_items_iff _ _)). apply (C161_numbers_read_back _ H'). rewrite <- E. apply (C161_numbers_read_back _ H).
    apply asked_items_iff. reflexivity. }
  specialize (L _ _ (proj2 (asked_items_iff _ _) eq_refl) (proj2 (asked_items_iff _ _) eq_refl)).
  rewrite !map_app, !asked_app in A. cbn [map as_request asked] in A.
  assert (G : forall (a b x y : list tok), length a = length b -> a ++ x = b ++ y -> x = y).
  { induction a as [|q a IH]; intros [|w b] x y Hl He; try discriminate; [exact He|]. injection He as _ He. apply (IH b); auto. }
  apply G in A; [|exact L]. injection A as A _. now apply integer_text_inj.
Qed.
Print Assumptions C161_a_number_is_read_as_its_value.

Example C161_example : Forall good_item [Req Start; Number Int (-12); Req Fresh; Number ULong (2 ^ 64 - 1); Req End] /\
  fst (write_items [Req Start; Number Int (-12); Req Fresh; Number ULong (2 ^ 64 - 1); Req End]) =
  mkF (lit "(-12" ++ [NL] ++ lit "  18446744073709551615)") 0 false true.
Proof. split; [repeat constructor; cbn; discriminate|vm_compute; reflexivity]. Qed.

(** * C162 *)
(** "Writing to a formatter writes nothing to standard output": false for the unsigned types other
    than unsigned int, whatever the number. *)
Theorem C162_silent_refuted t v : In t [UChar; UShort; ULong; ULongLong] ->
  snd (write_items [Number t v]) <> [].
Proof. cbn [In]. intros [<-|[<-|[<-|[<-|[]]]]]; vm_compute; discriminate. Qed.
Print Assumptions C162_silent_refuted.

(** It holds exactly of the sequences without a number of those types. *)
Theorem C162_silent_partial l :
  snd (write_items l) = [] <-> (forall t v, In (Number t v) l -> In t [Int; UInt; Bool; SChar; Short]).
Proof.
  unfold write_items. rewrite write_stdout. cbn [snd app]. induction l as [|i l IH]; cbn [flat_map].
  - split; [intros _ t v []|reflexivity].
  - split.
    + intros E t v H. apply app_eq_nil in E as (E1 & E2). destruct H as [->|H].
      * destruct t; try discriminate E1; cbn; tauto.
      * apply IH in H; auto.
    + intros H. assert (F : flat_map (fun i => match i with Req _ => [] | Number t _ => debug_print t end) l = []).
      { apply IH. intros t v K. apply (H t v). now right. }
      rewrite F, app_nil_r. destruct i as [r|t v]; [reflexivity|].
      specialize (H t v (or_introl eq_refl)). cbn [In] in H. destruct t; try reflexivity; exfalso; intuition discriminate.
Qed.
Print Assumptions C162_silent_partial.

(** And what is written there tells nothing about the numbers: it depends on the types alone. *)
Theorem C162_what_is_written l l' :
  Forall2 (fun i j => match i, j with Number t _, Number t' _ => t = t' | Req _, Req _ => True | _, _ => False end) l l' ->
  snd (write_items l) = snd (write_items l').
Proof.
  intros F. unfold write_items. rewrite !write_stdout. cbn [snd app]. induction F as [|i j l l' H _ IH]; [reflexivity|].
  cbn [flat_map]. rewrite IH. f_equal. destruct i, j; now destruct H.
Qed.
Print Assumptions C162_what_is_written.
Example C162_example : snd (write_items [Number Int 1; Number UShort 2; Number ULong 3]) =
  lit "asdfasdfasd" ++ [NL] ++ lit "xxxxxxxxxxxxxxx" ++ [NL].
Proof. vm_compute. reflexivity. Qed.
