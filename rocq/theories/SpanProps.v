From Coq Require Import ZArith List Bool Lia.
From Verif Require Import Outcome SpanModel.
Import ListNotations.
Local Open Scope Z_scope.

(** * Specification *)
(** address [p] is one of the bytes of the span *)
Definition covers (sz : Z) (s : span) (p : Z) : Prop := value s <= p < value s + len s * sz.
(** "this entire span is lower in memory than the rhs" (Span.hpp 85) *)
Definition entirely_before (sz : Z) (a b : span) : Prop := forall p q, covers sz a p -> covers sz b q -> p < q.
(** lexicographic order of byte strings *)
Inductive lex_lt : bytes -> bytes -> Prop :=
| lex_prefix y b : lex_lt [] (y :: b)
| lex_head x y a b : x < y -> lex_lt (x :: a) (y :: b)
| lex_tail x a b : lex_lt a b -> lex_lt (x :: a) (x :: b).
Definition no_nul (s : bytes) : Prop := ~ In 0 s.

(** * Spans *)
(** Equality and inequality: same start and same length. *)
Theorem C42_span_equality a b :
  (span_eq a b = true <-> value a = value b /\ len a = len b) /\ span_ne a b = negb (span_eq a b).
Proof.
  unfold span_eq, span_ne. split; [rewrite andb_true_iff, !Z.eqb_eq; tauto|]. rewrite negb_andb. reflexivity.
Qed.
Print Assumptions C42_span_equality.

(** "<" is only ever true of a span that is entirely before the other... *)
Theorem C42_span_before_sound sz a b : 0 < sz -> span_lt sz a b = true -> entirely_before sz a b.
Proof. intros Hs H p q [_ Hp] [Hq _]. apply Z.ltb_lt in H. lia. Qed.
Print Assumptions C42_span_before_sound.
(** ... and is true whenever there is a gap between the two *)
Theorem C42_span_before_gap sz a b : 0 < sz -> 0 < len a -> 0 < len b ->
  (span_lt sz a b = true <-> entirely_before sz a b /\ value a + span_size sz a <> value b).
Proof.
  intros Hs Ha Hb. unfold span_lt, span_size. rewrite Z.ltb_lt. split.
  - intros H. split; [|lia]. apply C42_span_before_sound; [exact Hs|]. apply Z.ltb_lt. exact H.
  - intros [H Hne]. specialize (H (value a + len a * sz - 1) (value b)). unfold covers in H. nia.
Qed.
Print Assumptions C42_span_before_gap.
(** It is a strict order. *)
Theorem C42_span_strict_order sz a b c : 0 < sz -> 0 <= len a -> 0 <= len b ->
  span_lt sz a a = false /\ (span_lt sz a b = true -> span_lt sz b c = true -> span_lt sz a c = true).
Proof. intros Hs Ha Hb. unfold span_lt. rewrite Z.ltb_ge, !Z.ltb_lt. nia. Qed.
Print Assumptions C42_span_strict_order.
Example C42_span_example : span_lt 4 (mkSpan 1000 4) (mkSpan 1020 1) = true /\ entirely_before 4 (mkSpan 1000 4) (mkSpan 1020 1).
Proof. split; [reflexivity|]. apply C42_span_before_sound; [lia|reflexivity]. Qed.

(** The elements of a span are [len] objects of [sz] bytes one after the other; end() is the last
    of them and size() is the number of bytes they take. *)
Definition element (sz : Z) (s : span) (p : Z) : Prop := exists i, 0 <= i < len s /\ p = value s + i * sz.
Theorem C42_end_is_the_last_element sz s : 0 < sz -> 0 < len s ->
  element sz s (span_end sz s) /\ (forall p, element sz s p -> p <= span_end sz s) /\
  span_end sz s + sz = value s + span_size sz s.
Proof.
  intros Hz Hl. unfold span_end, span_size. split; [|split].
  - exists (len s - 1). lia.
  - intros p (i & Hi & ->). nia.
  - lia.
Qed.
Print Assumptions C42_end_is_the_last_element.
Example C42_end_example : span_end 4 (mkSpan 1000 3) = 1008 /\ element 4 (mkSpan 1000 3) 1008.
Proof. split; [reflexivity|]. exists 2. cbn. lia. Qed.

(** * C82: a span directly before another is before it *)
Theorem C82_adjacent_spans_refuted :
  ~ (forall sz a b, 0 < sz -> 0 < len a -> 0 < len b -> entirely_before sz a b -> span_lt sz a b = true).
Proof.
  intros H. specialize (H 4 (mkSpan 1000 2) (mkSpan 1008 2)). discriminate H; try reflexivity.
  intros p q. unfold covers. cbn. lia.
Qed.
Print Assumptions C82_adjacent_spans_refuted.
(** What holds: "<" is exactly "entirely before, with at least one byte between". *)
Theorem C82_with_a_gap_partial : forall sz a b, 0 < sz -> 0 < len a -> 0 < len b ->
  (span_lt sz a b = true <->
   entirely_before sz a b /\ exists p, (forall q, covers sz a q -> q < p) /\ (forall q, covers sz b q -> p < q)).
Proof.
  intros sz a b Hs Ha Hb. rewrite (C42_span_before_gap sz a b Hs Ha Hb). split; intros (H & X); (split; [exact H|]).
  - exists (value a + span_size sz a). specialize (H (value a + len a * sz - 1) (value b)). unfold covers, span_size in *.
    split; intros q Hq; nia.
  - destruct X as (p & P1 & P2). specialize (P1 (value a + len a * sz - 1)). specialize (P2 (value b)).
    unfold covers, span_size in *. nia.
Qed.
Print Assumptions C82_with_a_gap_partial.
Example C82_case : span_lt 4 (mkSpan 1000 4) (mkSpan 1017 1) = true /\ span_lt 4 (mkSpan 1000 4) (mkSpan 1016 1) = false /\
  entirely_before 4 (mkSpan 1000 4) (mkSpan 1016 1).
Proof. repeat split. intros p q. unfold covers. cbn. lia. Qed.

(** * String spans *)
Lemma strncmp_refl a n : (n <= length a)%nat -> strncmp a a n = Some Eq.
Proof.
  revert n. induction a as [|x a IH]; intros [|n] H; cbn in *; try reflexivity; try lia.
  rewrite Z.eqb_refl. destruct (x =? 0); [reflexivity|]. apply IH. lia.
Qed.
Lemma strncmp_eq a : forall b, no_nul a \/ no_nul b -> length a = length b ->
  exists c, strncmp a b (length a) = Some c /\ (c = Eq <-> a = b).
Proof.
  induction a as [|x a IH]; intros [|y b] Hn Hl; cbn in *; try discriminate.
  - exists Eq. tauto.
  - destruct (Z.eqb_spec x y) as [->|N].
    + destruct (Z.eqb_spec y 0) as [->|N0]; [exfalso; unfold no_nul in Hn; cbn in Hn; tauto|].
      destruct (IH b) as (c & E & Hc); [unfold no_nul in *; cbn in Hn; tauto|lia|].
      exists c. split; [exact E|]. rewrite Hc. split; congruence.
    + exists (x ?= y). split; [reflexivity|]. split; [|congruence]. intros H. apply Z.compare_eq in H. contradiction.
Qed.
Lemma min_same (a b : bytes) : length a = length b -> Nat.min (length a) (length b) = length a.
Proof. lia. Qed.
Lemma eq_spec_gen a b : no_nul a \/ no_nul b ->
  exists r, ss_eq a b = Ok r /\ (r = true <-> a = b).
Proof.
  intros Hn. unfold ss_eq. destruct (Nat.eqb_spec (length a) (length b)) as [E|N]; cbn [negb].
  - destruct (strncmp_eq a b Hn E) as (c & Ec & Hc). unfold ss_compare, ss_compare_n. rewrite min_same, Ec by exact E. cbn [cmp bind].
    exists (is_eq c). split; [reflexivity|]. rewrite <- Hc. destruct c; cbn; split; congruence.
  - exists false. split; [reflexivity|]. split; [discriminate|]. intros ->. contradiction.
Qed.

(** Equality of string spans, if at least one of them has no NUL byte: same length, same bytes. *)
Theorem C83_string_equality_partial a b : no_nul a \/ no_nul b ->
  (ss_eq a b = Ok true <-> a = b) /\ (ss_eq a b = Ok false <-> a <> b) /\
  (ss_ne a b = Ok true <-> a <> b).
Proof.
  intros Hn. destruct (eq_spec_gen a b Hn) as (r & E & Hr). unfold ss_ne. rewrite E. cbn [bind].
  destruct r; cbn [negb]; repeat split; try (intros H; try congruence; try (injection H; congruence)); intuition congruence.
Qed.
Print Assumptions C83_string_equality_partial.
(** What is missing: bytes after a NUL are not compared. *)
Theorem C83_string_equality_refuted : exists a b, a <> b /\ ss_eq a b = Ok true.
Proof. exists [97; 0; 98], [97; 0; 99]. split; [discriminate|reflexivity]. Qed.
Print Assumptions C83_string_equality_refuted.
Example C83_example : no_nul [97; 98] /\ ss_eq [97; 98] [97; 98] = Ok true /\ ss_eq [97; 98] [97; 0] = Ok false.
Proof. split; [intros [|[|[]]]; discriminate|]. split; reflexivity. Qed.

(** Comparing with a C string is exact, for every span: a C string has no NUL byte inside. *)
Lemma strncmp_c_str a s n : (n <= length s)%nat -> strncmp a (c_str s) n = strncmp a s n.
Proof.
  unfold c_str. revert a s. induction n as [|n IH]; intros a s H; [reflexivity|].
  destruct s as [|y s]; [cbn in H; lia|]. cbn [app strncmp]. destruct a as [|x a]; [reflexivity|].
  destruct (x =? y); [|reflexivity]. destruct (x =? 0); [reflexivity|]. apply IH. cbn in H. lia.
Qed.
Theorem C42_equal_to_c_string a s : no_nul s ->
  (ss_eq_str a s = Ok true <-> a = s) /\ (ss_eq_str a s = Ok false <-> a <> s) /\ (ss_ne_str a s = Ok true <-> a <> s).
Proof.
  intros Hn.
  assert (E : ss_eq_str a s = ss_eq a s).
  { unfold ss_eq_str, ss_eq. destruct (Nat.eqb_spec (length a) (length s)) as [E|N]; cbn [negb]; [|reflexivity].
    unfold ss_compare, ss_compare_n. rewrite strncmp_c_str by lia. reflexivity. }
  unfold ss_ne_str. rewrite E. apply (C83_string_equality_partial a s). right. exact Hn.
Qed.
Print Assumptions C42_equal_to_c_string.
Example C42_c_string_example : no_nul [97; 98; 99] /\ ss_eq_str [97; 0; 98] [97; 98; 99] = Ok false /\ ss_eq_str [97; 98; 99] [97; 98; 99] = Ok true.
Proof. split; [intros [|[|[|[]]]]; discriminate|]. split; reflexivity. Qed.

(** * C84: compare orders string spans *)
Lemma strncmp_lex a : forall b, no_nul a -> no_nul b -> length a = length b ->
  exists c, strncmp a b (length a) = Some c /\ (c = Lt <-> lex_lt a b) /\ (c = Gt <-> lex_lt b a) /\ (c = Eq <-> a = b).
Proof.
  induction a as [|x a IH]; intros [|y b] Ha Hb Hl; cbn in *; try discriminate.
  - exists Eq. repeat split; try congruence; intros H; inversion H.
  - destruct (Z.eqb_spec x y) as [->|N].
    + destruct (Z.eqb_spec y 0) as [->|N0]; [exfalso; apply Ha; cbn; auto|].
      destruct (IH b) as (c & E & H1 & H2 & H3); [intros I; apply Ha; cbn; auto|intros I; apply Hb; cbn; auto|lia|].
      exists c. split; [exact E|]. rewrite H1, H2, H3.
      repeat split; intros H; try (apply lex_tail; exact H); try (inversion H; subst; try lia; assumption); congruence.
    + exists (x ?= y). split; [reflexivity|].
      repeat split; intros H.
      * apply lex_head. exact H.
      * inversion H; subst; [exact H1|congruence].
      * apply lex_head. apply Z.gt_lt. exact H.
      * inversion H; subst; [apply Z.lt_gt; exact H1|congruence].
      * apply Z.compare_eq in H. congruence.
      * congruence.
Qed.
(** For spans of the same length without NUL bytes, the sign of compare is the lexicographic order. *)
Theorem C84_compare_is_an_order_partial a b : no_nul a -> no_nul b -> length a = length b ->
  (ss_compare a b = Ok Lt <-> lex_lt a b) /\ (ss_compare a b = Ok Gt <-> lex_lt b a) /\ (ss_compare a b = Ok Eq <-> a = b).
Proof.
  intros Ha Hb Hl. destruct (strncmp_lex a b Ha Hb Hl) as (c & E & H1 & H2 & H3).
  unfold ss_compare, ss_compare_n. rewrite min_same, E by exact Hl. cbn [cmp].
  rewrite <- H1, <- H2, <- H3. repeat split; congruence.
Qed.
Print Assumptions C84_compare_is_an_order_partial.
Example C84_example : no_nul [97; 98] /\ no_nul [97; 99] /\ ss_compare [97; 98] [97; 99] = Ok Lt /\ lex_lt [97; 98] [97; 99].
Proof. repeat split; try (intros [|[|[]]]; discriminate). apply lex_tail, lex_head. lia. Qed.
(** What is missing: only the common length is compared, so a proper prefix compares equal, and
    "compares equal" is not even transitive. *)
Theorem C84_compare_is_an_order_refuted :
  (exists a b, a <> b /\ no_nul a /\ no_nul b /\ ss_compare a b = Ok Eq) /\
  (exists a b c, ss_compare a b = Ok Eq /\ ss_compare b c = Ok Eq /\ ss_compare a c = Ok Lt).
Proof.
  split.
  - exists [97], [97; 98]. repeat split; try discriminate; unfold no_nul; cbn; lia.
  - exists [97], [], [98]. repeat split.
Qed.
Print Assumptions C84_compare_is_an_order_refuted.
(** In general: compare never reads outside the two spans, and is 0 when one is a prefix of the
    other. *)
Lemma strncmp_total a : forall b n, (n <= length a)%nat -> (n <= length b)%nat -> exists c, strncmp a b n = Some c.
Proof.
  induction a as [|x a IH]; intros b [|n] Ha Hb; cbn in *; eauto; [lia|].
  destruct b as [|y b]; [cbn in Hb; lia|]. destruct (x =? y); [|eauto]. destruct (x =? 0); eauto.
  apply IH; cbn in *; lia.
Qed.
Theorem C42_compare_stays_inside a b : exists c, ss_compare a b = Ok c.
Proof.
  unfold ss_compare, ss_compare_n. destruct (strncmp_total a b (Nat.min (length a) (length b))) as (c & E); [lia|lia|].
  exists c. rewrite E. reflexivity.
Qed.
Print Assumptions C42_compare_stays_inside.
Lemma strncmp_c_total a s : exists c, strncmp a (c_str s) (length a) = Some c.
Proof.
  revert s. induction a as [|x a IH]; intros s; cbn [length strncmp]; [eauto|].
  destruct s as [|y s]; cbn [c_str app]; unfold c_str; cbn [app].
  - destruct (Z.eqb_spec x 0) as [->|N]; eauto.
  - destruct (Z.eqb_spec x y) as [->|N]; [|eauto]. destruct (y =? 0); [eauto|]. apply IH.
Qed.
Theorem C42_compare_c_string_stays_inside a s : exists c, ss_compare_str a s = Ok c.
Proof. unfold ss_compare_str. destruct (strncmp_c_total a s) as (c & E). exists c. rewrite E. reflexivity. Qed.
Print Assumptions C42_compare_c_string_stays_inside.
