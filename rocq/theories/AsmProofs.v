(** Figures are read back, and the descriptors open gives are new. *)

From Coq Require Import String Ascii ZArith NArith List Bool Lia DecimalFacts DecimalN DecimalString.
From Verif Require Import Outcome CmdModel WastModel WastSpec AsmModel AsmSpec.
From Verif Require DisModel.
Import ListNotations.
Local Open Scope Z_scope.

(** ** Figures *)
Lemma figures_acc d : forall p w, figures_of (Zpos p) w -> figures_of (Zpos (Pos.of_uint_acc d p)) (w ++ lit (NilEmpty.string_of_uint d)).
Proof.
  assert (G : forall d (k : Z) c p w, (forall p w, figures_of (Zpos p) w -> figures_of (Zpos (Pos.of_uint_acc d p)) (w ++ lit (NilEmpty.string_of_uint d))) ->
    forall q, Zpos q = 10 * Zpos p + k -> 0 <= k < 10 -> Z.of_nat (nat_of_ascii c) = 48 + k ->
    figures_of (Zpos p) w -> figures_of (Zpos (Pos.of_uint_acc d q)) (w ++ lit (String c (NilEmpty.string_of_uint d)))).
  { intros d' k c p w IH q Eq Hk Hc F. unfold lit in *. cbn [list_ascii_of_string].
    replace (w ++ c :: list_ascii_of_string (NilEmpty.string_of_uint d')) with ((w ++ [c]) ++ list_ascii_of_string (NilEmpty.string_of_uint d')) by (rewrite <- app_assoc; reflexivity).
    apply IH. rewrite Eq. apply fig_more; auto; lia. }
  induction d as [|d IH|d IH|d IH|d IH|d IH|d IH|d IH|d IH|d IH|d IH]; intros p w F; cbn [Pos.of_uint_acc NilEmpty.string_of_uint].
  - unfold lit. cbn. now rewrite List.app_nil_r.
  - apply (G d 0 _ p); auto; lia.
  - apply (G d 1 _ p); auto; lia.
  - apply (G d 2 _ p); auto; lia.
  - apply (G d 3 _ p); auto; lia.
  - apply (G d 4 _ p); auto; lia.
  - apply (G d 5 _ p); auto; lia.
  - apply (G d 6 _ p); auto; lia.
  - apply (G d 7 _ p); auto; lia.
  - apply (G d 8 _ p); auto; lia.
  - apply (G d 9 _ p); auto; lia.
Qed.

Lemma decimal_figures n : 0 <= n -> figures_of n (DisModel.decimal n).
Proof.
  intros Hn. unfold DisModel.decimal. set (d := N.to_uint (Z.to_N n)).
  assert (V : N.of_uint d = Z.to_N n) by apply Unsigned.of_to.
  assert (U : Decimal.unorm d = d). { unfold d at 1. rewrite <- Unsigned.to_of. unfold d. now rewrite Unsigned.of_to. }
  assert (E : n = Z.of_N (N.of_uint d)) by (rewrite V, Z2N.id; lia). clearbody d. rewrite E. clear E V Hn.
  assert (S1 : forall e (k : positive) c, Zpos k < 10 -> Z.of_nat (nat_of_ascii c) = 48 + Zpos k ->
    figures_of (Zpos (Pos.of_uint_acc e k)) (c :: lit (NilEmpty.string_of_uint e))).
  { intros e k c Hk Hc. change (c :: lit (NilEmpty.string_of_uint e)) with ([c] ++ lit (NilEmpty.string_of_uint e)).
    apply figures_acc. apply fig_one; auto; lia. }
  unfold DisModel.lit in *. unfold lit in S1.
  destruct d as [|d|d|d|d|d|d|d|d|d|d]; cbn [N.of_uint Pos.of_uint Z.of_N NilZero.string_of_uint list_ascii_of_string].
  - discriminate U.
  - assert (d = Decimal.Nil) as ->.
    { assert (X : forall u v, Decimal.nzhead u <> Decimal.D0 v) by (induction u; cbn; intros; try discriminate; auto).
      unfold Decimal.unorm in U. cbn [Decimal.nzhead] in U. destruct (Decimal.nzhead d) eqn:E; try discriminate U; [now injection U as <-|].
      exfalso. apply (X d _ E). }
    cbn. apply fig_one; [lia|reflexivity].
  - apply S1; [lia|reflexivity].
  - apply S1; [lia|reflexivity].
  - apply S1; [lia|reflexivity].
  - apply S1; [lia|reflexivity].
  - apply S1; [lia|reflexivity].
  - apply S1; [lia|reflexivity].
  - apply S1; [lia|reflexivity].
  - apply S1; [lia|reflexivity].
  - apply S1; [lia|reflexivity].
Qed.

Definition fig_char (c : ascii) : Prop := (48 <=? Z.of_nat (nat_of_ascii c)) && (Z.of_nat (nat_of_ascii c) <? 58) = true.
Lemma fig_char_of d c : 0 <= d < 10 -> Z.of_nat (nat_of_ascii c) = 48 + d -> fig_char c.
Proof. intros H E. unfold fig_char. rewrite E. apply andb_true_intro. split; [apply Z.leb_le|apply Z.ltb_lt]; lia. Qed.
Lemma figures_chars n w : figures_of n w -> Forall fig_char w /\ w <> [] /\ 0 <= n.
Proof.
  induction 1 as [d c Hd Hc|n d w c Hn F IH Hd Hc].
  - conjs; [constructor; [eapply fig_char_of; eauto|constructor]|discriminate|lia].
  - destruct IH as (A & B & C). conjs; [apply Forall_app; split; auto; constructor; [eapply fig_char_of; eauto|constructor]|destruct w; discriminate|lia].
Qed.
Lemma figures_fun n w : figures_of n w -> forall m, figures_of m w -> n = m.
Proof.
  induction 1 as [d c Hd Hc|n d w c Hn F IH Hd Hc]; intros m G; inversion G as [d' c' Hd' Hc' E1 E2|n' d' w' c' Hn' F' Hd' Hc' E1 E2]; subst.
  - lia.
  - exfalso. apply figures_chars in F'. destruct w' as [|? w']; [easy|]. destruct w'; discriminate.
  - exfalso. apply figures_chars in F. destruct w as [|? w]; [easy|]. destruct w; discriminate.
  - apply app_inj_tail in E2 as (-> & ->). rewrite (IH n' F'). lia.
Qed.

(** A text of figures ends at the first other character. *)
Lemma split_figures a : forall b c c' x y, Forall fig_char a -> Forall fig_char b -> ~ fig_char c -> ~ fig_char c' ->
  a ++ c :: x = b ++ c' :: y -> a = b /\ c :: x = c' :: y.
Proof.
  induction a as [|h a IH]; intros [|h' b] c c' x y Fa Fb Nc Nc' E; cbn [app] in E.
  - auto.
  - exfalso. injection E as -> _. now inversion Fb.
  - exfalso. injection E as -> _. now inversion Fa.
  - injection E as -> E. inversion Fa; inversion Fb; subst. destruct (IH b c c' x y) as (-> & E'); auto.
Qed.
Ltac notfig := let H := fresh in intros H; vm_compute in H; discriminate H.

(** After a location something that is not a figure follows. *)
Lemma read_loc l l' a a' c c' x y : shows_loc l a -> shows_loc l' a' -> ~ fig_char c -> ~ fig_char c' ->
  a ++ c :: x = a' ++ c' :: y -> l = l' /\ c :: x = c' :: y.
Proof.
  intros (a1 & b1 & c1 & A & B & C & ->) (a2 & b2 & c2 & A' & B' & C' & ->) Nc Nc' E.
  repeat rewrite <- app_assoc in E. unfold lit in E. cbn [list_ascii_of_string app] in E.
  destruct (figures_chars _ _ A) as (Fa & _), (figures_chars _ _ A') as (Fa' & _), (figures_chars _ _ B) as (Fb & _),
    (figures_chars _ _ B') as (Fb' & _), (figures_chars _ _ C) as (Fc & _), (figures_chars _ _ C') as (Fc' & _).
  apply split_figures in E as (-> & E); auto; try notfig. injection E as E.
  repeat rewrite <- app_assoc in E. cbn [app] in E.
  apply split_figures in E as (-> & E); auto; try notfig. injection E as E.
  apply split_figures in E as (-> & E); auto. split; auto.
  destruct l as [o li co], l' as [o' li' co']; cbn in *. f_equal; eapply figures_fun; eauto.
Qed.
Lemma shows_all_fun rs t : shows_all rs t -> forall rs', shows_all rs' t -> rs = rs'.
Proof.
  induction 1 as [|r rs t u (a & b & A & B & ->) Hu IH]; intros rs' H'.
  - inversion H' as [|r' rs1 t' u' (a' & b' & A' & B' & ->) Hu' E1 E2]; auto.
  - inversion H' as [E1 E2|r' rs1 t' u' (a' & b' & A' & B' & ->) Hu' E1 E2].
    repeat rewrite <- app_assoc in E2. unfold lit in E2. cbn [list_ascii_of_string app] in E2.
    repeat (cbn [app] in E2; rewrite <- ?app_assoc in E2).
    apply (read_loc _ _ _ _ _ _ _ _ A' A) in E2 as (L & E3); [|notfig|notfig]. injection E3 as E3.
    apply (read_loc _ _ _ _ _ _ _ _ B' B) in E3 as (L' & E4); [|notfig|notfig]. injection E4 as E4. subst u'.
    rewrite (IH rs1 Hu'). destruct r, r'; cbn in *. congruence.
Qed.

(** ** What is printed *)
Definition counted (l : wloc) : Prop := 0 <= l_line l /\ 0 <= l_column l /\ 0 <= l_offset l.
Lemma loc_text_shows l : counted l -> shows_loc l (loc_text l).
Proof.
  intros (A & B & C). exists (DisModel.decimal (l_line l)), (DisModel.decimal (l_column l)), (DisModel.decimal (l_offset l)).
  conjs; auto using decimal_figures.
Qed.
Lemma column_pos w : forall col, 0 <= col -> 0 <= column_after w col.
Proof. induction w as [|c w IH]; intros col H; cbn [column_after]; auto. destruct (c =? _); apply IH; lia. Qed.
Lemma location_counted w : counted (location_after w).
Proof. unfold counted, location_after. cbn [l_line l_column l_offset]. conjs; [unfold line_after; lia|apply column_pos; lia|lia]. Qed.
Lemma lines_show b ks : shows_all (map range_of ks) (flat_map token_line (map (token_of b) ks)).
Proof.
  induction ks as [|((k, past), n) ks IH]; cbn [map flat_map]; [constructor|]. constructor; auto.
  exists (loc_text (location_after past)), (loc_text (location_after (past ++ n))).
  conjs; try (apply loc_text_shows, location_counted). reflexivity.
Qed.

(** ** Descriptors *)
Lemma unused_spec fds n : unused fds n = true <-> ~ In n fds.
Proof.
  unfold unused. rewrite negb_true_iff. split.
  - intros H Hin. assert (existsb (Nat.eqb n) fds = true); [|congruence]. apply existsb_exists. exists n. split; auto. apply Nat.eqb_refl.
  - intros H. destruct (existsb _ _) eqn:E; auto. apply existsb_exists in E as (x & Hx & Ex). apply Nat.eqb_eq in Ex. now subst.
Qed.
Lemma lowest_unused fds : ~ In (lowest fds) fds.
Proof.
  unfold lowest. destruct (find (unused fds) (seq 0 (S (length fds)))) as [n|] eqn:F.
  - apply find_some in F as (_ & F). now apply unused_spec.
  - exfalso. assert (H : incl (seq 0 (S (length fds))) fds).
    { intros n Hn. pose proof (find_none _ _ F n Hn) as U. destruct (in_dec Nat.eq_dec n fds); auto. apply unused_spec in n0. congruence. }
    apply NoDup_incl_length in H; [|apply seq_NoDup]. rewrite seq_length in H. lia.
Qed.
Lemma lowest_pos fds : In O fds -> (lowest fds <? 1)%nat = false.
Proof. intros H. apply Nat.ltb_ge. pose proof (lowest_unused fds). destruct (lowest fds); [easy|lia]. Qed.
Lemma lowest_zero fds : ~ In O fds -> lowest fds = O.
Proof. intros H. unfold lowest. cbn [seq find]. now rewrite (proj2 (unused_spec fds 0) H). Qed.
Lemma remove_new {A} (dec : forall a b : A, {a = b} + {a <> b}) x l : ~ In x l -> remove dec x (x :: l) = l.
Proof. intros H. cbn. destruct (dec x x); [|easy]. now apply notin_remove. Qed.
