From Coq Require Import Ascii List Bool Arith Lia.
From Verif Require Import SexprModel SexprSpec.
Import ListNotations.
Local Open Scope nat_scope.

Definition white_b (c : ascii) : bool := Ascii.eqb c SP || Ascii.eqb c NL.
Lemma white_dec c : white_b c = true <-> white c.
Proof. unfold white_b, white. rewrite orb_true_iff, !Ascii.eqb_eq. tauto. Qed.
Lemma white_not_plain c : white c -> ~ plain c.
Proof. intros H [N _]. auto. Qed.
Lemma paren_not_plain c : paren c -> ~ plain c.
Proof. intros H [_ N]. auto. Qed.
Lemma open_paren : paren "(". Proof. left. reflexivity. Qed.
Lemma close_paren : paren ")". Proof. right. reflexivity. Qed.

(** The reading of a text is unique *)
Lemma atom_unique : forall a b s t, Forall plain a -> Forall plain b ->
  (forall c s', s = c :: s' -> ~ plain c) -> (forall c s', t = c :: s' -> ~ plain c) ->
  a ++ s = b ++ t -> a = b /\ s = t.
Proof.
  induction a as [|x a IH]; intros [|y b] s t Ha Hb Hs Ht E; cbn in E.
  - auto.
  - exfalso. inversion Hb; subst. eapply Hs; eauto.
  - exfalso. inversion Ha; subst. eapply Ht; eauto.
  - injection E as -> E. inversion Ha; inversion Hb; subst. destruct (IH b s t) as [-> ->]; auto.
Qed.
Theorem reads_unique s ts : reads s ts -> forall ts', reads s ts' -> ts = ts'.
Proof.
  induction 1 as [|c s ts Hc _ IH|s ts _ IH|s ts _ IH|a s ts Hne Ha Hs _ IH]; intros ts' R.
  - inversion R; subst; auto. destruct a; [congruence|discriminate].
  - inversion R as [|? ? ? Hw R'|? ? R' E|? ? R' E|a' s' ? Hn Hp Hx R' E]; subst.
    + auto.
    + exfalso. destruct Hc; discriminate.
    + exfalso. destruct Hc; discriminate.
    + exfalso. destruct a' as [|x a']; [congruence|]. cbn in E. injection E as E1 E2. subst x. inversion Hp; subst.
      eapply white_not_plain; eauto.
  - inversion R as [|? ? ? Hw R'|? ? R' E|? ? R' E|a' s' ? Hn Hp Hx R' E]; subst.
    + exfalso. destruct Hw; discriminate.
    + f_equal. auto.
    + exfalso. destruct a' as [|x a']; [congruence|]. cbn in E. injection E as E1 E2. subst x. inversion Hp; subst.
      eapply paren_not_plain; eauto. apply open_paren.
  - inversion R as [|? ? ? Hw R'|? ? R' E|? ? R' E|a' s' ? Hn Hp Hx R' E]; subst.
    + exfalso. destruct Hw; discriminate.
    + f_equal. auto.
    + exfalso. destruct a' as [|x a']; [congruence|]. cbn in E. injection E as E1 E2. subst x. inversion Hp; subst.
      eapply paren_not_plain; eauto. apply close_paren.
  - destruct a as [|x a]; [congruence|]. inversion Ha as [|? ? Hx Ha']; subst.
    inversion R as [|? ? ? Hw R' E|? ? R' E|? ? R' E|a' s' ? Hn Hp Hx' R' E]; subst.
    + exfalso. eapply white_not_plain; eauto.
    + exfalso. eapply paren_not_plain; [apply open_paren|eauto].
    + exfalso. eapply paren_not_plain; [apply close_paren|eauto].
    + destruct (atom_unique a' (x :: a) s' s) as [-> ->]; auto. f_equal. auto.
Qed.

Lemma reads_app s ts : reads s ts -> forall s2 ts2, reads s2 ts2 ->
  (forall s' c s2', s = s' ++ [c] -> s2 = c :: s2' \/ True -> plain c -> forall d s2'', s2 = d :: s2'' -> ~ plain d) ->
  reads (s ++ s2) (ts ++ ts2).
Proof.
  induction 1 as [|c s ts Hc R IH|s ts R IH|s ts R IH|a s ts Hne Ha Hs R IH]; intros s2 ts2 R2 Hj; cbn [app].
  - exact R2.
  - apply rd_white; auto. apply IH; auto. intros s' c' s2' -> _ Hp d s2''. apply (Hj (c :: s') c' []); auto.
  - apply rd_open; auto. apply IH; auto. intros s' c' s2' -> _ Hp d s2''. apply (Hj ("("%char :: s') c' []); auto.
  - apply rd_close; auto. apply IH; auto. intros s' c' s2' -> _ Hp d s2''. apply (Hj (")"%char :: s') c' []); auto.
  - rewrite <- app_assoc. apply rd_atom; auto.
    + intros c s' E. destruct s as [|x s].
      * cbn in E. destruct (exists_last Hne) as (a' & z & ->).
        apply (Hj a' z []) with (s2'' := s'); auto.
        { apply app_nil_r. }
        { apply Forall_app in Ha as [_ Ha]. inversion Ha; subst. auto. }
      * cbn in E. injection E as -> _. eapply Hs; reflexivity.
    + apply IH; auto. intros s' c' s2' -> _ Hp d s2''. apply (Hj (a ++ s') c' []); auto. apply app_assoc.
Qed.
Lemma reads_app_white s ts c s2 ts2 : reads s ts -> ~ plain c -> reads (c :: s2) ts2 -> reads (s ++ c :: s2) (ts ++ ts2).
Proof. intros R Hc R2. eapply reads_app; eauto. intros s' d s2' _ _ _ e s2'' E. injection E as -> ->. exact Hc. Qed.

Lemma indent_white n : Forall white (indent_string n).
Proof. induction n; cbn; [constructor|]. apply Forall_app. split; auto. repeat constructor. Qed.
Lemma indent_repeat n : indent_string n = repeat SP (2 * n).
Proof.
  induction n; [reflexivity|]. cbn [indent_string]. rewrite IHn. replace (2 * S n) with (2 * n + 2) by lia.
  rewrite repeat_app. reflexivity.
Qed.
Lemma reads_whites w s ts : Forall white w -> reads s ts -> reads (w ++ s) ts.
Proof. induction 1; cbn; auto using rd_white. Qed.
Lemma app_cons (a : str) c b : a ++ c :: b = (a ++ [c]) ++ b.
Proof. rewrite <- app_assoc. reflexivity. Qed.

(** What holds between requests *)
Definition ends_plain (s : str) : Prop := exists s' c, s = s' ++ [c] /\ plain c.
Definition inv (f : formatter) (ts : list tok) : Prop :=
  reads (buffer f) ts /\
  (fresh f = true -> at_line_start (buffer f) /\ needsSpacing f = false) /\
  (fresh f = false -> needsSpacing f = false -> exists s, buffer f = s ++ ["("%char]) /\
  (fresh f = false -> needsSpacing f = true -> exists s c, buffer f = s ++ [c] /\ (plain c \/ c = ")"%char)).

Lemma last_eq (a b : str) x y : a ++ [x] = b ++ [y] -> x = y.
Proof. intros E. apply app_inj_tail in E. tauto. Qed.
Lemma line_start_not_plain s : at_line_start s -> forall s' c, s = s' ++ [c] -> ~ plain c.
Proof.
  intros [->|(s0 & ->)] s' c E; [destruct s'; discriminate|]. apply last_eq in E. subst c.
  apply white_not_plain. right. reflexivity.
Qed.

(** spacing, then text that reads as [ts2] and starts with a character [c] *)
Lemma reads_after_spacing f ts t ts2 : inv f ts -> reads t ts2 -> reads (buffer (spacing f) ++ t) (ts ++ ts2).
Proof.
  intros (R & Hf & Hn & Hs) Rt. unfold spacing. cbn [buffer].
  destruct (fresh f) eqn:Ef.
  - destruct (Hf eq_refl) as [Hl _]. rewrite <- app_assoc.
    eapply reads_app; [exact R|apply reads_whites; [apply indent_white|exact Rt]|].
    intros s' c s2' E _ Hp. exfalso. eapply line_start_not_plain; eauto.
  - destruct (needsSpacing f) eqn:En.
    + rewrite <- app_cons. apply reads_app_white; auto.
      * apply white_not_plain. left. reflexivity.
      * apply rd_white; [left; reflexivity|exact Rt].
    + eapply reads_app; eauto. intros s' c s2' E _ Hp. exfalso. destruct (Hn eq_refl eq_refl) as (s & E2).
      rewrite E2 in E. apply last_eq in E. subst c. eapply paren_not_plain; eauto. apply open_paren.
Qed.

Lemma put_inv f ts r : good_request r -> inv f ts -> inv (put f r) (ts ++ asked [r]).
Proof.
  intros Hg Hi. pose proof Hi as (R & Hf & Hn & Hs).
  destruct r as [s| | |]; unfold put; cbn [asked].
  - destruct Hg as [Hne Hp]. unfold inv. cbn [buffer fresh needsSpacing]. repeat split; try discriminate.
    + apply reads_after_spacing; auto. rewrite <- (app_nil_r s) at 1. apply rd_atom; auto; [discriminate|constructor].
    + intros _ _. destruct (exists_last Hne) as (s' & c & ->). exists (buffer (spacing f) ++ s'), c.
      rewrite app_assoc. split; [reflexivity|]. apply Forall_app in Hp as [_ Hp]. inversion Hp; auto.
  - unfold inv. cbn [buffer fresh needsSpacing]. repeat split; try discriminate.
    + apply reads_after_spacing; auto. apply rd_open, rd_end.
    + intros _ _. eexists; reflexivity.
  - unfold inv. cbn [buffer fresh needsSpacing]. repeat split; try discriminate.
    + apply reads_app_white; auto; [apply paren_not_plain, close_paren | apply rd_close, rd_end].
    + intros _ _. exists (buffer f), ")"%char. auto.
  - rewrite app_nil_r. unfold freshen. destruct (fresh f) eqn:E; [exact Hi|].
    unfold inv. cbn [buffer fresh needsSpacing]. repeat split; try discriminate.
    + rewrite <- (app_nil_r ts). apply reads_app_white; auto; [apply white_not_plain; right; reflexivity|].
      apply rd_white; [right; reflexivity|constructor].
    + right. eexists; reflexivity.
Qed.
Lemma asked_app a b : asked (a ++ b) = asked a ++ asked b.
Proof. induction a as [|[]]; cbn; congruence. Qed.
Lemma inv_new : inv new_formatter [].
Proof. unfold inv, new_formatter. cbn. repeat split; try discriminate; [constructor|left; reflexivity]. Qed.
Lemma format_inv rs : Forall good_request rs -> inv (fold_left put rs new_formatter) (asked rs).
Proof.
  intros H. cut (forall f ts, inv f ts -> inv (fold_left put rs f) (ts ++ asked rs)).
  { intros K. apply (K _ []). apply inv_new. }
  induction H as [|r rs Hr _ IH]; intros f ts Hi; cbn [fold_left].
  - rewrite app_nil_r. exact Hi.
  - change (r :: rs) with ([r] ++ rs). rewrite asked_app, app_assoc. apply IH. apply put_inv; auto.
Qed.

(** * C35 *)
(** Reading the output back gives the requests, without layout: the parentheses and the atoms, in
    order, none merged and none split. *)
Theorem C35_output_reads_back rs : Forall good_request rs ->
  forall ts, reads (format rs) ts <-> ts = asked rs.
Proof.
  intros H ts. pose proof (format_inv rs H) as (R & _). split.
  - intros R'. eapply reads_unique; eauto.
  - intros ->. exact R.
Qed.
Print Assumptions C35_output_reads_back.

(** The output never has a space after an opening parenthesis, or at the end of a line. *)
Definition no_space_after_open (s : str) : Prop := forall a b, s <> a ++ "("%char :: SP :: b.
Lemma snoc_cases : forall (s : str), s = [] \/ exists s' c, s = s' ++ [c].
Proof. intros s. destruct s as [|x s]; [auto|]. right. destruct (@exists_last _ (x :: s)) as (a & c & E); [discriminate|]. eauto. Qed.
Lemma nsao_app s t : no_space_after_open s ->
  no_space_after_open t -> (forall s' t', s = s' ++ ["("%char] -> t = SP :: t' -> False) -> no_space_after_open (s ++ t).
Proof.
  intros Hs Ht Hj a b E. apply app_eq_app in E as (l & [[-> E]|[-> E]]).
  - destruct l as [|x l]; cbn in E.
    + eapply (Ht []). symmetry. exact E.
    + injection E as <- E. destruct l as [|y l]; cbn in E.
      * eapply Hj; eauto.
      * injection E as <- E. eapply (Hs a l). reflexivity.
  - eapply Ht. exact E.
Qed.
Lemma nsao_plain s : ~ In "("%char s -> no_space_after_open s.
Proof. intros H a b ->. apply H. apply in_or_app. right. left. reflexivity. Qed.
Lemma indent_no_paren n : ~ In "("%char (indent_string n).
Proof. intros H. pose proof (indent_white n) as W. rewrite Forall_forall in W. destruct (W _ H); discriminate. Qed.
Lemma put_nsao f ts r : good_request r -> inv f ts -> no_space_after_open (buffer f) -> no_space_after_open (buffer (put f r)).
Proof.
  intros Hg (R & Hf & Hn & Hs) H.
  assert (S : no_space_after_open (buffer (spacing f))).
  { unfold spacing. cbn [buffer]. destruct (fresh f) eqn:Ef.
    - destruct (Hf eq_refl) as [Hl _]. apply nsao_app; auto; [apply nsao_plain, indent_no_paren|].
      intros s' t' E0 _. rewrite E0 in Hl. destruct Hl as [E|(x & E)]; [destruct s'; discriminate|]. apply last_eq in E. discriminate.
    - destruct (needsSpacing f) eqn:En; [|exact H].
      apply nsao_app; auto; [apply nsao_plain; cbn; intuition discriminate|].
      intros s' t' E _. destruct (Hs eq_refl eq_refl) as (x & c & E2 & Hc). rewrite E2 in E. apply last_eq in E. subst c.
      destruct Hc as [Hc|Hc]; [|discriminate]. eapply paren_not_plain; eauto. apply open_paren. }
  destruct r as [s| | |]; unfold put; cbn [buffer].
  - destruct Hg as [Hne Hp]. apply nsao_app; auto.
    + apply nsao_plain. intros I. rewrite Forall_forall in Hp. eapply paren_not_plain; [apply open_paren|eauto].
    + intros s' t' _ ->. inversion Hp as [|? ? Hx _]; subst. eapply white_not_plain; [left; reflexivity|exact Hx].
  - apply nsao_app; auto; [|intros s' t' _ E; discriminate]. intros a b E.
    destruct a as [|? [|? ?]]; discriminate.
  - apply nsao_app; auto; [|intros s' t' _ E; discriminate]. apply nsao_plain. cbn; intuition discriminate.
  - unfold freshen. destruct (fresh f); [exact H|]. cbn [buffer].
    apply nsao_app; auto; [|intros s' t' _ E; discriminate]. apply nsao_plain. cbn; intuition discriminate.
Qed.
Theorem C35_no_space_after_open rs : Forall good_request rs -> no_space_after_open (format rs).
Proof.
  intros H. unfold format.
  cut (forall f ts, inv f ts -> no_space_after_open (buffer f) -> no_space_after_open (buffer (fold_left put rs f))).
  { intros K. eapply K; [apply inv_new|]. intros [|] b E; discriminate. }
  induction H as [|r rs Hr _ IH]; intros f ts Hi Hb; cbn [fold_left]; auto.
  eapply IH; [apply put_inv; eauto|eapply put_nsao; eauto].
Qed.
Print Assumptions C35_no_space_after_open.

(** Two neighbouring atoms on a line have exactly one space between them; an atom follows an
    opening parenthesis, and a closing parenthesis follows anything, directly. *)
Theorem C35_spacing rs a b :
  format (rs ++ [Atom a; Atom b]) = format (rs ++ [Atom a]) ++ [SP] ++ b /\
  format (rs ++ [Start; Atom b]) = format (rs ++ [Start]) ++ b /\
  format (rs ++ [End; Atom b]) = format (rs ++ [End]) ++ [SP] ++ b /\
  format (rs ++ [End]) = format rs ++ [")"%char].
Proof.
  unfold format. rewrite !fold_left_app. cbn [fold_left].
  unfold put. cbn [buffer]. unfold spacing. cbn [buffer indent fresh needsSpacing].
  rewrite <- !app_assoc. repeat split; reflexivity.
Qed.
Print Assumptions C35_spacing.

Definition demo : list request :=
  [Start; Atom ["a"%char]; Atom ["b"%char]; Fresh; Start; Start; End; Atom ["c"%char]; End; Fresh; Fresh; End; Atom ["d"%char]].
Example C35_example : Forall good_request demo /\
  format demo = ["("; "a"; " "; "b"; NL; " "; " "; "("; "("; ")"; " "; "c"; ")"; NL; ")"; " "; "d"]%char /\
  reads (format demo) (asked demo).
Proof.
  assert (G : Forall good_request demo).
  { repeat constructor; try discriminate; unfold white, paren; intros [H|H]; discriminate H. }
  split; [exact G|]. split; [reflexivity|]. apply C35_output_reads_back; auto.
Qed.

(** * C80: indentation *)
Lemma sat_depth : forall rs f d, indent f = d -> d <= MAX_DEPTH ->
  (forall pre post e, rs = pre ++ post -> depth_after d pre = Some e -> e <= MAX_DEPTH) ->
  forall e, depth_after d rs = Some e -> indent (fold_left put rs f) = e.
Proof.
  induction rs as [|r rs IH]; intros f d Hd Hm Hall e He; cbn [fold_left depth_after] in *; [congruence|].
  assert (Hall' : forall d', depth_after d [r] = Some d' -> d' <= MAX_DEPTH /\
    (forall pre post e, rs = pre ++ post -> depth_after d' pre = Some e -> e <= MAX_DEPTH)).
  { intros d' Hr. split; [apply (Hall [r] rs); auto|]. intros pre post e0 -> He0.
    apply (Hall (r :: pre) post e0); [reflexivity|]. destruct r; cbn [depth_after] in *.
    - injection Hr as <-. exact He0.
    - injection Hr as <-. exact He0.
    - destruct d; [discriminate|]. injection Hr as <-. exact He0.
    - injection Hr as <-. exact He0. }
  assert (Hput : forall d', depth_after d [r] = Some d' -> indent (put f r) = d').
  { intros d' Hr. destruct (Hall' d' Hr) as [Hle _]. destruct r; cbn [depth_after] in Hr; unfold put; cbn [indent].
    - injection Hr as <-. unfold spacing. cbn [indent]. exact Hd.
    - injection Hr as <-. unfold spacing. cbn [indent]. rewrite Hd. unfold indent_inc.
      destruct (Nat.ltb_spec d MAX_DEPTH); [reflexivity|lia].
    - destruct d; [discriminate|]. injection Hr as <-. rewrite Hd. cbn. lia.
    - injection Hr as <-. unfold freshen. destruct (fresh f); exact Hd. }
  assert (Hone : exists d', depth_after d [r] = Some d' /\ depth_after d' rs = Some e).
  { destruct r; cbn [depth_after]; eauto. destruct d; [discriminate|]. eauto. }
  destruct Hone as (d' & H1 & H2). destruct (Hall' d' H1) as [Hle Hrest]. exact (IH (put f r) d' (Hput d' H1) Hle Hrest e H2).
Qed.
Lemma inv_line_start f ts : inv f ts -> at_line_start (buffer f) -> fresh f = true.
Proof.
  intros (R & Hf & Hn & Hs) Hl. destruct (fresh f) eqn:E; [reflexivity|]. exfalso.
  destruct (needsSpacing f).
  - destruct (Hs eq_refl eq_refl) as (s & c & E2 & Hc). rewrite E2 in Hl.
    destruct Hl as [Hl|(x & Hl)]; [destruct s; discriminate|]. apply last_eq in Hl. subst c.
    destruct Hc as [Hc|Hc]; [|discriminate]. eapply white_not_plain; [right; reflexivity|exact Hc].
  - destruct (Hn eq_refl eq_refl) as (s & E2). rewrite E2 in Hl.
    destruct Hl as [Hl|(x & Hl)]; [destruct s; discriminate|]. apply last_eq in Hl. discriminate.
Qed.

(** If the nesting never exceeds ten, an atom or opening parenthesis at the start of a line is
    indented by two spaces for each parenthesis that is open. *)
Theorem C80_indentation_partial rs d : Forall good_request rs ->
  depth_after 0 rs = Some d -> never_deeper 10 rs -> at_line_start (format rs) ->
  (forall a, format (rs ++ [Atom a]) = format rs ++ repeat SP (2 * d) ++ a) /\
  format (rs ++ [Start]) = format rs ++ repeat SP (2 * d) ++ ["("%char].
Proof.
  intros Hg Hd Hn Hl.
  assert (Hi : indent (fold_left put rs new_formatter) = d).
  { apply (sat_depth rs new_formatter 0 eq_refl (Nat.le_0_l _) Hn d Hd). }
  pose proof (inv_line_start _ _ (format_inv rs Hg) Hl) as Hf.
  split; [intros a|]; unfold format; rewrite fold_left_app; cbn [fold_left]; unfold put at 1; cbn [buffer];
    unfold spacing; cbn [buffer]; rewrite Hf, Hi, indent_repeat, <- app_assoc; reflexivity.
Qed.
Print Assumptions C80_indentation_partial.
Example C80_example :
  let rs := [Start; Start; Atom ["a"%char]; End; Start; Fresh] in
  Forall good_request rs /\ depth_after 0 rs = Some 2 /\ never_deeper 10 rs /\ at_line_start (format rs) /\
  format (rs ++ [Atom ["b"%char]]) = ["("; "("; "a"; ")"; " "; "("; NL; " "; " "; " "; " "; "b"]%char.
Proof.
  cbn zeta. split; [|split; [|split; [|split]]].
  - repeat constructor; try discriminate; unfold white, paren; intros [H|H]; discriminate H.
  - reflexivity.
  - intros pre post d E H.
    assert (P : pre = firstn (length pre) (pre ++ post)) by (rewrite firstn_app, firstn_all, Nat.sub_diag; cbn; symmetry; apply app_nil_r).
    rewrite <- E in P. assert (L : length pre <= 6) by (apply (f_equal (@length _)) in E; rewrite app_length in E; cbn in E; lia).
    rewrite P in H. clear P E. destruct (length pre) as [|[|[|[|[|[|[|n]]]]]]]; cbn in H; try (injection H as <-); lia.
  - right. exists ["("; "("; "a"; ")"; " "; "("]%char. reflexivity.
  - reflexivity.
Qed.
(** What is missing: the indentation stops growing at ten levels but every closing parenthesis
    reduces it, so after deeper nesting lines are indented too little even when the depth is back
    below ten. *)
Theorem C80_indentation_refuted :
  exists rs, depth_after 0 rs = Some 5 /\ at_line_start (format rs) /\
  format (rs ++ [Atom ["a"%char]]) = format rs ++ ["a"%char].
Proof.
  exists (repeat Start 15 ++ repeat End 10 ++ [Fresh]). split; [reflexivity|]. split; [|reflexivity].
  right. eexists (format (repeat Start 15 ++ repeat End 10)). reflexivity.
Qed.
Print Assumptions C80_indentation_refuted.

(** * C81: strings in the output *)
(** A quoted string should read back as that string: there is a way to read quoted text that
    inverts stringify, also when more text follows. *)
Definition string_reader : Type := str -> option (str * str).
Theorem C81_strings_readable_refuted :
  ~ (exists read : string_reader, forall s rest, read (stringify s ++ rest) = Some (s, rest)).
Proof.
  intros (read & H).
  pose proof (H [] ["a"; """"]%char) as H1. pose proof (H [""""; "a"]%char []) as H2.
  cbn in H1, H2. rewrite H1 in H2. discriminate H2.
Qed.
Print Assumptions C81_strings_readable_refuted.
(** Without a double quote inside, the string ends at the next quote and is read back. *)
Fixpoint until_quote (s : str) : option (str * str) :=
  match s with
  | [] => None
  | c :: s => if Ascii.eqb c """" then Some ([], s) else option_map (fun '(a, b) => (c :: a, b)) (until_quote s)
  end.
Definition read_quoted : string_reader := fun s => match s with c :: s => if Ascii.eqb c """" then until_quote s else None | [] => None end.
Theorem C81_strings_readable_partial s rest : ~ In """"%char s -> read_quoted (stringify s ++ rest) = Some (s, rest).
Proof.
  intros H. unfold stringify, read_quoted. cbn [app]. rewrite Ascii.eqb_refl.
  induction s as [|c s IH]; cbn [app until_quote].
  - rewrite Ascii.eqb_refl. reflexivity.
  - destruct (Ascii.eqb_spec c """") as [->|N]; [exfalso; apply H; left; reflexivity|].
    cbn in IH. rewrite IH; [reflexivity|]. intros I. apply H. right. exact I.
Qed.
Print Assumptions C81_strings_readable_partial.
Example C81_example : ~ In """"%char ["h"; "i"]%char. Proof. cbn. intuition discriminate. Qed.
