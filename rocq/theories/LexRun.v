From Coq Require Import ZArith List Bool Lia.
From Verif Require Import Outcome TablesModel LexModel LexSpec LexProofs.
Import ListNotations.
Local Open Scope Z_scope.

(** * Languages of the patterns *)

Lemma lang_chr f w : lang (RChr f) w <-> exists c, w = [c] /\ f c = true.
Proof. split; [intros H; inversion H; subst; eauto|intros (c & -> & H); now constructor]. Qed.
Lemma lang_eps w : lang REps w <-> w = [].
Proof. split; [intros H; now inversion H|intros ->; constructor]. Qed.
Lemma lang_cat a b w : lang (RCat a b) w <-> exists u v, w = u ++ v /\ lang a u /\ lang b v.
Proof. split; [intros H; inversion H; subst; eauto|intros (u & v & -> & A & B); now constructor]. Qed.
Lemma lang_alt a b w : lang (RAlt a b) w <-> lang a w \/ lang b w.
Proof. split; [intros H; inversion H; auto|intros [H|H]; [now apply l_alt_l|now apply l_alt_r]]. Qed.
Lemma lang_star_chr f w : lang (RStar (RChr f)) w <-> Forall (fun c => f c = true) w.
Proof.
  split.
  - remember (RStar (RChr f)) as r eqn:E. intros H. revert E.
    induction H as [| | | | | |a0 u v A _ B IH]; intros E; try discriminate; [constructor|].
    injection E as ->. apply lang_chr in A as (c & -> & Hc). constructor; auto.
  - induction w as [|c w IH]; intros H; [constructor|]. inversion H; subst.
    apply (l_star_cons (RChr f) [c] w); [now constructor|now apply IH].
Qed.
Lemma lang_plus_chr f w : lang (plus (RChr f)) w <-> w <> [] /\ Forall (fun c => f c = true) w.
Proof.
  unfold plus. rewrite lang_cat. split.
  - intros (u & v & -> & A & B). apply lang_chr in A as (c & -> & Hc). apply lang_star_chr in B.
    split; [easy|]. now constructor.
  - intros (N & F). destruct w as [|c w]; [easy|]. inversion F; subst. exists [c], w. split; [easy|].
    split; [now constructor|now apply lang_star_chr].
Qed.
Lemma lang_ch x w : lang (ch x) w <-> w = [x].
Proof.
  unfold ch. rewrite lang_chr. split.
  - intros (c & -> & H). apply Z.eqb_eq in H. now subst.
  - intros ->. exists x. split; auto. apply Z.eqb_refl.
Qed.
Lemma lang_sign w : lang re_sign w <-> w = [] \/ w = [43] \/ w = [45].
Proof.
  unfold re_sign, opt, one_of. rewrite lang_alt, lang_chr, lang_eps. split.
  - intros [(c & -> & H)| ->]; [right|now left]. cbn [existsb] in H.
    destruct (Z.eqb_spec c 43) as [E|E]; [subst; auto|]. destruct (Z.eqb_spec c 45) as [E'|E']; [subst; auto|]. discriminate.
  - intros [->|[->| ->]]; auto; left; eexists; split; eauto.
Qed.

(** * Integers *)

Lemma is_digit_range c : is_digit c = true <-> 48 <= c <= 57.
Proof. unfold is_digit. rewrite andb_true_iff, !Z.leb_le. reflexivity. Qed.

Lemma integer_shape w : matches RuInteger w ->
  exists sg ds, w = sg ++ ds /\ (sg = [] \/ sg = [43] \/ sg = [45]) /\ digits ds.
Proof.
  unfold matches, pattern, re_integer. rewrite lang_cat. intros (u & v & -> & A & B). apply lang_sign in A.
  exists u, v. split; [easy|]. split; [easy|]. rewrite lang_alt, lang_ch, lang_cat in B.
  destruct B as [->|(x & y & -> & X & Y)].
  - split; [easy|]. repeat constructor.
  - apply lang_chr in X as (c & -> & Hc). apply lang_star_chr in Y. split; [easy|]. cbn. constructor; auto.
    apply is_digit_range. rewrite andb_true_iff, !Z.leb_le in Hc. lia.
Qed.

Definition push (v c : Z) : Z := 10 * v + (c - 48).

Lemma fold_push_ge ds : forall v, Forall (fun c => is_digit c = true) ds -> 0 <= v -> v <= fold_left push ds v.
Proof.
  induction ds as [|c ds IH]; intros v F H; cbn [fold_left]; [lia|]. inversion F; subst.
  apply is_digit_range in H2. assert (0 <= push v c) by (unfold push; lia). specialize (IH _ H3 H0).
  unfold push at 2 in IH. unfold push in *. lia.
Qed.

Lemma push_digit_spec v c : 0 <= v -> is_digit c = true ->
  push_digit v c = if push v c <? 2 ^ 63 then Ok (push v c) else UB SignedOverflow.
Proof.
  intros H D. apply is_digit_range in D. unfold push_digit, intptr, push.
  replace (v * 10) with (10 * v) by lia. generalize (2 ^ 63) as P. intros P.
  destruct (Z.ltb_spec (10 * v + (c - 48)) P) as [L|L].
  - replace (- P <=? 10 * v) with true by (symmetry; apply Z.leb_le; lia).
    replace (10 * v <? P) with true by (symmetry; apply Z.ltb_lt; lia). cbn [andb bind].
    replace (- P <=? 10 * v + (c - 48)) with true by (symmetry; apply Z.leb_le; lia).
    replace (10 * v + (c - 48) <? P) with true by (symmetry; apply Z.ltb_lt; lia). reflexivity.
  - destruct ((- P <=? 10 * v) && (10 * v <? P)); [|reflexivity]. cbn [bind].
    replace (10 * v + (c - 48) <? P) with false by (symmetry; apply Z.ltb_ge; lia). now rewrite andb_false_r.
Qed.

Lemma integer_exec_digits ds : forall st neg v, digits ds -> 0 <= v ->
  integer_exec st neg v ds = if fold_left push ds v <? 2 ^ 63 then Ok (2, neg, fold_left push ds v) else UB SignedOverflow.
Proof.
  induction ds as [|c ds IH]; intros st neg v (N & F) H; [easy|]. inversion F; subst. clear N F.
  cbn [integer_exec fold_left]. rewrite H2. rewrite push_digit_spec by auto.
  assert (P : 0 <= push v c) by (apply is_digit_range in H2; unfold push; lia).
  destruct (Z.ltb_spec (push v c) (2 ^ 63)) as [L|L]; cbn [bind].
  - destruct ds as [|c' ds].
    + cbn [fold_left integer_exec]. destruct (Z.ltb_spec (push v c) (2 ^ 63)); [reflexivity|lia].
    + apply IH; auto. split; [easy|auto].
  - pose proof (fold_push_ge ds (push v c) H3 P).
    destruct (Z.ltb_spec (fold_left push ds (push v c)) (2 ^ 63)); [lia|reflexivity].
Qed.

Lemma decimal_fold ds : decimal ds = fold_left push ds 0.
Proof. reflexivity. Qed.

Lemma decimal_nonneg ds : Forall (fun c => is_digit c = true) ds -> 0 <= decimal ds.
Proof. intros H. rewrite decimal_fold. apply (fold_push_ge ds 0); auto. lia. Qed.

Lemma digit_not_sign ds : digits ds -> exists c r, ds = c :: r /\ is_digit c = true /\ c <> 43 /\ c <> 45.
Proof.
  intros (N & F). destruct ds as [|c r]; [easy|]. inversion F; subst. exists c, r. conjs; auto;
  apply is_digit_range in H1; lia.
Qed.

(** parse_integer gives the value or overflows. *)
Lemma parse_integer_spec w v : int_value w v ->
  parse_integer w = if (- 2 ^ 63 <? v) && (v <? 2 ^ 63) then Ok v else UB SignedOverflow.
Proof.
  intros H. destruct H as [ds H|ds H|ds H]; unfold parse_integer; pose proof (decimal_nonneg ds (proj2 H)) as P.
  - rewrite (integer_exec_digits ds 0 false 0 H), <- decimal_fold by lia.
    replace (- 2 ^ 63 <? decimal ds) with true by (symmetry; apply Z.ltb_lt; lia). cbn [andb].
    destruct (decimal ds <? 2 ^ 63); reflexivity.
  - cbn [integer_exec]. change (is_digit 43) with false. cbn [andb Z.eqb].
    change ((0 =? 0) && (43 =? 45)) with false. change ((0 =? 0) && (43 =? 43)) with true. cbn iota.
    rewrite (integer_exec_digits ds 1 false 0 H), <- decimal_fold by lia.
    replace (- 2 ^ 63 <? decimal ds) with true by (symmetry; apply Z.ltb_lt; lia). cbn [andb].
    destruct (decimal ds <? 2 ^ 63); reflexivity.
  - cbn [integer_exec]. change (is_digit 45) with false.
    change ((0 =? 0) && (45 =? 45)) with true. cbn iota.
    rewrite (integer_exec_digits ds 1 true 0 H), <- decimal_fold by lia.
    replace (- decimal ds <? 2 ^ 63) with true by (symmetry; apply Z.ltb_lt; lia). rewrite andb_true_r.
    destruct (Z.ltb_spec (decimal ds) (2 ^ 63)) as [L|L].
    + cbn [bind]. replace (decimal ds * -1) with (- decimal ds) by lia. unfold intptr.
      replace (- 2 ^ 63 <=? - decimal ds) with true by (symmetry; apply Z.leb_le; lia).
      replace (- decimal ds <? 2 ^ 63) with true by (symmetry; apply Z.ltb_lt; lia).
      replace (- 2 ^ 63 <? - decimal ds) with true by (symmetry; apply Z.ltb_lt; lia). reflexivity.
    + replace (- 2 ^ 63 <? - decimal ds) with false by (symmetry; apply Z.ltb_ge; lia). reflexivity.
Qed.

Lemma integer_has_value w : matches RuInteger w -> exists v, int_value w v.
Proof.
  intros H. apply integer_shape in H as (sg & ds & -> & [->|[->| ->]] & D); cbn; eexists; constructor; exact D.
Qed.

Lemma int_value_unique w v v' : int_value w v -> int_value w v' -> v = v'.
Proof.
  intros H H'. destruct H as [ds H|ds H|ds H]; inversion H' as [ds' D' E|ds' D' E|ds' D' E]; subst; auto;
    repeat match goal with D : digits (_ :: _) |- _ =>
      destruct (digit_not_sign _ D) as (? & ? & EE & ? & ? & ?); injection EE as <- <-; congruence end.
Qed.

(** * Reals: the machine accepts what the scanner's pattern describes *)

Definition ok_or_overflow {A} (P : A -> Prop) (m : outcome A) : Prop :=
  match m with Ok a => P a | UB SignedOverflow => True | _ => False end.

Lemma oo_bind {A B} (P : A -> Prop) (Q : B -> Prop) (m : outcome A) (f : A -> outcome B) :
  ok_or_overflow P m -> (forall a, P a -> ok_or_overflow Q (f a)) -> ok_or_overflow Q (bind m f).
Proof. destruct m as [a| | |[]|]; cbn; intros H G; try easy. now apply G. Qed.

Lemma oo_intptr x : ok_or_overflow (fun _ => True) (intptr x).
Proof. unfold intptr. destruct (_ && _); exact I. Qed.


(** Running from a state reached: [goes st st' u] says that reading [u] from [st] ends in [st'] or
    overflows, whatever the locals. *)
Definition goes (st st' : Z) (u : list Z) : Prop :=
  forall r v Q, (forall r', ok_or_overflow Q (real_exec st' r' v)) -> ok_or_overflow Q (real_exec st r (u ++ v)).

Lemma goes_trans a b c u v : goes a b u -> goes b c v -> goes a c (u ++ v).
Proof. intros H G r w Q HQ. rewrite <- app_assoc. apply H. intros r'. apply G, HQ. Qed.

Lemma goes_digits st st' ds : Forall (fun c => is_digit c = true) ds ->
  (st' = 2 /\ (st = 0 \/ st = 1 \/ st = 2) \/ st' = 4 /\ (st = 3 \/ st = 4) \/ st' = 7 /\ (st = 5 \/ st = 6 \/ st = 7)) ->
  ds <> [] -> goes st st' ds.
Proof.
  intros F. revert st. induction F as [|c ds Hc F IH]; intros st C N; [easy|]. clear N. intros r v Q HQ.
  cbn [app real_exec]. rewrite Hc.
  assert (G : forall r', ok_or_overflow Q (real_exec st' r' (ds ++ v))).
  { intros r'. destruct ds as [|c' ds]; [apply HQ|]. apply IH; auto; [|easy]. intuition lia. }
  destruct C as [(-> & C)|[(-> & C)|(-> & C)]].
  - replace (st <=? 2) with true by (symmetry; apply Z.leb_le; lia). apply G.
  - replace (st <=? 2) with false by (symmetry; apply Z.leb_gt; lia).
    replace (st <=? 4) with true by (symmetry; apply Z.leb_le; lia). apply G.
  - replace (st <=? 2) with false by (symmetry; apply Z.leb_gt; lia).
    replace (st <=? 4) with false by (symmetry; apply Z.leb_gt; lia).
    eapply oo_bind with (P := fun _ => True).
    + unfold push_digit. eapply oo_bind; [apply oo_intptr|intros; apply oo_intptr].
    + intros ex _. apply G.
Qed.

Lemma goes_sign w st' ds : lang re_sign w -> digits ds -> goes 0 2 (w ++ ds) /\ (st' = 7 -> goes 5 7 (w ++ ds)).
Proof.
  intros S (N & F). apply lang_sign in S as [->|[->| ->]]; cbn [app].
  - split; intros; apply goes_digits; auto; lia.
  - split; intros; intros r v Q HQ; cbn [app real_exec]; change (is_digit 43) with false; cbn [andb orb Z.eqb Pos.eqb];
      [apply (goes_digits 1 2 ds F)|apply (goes_digits 6 7 ds F)]; auto; lia.
  - split; intros; intros r v Q HQ; cbn [app real_exec]; change (is_digit 45) with false; cbn [andb orb Z.eqb Pos.eqb];
      [apply (goes_digits 1 2 ds F)|apply (goes_digits 6 7 ds F)]; auto; lia.
Qed.

Lemma goes_point ds : digits ds -> goes 2 4 (46 :: ds).
Proof.
  intros (N & F) r v Q HQ. cbn [app real_exec]. change (is_digit 46) with false. cbn [andb orb Z.eqb Pos.eqb].
  apply (goes_digits 3 4 ds F); auto; lia.
Qed.
Lemma goes_e c st : c = 101 \/ c = 69 -> st = 2 \/ st = 4 -> goes st 5 [c].
Proof.
  intros [->| ->] [->| ->] r v Q HQ; cbn [app real_exec]; [change (is_digit 101) with false|change (is_digit 101) with false|change (is_digit 69) with false|change (is_digit 69) with false];
    cbn [andb orb Z.eqb Pos.eqb]; apply HQ.
Qed.

Lemma lang_pt w : lang re_real_pt w -> exists ds, w = 46 :: ds /\ digits ds.
Proof.
  unfold re_real_pt. rewrite lang_cat. intros (u & v & -> & A & B). apply lang_ch in A. apply lang_plus_chr in B.
  subst u. exists v. split; auto.
Qed.
Lemma lang_ex w : lang re_real_ex w -> exists c sg ds, w = c :: sg ++ ds /\ (c = 101 \/ c = 69) /\ lang re_sign sg /\ digits ds.
Proof.
  unfold re_real_ex. rewrite lang_cat. intros (u & v & -> & A & B). unfold one_of in A. apply lang_chr in A as (c & -> & Hc).
  apply lang_cat in B as (x & y & -> & X & Y). apply lang_plus_chr in Y.
  exists c, x, y. split; [easy|]. split; [|split; auto]. cbn in Hc.
  destruct (Z.eqb_spec c 101); auto. destruct (Z.eqb_spec c 69); auto. discriminate.
Qed.

Lemma goes_ex w st : lang re_real_ex w -> st = 2 \/ st = 4 -> goes st 7 w.
Proof.
  intros H S. apply lang_ex in H as (c & sg & ds & -> & C & SG & D).
  change (c :: sg ++ ds) with ([c] ++ (sg ++ ds)). apply goes_trans with 5.
  - now apply goes_e.
  - destruct (goes_sign sg 7 ds SG D) as (_ & G). now apply G.
Qed.

Lemma goes_real w : matches RuReal w -> goes 0 4 w \/ goes 0 7 w.
Proof.
  unfold matches, pattern, re_real. rewrite lang_cat. intros (u & v & -> & A & B).
  apply lang_cat in B as (ds & y & -> & D & Y). apply lang_plus_chr in D. rewrite app_assoc.
  pose proof (proj1 (goes_sign u 0 ds A D)) as G.
  rewrite lang_alt, lang_alt in Y. destruct Y as [Y|[Y|Y]].
  - left. apply lang_pt in Y as (f & -> & F). eapply goes_trans; eauto. now apply goes_point.
  - right. eapply goes_trans; eauto. apply goes_ex; auto.
  - right. apply lang_cat in Y as (p & e & -> & P & E). apply lang_pt in P as (f & -> & F).
    eapply goes_trans; eauto. eapply goes_trans; [now apply goes_point|]. apply goes_ex; auto.
Qed.

Lemma parse_real_ok pow10 w : matches RuReal w -> ok_or_overflow (fun _ => True) (parse_real pow10 w).
Proof.
  intros H. unfold parse_real.
  apply oo_bind with (P := fun x => fst x = 4 \/ fst x = 7).
  - destruct (goes_real w H) as [G|G]; specialize (G (mkRS false (f64_of_Z 0) (f64_of_Z 1) 0 false) []);
      rewrite app_nil_r in G; apply G; intros r'; cbn [real_exec ok_or_overflow fst]; auto.
  - intros [st r] Hst. cbn [fst] in Hst.
    eapply oo_bind with (P := fun _ => True).
    + destruct (rs_ex_neg r); [apply oo_intptr|exact I].
    + intros ex _. destruct Hst as [->| ->]; exact I.
Qed.

(** * Actions *)

Lemma action_spec pow10 r w : matches r w ->
  match action pow10 r w with
  | Ok (Some d) => stands_for pow10 r w d /\ ~ is_gap r
  | Ok None => is_gap r
  | UB SignedOverflow => r = RuInteger \/ r = RuReal
  | _ => False
  end.
Proof.
  intros H. destruct r; cbn [action stands_for];
    try (split; [reflexivity|intros [X|X]; discriminate]); try (left; reflexivity); try (right; reflexivity).
  - pose proof (parse_real_ok pow10 w H) as P. destruct (parse_real pow10 w) as [x| | |[]|]; cbn in *; try easy; auto.
    split; [eauto|intros [X|X]; discriminate].
  - destruct (integer_has_value w H) as (v & V). rewrite (parse_integer_spec w v V).
    destruct ((- 2 ^ 63 <? v) && (v <? 2 ^ 63)) eqn:E; cbn [bind]; auto.
    apply andb_prop in E as [E1 E2]. apply Z.ltb_lt in E1, E2.
    split; [exists v; auto|intros [X|X]; discriminate].
Qed.

Lemma action_stands_for pow10 r w d : stands_for pow10 r w d -> action pow10 r w = Ok (Some d).
Proof.
  destruct r; cbn [stands_for action]; intros H; try (subst d; reflexivity); try easy.
  - destruct H as (x & E & ->). now rewrite E.
  - destruct H as (v & V & B & ->). rewrite (parse_integer_spec w v V).
    destruct (Z.ltb_spec (- 2 ^ 63) v); [|lia]. destruct (Z.ltb_spec v (2 ^ 63)); [|lia]. reflexivity.
Qed.
Lemma action_gap pow10 r w : is_gap r -> action pow10 r w = Ok None.
Proof. intros [->| ->]; reflexivity. Qed.

Lemma stands_for_not_end pow10 r w : ~ stands_for pow10 r w TkEnd.
Proof.
  destruct r; cbn; intros H; try discriminate; try easy.
  - destruct H as (x & _ & H). discriminate.
  - destruct H as (v & _ & _ & H). discriminate.
Qed.
