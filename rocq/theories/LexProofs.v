From Coq Require Import ZArith List Bool Lia.
From Verif Require Import Outcome TablesModel LexModel LexSpec.
Import ListNotations.
Local Open Scope Z_scope.

(** * Derivatives describe what may follow *)

Lemma nullable_lang r : nullable r = true <-> lang r [].
Proof.
  induction r; cbn [nullable]; split; intros H; try discriminate; try (now constructor); try (now inversion H).
  - apply andb_prop in H as [A B]. apply (l_cat r1 r2 [] []); tauto.
  - inversion H as [| |a b u v A B E1 E2| | | |]; subst. apply app_eq_nil in E2 as [-> ->]. apply andb_true_intro. tauto.
  - apply orb_prop in H as [A|A]; [apply l_alt_l|apply l_alt_r]; tauto.
  - inversion H; subst; apply orb_true_intro; tauto.
Qed.

Lemma cat_lang a b w : lang (cat a b) w <-> exists u v, w = u ++ v /\ lang a u /\ lang b v.
Proof.
  assert (G : lang (RCat a b) w <-> exists u v, w = u ++ v /\ lang a u /\ lang b v).
  { split.
    - intros H. inversion H; subst. eauto.
    - intros (u & v & -> & A & B). now constructor. }
  assert (N : forall u, ~ lang RNone u) by (intros u H; inversion H).
  destruct a, b; cbn [cat]; try exact G; split; intros H;
    try (now exfalso; eapply N; eauto);
    try (destruct H as (u & v & -> & A & B); try (now exfalso; eapply N; eauto); inversion A; subst; exact B);
    exists [], w; split; auto; split; auto; constructor.
Qed.

Lemma alt_lang a b w : lang (alt a b) w <-> lang a w \/ lang b w.
Proof.
  assert (G : lang (RAlt a b) w <-> lang a w \/ lang b w).
  { split; [intros H; inversion H; auto|intros [H|H]; [now apply l_alt_l|now apply l_alt_r]]. }
  assert (N : forall u, ~ lang RNone u) by (intros u H; inversion H).
  destruct a, b; cbn [alt]; try exact G; split; intros H; auto; destruct H as [H|H]; auto; exfalso; eapply N; eauto.
Qed.

Lemma star_cons a c w : lang (RStar a) (c :: w) -> exists u v, w = u ++ v /\ lang a (c :: u) /\ lang (RStar a) v.
Proof.
  intros H0. cut (forall r s, lang r s -> r = RStar a -> forall c w, s = c :: w ->
    exists u v, w = u ++ v /\ lang a (c :: u) /\ lang (RStar a) v).
  { intros G. eapply G; eauto. }
  clear. intros r s H. induction H as [| | | | | |a0 u v A _ B IH]; intros Er c9 w9 Es; try discriminate.
  injection Er as ->. destruct u as [|c' u]; cbn in Es.
  - now apply IH.
  - injection Es as -> <-. eauto.
Qed.

Lemma deriv_lang c r : forall w, lang (deriv c r) w <-> lang r (c :: w).
Proof.
  induction r as [| |f|a IHa b IHb|a IHa b IHb|a IHa]; intros w; cbn [deriv].
  - split; intros H; inversion H.
  - split; intros H; inversion H.
  - destruct (f c) eqn:E; split; intros H; inversion H; subst; try congruence; now constructor.
  - assert (G : (exists u v, w = u ++ v /\ lang (deriv c a) u /\ lang b v) <->
                (exists u v, c :: w = u ++ v /\ u <> [] /\ lang a u /\ lang b v)).
    { split; intros (u & v & E & H).
      - exists (c :: u), v. rewrite IHa in H. subst w. split; [easy|]. split; [easy|]. tauto.
      - destruct u as [|c' u]; [tauto|]. injection E as <- E. exists u, v. rewrite IHa. tauto. }
    assert (C : lang (RCat a b) (c :: w) <-> exists u v, c :: w = u ++ v /\ lang a u /\ lang b v).
    { split; [intros H; inversion H; subst; eauto|intros (u & v & E & A & B)]. rewrite E. now constructor. }
    rewrite C. destruct (nullable a) eqn:Na.
    + rewrite alt_lang, cat_lang, G, IHb. split.
      * intros [(u & v & E & _ & A & B)|H]; [eauto|]. exists [], (c :: w). apply nullable_lang in Na. auto.
      * intros (u & v & E & A & B). destruct u as [|c' u]; [right; now cbn in E; subst v|].
        left. exists (c' :: u), v. split; [easy|]. split; [easy|]. auto.
    + rewrite cat_lang, G. split.
      * intros (u & v & E & _ & A & B). eauto.
      * intros (u & v & E & A & B). exists u, v. destruct u as [|c' u]; [|split; [easy|]; split; [easy|auto]].
        apply nullable_lang in A. congruence.
  - rewrite alt_lang, IHa, IHb. split; [intros [H|H]; [now apply l_alt_l|now apply l_alt_r]|intros H; inversion H; auto].
  - rewrite cat_lang. split.
    + intros (u & v & -> & A & B). apply IHa in A. exact (l_star_cons a (c :: u) v A B).
    + intros H. apply star_cons in H as (u & v & -> & A & B). exists u, v. rewrite IHa. auto.
Qed.

(** * The scanner finds the longest match *)

(** The state after reading [u]: a sublist of the rules, in order, with what is left of each; the
    rules no longer in it match no continuation of [u]. *)
Fixpoint state_ok (u : list Z) (rs : list rule) (s : scan_state) : Prop :=
  match rs with
  | [] => s = []
  | r :: rs =>
      (exists re s', s = (r, re) :: s' /\ (forall w, lang re w <-> matches r (u ++ w)) /\ state_ok u rs s')
      \/ ((forall w, ~ matches r (u ++ w)) /\ state_ok u rs s)
  end.

Lemma start_ok : state_ok [] rules start_state.
Proof.
  unfold start_state. induction rules as [|r rs IH]; cbn [map state_ok]; auto.
  left. exists (pattern r), (map (fun r0 => (r0, pattern r0)) rs). split; [easy|]. split; [easy|exact IH].
Qed.

Lemma dead_lang r w : dead r = true -> ~ lang r w.
Proof. destruct r; try discriminate. intros _ H. inversion H. Qed.

Lemma advance_ok c u rs : forall s, state_ok u rs s -> state_ok (u ++ [c]) rs (advance c s).
Proof.
  induction rs as [|r rs IH]; intros s H; cbn [state_ok] in *.
  - subst s. reflexivity.
  - destruct H as [(re & s' & -> & L & H)|(N & H)].
    + cbn [advance map filter fst snd]. destruct (dead (deriv c re)) eqn:D; cbn [negb].
      * right. split; [|apply IH, H]. intros w M. rewrite <- app_assoc in M. cbn [app] in M.
        apply L in M. apply deriv_lang in M. now apply (dead_lang _ w D).
      * left. exists (deriv c re), (advance c s'). split; [reflexivity|]. split; [|apply IH, H].
        intros w. rewrite <- app_assoc. cbn [app]. rewrite deriv_lang. apply L.
    + right. split; [|apply IH, H]. intros w M. rewrite <- app_assoc in M. now apply N in M.
Qed.

(** The accepted rule is the first of [rs] that matches [u]. *)
Lemma accepts_ok u rs : forall s, state_ok u rs s ->
  match accepts s with
  | Some r => exists l1 l2, rs = l1 ++ r :: l2 /\ matches r u /\ forall r', In r' l1 -> ~ matches r' u
  | None => forall r, In r rs -> ~ matches r u
  end.
Proof.
  induction rs as [|r rs IH]; intros s H; cbn [state_ok] in *.
  - subst s. cbn. easy.
  - destruct H as [(re & s' & -> & L & H)|(N & H)].
    + unfold accepts. cbn [find snd]. destruct (nullable re) eqn:E; cbn [option_map fst].
      * exists [], rs. split; [easy|]. split; [|easy].
        apply nullable_lang in E. apply L in E. now rewrite app_nil_r in E.
      * specialize (IH _ H). unfold accepts in IH.
        assert (M : ~ matches r u).
        { intros M. rewrite <- (app_nil_r u) in M. apply L in M. apply nullable_lang in M. congruence. }
        destruct (option_map fst (find (fun x => nullable (snd x)) s')) as [r0|].
        -- destruct IH as (l1 & l2 & -> & A & B). exists (r :: l1), l2. split; [easy|]. split; [easy|].
           intros r' [<-|I]; auto.
        -- intros r' [<-|I]; auto.
    + assert (M : ~ matches r u). { intros M. rewrite <- (app_nil_r u) in M. now apply N in M. }
      specialize (IH _ H). destruct (accepts s) as [r0|].
      * destruct IH as (l1 & l2 & -> & A & B). exists (r :: l1), l2. split; [easy|]. split; [easy|].
        intros r' [<-|I]; auto.
      * intros r' [<-|I]; auto.
Qed.

Lemma empty_state_ok u rs : state_ok u rs [] -> forall r w, In r rs -> ~ matches r (u ++ w).
Proof.
  induction rs as [|r rs IH]; intros H r' w I; [easy|]. cbn [state_ok] in H.
  destruct H as [(re & s' & E & _)|(N & H)]; [discriminate|]. destruct I as [<-|I]; [apply N|now apply IH].
Qed.

Lemma rules_all r : In r rules.
Proof. destruct r; cbn; tauto. Qed.

Lemma rules_nodup : NoDup rules.
Proof.
  unfold rules. repeat (apply NoDup_cons; [cbn; intros H; decompose [or] H; try discriminate; try easy|]).
  apply NoDup_nil.
Qed.

Lemma before_in r' r l1 l2 : rules = l1 ++ r :: l2 -> before r' r -> In r' l1.
Proof.
  intros E (a & b & d & E'). pose proof rules_nodup as N. rewrite E in E', N.
  replace (a ++ r' :: b ++ r :: d) with ((a ++ r' :: b) ++ r :: d) in E' by (now rewrite <- app_assoc).
  assert (l1 = a ++ r' :: b) as ->; [|apply in_or_app; right; now left].
  clear E. revert E' N. generalize (a ++ r' :: b) as k. clear. revert l2 d.
  induction l1 as [|x l1 IH]; intros l2 d k E N; destruct k as [|y k]; cbn in *; auto.
  - injection E as <- E. rewrite E in N. exfalso. inversion N as [|? ? I _]; subst. apply I, in_or_app. right. now left.
  - injection E as -> E. exfalso. inversion N as [|? ? I _]; subst. apply I, in_or_app. right. now left.
  - injection E as -> E. f_equal. inversion N; subst. eapply IH; eauto.
Qed.

(** The best match among the prefixes of [u]. *)
Definition best (u : list Z) (last : option (rule * nat)) : Prop :=
  match last with
  | Some (r, m) =>
      (0 < m <= length u)%nat /\ matches r (firstn m u) /\
      (forall r', before r' r -> ~ matches r' (firstn m u)) /\
      (forall k r', (m < k <= length u)%nat -> ~ matches r' (firstn k u))
  | None => forall k r', (0 < k <= length u)%nat -> ~ matches r' (firstn k u)
  end.

Lemma best_mono u v last :
  best u last ->
  (forall k r', (length u < k <= length (u ++ v))%nat -> ~ matches r' (firstn k (u ++ v))) ->
  best (u ++ v) last.
Proof.
  intros H N.
  assert (F : forall k, (k <= length u)%nat -> firstn k (u ++ v) = firstn k u).
  { intros k Hk. rewrite firstn_app. replace (k - length u)%nat with O by lia. cbn. apply app_nil_r. }
  destruct last as [[r m]|]; cbn [best] in *.
  - destruct H as (B & M & F1 & F2). rewrite app_length in *. rewrite F by lia.
    split; [lia|]. split; [easy|]. split; [easy|]. intros k r' Hk.
    destruct (Nat.le_gt_cases k (length u)) as [L|L]; [rewrite F by lia; apply F2; lia|apply N; lia].
  - intros k r' Hk. destruct (Nat.le_gt_cases k (length u)) as [L|L]; [rewrite F by lia; apply H; lia|apply N; lia].
Qed.

Lemma scan_spec rest : forall s u last li pos n' last' li',
  state_ok u rules s -> best u last ->
  scan s (length u) last li pos rest = (n', last', li') ->
  best (u ++ rest) last' /\ (length u <= n' <= length (u ++ rest))%nat /\
  (n' < length (u ++ rest) -> forall r w, ~ matches r (firstn (S n') (u ++ rest) ++ w))%nat.
Proof.
  induction rest as [|c rest IH]; intros s u last li pos n' last' li' S0 B E; cbn [scan] in E.
  - injection E as <- <- <-. rewrite app_nil_r. split; [easy|]. split; lia.
  - pose proof (advance_ok c u rules s S0) as S1. destruct (advance c s) as [|x s'] eqn:Ea.
    + injection E as <- <- <-.
      assert (N : forall r w, ~ matches r ((u ++ [c]) ++ w)) by (intros; apply (empty_state_ok _ rules S1), rules_all).
      split; [|split].
      * apply best_mono; auto. intros k r' Hk. rewrite app_length in Hk. cbn [length] in Hk.
        replace (u ++ c :: rest) with ((u ++ [c]) ++ rest) by (now rewrite <- app_assoc).
        rewrite firstn_app, firstn_all2 by (rewrite app_length; cbn; lia). apply N.
      * rewrite app_length. cbn. lia.
      * intros _ r w. replace (u ++ c :: rest) with ((u ++ [c]) ++ rest) by (now rewrite <- app_assoc).
        rewrite firstn_app, firstn_all2 by (rewrite app_length; cbn; lia).
        rewrite app_length. cbn [length]. replace (S (length u) - (length u + 1))%nat with O by lia.
        cbn [firstn]. rewrite app_nil_r. apply N.
    + rewrite <- Ea in *. clear x s' Ea.
      replace (S (length u)) with (length (u ++ [c])) in E by (rewrite app_length; cbn; lia).
      assert (B1 : best (u ++ [c]) (match accepts (advance c s) with Some r => Some (r, length (u ++ [c])) | None => last end)).
      { pose proof (accepts_ok _ _ _ S1) as A. destruct (accepts (advance c s)) as [r|].
        - destruct A as (l1 & l2 & E0 & M & F). cbn [best]. rewrite firstn_all.
          split; [rewrite app_length; cbn; lia|]. split; [easy|]. split; [|intros; lia].
          intros r' Hb. apply F. eapply before_in; eauto.
        - apply best_mono; auto. intros k r' Hk. rewrite app_length in Hk. cbn [length] in Hk.
          rewrite firstn_all2 by (rewrite app_length; cbn; lia). apply A, rules_all. }
      eapply IH in E; eauto. rewrite <- app_assoc in E. cbn [app] in E. destruct E as (E1 & E2 & E3).
      split; [easy|]. split; [|easy]. rewrite app_length in E2 at 1. lia.
Qed.

Lemma firstn_prefix (text w rest : list Z) : text = w ++ rest -> firstn (length w) text = w.
Proof. intros ->. rewrite firstn_app, firstn_all, Nat.sub_diag. cbn. apply app_nil_r. Qed.

Lemma scan_longest li pos text n last li' :
  scan start_state 0 None li pos text = (n, last, li') ->
  match last with
  | Some (r, m) => (0 < m <= length text)%nat /\ longest text (firstn m text) r
  | None => no_match text
  end.
Proof.
  intros E. change O with (length (@nil Z)) in E. eapply scan_spec in E; [|apply start_ok|cbn; lia].
  cbn [app] in E. destruct E as (B & _). destruct last as [[r m]|]; cbn [best] in B.
  - destruct B as (Bm & M & F1 & F2). split; [easy|]. split; [|split; [|split; [|split]]]; auto.
    + intros H. apply (f_equal (@length Z)) in H. rewrite firstn_length in H. cbn in H. lia.
    + exists (skipn m text). now rewrite firstn_skipn.
    + intros w' rest r' E' L. rewrite <- (firstn_prefix _ _ _ E'). apply F2.
      rewrite firstn_length in L. subst text. rewrite app_length in *. lia.
  - intros w rest r' E' Nw. rewrite <- (firstn_prefix _ _ _ E'). apply B. destruct w; [easy|].
    subst text. rewrite app_length. cbn. lia.
Qed.

(** Longest matches are unique. *)
Lemma longest_unique text w r w' r' : longest text w r -> longest text w' r' -> w = w' /\ r = r'.
Proof.
  intros (N & (x & E) & M & F & L) (N' & (x' & E') & M' & F' & L').
  assert (w = w') as ->.
  { destruct (Nat.lt_trichotomy (length w) (length w')) as [H|[H|H]].
    - exfalso. now apply (L w' x' r').
    - rewrite <- (firstn_prefix _ _ _ E), <- (firstn_prefix _ _ _ E'). now rewrite H.
    - exfalso. now apply (L' w x r). }
  split; auto.
  assert (T : forall rs, NoDup rs -> In r rs -> In r' rs ->
     r = r' \/ (exists a b d, rs = a ++ r :: b ++ r' :: d) \/ (exists a b d, rs = a ++ r' :: b ++ r :: d)).
  { clear. induction rs as [|z rs IH]; intros N I I'; [easy|]. destruct I as [<-|I], I' as [<-|I'].
    - auto.
    - right. left. apply in_split in I' as (b & d & ->). now exists [], b, d.
    - right. right. apply in_split in I as (b & d & ->). now exists [], b, d.
    - inversion N; subst. destruct (IH H2 I I') as [E|[(a & b & d & ->)|(a & b & d & ->)]]; auto;
        right; [left|right]; now exists (z :: a), b, d. }
  destruct (T rules rules_nodup (rules_all r) (rules_all r')) as [E1|[H|H]]; auto; exfalso.
  - now apply (F' r H).
  - now apply (F r' H).
Qed.
