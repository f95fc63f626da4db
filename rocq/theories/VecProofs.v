From Coq Require Import List Arith Bool Lia Permutation.
From Verif Require Import Outcome VecModel VecSpec.
Import ListNotations.
Local Open Scope nat_scope.

(** * Lists *)
Lemma nth_error_set {A} (l : list A) i j x : i < length l ->
  nth_error (set_nth l i x) j = if j =? i then Some x else nth_error l j.
Proof.
  revert i j. induction l as [|y l IH]; intros [|i] [|j] H; cbn in *; try lia; auto. apply IH. lia.
Qed.
Lemma set_nth_length {A} (l : list A) i x : length (set_nth l i x) = length l.
Proof. revert i; induction l; intros [|i]; cbn; auto. Qed.

Section P.
Context {T : Type} (d : T).
Notation heap := (@heap T).
Notation cell := (@cell T).
Notation body := (@body T).
Implicit Types (h : heap) (c : cell).

Definition live h a c := nth_error h a = Some (Some c).

Lemma live_fun h a c c' : live h a c -> live h a c' -> c = c'.
Proof. unfold live. congruence. Qed.
Lemma live_lt h a c : live h a c -> a < length h.
Proof. intros H. apply nth_error_Some. unfold live in H. congruence. Qed.
Lemma load_live h a c : live h a c -> load h a = Ok c.
Proof. unfold live, load. now intros ->. Qed.

Lemma put_length h a o : length (put h a o) = length h.
Proof. revert a; induction h as [|y h IH]; intros [|a]; cbn; auto. Qed.
Lemma nth_put h a b o : a < length h -> nth_error (put h a o) b = if b =? a then Some o else nth_error h b.
Proof.
  revert a b. induction h as [|y h IH]; intros [|a] [|b] H; cbn in *; try lia; auto. apply IH. lia.
Qed.
Lemma live_put_same h a c c' : live h a c -> live (put h a (Some c')) a c'.
Proof. intros H. unfold live. rewrite nth_put by (eapply live_lt; eauto). now rewrite Nat.eqb_refl. Qed.
Lemma live_put_other h a o b c : a < length h -> b <> a -> live (put h a o) b c <-> live h b c.
Proof. intros H N. unfold live. rewrite nth_put by auto. destruct (Nat.eqb_spec b a); [contradiction|tauto]. Qed.

(** * Counting references *)
Definition cnt := count_occ Nat.eq_dec.
Definition okids (cs : list (option nat)) : list nat := flat_map (fun o => match o with Some a => [a] | None => [] end) cs.
Definition kids (b : body) : list nat := match b with Leaf _ => [] | Branch cs => okids cs end.
Definition contrib (o : option cell) (a : nat) : nat :=
  match o with Some c => if rc c =? 0 then 0 else cnt (kids (bd c)) a | None => 0 end.
Definition refs h (a : nat) : nat := list_sum (map (fun o => contrib o a) h).

Lemma refs_cons o h b : refs (o :: h) b = contrib o b + refs h b.
Proof. reflexivity. Qed.
Lemma refs_put h a o o' b : nth_error h a = Some o -> refs (put h a o') b + contrib o b = refs h b + contrib o' b.
Proof.
  revert a. induction h as [|y h IH]; intros [|a] H; try discriminate; cbn [put nth_error] in *; rewrite ?refs_cons.
  - injection H as ->. lia.
  - specialize (IH a H). lia.
Qed.
Lemma contrib_le h a o b : nth_error h a = Some o -> contrib o b <= refs h b.
Proof.
  revert a. induction h as [|y h IH]; intros [|a] H; try discriminate; cbn [put nth_error] in *; rewrite ?refs_cons.
  - injection H as ->. lia.
  - specialize (IH a H). lia.
Qed.
Lemma refs_app h o a : refs (h ++ [o]) a = refs h a + contrib o a.
Proof. unfold refs. rewrite map_app, list_sum_app. cbn. lia. Qed.
Lemma refs_pos h a : 0 < refs h a -> exists b c, live h b c /\ 0 < rc c /\ In a (kids (bd c)).
Proof.
  induction h as [|y h IH]; [cbn; lia|]. rewrite refs_cons. intros H.
  destruct (Nat.eq_dec (contrib y a) 0) as [E|E].
  - destruct IH as (b & c & L & Hc); [lia|]. exists (S b), c. auto.
  - destruct y as [c|]; [|now cbn in E]. exists 0, c. split; [reflexivity|]. cbn in E.
    destruct (Nat.eqb_spec (rc c) 0) as [Z|Z]; [lia|]. split; [lia|]. apply (count_occ_In Nat.eq_dec). unfold cnt in E. lia.
Qed.
Lemma kid_refs h b c a : live h b c -> 0 < rc c -> In a (kids (bd c)) -> 0 < refs h a.
Proof.
  intros L P I. apply (Nat.lt_le_trans _ (contrib (Some c) a)); [|eapply contrib_le; eauto].
  cbn. destruct (Nat.eqb_spec (rc c) 0); [lia|]. now apply (count_occ_In Nat.eq_dec).
Qed.
Lemma cnt_app l l' a : cnt (l ++ l') a = cnt l a + cnt l' a.
Proof. apply count_occ_app. Qed.
Lemma cnt_perm l l' a : Permutation l l' -> cnt l a = cnt l' a.
Proof. intros H. unfold cnt. now apply Permutation_count_occ. Qed.
Lemma cnt_in l a : In a l <-> 0 < cnt l a.
Proof. unfold cnt. split; intros; now apply (count_occ_In Nat.eq_dec). Qed.
Lemma cnt_cons l a b : cnt (a :: l) b = (if Nat.eq_dec a b then 1 else 0) + cnt l b.
Proof. unfold cnt. cbn. destruct (Nat.eq_dec a b); lia. Qed.

(** * The invariant: counts are exact, references are to live nodes, nodes have their level's shape *)
Definition shape (lv : nat -> nat) (b : body) (n : nat) : Prop :=
  match b, n with
  | Leaf vs, O => length vs = 4
  | Branch cs, S n => length cs = 4 /\ Forall (fun a => lv a = n) (okids cs)
  | _, _ => False
  end.
Record Inv (lv : nat -> nat) h (R : list nat) : Prop := mkInv {
  inv_rc : forall a c, live h a c -> rc c = cnt R a + refs h a;
  inv_live : forall a, 0 < cnt R a + refs h a -> exists c, live h a c;
  inv_shape : forall a c, live h a c -> shape lv (bd c) (lv a);
  inv_bound : forall a c, live h a c -> Forall (fun k => k < length h) (kids (bd c)) }.

Lemma inv_perm lv h R R' : Permutation R R' -> Inv lv h R -> Inv lv h R'.
Proof.
  intros P [I1 I2 I3 I4]. split; auto; intros a; rewrite <- (cnt_perm _ _ a P); auto.
Qed.
Lemma inv_pos lv h R a c : Inv lv h R -> live h a c -> In a R -> 0 < rc c.
Proof. intros I L H. rewrite (inv_rc _ _ _ I _ _ L). apply cnt_in in H. lia. Qed.
Lemma inv_root lv h R a : Inv lv h R -> In a R -> exists c, live h a c /\ 0 < rc c.
Proof.
  intros I H. destruct (inv_live _ _ _ I a) as (c & L); [apply cnt_in in H; lia|]. exists c. split; auto. eapply inv_pos; eauto.
Qed.
Lemma inv_kid lv h R b cb a : Inv lv h R -> live h b cb -> 0 < rc cb -> In a (kids (bd cb)) -> exists c, live h a c /\ 0 < rc c.
Proof.
  intros I L P K. pose proof (kid_refs _ _ _ _ L P K) as Q.
  destruct (inv_live _ _ _ I a) as (c & La); [lia|]. exists c. split; auto. rewrite (inv_rc _ _ _ I _ _ La). lia.
Qed.

(** Changing the count of a live, counted node *)
Lemma inv_recount lv h R R' a c n :
  Inv lv h R -> live h a c -> 0 < rc c -> 0 < n ->
  (forall b, cnt R' b + (if Nat.eq_dec a b then rc c else 0) = cnt R b + (if Nat.eq_dec a b then n else 0)) ->
  Inv lv (put h a (Some (mkCell n (bd c)))) R'.
Proof.
  intros I L P N E.
  assert (Er : forall b, refs (put h a (Some (mkCell n (bd c)))) b = refs h b).
  { intros b. pose proof (refs_put h a (Some c) (Some (mkCell n (bd c))) b L) as H. cbn in H.
    destruct (Nat.eqb_spec (rc c) 0); [lia|]. destruct (Nat.eqb_spec n 0); [lia|]. lia. }
  assert (Hl : a < length h) by (eapply live_lt; eauto).
  split.
  - intros b cb Lb. rewrite Er. specialize (E b). destruct (Nat.eq_dec a b) as [->|Nb].
    + pose proof (live_fun _ _ _ _ Lb (live_put_same _ _ _ (mkCell n (bd c)) L)) as ->. cbn.
      pose proof (inv_rc _ _ _ I _ _ L). lia.
    + apply live_put_other in Lb; auto. pose proof (inv_rc _ _ _ I _ _ Lb). lia.
  - intros b H. rewrite Er in H. specialize (E b). destruct (Nat.eq_dec a b) as [->|Nb].
    + eexists. eapply live_put_same; eauto.
    + destruct (inv_live _ _ _ I b) as (cb & Lb); [lia|]. exists cb. apply live_put_other; auto.
  - intros b cb Lb. destruct (Nat.eq_dec a b) as [->|Nb].
    + pose proof (live_fun _ _ _ _ Lb (live_put_same _ _ _ (mkCell n (bd c)) L)) as ->. exact (inv_shape _ _ _ I _ _ L).
    + apply live_put_other in Lb; auto. eapply inv_shape; eauto.
  - intros b cb Lb. rewrite put_length. destruct (Nat.eq_dec a b) as [->|Nb].
    + pose proof (live_fun _ _ _ _ Lb (live_put_same _ _ _ (mkCell n (bd c)) L)) as ->. exact (inv_bound _ _ _ I _ _ L).
    + apply live_put_other in Lb; auto. eapply inv_bound; eauto.
Qed.

(** Everything live in [h'] was live in [h] with the same contents; uncounted nodes are untouched. *)
Definition keeps h h' : Prop :=
  length h' = length h /\
  (forall a c', live h' a c' -> exists c, live h a c /\ bd c' = bd c /\ (0 < rc c' -> 0 < rc c)) /\
  (forall a c, live h a c -> rc c = 0 -> live h' a c).
(** Everything live in [h] stays live in [h'] with the same contents *)
Definition extends h h' : Prop :=
  length h <= length h' /\
  (forall a c, live h a c -> exists c', live h' a c' /\ bd c' = bd c /\ (0 < rc c -> 0 < rc c') /\ (rc c = 0 -> rc c' = 0)).

Lemma keeps_refl h : keeps h h.
Proof. split; [auto|split]; eauto. Qed.
Lemma keeps_trans h1 h2 h3 : keeps h1 h2 -> keeps h2 h3 -> keeps h1 h3.
Proof.
  intros (L1 & K1 & Z1) (L2 & K2 & Z2). split; [lia|split].
  - intros a c L. destruct (K2 _ _ L) as (c2 & Lc2 & E2 & P2). destruct (K1 _ _ Lc2) as (c1 & Lc1 & E1 & P1).
    exists c1. split; [auto|split; [congruence|auto]].
  - intros a c L Z. apply Z2; auto.
Qed.
Lemma extends_refl h : extends h h.
Proof. split; [auto|]. intros a c L. exists c. auto. Qed.
Lemma extends_trans h1 h2 h3 : extends h1 h2 -> extends h2 h3 -> extends h1 h3.
Proof.
  intros (L1 & K1) (L2 & K2). split; [lia|].
  intros a c L. destruct (K1 _ _ L) as (c2 & Lc2 & E2 & P2 & Q2). destruct (K2 _ _ Lc2) as (c1 & Lc1 & E1 & P1 & Q1).
  exists c1. split; [auto|split; [congruence|auto]].
Qed.

(** Giving up one reference: the count stays positive *)
Lemma inv_drop lv h R a c : Inv lv h (a :: R) -> live h a c -> 1 < rc c ->
  Inv lv (put h a (Some (mkCell (rc c - 1) (bd c)))) R.
Proof.
  intros I L P. eapply inv_recount; eauto; try lia.
  intros b. rewrite cnt_cons. destruct (Nat.eq_dec a b); lia.
Qed.
(** The last reference goes: the node's own references become loose *)
Lemma inv_last lv h R a c : Inv lv h (a :: R) -> live h a c -> rc c = 1 ->
  Inv lv (put h a (Some (mkCell 0 (bd c)))) (kids (bd c) ++ R).
Proof.
  intros I L P.
  assert (Er : forall b, refs (put h a (Some (mkCell 0 (bd c)))) b + cnt (kids (bd c)) b = refs h b).
  { intros b. pose proof (refs_put h a (Some c) (Some (mkCell 0 (bd c))) b L) as H. cbn in H.
    destruct (Nat.eqb_spec (rc c) 0); lia. }
  assert (Hl : a < length h) by (eapply live_lt; eauto).
  assert (Ha : cnt R a = 0 /\ refs h a = 0).
  { pose proof (inv_rc _ _ _ I _ _ L) as H. rewrite cnt_cons in H. destruct (Nat.eq_dec a a); lia. }
  split.
  - intros b cb Lb. rewrite cnt_app. specialize (Er b). destruct (Nat.eq_dec a b) as [->|Nb].
    + pose proof (live_fun _ _ _ _ Lb (live_put_same _ _ _ (mkCell 0 (bd c)) L)) as ->. cbn. lia.
    + apply live_put_other in Lb; auto. pose proof (inv_rc _ _ _ I _ _ Lb) as H. rewrite cnt_cons in H.
      destruct (Nat.eq_dec a b); [contradiction|lia].
  - intros b H. rewrite cnt_app in H. specialize (Er b). destruct (Nat.eq_dec a b) as [->|Nb].
    + eexists. eapply live_put_same; eauto.
    + destruct (inv_live _ _ _ I b) as (cb & Lb); [rewrite cnt_cons; destruct (Nat.eq_dec a b); lia|]. exists cb. apply live_put_other; auto.
  - intros b cb Lb. destruct (Nat.eq_dec a b) as [->|Nb].
    + pose proof (live_fun _ _ _ _ Lb (live_put_same _ _ _ (mkCell 0 (bd c)) L)) as ->. exact (inv_shape _ _ _ I _ _ L).
    + apply live_put_other in Lb; auto. eapply inv_shape; eauto.
  - intros b cb Lb. rewrite put_length. destruct (Nat.eq_dec a b) as [->|Nb].
    + pose proof (live_fun _ _ _ _ Lb (live_put_same _ _ _ (mkCell 0 (bd c)) L)) as ->. exact (inv_bound _ _ _ I _ _ L).
    + apply live_put_other in Lb; auto. eapply inv_bound; eauto.
Qed.
(** An uncounted node goes *)
Lemma inv_delete lv h R a c : Inv lv h R -> live h a c -> rc c = 0 -> Inv lv (put h a None) R.
Proof.
  intros I L P.
  assert (Er : forall b, refs (put h a None) b = refs h b).
  { intros b. pose proof (refs_put h a (Some c) None b L) as H. cbn in H. rewrite P in H. cbn in H. lia. }
  assert (Hl : a < length h) by (eapply live_lt; eauto).
  assert (Lb : forall b cb, live (put h a None) b cb -> live h b cb).
  { intros b cb H. destruct (Nat.eq_dec b a) as [->|N]; [|apply live_put_other in H; auto].
    unfold live in H. rewrite nth_put, Nat.eqb_refl in H by auto. discriminate. }
  split.
  - intros b cb H. rewrite Er. now apply (inv_rc _ _ _ I), Lb.
  - intros b H. rewrite Er in H. destruct (inv_live _ _ _ I b H) as (cb & Lc). exists cb. apply live_put_other; auto.
    intros ->. pose proof (inv_rc _ _ _ I _ _ L). lia.
  - intros b cb H. eapply inv_shape; eauto.
  - intros b cb H. rewrite put_length. eapply inv_bound; eauto.
Qed.
(** A node becomes counted: its references are its own again *)
Lemma inv_adopt lv h R a c : Inv lv h (kids (bd c) ++ R) -> live h a c -> rc c = 0 ->
  Inv lv (put h a (Some (mkCell 1 (bd c)))) (a :: R).
Proof.
  intros I L P.
  assert (Er : forall b, refs (put h a (Some (mkCell 1 (bd c)))) b = refs h b + cnt (kids (bd c)) b).
  { intros b. pose proof (refs_put h a (Some c) (Some (mkCell 1 (bd c))) b L) as H. cbn in H. rewrite P in H. cbn in H. lia. }
  assert (Hl : a < length h) by (eapply live_lt; eauto).
  split.
  - intros b cb Lb. rewrite Er, cnt_cons. destruct (Nat.eq_dec a b) as [->|Nb].
    + pose proof (live_fun _ _ _ _ Lb (live_put_same _ _ _ (mkCell 1 (bd c)) L)) as ->. cbn.
      pose proof (inv_rc _ _ _ I _ _ L) as H. rewrite cnt_app in H. lia.
    + apply live_put_other in Lb; auto. pose proof (inv_rc _ _ _ I _ _ Lb) as H. rewrite cnt_app in H. lia.
  - intros b H. rewrite Er, cnt_cons in H. destruct (Nat.eq_dec a b) as [->|Nb].
    + eexists. eapply live_put_same; eauto.
    + destruct (inv_live _ _ _ I b) as (cb & Lb); [rewrite cnt_app; lia|]. exists cb. apply live_put_other; auto.
  - intros b cb Lb. destruct (Nat.eq_dec a b) as [->|Nb].
    + pose proof (live_fun _ _ _ _ Lb (live_put_same _ _ _ (mkCell 1 (bd c)) L)) as ->. exact (inv_shape _ _ _ I _ _ L).
    + apply live_put_other in Lb; auto. eapply inv_shape; eauto.
  - intros b cb Lb. rewrite put_length. destruct (Nat.eq_dec a b) as [->|Nb].
    + pose proof (live_fun _ _ _ _ Lb (live_put_same _ _ _ (mkCell 1 (bd c)) L)) as ->. exact (inv_bound _ _ _ I _ _ L).
    + apply live_put_other in Lb; auto. eapply inv_bound; eauto.
Qed.
(** A new, uncounted node *)
Definition upd_lv (lv : nat -> nat) a n : nat -> nat := fun b => if b =? a then n else lv b.
Lemma shape_agree lv lv' b n m : (forall a, a < m -> lv' a = lv a) -> Forall (fun k => k < m) (kids b) -> shape lv b n -> shape lv' b n.
Proof.
  intros A B S. destruct b as [vs|cs], n as [|n]; cbn in *; auto. destruct S as [L S]. split; auto.
  rewrite Forall_forall in *. intros a I. rewrite A; auto.
Qed.
Lemma inv_alloc lv h R b n : Inv lv h R -> shape lv b n -> Forall (fun k => k < length h) (kids b) ->
  Inv (upd_lv lv (length h) n) (h ++ [Some (mkCell 0 b)]) R.
Proof.
  intros I S B.
  assert (Er : forall a, refs (h ++ [Some (mkCell 0 b)]) a = refs h a) by (intros a; rewrite refs_app; cbn; lia).
  assert (Ag : forall a, a < length h -> upd_lv lv (length h) n a = lv a).
  { intros a H. unfold upd_lv. destruct (Nat.eqb_spec a (length h)); lia. }
  assert (Lc : forall a c, live (h ++ [Some (mkCell 0 b)]) a c -> live h a c \/ (a = length h /\ c = mkCell 0 b)).
  { intros a c L. unfold live in L. destruct (Nat.lt_ge_cases a (length h)) as [H|H].
    - rewrite nth_error_app1 in L by auto. auto.
    - rewrite nth_error_app2 in L by auto. destruct (a - length h) as [|k] eqn:E.
      + cbn in L. injection L as <-. right. split; [lia|auto].
      + cbn in L. destruct k; discriminate. }
  assert (Fresh : cnt R (length h) + refs h (length h) = 0).
  { destruct (Nat.eq_dec (cnt R (length h) + refs h (length h)) 0) as [|N]; auto.
    destruct (inv_live _ _ _ I (length h)) as (c & L); [lia|]. apply live_lt in L. lia. }
  split.
  - intros a c L. rewrite Er. destruct (Lc _ _ L) as [H|[-> ->]]; [now apply (inv_rc _ _ _ I)|]. cbn. lia.
  - intros a H. rewrite Er in H. destruct (inv_live _ _ _ I a H) as (c & L). exists c. unfold live in *.
    rewrite nth_error_app1; auto. apply nth_error_Some. congruence.
  - intros a c L. destruct (Lc _ _ L) as [H|[-> ->]].
    + rewrite Ag by (eapply live_lt; eauto). eapply shape_agree; [exact Ag| |eapply inv_shape; eauto]. eapply inv_bound; eauto.
    + unfold upd_lv at 2. rewrite Nat.eqb_refl. cbn. eapply shape_agree; [exact Ag|exact B|exact S].
  - intros a c L. rewrite app_length. cbn. destruct (Lc _ _ L) as [H|[-> ->]].
    + eapply Forall_impl; [|eapply inv_bound; eauto]. cbn. intros; lia.
    + cbn. eapply Forall_impl; [|exact B]. cbn. intros; lia.
Qed.
Lemma live_alloc h b : live (h ++ [Some (mkCell 0 b)]) (length h) (mkCell 0 b).
Proof. unfold live. rewrite nth_error_app2 by auto. now rewrite Nat.sub_diag. Qed.
Lemma live_app h o a c : live h a c -> live (h ++ [o]) a c.
Proof. unfold live. intros H. rewrite nth_error_app1; auto. apply nth_error_Some. congruence. Qed.
Lemma extends_alloc h o : extends h (h ++ [o]).
Proof. split; [rewrite app_length; lia|]. intros a c L. exists c. split; [now apply live_app|auto]. Qed.
(** Changing the contents of an uncounted node *)
Lemma inv_write lv h R a c b : Inv lv h R -> live h a c -> rc c = 0 -> shape lv b (lv a) -> Forall (fun k => k < length h) (kids b) ->
  Inv lv (put h a (Some (mkCell 0 b))) R.
Proof.
  intros I L P S B.
  assert (Er : forall x, refs (put h a (Some (mkCell 0 b))) x = refs h x).
  { intros x. pose proof (refs_put h a (Some c) (Some (mkCell 0 b)) x L) as H. cbn in H. rewrite P in H. cbn in H. lia. }
  assert (Hl : a < length h) by (eapply live_lt; eauto).
  split.
  - intros x cx Lx. rewrite Er. destruct (Nat.eq_dec x a) as [->|N].
    + pose proof (live_fun _ _ _ _ Lx (live_put_same _ _ _ (mkCell 0 b) L)) as ->. cbn. pose proof (inv_rc _ _ _ I _ _ L). lia.
    + apply live_put_other in Lx; auto. now apply (inv_rc _ _ _ I).
  - intros x H. rewrite Er in H. destruct (Nat.eq_dec x a) as [->|N]; [eexists; eapply live_put_same; eauto|].
    destruct (inv_live _ _ _ I x H) as (cx & Lx). exists cx. apply live_put_other; auto.
  - intros x cx Lx. destruct (Nat.eq_dec x a) as [->|N].
    + pose proof (live_fun _ _ _ _ Lx (live_put_same _ _ _ (mkCell 0 b) L)) as ->. exact S.
    + apply live_put_other in Lx; auto. eapply inv_shape; eauto.
  - intros x cx Lx. rewrite put_length. destruct (Nat.eq_dec x a) as [->|N].
    + pose proof (live_fun _ _ _ _ Lx (live_put_same _ _ _ (mkCell 0 b) L)) as ->. exact B.
    + apply live_put_other in Lx; auto. eapply inv_bound; eauto.
Qed.

Lemma keeps_put h a c n : live h a c -> 0 < rc c -> keeps h (put h a (Some (mkCell n (bd c)))).
Proof.
  intros L P. assert (Hl : a < length h) by (eapply live_lt; eauto). split; [apply put_length|split].
  - intros b cb Lb. destruct (Nat.eq_dec b a) as [->|N].
    + pose proof (live_fun _ _ _ _ Lb (live_put_same _ _ _ (mkCell n (bd c)) L)) as ->. exists c. auto.
    + apply live_put_other in Lb; auto. exists cb. auto.
  - intros b cb Lb Z. apply live_put_other; auto. intros ->. pose proof (live_fun _ _ _ _ L Lb) as ->. lia.
Qed.
Lemma extends_put h a c n : live h a c -> (0 < rc c -> 0 < n) -> (rc c = 0 -> n = 0) -> extends h (put h a (Some (mkCell n (bd c)))).
Proof.
  intros L P Z. assert (Hl : a < length h) by (eapply live_lt; eauto). split; [now rewrite put_length|].
  intros b cb Lb. destruct (Nat.eq_dec b a) as [->|N].
  - pose proof (live_fun _ _ _ _ L Lb) as ->. eexists. split; [eapply live_put_same; eauto|auto].
  - exists cb. split; [apply live_put_other; auto|auto].
Qed.

(** * release *)
Lemma branch_live h a c cs : live h a c -> bd c = Branch cs -> branch h a = Ok cs.
Proof. intros L E. unfold branch. rewrite (load_live _ _ _ L). cbn. now rewrite E. Qed.
Lemma leaf_live h a c vs : live h a c -> bd c = Leaf vs -> leaf h a = Ok vs.
Proof. intros L E. unfold leaf. rewrite (load_live _ _ _ L). cbn. now rewrite E. Qed.

Definition release_all (k : nat) := (fix go h (cs : list (option nat)) : outcome heap :=
                       match cs with
                       | [] => Ok h
                       | c :: cs => do h <- release k h c; go h cs
                       end).
Lemma release_S k h a : release (S k) h (Some a) =
  (do (n, h) <- dec h a;
   if n =? 0 then do cs <- branch h a; do h <- release_all k h cs; delete h a else Ok h).
Proof. reflexivity. Qed.

Lemma release_shared k h a c : live h a c -> 1 < rc c -> release k h (Some a) = Ok (put h a (Some (mkCell (rc c - 1) (bd c)))).
Proof.
  intros L P. assert (E : dec h a = Ok (rc c - 1, put h a (Some (mkCell (rc c - 1) (bd c))))).
  { unfold dec. rewrite (load_live _ _ _ L). cbn. destruct (rc c); [lia|]. now rewrite Nat.sub_1_r. }
  destruct k; cbn [release]; rewrite E; cbn [bind]; destruct (Nat.eqb_spec (rc c - 1) 0); auto; lia.
Qed.
Lemma delete_live h a c : live h a c -> rc c = 0 -> delete h a = Ok (put h a None).
Proof. intros L P. unfold delete. rewrite (load_live _ _ _ L). cbn. now rewrite P. Qed.
Lemma keeps_delete h a c : live h a c -> rc c = 0 ->
  (forall b cb, live (put h a None) b cb -> live h b cb) /\ (forall b cb, live h b cb -> b <> a -> live (put h a None) b cb).
Proof.
  intros L P. assert (Hl : a < length h) by (eapply live_lt; eauto). split; intros b cb H.
  - destruct (Nat.eq_dec b a) as [->|N]; [|apply live_put_other in H; auto].
    unfold live in H. rewrite nth_put, Nat.eqb_refl in H by auto. discriminate.
  - intros N. apply live_put_other; auto.
Qed.

(** No node is left uncounted *)
Definition fewer h h' : Prop := forall a c', live h' a c' -> rc c' = 0 -> exists c, live h a c /\ rc c = 0.
Lemma fewer_put h a c n : live h a c -> 0 < n -> fewer h (put h a (Some (mkCell n (bd c)))).
Proof.
  intros L P b cb Lb Z. assert (Hl : a < length h) by (eapply live_lt; eauto). destruct (Nat.eq_dec b a) as [->|N].
  - pose proof (live_fun _ _ _ _ Lb (live_put_same _ _ _ (mkCell n (bd c)) L)) as ->. cbn in Z. lia.
  - apply live_put_other in Lb; eauto.
Qed.
Lemma fewer_last h a c h2 : live h a c -> fewer (put h a (Some (mkCell 0 (bd c)))) h2 -> fewer h (put h2 a None).
Proof.
  intros L F b cb Lb Z. assert (Hl : a < length h) by (eapply live_lt; eauto). destruct (Nat.eq_dec b a) as [->|N].
  - exfalso. unfold live in Lb. destruct (Nat.lt_ge_cases a (length h2)) as [H|H].
    + rewrite nth_put, Nat.eqb_refl in Lb by auto. discriminate.
    + pose proof (proj2 (nth_error_None (put h2 a None) a)) as Q. rewrite put_length in Q. rewrite (Q H) in Lb. discriminate.
  - destruct (Nat.lt_ge_cases a (length h2)) as [H|H].
    + apply live_put_other in Lb; auto. destruct (F _ _ Lb Z) as (c2 & L2 & Z2). apply live_put_other in L2; eauto.
    + assert (E : put h2 a None = h2).
      { clear - H. revert a H. induction h2 as [|y h2 IH]; intros [|a] H; cbn in *; auto; [lia|]. f_equal. apply IH. lia. }
      rewrite E in Lb. destruct (F _ _ Lb Z) as (c2 & L2 & Z2). apply live_put_other in L2; eauto.
Qed.

Lemma release_ok lv k : forall h a R, Inv lv h (a :: R) -> lv a = k ->
  exists h', release k h (Some a) = Ok h' /\ Inv lv h' R /\ keeps h h' /\ fewer h h'.
Proof.
  induction k as [|k IH]; intros h a R I Lv;
    destruct (inv_root _ _ _ a I (or_introl eq_refl)) as (c & L & P).
  - destruct (Nat.eq_dec (rc c) 1) as [E1|N1].
    + pose proof (inv_last _ _ _ _ _ I L E1) as I1. pose proof (live_put_same _ _ _ (mkCell 0 (bd c)) L) as L1.
      pose proof (inv_shape _ _ _ I _ _ L) as S. rewrite Lv in S. destruct (bd c) as [vs|cs] eqn:B; [|contradiction].
      exists (put (put h a (Some (mkCell 0 (Leaf vs)))) a None). conjs.
      * cbn [release]. unfold dec. rewrite (load_live _ _ _ L). cbn [bind]. rewrite E1. cbn [bind]. cbn [Nat.eqb].
        rewrite B. rewrite (leaf_live _ _ _ vs L1) by reflexivity. cbn [bind]. now apply delete_live with (c := mkCell 0 (Leaf vs)).
      * eapply inv_delete; eauto.
      * destruct (keeps_delete _ _ _ L1 eq_refl) as [K1 K2].
        pose proof (keeps_put _ _ _ 0 L P) as K. rewrite B in K. destruct K as (KL & KA & KZ).
        split; [rewrite !put_length; auto|split].
        -- intros b cb Lb. apply K1 in Lb. apply KA in Lb. exact Lb.
        -- intros b cb Lb Z. apply K2; auto. intros ->. pose proof (live_fun _ _ _ _ L Lb) as ->. lia.
      * eapply fewer_last; eauto. rewrite B. intros b cb Lb Z. eauto.
    + rewrite (release_shared _ _ _ _ L) by lia. eexists. split; [reflexivity|]. split; [apply inv_drop; auto; lia|]. split; [apply keeps_put; auto|apply fewer_put; auto; lia].
  - destruct (Nat.eq_dec (rc c) 1) as [E1|N1].
    + pose proof (inv_last _ _ _ _ _ I L E1) as I1. pose proof (live_put_same _ _ _ (mkCell 0 (bd c)) L) as L1.
      pose proof (inv_shape _ _ _ I _ _ L) as S. rewrite Lv in S. destruct (bd c) as [vs|cs] eqn:B; [contradiction|].
      destruct S as [SL SF].
      assert (All : forall cs h1 R1, Forall (fun x => lv x = k) (okids cs) -> Inv lv h1 (okids cs ++ R1) ->
                exists h2, release_all k h1 cs = Ok h2 /\ Inv lv h2 R1 /\ keeps h1 h2 /\ fewer h1 h2).
      { clear - IH. induction cs as [|[x|] cs IHc]; intros h1 R1 F I1; cbn [okids flat_map app] in *.
        - exists h1. conjs; auto; [apply keeps_refl|]. intros b cb Lb Z. eauto.
        - apply Forall_cons_iff in F as [F1 F2]. destruct (IH h1 x _ I1 F1) as (h2 & E2 & I2 & K2 & W2).
          destruct (IHc h2 R1 F2 I2) as (h3 & E3 & I3 & K3 & W3). exists h3. conjs; auto.
          + cbn [release_all]. rewrite E2. cbn [bind]. exact E3.
          + eapply keeps_trans; eauto.
          + intros b cb Lb Z. destruct (W3 _ _ Lb Z) as (c2 & L2 & Z2). eauto.
        - destruct (IHc h1 R1 F I1) as (h3 & E3 & I3 & K3 & W3). exists h3. conjs; auto.
          cbn [release_all]. destruct k; cbn [release bind]; exact E3. }
      destruct (All cs _ _ SF I1) as (h2 & E2 & I2 & K2 & W2).
      assert (L2 : live h2 a (mkCell 0 (Branch cs))) by (apply K2; [exact L1|reflexivity]).
      exists (put h2 a None). conjs.
      * rewrite release_S. unfold dec. rewrite (load_live _ _ _ L). cbn [bind]. rewrite E1. cbn [bind Nat.eqb].
        rewrite B. rewrite (branch_live _ _ _ cs L1) by (cbn; auto). cbn [bind]. rewrite E2. cbn [bind].
        now apply delete_live with (c := mkCell 0 (Branch cs)).
      * eapply inv_delete; eauto.
      * destruct (keeps_delete _ _ _ L2 eq_refl) as [K3 K4].
        pose proof (keeps_put _ _ _ 0 L P) as K. rewrite B in K. pose proof (keeps_trans _ _ _ K K2) as (KL & KA & KZ).
        split; [rewrite put_length; auto|split].
        -- intros b cb Lb. apply K3 in Lb. apply KA in Lb. exact Lb.
        -- intros b cb Lb Z. apply K4; auto. intros ->. pose proof (live_fun _ _ _ _ L Lb) as ->. lia.
      * eapply fewer_last; eauto. rewrite B. exact W2.
    + rewrite (release_shared _ _ _ _ L) by lia. eexists. split; [reflexivity|]. split; [apply inv_drop; auto; lia|]. split; [apply keeps_put; auto|apply fewer_put; auto; lia].
Qed.
End P.
