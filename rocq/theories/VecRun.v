From Coq Require Import List Arith NArith Bool Lia Permutation.
From Verif Require Import Outcome VecModel VecSpec VecProofs VecTree.
Import ListNotations.
Local Open Scope nat_scope.

Section Run.
Context {T : Type} (d : T).
Notation heap := (@heap T).
Notation holds := (holds d).
Implicit Types (h : heap) (v : vec).

(** * Reading *)
Lemma spread_nth (P : option nat -> list T -> Prop) cap cs l j : 0 < cap -> spread P cap cs l -> j < length l ->
  exists a ls, nth_error cs (j / cap) = Some (Some a) /\ P (Some a) ls /\ j mod cap < length ls /\ nth_error ls (j mod cap) = nth_error l j.
Proof.
  intros C. revert l j. induction cs as [|c cs IH]; intros l j S H; cbn [spread] in *; [subst; cbn in H; lia|].
  destruct S as (l1 & l2 & -> & H1 & H2 & H3 & H4 & H5). rewrite app_length in H.
  destruct (Nat.lt_ge_cases j (length l1)) as [Hj|Hj].
  - rewrite Nat.div_small, Nat.mod_small by lia. destruct c as [a|].
    + exists a, l1. conjs; auto. now rewrite nth_error_app1.
    + exfalso. assert (l1 = []) by now apply H4. subst. cbn in Hj. lia.
  - assert (l2 <> []) by (intros ->; cbn in H; lia). specialize (H3 H0).
    destruct (IH l2 (j - length l1) H5 ltac:(lia)) as (a & ls & E1 & E2 & E3 & E4).
    assert (Ej : j = (j - cap) + 1 * cap) by lia.
    exists a, ls. rewrite Ej, Nat.div_add, Nat.mod_add by lia. rewrite H3 in *. rewrite Nat.add_1_r. cbn [nth_error]. conjs; auto.
    rewrite E4. rewrite <- Ej. rewrite nth_error_app2 by lia. now rewrite H3.
Qed.

Lemma leaf_for_ok k : forall h a l i, holds h k (Some a) l -> i mod 4 ^ (k + 1) < length l ->
  exists lf vs, leaf_for k h a i = Ok lf /\ leaf h lf = Ok vs /\ nth_error vs (i mod 4) = nth_error l (i mod 4 ^ (k + 1)).
Proof.
  induction k as [|k IH]; intros h a l i H B; cbn [VecTree.holds] in H.
  - destruct H as (c & L & Hl & E). change (4 ^ (0 + 1)) with 4 in *. exists a, (l ++ repeat d (4 - length l)). conjs; auto.
    + eapply leaf_live; eauto.
    + now rewrite nth_error_app1.
  - destruct H as (c & cs & L & E & Len & S). replace (Datatypes.S k + 1) with ((k + 1) + 1) in * by lia.
    destruct (spread_nth _ _ _ _ _ (pow4_pos (k + 1)) S B) as (b & ls & E1 & E2 & E3 & E4).
    rewrite mod_div_pow in E1. rewrite mod_mod_pow in E3, E4. destruct (IH h b ls i E2 E3) as (lf & vs & F1 & F2 & F3).
    exists lf, vs. conjs; auto; [|congruence]. cbn [leaf_for]. rewrite (branch_live _ _ _ _ L E). cbn [bind]. unfold child.
    rewrite subindex_div. replace (Datatypes.S k) with (k + 1) by lia. rewrite E1. exact F1.
Qed.
Lemma leaf_for_block k : forall h a i i', i / 4 = i' / 4 -> leaf_for k h a i = leaf_for k h a i'.
Proof.
  induction k as [|k IH]; intros h a i i' E; cbn [leaf_for]; auto.
  assert (subindex (S k) i = subindex (S k) i') as ->.
  { rewrite !subindex_div. cbn [Nat.pow]. rewrite <- !Nat.div_div by (try discriminate; apply Nat.pow_nonzero; discriminate). now rewrite E. }
  destruct (branch h a) as [cs| | | |]; cbn [bind]; auto. destruct (child cs (subindex (S k) i')) as [[b|]| | | |]; cbn [bind]; auto.
Qed.

Lemma spread_past (P : option nat -> list T -> Prop) cap cs l j : 0 < cap -> spread P cap cs l -> length l <= j -> j < length cs * cap ->
  exists c, nth_error cs (j / cap) = Some c /\
    (c = None \/ exists a ls, c = Some a /\ P (Some a) ls /\ ls <> [] /\ length ls <= j mod cap /\ length ls = length l mod cap).
Proof.
  intros C. revert l j. induction cs as [|c cs IH]; intros l j S H B; cbn [spread length] in *; [lia|].
  destruct S as (l1 & l2 & -> & H1 & H2 & H3 & H4 & H5). rewrite app_length in *.
  destruct (Nat.lt_ge_cases j cap) as [Hj|Hj].
  - rewrite Nat.div_small, (Nat.mod_small j) by lia. exists c. split; auto. destruct c as [a|]; auto. right. exists a, l1. conjs; auto; [intros Z; apply H4 in Z; discriminate|lia|].
    assert (l2 = []) as -> by (destruct l2; auto; specialize (H3 ltac:(discriminate)); lia).
    cbn. rewrite Nat.add_0_r. destruct (Nat.eq_dec (length l1) cap) as [Ec|Nc]; [|now rewrite Nat.mod_small by lia].
    lia.
  - assert (Ej : j = (j - cap) + 1 * cap) by lia.
    destruct (IH l2 (j - cap) H5) as (c' & E1 & E2).
    { destruct (Nat.eq_dec (length l1) cap) as [Ec|Nc]; [lia|]. destruct l2; cbn; [lia|]. specialize (H3 ltac:(discriminate)). lia. }
    { lia. }
    rewrite Ej, Nat.div_add, Nat.mod_add, Nat.add_1_r by lia. cbn [nth_error]. exists c'. split; auto.
    destruct E2 as [->|(a & ls & -> & Q1 & Q0 & Q2 & Q3)]; auto. right. exists a, ls. conjs; auto.
    destruct (Nat.eq_dec (length l2) 0) as [Z|NZ].
    + rewrite Z, Nat.mod_small in Q3 by lia. assert (l2 = []) as -> by (now apply length_zero_iff_nil). exfalso.
      pose proof (spread_nil _ _ _ H5 (Some a)) as Q. specialize (Q (nth_error_In _ _ E1)). discriminate.
    + rewrite H3 by (intros ->; cbn in NZ; lia). replace (cap + length l2) with (length l2 + 1 * cap) by lia. now rewrite Nat.mod_add by lia.
Qed.
Lemma leaf_for_trap k : forall h a l i, holds h (S k) (Some a) l -> length l mod 4 = 0 -> length l <= i mod 4 ^ (k + 1 + 1) ->
  leaf_for (S k) h a i = Trap Assertion.
Proof.
  induction k as [|k IH]; intros h a l i (c & cs & L & E & Len & Sp) M B.
  - assert (Bd : i mod 4 ^ (0 + 1 + 1) < length cs * 4 ^ (0 + 1)) by (rewrite Len; apply Nat.mod_upper_bound; discriminate).
    destruct (spread_past _ _ _ _ _ (pow4_pos (0 + 1)) Sp B Bd) as (c' & E1 & E2). rewrite mod_div_pow in E1.
    cbn [leaf_for]. rewrite (branch_live _ _ _ _ L E). cbn [bind]. unfold child. rewrite subindex_div. change (4 ^ 1) with (4 ^ (0 + 1)).
    rewrite E1. cbn [bind]. destruct E2 as [->|(b & ls & -> & Q1 & Q0 & Q2 & Q3)]; [reflexivity|]. exfalso.
    change (4 ^ (0 + 1)) with 4 in *. rewrite M in Q3. apply length_zero_iff_nil in Q3. contradiction.
  - replace (S k + 1) with (k + 1 + 1) in * by lia.
    assert (Bd : i mod 4 ^ (k + 1 + 1 + 1) < length cs * 4 ^ (k + 1 + 1)).
    { rewrite Len, <- Nat.pow_succ_r', (Nat.add_1_r (k + 1 + 1)). apply Nat.mod_upper_bound, Nat.pow_nonzero. discriminate. }
    destruct (spread_past _ _ _ _ _ (pow4_pos (k + 1 + 1)) Sp B Bd) as (c' & E1 & E2). rewrite mod_div_pow in E1.
    change (leaf_for (S (S k)) h a i) with (do cs <- branch h a; do c <- child cs (subindex (S (S k)) i);
      match c with None => Trap Assertion | Some c => leaf_for (S k) h c i end).
    rewrite (branch_live _ _ _ _ L E). cbn [bind]. unfold child. rewrite subindex_div.
    replace (S (S k)) with (k + 1 + 1) by lia. rewrite E1. cbn [bind].
    destruct E2 as [->|(b & ls & -> & Q1 & Q0 & Q2 & Q3)]; [reflexivity|]. rewrite mod_mod_pow in Q2.
    apply (IH h b ls i); auto. rewrite Q3. replace (k + 1 + 1) with (S (k + 1)) by lia. cbn [Nat.pow].
    rewrite Nat.mod_mul_r by (try discriminate; apply Nat.pow_nonzero; discriminate).
    rewrite Nat.mul_comm, Nat.mod_add, Nat.mod_mod by discriminate. exact M.
Qed.

(** * foreach *)
Definition padding (n : nat) : nat := (4 - n mod 4) mod 4.
Definition foreach_all (k : nat) h := (fix go (cs : list (option nat)) : outcome (list T) :=
             match cs with
             | [] => Ok []
             | c :: cs => do xs <- foreach k h c; do ys <- go cs; Ok (xs ++ ys)
             end).
Lemma foreach_ok k : forall h a l, holds h k (Some a) l -> l <> [] -> foreach k h (Some a) = Ok (l ++ repeat d (padding (length l))).
Proof.
  induction k as [|k IH]; intros h a l H N.
  - destruct H as (c & L & Hl & E). cbn [foreach]. rewrite (leaf_live _ _ _ _ L E). do 2 f_equal. unfold padding.
    assert (0 < length l) by (destruct l; cbn; [contradiction|lia]). destruct (Nat.eq_dec (length l) 4) as [->|N4]; [reflexivity|].
    rewrite (Nat.mod_small (length l)), Nat.mod_small by lia. reflexivity.
  - destruct H as (c & cs & L & E & Len & Sp). cbn [foreach]. rewrite (branch_live _ _ _ _ L E). cbn [bind].
    change (foreach_all k h cs = Ok (l ++ repeat d (padding (length l)))). clear Len N E.
    revert l Sp. induction cs as [|o cs IHc]; intros l Sp; cbn [spread foreach_all] in *; [subst; reflexivity|].
    destruct Sp as (l1 & l2 & -> & H1 & H2 & H3 & H4 & H5). destruct o as [b|].
    + assert (l1 <> []) as Nl by (intros Z; apply H4 in Z; discriminate). rewrite (IH h b l1 H1 Nl). cbn [bind].
      fold (foreach_all k h). rewrite (IHc l2 H5). cbn [bind].
      destruct l2 as [|y l2]; [now rewrite !app_nil_r|]. specialize (H3 ltac:(discriminate)).
      assert (M : forall n, (4 ^ (k + 1) + n) mod 4 = n mod 4).
      { intros n. rewrite Nat.add_comm, Nat.add_1_r. cbn [Nat.pow]. rewrite Nat.mul_comm. now apply Nat.mod_add. }
      unfold padding. rewrite app_length, H3, M. pose proof (M 0) as M0. rewrite Nat.add_0_r in M0. rewrite M0.
      cbn [Nat.modulo Nat.divmod repeat snd Nat.sub fst]. now rewrite app_nil_r, app_assoc.
    + assert (l1 = []) as -> by now apply H4. replace (foreach k h None) with (@Ok (list T) []) by (destruct k; reflexivity). cbn [bind].
      fold (foreach_all k h). rewrite (IHc l2 H5). reflexivity.
Qed.

(** * Vectors *)
Definition vecok (lv : nat -> nat) h v (l : list T) : Prop :=
  lv (root v) = level v /\ size v = length l /\ holds h (level v) (Some (root v)) l /\
  length l <= 4 ^ (level v + 1) /\ (level v = 0 \/ 4 ^ level v < length l).

Lemma vecok_shows lv h v l : vecok lv h v l -> shows h v l.
Proof.
  intros (Lv & Sz & H & B & _). split; auto. intros k x N.
  assert (K : k < length l) by (apply nth_error_Some; congruence).
  destruct (leaf_for_ok _ _ _ _ k H) as (lf & vs & E1 & E2 & E3); [rewrite Nat.mod_small; lia|].
  unfold at_vec, value_in. rewrite E1. cbn [bind]. rewrite E2. cbn [bind]. rewrite land3, E3, Nat.mod_small, N by lia. reflexivity.
Qed.

Lemma vecok_ext lv lv' h h' v l : (forall a, a < length h -> lv' a = lv a) -> extends h h' -> root v < length h ->
  vecok lv h v l -> vecok lv' h' v l.
Proof.
  intros Ag X Lt (A & B & C & D). split; [rewrite Ag; auto|]. split; auto. split; auto. eapply holds_ext; eauto.
Qed.
Lemma vecok_kept lv h h' R v l : Inv lv h' R -> keeps h h' -> In (root v) R -> vecok lv h v l -> vecok lv h' v l.
Proof.
  intros I K In (A & B & C & D). split; auto. split; auto. split; auto. eapply holds_kept; eauto.
  intros a [= <-]. eapply inv_root; eauto.
Qed.

Lemma level_small k (l : list T) : k = 0 \/ 4 ^ k < length l -> fits l -> k < 15.
Proof.
  intros [->|H] B; [lia|]. unfold fits, LIMIT in B. change (2 ^ 30)%N with (4 ^ 15)%N in B.
  assert (Hn : (N.of_nat (4 ^ k) < 4 ^ 15)%N) by lia. rewrite Nat2N.inj_pow in Hn.
  change (N.of_nat 4) with 4%N in Hn. apply N.pow_lt_mono_r_iff in Hn; lia.
Qed.
Lemma pow24 k : 2 ^ ((k + 1) * 2) = 4 ^ (k + 1).
Proof. rewrite Nat.mul_comm, Nat.pow_mul_r. reflexivity. Qed.

Lemma new_ok lv h R : Inv lv h R -> exists v h' lv', new_vec d h = Ok (v, h') /\ Inv lv' h' (root v :: R) /\ extends h h' /\
  (forall a, a < length h -> lv' a = lv a) /\ vecok lv' h' v [] /\ fewer h h'.
Proof.
  intros I. assert (I1 : Inv (upd_lv lv (length h) 0) (h ++ [Some (mkCell 0 (Leaf (repeat d 4)))]) R) by (apply inv_alloc; auto; cbn; auto).
  pose proof (live_alloc h (Leaf (repeat d 4))) as L.
  exists (mkVec (length h) 0 0), (put (h ++ [Some (mkCell 0 (Leaf (repeat d 4)))]) (length h) (Some (mkCell 1 (Leaf (repeat d 4))))), (upd_lv lv (length h) 0).
  conjs.
  - unfold new_vec, alloc. change RADIX with 4. rewrite (inc_live _ _ _ L). reflexivity.
  - cbn [root]. apply (inv_adopt _ _ _ _ (mkCell 0 (Leaf (repeat d 4)))); auto.
  - split; [rewrite put_length, app_length; lia|]. intros a c La. exists c. split; auto.
    apply live_put_other; [rewrite app_length; cbn; lia| |now apply live_app]. apply live_lt in La. lia.
  - intros a Ha. unfold upd_lv. destruct (Nat.eqb_spec a (length h)); lia.
  - split; [unfold upd_lv; cbn; now rewrite Nat.eqb_refl|]. split; [reflexivity|]. split; [|split; [cbn; lia|auto]].
    cbn [VecTree.holds level root]. eexists. split; [eapply live_put_same; eauto|]. cbn [bd]. split; [cbn; lia|reflexivity].
  - intros a c La Z. destruct (Nat.eq_dec a (length h)) as [->|N].
    + pose proof (live_fun _ _ _ _ La (live_put_same _ _ _ (mkCell 1 (Leaf (repeat d 4))) L)) as ->. discriminate.
    + apply live_put_other in La; auto; [|rewrite app_length; cbn; lia]. unfold live in La.
      destruct (Nat.lt_ge_cases a (length h)) as [Ha|Ha]; [rewrite nth_error_app1 in La by auto; exists c; auto|].
      rewrite nth_error_app2 in La by auto. destruct (a - length h) as [|m] eqn:Em; [lia|]. destruct m; discriminate.
Qed.
End Run.
