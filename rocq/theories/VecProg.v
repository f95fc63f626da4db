From Coq Require Import List Arith Bool Lia Permutation.
From Verif Require Import Outcome VecModel VecSpec VecProofs VecTree VecRun.
Import ListNotations.
Local Open Scope nat_scope.

Section Prog.
Context {T : Type} (d : T).
Notation heap := (@heap T).
Notation holds := (holds d).
Notation vecok := (vecok d).
Implicit Types (h : heap) (v : vec).

Lemma capacity_ok v (l : list T) : level v = 0 \/ 4 ^ level v < length l -> fits l -> capacity v = Ok (4 ^ (level v + 1)).
Proof.
  intros A B. pose proof (level_small _ _ A B) as K. unfold capacity. destruct (Nat.ltb_spec ((level v + 1) * 2) 32); [|lia].
  now rewrite pow24.
Qed.

Lemma zeros_fewer h h' n c' : zeros h h' n -> live h' n c' -> rc c' = 0 -> fewer h (put h' n (Some (mkCell 1 (bd c')))).
Proof.
  intros Z L Zc a c La Za. destruct (Nat.eq_dec a n) as [->|N].
  - pose proof (live_fun _ _ _ _ La (live_put_same _ _ _ (mkCell 1 (bd c')) L)) as ->. discriminate.
  - apply live_put_other in La; auto; [|eapply live_lt; eauto]. destruct (Z _ _ La Za) as [->|H]; [contradiction|auto].
Qed.

Lemma cons_ok lv h R v l x : Inv lv h R -> In (root v) R -> vecok lv h v l -> fits l ->
  exists v' h' lv', cons_vec d h v x = Ok (v', h') /\ Inv lv' h' (root v' :: R) /\ extends h h' /\
    (forall a, a < length h -> lv' a = lv a) /\ vecok lv' h' v' (l ++ [x]) /\ fewer h h'.
Proof.
  intros I InR V B. pose proof V as (Lv & Sz & H & Bl & Lw).
  pose proof (capacity_ok v l Lw B) as Cap. unfold cons_vec. rewrite Cap. cbn [bind]. rewrite Sz.
  destruct (inv_root _ _ _ _ I InR) as (cr & Lr & Pr).
  destruct (Nat.ltb_spec (length l) (4 ^ (level v + 1))) as [Lt|Ge].
  - destruct (update_ok d (level v) lv h (Some (root v)) (length l) x R l I) as (n & h' & lv' & c' & E & Hn & L' & Z' & Lvn & Ag & I' & X & H' & Zr).
    { intros a [= <-]. eauto. }
    { exact H. }
    { now apply Nat.mod_small. }
    exists (mkVec n (length l + 1) (level v)), (put h' n (Some (mkCell 1 (bd c')))), lv'. rewrite E. cbn [bind]. unfold make_vec.
    rewrite (inc_live _ _ _ L'), Z'. cbn [bind root level size].
    assert (X2 : forall a c, live h' a c -> exists c2, live (put h' n (Some (mkCell 1 (bd c')))) a c2 /\ bd c2 = bd c /\ (a <> n -> c2 = c)).
    { intros a c La. destruct (Nat.eq_dec a n) as [->|N].
      - pose proof (live_fun _ _ _ _ La L') as ->. eexists. split; [eapply live_put_same; eauto|]. split; [auto|contradiction].
      - exists c. split; [|auto]. apply live_put_other; auto. eapply live_lt; eauto. }
    conjs; auto.
    + now apply inv_adopt.
    + split; [rewrite put_length; apply X|]. intros a c La. destruct (proj2 X _ _ La) as (c1 & L1 & B1 & P1 & Z1).
      apply live_lt in La. destruct (X2 _ _ L1) as (c2 & L2 & B2 & E2). rewrite E2 in L2 by lia. exists c1. auto.
    + split; [auto|]. split; [rewrite app_length; cbn; lia|]. split; [|split].
      * cbn [level root]. eapply holds_low; [exact I'| | |exact H'].
        -- intros a c La _. destruct (X2 _ _ La) as (c2 & L2 & B2 & _). eauto.
        -- intros a [= <-]. exact Lvn.
      * cbn [level]. rewrite app_length. cbn. lia.
      * cbn [level]. rewrite app_length. destruct Lw; [auto|right; lia].
    + eapply zeros_fewer; eauto.
  - assert (El : length l = 4 ^ (level v + 1)) by lia. set (k := level v) in *.
    pose proof (extends_alloc h (Some (mkCell 0 (Branch (repeat None 4))))) as X1.
    assert (Ag1 : forall a, a < length h -> upd_lv lv (length h) (k + 1) a = lv a).
    { intros a Ha. unfold upd_lv. destruct (Nat.eqb_spec a (length h)); lia. }
    assert (Lvr : upd_lv lv (length h) (k + 1) (length h) = k + 1) by (unfold upd_lv; now rewrite Nat.eqb_refl).
    assert (I1 : Inv (upd_lv lv (length h) (k + 1)) (h ++ [Some (mkCell 0 (Branch (repeat None 4)))]) R).
    { apply inv_alloc; auto; [|cbn; auto]. rewrite Nat.add_1_r. cbn. auto. }
    pose proof (live_alloc h (Branch (repeat None 4))) as L1.
    set (lv1 := upd_lv lv (length h) (k + 1)) in *. set (h1 := h ++ [Some (mkCell 0 (Branch (repeat None 4)))]) in *.
    assert (Hr : root v < length h) by (eapply live_lt; eauto).
    assert (Hh1 : length h1 = length h + 1) by (unfold h1; rewrite app_length; reflexivity).
    unfold alloc. change (repeat None RADIX) with (repeat (@None nat) 4). fold h1.
    unfold set_child at 1. rewrite (load_live _ _ _ L1). cbn [bind bd rc repeat set_nth].
    set (b2 := Branch [Some (root v); None; None; None] : body (T := T)).
    assert (I2 : Inv lv1 (put h1 (length h) (Some (mkCell 0 b2))) R).
    { eapply inv_write; eauto.
      - rewrite Lvr, Nat.add_1_r. cbn. split; auto. constructor; auto. rewrite Ag1; auto.
      - cbn. constructor; auto. lia. }
    set (h2 := put h1 (length h) (Some (mkCell 0 b2))) in *.
    assert (L2 : live h2 (length h) (mkCell 0 b2)) by (eapply live_put_same; eauto).
    assert (Lr2 : live h2 (root v) cr).
    { apply live_put_other; [lia|lia|]. now apply live_app. }
    rewrite (inc_live _ _ _ Lr2). cbn [bind]. pose proof (inv_inc _ _ _ _ _ I2 Lr2 Pr) as I3.
    set (h3 := put h2 (root v) (Some (mkCell (S (rc cr)) (bd cr)))) in *.
    assert (L3 : live h3 (length h) (mkCell 0 b2)) by (apply live_put_other; auto; [eapply live_lt; eauto|lia]).
    assert (X3 : extends h h3).
    { split; [unfold h3, h2; rewrite !put_length; lia|]. intros a c La. pose proof (live_lt _ _ _ La) as Ha.
      destruct (Nat.eq_dec a (root v)) as [->|N].
      - pose proof (live_fun _ _ _ _ La Lr) as ->. eexists. split; [eapply live_put_same; eauto|]. cbn. repeat split; auto; lia.
      - exists c. split; [|auto]. apply live_put_other; auto; [eapply live_lt; eauto|]. apply live_put_other; try lia. now apply live_app. }
    assert (Hh3 : length h3 = length h + 1) by (unfold h3, h2; rewrite !put_length; exact Hh1).
    assert (Es : subindex (k + 1) (length l) = 1).
    { rewrite subindex_div, El, Nat.div_same; [reflexivity|]. pose proof (pow4_pos (k + 1)). lia. }
    rewrite Es. rewrite (branch_live _ _ _ [Some (root v); None; None; None] L3) by reflexivity. cbn [bind child nth_error ab_assert].
    destruct (update_ok d k lv1 h3 None (length l) x (root v :: R) [] I3) as (n & h4 & lv4 & c4 & E4 & Hn & L4 & Z4 & Lvn & Ag4 & I4 & X4 & H4 & Zr4).
    { discriminate. }
    { destruct k; reflexivity. }
    { rewrite El. apply Nat.mod_same. pose proof (pow4_pos (k + 1)). lia. }
    replace (k + 1 - 1) with k by lia. rewrite E4. cbn [bind].
    assert (L5 : live h4 (length h) (mkCell 0 b2)).
    { destruct (proj2 X4 _ _ L3) as ([r b] & L & Bb & _ & Z). cbn in *. rewrite (Z eq_refl), Bb in L. exact L. }
    unfold set_child. rewrite (load_live _ _ _ L5). cbn [bind bd rc b2 set_nth].
    set (b6 := Branch [Some (root v); Some n; None; None] : body (T := T)).
    destruct X4 as [Xl4 Xa4].
    assert (I6 : Inv lv4 (put h4 (length h) (Some (mkCell 0 b6))) (kids (bd c4) ++ root v :: R)).
    { eapply inv_write; eauto.
      - rewrite Ag4, Lvr, Nat.add_1_r by lia. cbn. split; auto. constructor; [rewrite Ag4, Ag1 by lia; auto|]. constructor; auto.
      - cbn. constructor; [lia|]. constructor; auto. eapply live_lt; eauto. }
    set (h6 := put h4 (length h) (Some (mkCell 0 b6))) in *.
    assert (L6 : live h6 (length h) (mkCell 0 b6)) by (eapply live_put_same; eauto).
    assert (Ln6 : live h6 n c4) by (apply live_put_other; auto; [eapply live_lt; eauto|lia]).
    rewrite (inc_live _ _ _ Ln6), Z4. cbn [bind]. pose proof (inv_adopt _ _ _ _ _ I6 Ln6 Z4) as I7.
    set (h7 := put h6 n (Some (mkCell 1 (bd c4)))) in *.
    assert (L7 : live h7 (length h) (mkCell 0 b6)) by (apply live_put_other; auto; [eapply live_lt; eauto|lia]).
    assert (I7' : Inv lv4 h7 (kids (bd (mkCell 0 b6)) ++ R)).
    { eapply inv_perm; [|exact I7]. cbn. constructor. }
    pose proof (inv_adopt _ _ _ _ _ I7' L7 eq_refl) as I8. unfold make_vec. rewrite (inc_live _ _ _ L7). cbn [bind rc bd].
    set (h8 := put h7 (length h) (Some (mkCell 1 b6))) in *.
    assert (Low : forall a c, live h4 a c -> a <> length h -> exists c', live h8 a c' /\ bd c' = bd c /\ (a <> n -> c' = c)).
    { intros a c La N. destruct (Nat.eq_dec a n) as [->|N2].
      - pose proof (live_fun _ _ _ _ La L4) as ->. eexists. split; [|split; [|contradiction]].
        + apply live_put_other; auto; [eapply live_lt; eauto|]. eapply live_put_same; eauto.
        + reflexivity.
      - exists c. split; [|auto]. apply live_put_other; auto; [eapply live_lt; eauto|]. apply live_put_other; auto; [eapply live_lt; eauto|].
        apply live_put_other; auto. eapply live_lt; eauto. }
    assert (X8 : extends h h8).
    { split; [unfold h8, h7, h6; rewrite !put_length; lia|]. intros a c La. pose proof (live_lt _ _ _ La) as Ha.
      destruct (proj2 X3 _ _ La) as (c3 & Lc3 & B3 & P3 & Z3). destruct (Xa4 _ _ Lc3) as (c5 & Lc5 & B5 & P5 & Z5).
      destruct (Low a c5 Lc5 ltac:(lia)) as (c' & Lc' & Bc' & Ec'). rewrite Ec' in Lc' by lia. exists c5. repeat split; auto; congruence. }
    assert (L8 : live h8 (length h) (mkCell 1 b6)) by (eapply live_put_same; eauto).
    exists (mkVec (length h) (length l + 1) (k + 1)), h8, lv4. cbn [root level size]. conjs; auto.
    + intros a Ha. rewrite Ag4 by lia. auto.
    + split; [cbn [root level]; rewrite Ag4 by lia; exact Lvr|]. split; [rewrite app_length; cbn; lia|]. cbn [root level]. split; [|split].
      * rewrite Nat.add_1_r. cbn [VecTree.holds]. exists (mkCell 1 b6), [Some (root v); Some n; None; None]. conjs; auto.
        assert (Hv : holds h8 k (Some (root v)) l) by (eapply holds_ext; eauto).
        assert (Hx : holds h8 k (Some n) [x]).
        { eapply holds_low; [exact I4| | |exact H4].
          - intros a c La Hlv. destruct (Low a c La) as (c' & Lc' & Bc' & _); eauto. intros ->. rewrite Ag4, Lvr in Hlv by lia. lia.
          - intros a [= <-]. exact Lvn. }
        assert (Hn0 : holds h8 k None []) by (destruct k; reflexivity).
        pose proof (pow4_pos (k + 1)).
        exists l, [x]. conjs; auto; try lia.
        { split; [discriminate|]. intros ->. cbn in El. lia. }
        exists [x], []. conjs; auto; try easy.
        exists [], []. conjs; auto; try easy; [cbn; lia|]. exists [], []. conjs; auto; try easy. cbn; lia.
      * rewrite app_length. cbn [length]. rewrite El. rewrite (Nat.add_1_r (k + 1)). cbn [Nat.pow]. pose proof (pow4_pos (k + 1)). lia.
      * right. rewrite app_length. cbn [length]. lia.
    + intros a c La Za. destruct (Nat.eq_dec a (length h)) as [->|N].
      { pose proof (live_fun _ _ _ _ La L8) as ->. discriminate. }
      apply live_put_other in La; auto; [|eapply live_lt; eauto].
      destruct (Nat.eq_dec a n) as [->|N2].
      { pose proof (live_fun _ _ _ _ La (live_put_same _ _ _ (mkCell 1 (bd c4)) Ln6)) as ->. discriminate. }
      apply live_put_other in La; auto; [|eapply live_lt; eauto]. apply live_put_other in La; auto; [|eapply live_lt; eauto].
      destruct (Zr4 _ _ La Za) as [->|(c3 & Lc3 & Zc3)]; [contradiction|].
      destruct (Nat.eq_dec a (root v)) as [->|N3].
      { pose proof (live_fun _ _ _ _ Lc3 (live_put_same _ _ _ (mkCell (S (rc cr)) (bd cr)) Lr2)) as ->. discriminate. }
      apply live_put_other in Lc3; auto; [|eapply live_lt; eauto]. apply live_put_other in Lc3; auto; [|lia].
      unfold live, h1 in Lc3. destruct (Nat.lt_ge_cases a (length h)) as [Ha|Ha]; [rewrite nth_error_app1 in Lc3 by auto; exists c3; auto|].
      rewrite nth_error_app2 in Lc3 by auto. destruct (a - length h) as [|m] eqn:Em; [lia|]. destruct m; discriminate.
Qed.

(** * Programs *)
Definition vget (l : list (option vec)) (i : nat) : option vec := match nth_error l i with Some o => o | None => None end.
Lemma vget_pad n : forall l k, vget (pad l n) k = vget l k.
Proof.
  induction n as [|n IH]; intros l k; cbn [pad]; auto. unfold vget in *.
  destruct l as [|x l], k as [|k]; cbn [nth_error]; auto. rewrite (IH [] k). destruct k; reflexivity.
Qed.
Lemma pad_length n : forall l, n <= length (pad l n).
Proof. induction n as [|n IH]; intros l; cbn [pad]; [lia|]. destruct l; cbn [length]; specialize (IH ltac:(first [exact []|exact l])) as Q; cbn; [specialize (IH [])|specialize (IH l)]; lia. Qed.
Lemma var_set p h i o k : var (set_var p h i o) k = if k =? i then o else var (T := T) p k.
Proof.
  unfold var, set_var. cbn [vars]. rewrite nth_error_set by (pose proof (pad_length (S i) (vars p)); lia).
  destruct (Nat.eqb_spec k i); auto. apply vget_pad.
Qed.
Definition oroot (o : option vec) : list nat := match o with Some v => [root v] | None => [] end.
Lemma roots_pad n : forall l, var_roots (pad l n) = var_roots l.
Proof.
  induction n as [|n IH]; intros l; cbn [pad]; auto. destruct l as [|x l]; cbn [var_roots flat_map app].
  - apply (IH []).
  - f_equal. apply IH.
Qed.
Lemma roots_set l i o : i < length l -> Permutation (oroot (vget l i) ++ var_roots (set_nth l i o)) (oroot o ++ var_roots l).
Proof.
  revert i. induction l as [|x l IH]; intros [|i] H; cbn in H; try lia.
  - cbn [vget nth_error set_nth var_roots flat_map]. fold (oroot o) (oroot x). rewrite !app_assoc. apply Permutation_app_tail, Permutation_app_comm.
  - cbn [set_nth]. change (vget (x :: l) (S i)) with (vget l i).
    change (var_roots (x :: set_nth l i o)) with (oroot x ++ var_roots (set_nth l i o)). change (var_roots (x :: l)) with (oroot x ++ var_roots l).
    rewrite (Permutation_app_swap_app (oroot (vget l i))), (Permutation_app_swap_app (oroot o)). apply Permutation_app_head, IH. lia.
Qed.
Lemma roots_var p h i o : Permutation (oroot (var p i) ++ var_roots (vars (set_var p h i o))) (oroot o ++ var_roots (vars (T := T) p)).
Proof.
  assert (H : i < length (pad (vars p) (S i))) by (pose proof (pad_length (S i) (vars p)); lia).
  pose proof (roots_set _ i o H) as Q. rewrite vget_pad, roots_pad in Q. exact Q.
Qed.
Lemma root_in p i v : var (T := T) p i = Some v -> In (root v) (var_roots (vars p)).
Proof.
  unfold var. destruct (nth_error (vars p) i) as [o|] eqn:E; [|discriminate]. intros ->. apply in_flat_map. exists (Some v). split; [|cbn; auto].
  eapply nth_error_In; eauto.
Qed.
Definition agrees lv h (p : prog (T := T)) (e : env (T := T)) : Prop :=
  forall i, match var p i, e i with Some v, Some l => vecok lv h v l | None, None => True | _, _ => False end.
Record SI (p : prog (T := T)) (e : env (T := T)) : Prop := mkSI {
  si_inv : exists lv, Inv lv (mem p) (var_roots (vars p)) /\ agrees lv (mem p) p e;
  si_counted : forall a c, live (mem p) a c -> 0 < rc c }.

Lemma SI_start : SI start nothing.
Proof.
  split.
  - exists (fun _ => 0). split.
    + split; cbn; intros; try lia; unfold live in *; destruct a; discriminate.
    + intros i. unfold var, nothing. cbn. destruct i; cbn; auto.
  - intros [|a] c H; discriminate.
Qed.

Lemma agrees_get lv h p e i l : agrees lv h p e -> e i = Some l -> exists v, var p i = Some v /\ vecok lv h v l.
Proof. intros A E. specialize (A i). rewrite E in A. destruct (var p i) as [v|]; [eauto|contradiction]. Qed.
Lemma agrees_none lv h p e i : agrees lv h p e -> e i = None -> var p i = None.
Proof. intros A E. specialize (A i). rewrite E in A. destruct (var p i); [contradiction|auto]. Qed.

Lemma fewer_counted h h' : (forall a c, live h a c -> 0 < rc c) -> fewer h h' -> forall a c, live h' a c -> 0 < rc c.
Proof.
  intros C F a c L. destruct (Nat.eq_dec (rc c) 0) as [Z|]; [|lia]. destruct (F _ _ L Z) as (c0 & L0 & Z0). apply C in L0. lia.
Qed.

(** A new variable *)
Lemma SI_bind p e i v l h' lv lv' : SI p e -> Inv lv (mem p) (var_roots (vars p)) -> agrees lv (mem p) p e ->
  var p i = None -> Inv lv' h' (root v :: var_roots (vars p)) -> extends (mem p) h' ->
  (forall a, a < length (mem p) -> lv' a = lv a) -> vecok lv' h' v l -> fewer (mem p) h' ->
  SI (set_var p h' i (Some v)) (set_env e i (Some l)).
Proof.
  intros [_ C] I A E I' X Ag V F. split.
  - exists lv'. split.
    + eapply inv_perm; [|exact I']. pose proof (roots_var p h' i (Some v)) as P. rewrite E in P. cbn [oroot app] in P. now apply Permutation_sym.
    + intros k. rewrite var_set. unfold set_env. cbn [mem set_var]. destruct (Nat.eqb_spec k i) as [->|N]; auto. specialize (A k).
      destruct (var p k) as [w|] eqn:W, (e k) as [lw|]; auto. eapply vecok_ext; eauto.
      destruct (inv_root _ _ _ _ I (root_in _ _ _ W)) as (c & L & _). eapply live_lt; eauto.
  - cbn [mem set_var]. eapply fewer_counted; eauto.
Qed.

(** A variable goes *)
Lemma SI_unbind lv p h e i v (A : agrees lv h p e) : (forall a c, live h a c -> 0 < rc c) -> Inv lv h (var_roots (vars p)) -> var p i = Some v ->
  exists h', release (level v) h (Some (root v)) = Ok h' /\ keeps h h' /\ fewer h h' /\
    exists R', Inv lv h' R' /\ Permutation (root v :: R') (var_roots (vars p)) /\ Permutation R' (var_roots (vars (set_var p h' i None))) /\
    (forall k l, k <> i -> e k = Some l -> exists w, var p k = Some w /\ In (root w) R' /\ vecok lv h' w l).
Proof.
  intros C I W. pose proof (roots_var p h i None) as P. rewrite W in P. cbn [oroot app] in P.
  set (R' := var_roots (vars (set_var p h i None))) in *.
  assert (Lv : lv (root v) = level v) by (specialize (A i); rewrite W in A; destruct (e i); [apply A|contradiction]).
  destruct (release_ok lv (level v) h (root v) R') as (h' & E & I' & K & F); auto.
  { eapply inv_perm; [apply Permutation_sym; exact P|exact I]. }
  exists h'. conjs; auto. exists R'. conjs; auto. intros k l N Ek. destruct (agrees_get _ _ _ _ _ _ A Ek) as (w & Wk & V).
  exists w. assert (In (root w) R').
  { unfold R'. apply root_in with (i := k). rewrite var_set. destruct (Nat.eqb_spec k i); [contradiction|auto]. }
  conjs; auto. eapply vecok_kept; eauto.
Qed.

(** Assigning [w], whose root is a live reference other than the old one, to variable [i] *)
Lemma SI_assign lv p h e i v l w Rx : (forall a c, live h a c -> 0 < rc c) -> agrees lv h p e ->
  Inv lv h (Rx ++ var_roots (vars p)) -> var p i = Some v -> vecok lv h w l ->
  (In (root w) Rx \/ exists j, j <> i /\ var p j = Some w) ->
  exists h', assign_vec h v w = Ok (w, h') /\ (forall a c, live h' a c -> 0 < rc c) /\
    Inv lv h' (Rx ++ var_roots (vars (set_var p h' i (Some w)))) /\ agrees lv h' (set_var p h' i (Some w)) (set_env e i (Some l)).
Proof.
  intros C A I W Vw Hw. pose proof (roots_var p h i None) as P. rewrite W in P. cbn [oroot app] in P.
  set (R' := var_roots (vars (set_var p h i None))) in *.
  assert (Lv : lv (root v) = level v) by (specialize (A i); rewrite W in A; destruct (e i); [apply A|contradiction]).
  destruct (release_ok lv (level v) h (root v) (Rx ++ R')) as (h1 & E1 & I1 & K1 & F1); auto.
  { eapply inv_perm; [|exact I]. rewrite (Permutation_middle Rx R'). apply Permutation_app_head, Permutation_sym, P. }
  assert (InO : forall k w, k <> i -> var p k = Some w -> In (root w) R').
  { intros k w0 N Wk. unfold R'. apply root_in with (i := k). rewrite var_set. destruct (Nat.eqb_spec k i); [contradiction|auto]. }
  assert (InW : In (root w) (Rx ++ R')).
  { apply in_or_app. destruct Hw as [H|(j & N & Wj)]; eauto. }
  destruct (inv_root _ _ _ _ I1 InW) as (c & L & Pc).
  exists (put h1 (root w) (Some (mkCell (S (rc c)) (bd c)))).
  pose proof (inv_inc _ _ _ _ _ I1 L Pc) as I2.
  assert (X : extends h1 (put h1 (root w) (Some (mkCell (S (rc c)) (bd c))))) by (apply extends_put; auto; lia).
  set (h2 := put h1 (root w) (Some (mkCell (S (rc c)) (bd c)))) in *.
  assert (Vk : forall k u lu, k = i /\ u = w /\ lu = l \/ k <> i /\ var p k = Some u /\ vecok lv h u lu -> vecok lv h2 u lu).
  { intros k u lu H. assert (V : vecok lv h u lu /\ In (root u) (Rx ++ R')).
    { destruct H as [(_ & -> & ->)|(N & Wk & V)]; auto. split; auto. apply in_or_app. eauto. }
    destruct V as [V InU]. eapply vecok_ext; [|exact X| |eapply vecok_kept; eauto]; auto.
    destruct (inv_root _ _ _ _ I1 InU) as (cu & Lu & _). eapply live_lt; eauto. }
  conjs.
  - unfold assign_vec. rewrite E1. cbn [bind]. rewrite (inc_live _ _ _ L). reflexivity.
  - eapply fewer_counted; [eapply fewer_counted; [exact C|exact F1]|]. apply fewer_put; auto; lia.
  - eapply inv_perm; [|exact I2].
    pose proof (roots_var p h2 i (Some w)) as Q. rewrite W in Q. cbn [oroot app] in Q.
    rewrite (Permutation_middle Rx). apply Permutation_app_head.
    apply (Permutation_cons_inv (a := root v)). rewrite Q. rewrite perm_swap. apply Permutation_cons; auto.
  - intros k. rewrite var_set. unfold set_env. destruct (Nat.eqb_spec k i) as [->|N].
    + eapply Vk. left. eauto.
    + specialize (A k). destruct (var p k) as [u|] eqn:Wk, (e k) as [lu|]; auto. eapply Vk. right. eauto.
Qed.

Lemma step_ok p e o e' : SI p e -> means e o e' -> exists p', do_op d p o = Some (Ok p') /\ SI p' e'.
Proof.
  intros S M. pose proof S as [(lv & I & A) C]. destruct M as [e i E|e i j x l Ei Ej B|e i j li lj N Ei Ej|e i j x li lj Ei Ej B|e i l Ei]; cbn [do_op].
  - rewrite (agrees_none _ _ _ _ _ A E). destruct (new_ok d lv (mem p) _ I) as (v & h' & lv' & E1 & I' & X & Ag & V & F).
    rewrite E1. cbn [bind]. eexists. split; [reflexivity|]. eapply SI_bind; eauto. eapply agrees_none; eauto.
  - rewrite (agrees_none _ _ _ _ _ A Ei). destruct (agrees_get _ _ _ _ _ _ A Ej) as (w & Wj & Vw). rewrite Wj.
    destruct (cons_ok lv (mem p) _ w l x I (root_in _ _ _ Wj) Vw B) as (v & h' & lv' & E1 & I' & X & Ag & V & F).
    rewrite E1. cbn [bind]. eexists. split; [reflexivity|]. eapply SI_bind; eauto. eapply agrees_none; eauto.
  - destruct (agrees_get _ _ _ _ _ _ A Ei) as (v & Wi & Vv). destruct (agrees_get _ _ _ _ _ _ A Ej) as (w & Wj & Vw). rewrite Wi, Wj.
    destruct (SI_assign lv p (mem p) e i v lj w [] C A I Wi Vw) as (h' & E1 & C' & I' & A'); [eauto|].
    rewrite E1. cbn [bind]. eexists. split; [reflexivity|]. split; [exists lv; auto|exact C'].
  - destruct (agrees_get _ _ _ _ _ _ A Ei) as (v & Wi & Vv). destruct (agrees_get _ _ _ _ _ _ A Ej) as (w & Wj & Vw). rewrite Wi, Wj.
    destruct (cons_ok lv (mem p) _ w lj x I (root_in _ _ _ Wj) Vw B) as (t & h1 & lv1 & E1 & I1 & X1 & Ag1 & V1 & F1).
    rewrite E1. cbn [bind].
    assert (A1 : agrees lv1 h1 p e).
    { intros k. specialize (A k). destruct (var p k) as [u|] eqn:Wk, (e k) as [lu|]; auto. eapply vecok_ext; eauto.
      destruct (inv_root _ _ _ _ I (root_in _ _ _ Wk)) as (c & L & _). eapply live_lt; eauto. }
    destruct (SI_assign lv1 p h1 e i v (lj ++ [x]) t [root t] (fewer_counted _ _ C F1) A1 I1 Wi V1) as (h2 & E2 & C2 & I2 & A2); [cbn; auto|].
    rewrite E2. cbn [bind]. unfold destroy_vec.
    assert (V2 : vecok lv1 h2 t (lj ++ [x])).
    { specialize (A2 i). rewrite var_set in A2. unfold set_env in A2. rewrite Nat.eqb_refl in A2. exact A2. }
    destruct (release_ok lv1 (level t) h2 (root t) _ I2 (proj1 V2)) as (h3 & E3 & I3 & K3 & F3). rewrite E3. cbn [bind].
    eexists. split; [reflexivity|]. split; [|cbn [mem set_var]; eapply fewer_counted; eauto].
    exists lv1. split; [exact I3|]. intros k. specialize (A2 k). rewrite var_set in *.
    destruct (if k =? i then Some t else var p k) as [u|] eqn:Wk, (set_env e i (Some (lj ++ [x])) k) as [lu|]; auto.
    cbn [mem set_var]. eapply vecok_kept; eauto. apply root_in with (i := k). rewrite var_set. exact Wk.
  - destruct (agrees_get _ _ _ _ _ _ A Ei) as (v & Wi & Vv). rewrite Wi.
    destruct (SI_unbind lv p (mem p) e i v A C I Wi) as (h' & E1 & K & F & R' & I' & P1 & P2 & Vs).
    unfold destroy_vec. rewrite E1. cbn [bind]. eexists. split; [reflexivity|]. split; [|cbn [mem set_var]; eapply fewer_counted; eauto].
    exists lv. split; [eapply inv_perm; eauto|]. intros k. rewrite var_set. unfold set_env. destruct (Nat.eqb_spec k i) as [->|N]; auto.
    destruct (e k) as [lk|] eqn:Ek.
    + destruct (Vs k lk N Ek) as (w & Wk & _ & V). rewrite Wk. exact V.
    + now rewrite (agrees_none _ _ _ _ _ A Ek).
Qed.

Lemma run_ok os : forall p e e', SI p e -> runs e os e' -> exists p', run d p os = Some (Ok p') /\ SI p' e'.
Proof.
  induction os as [|o os IH]; intros p e e' S R; inversion R; subst; cbn [run].
  - eauto.
  - match goal with H : means _ _ _ |- _ => destruct (step_ok _ _ _ _ S H) as (p1 & E1 & S1) end. rewrite E1. eauto.
Qed.
End Prog.
