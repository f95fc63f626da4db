From Coq Require Import List Arith NArith Bool Lia Permutation.
From Verif Require Import Outcome VecModel VecSpec VecProofs VecTree VecRun VecProg.
Import ListNotations.
Local Open Scope nat_scope.

Section Props.
Context {T : Type} (d : T).

(** * C30: every version shows its own elements, whatever was done with the others *)
Lemma SI_shows p e : SI d p e -> state_shows p e.
Proof.
  intros [(lv & _ & A) _] i. specialize (A i). destruct (e i) as [l|], (var p i) as [v|]; try contradiction; auto.
  exists v. split; auto. eapply vecok_shows; eauto.
Qed.
Theorem C30_appending_is_pure : forall os e, runs nothing os e ->
  exists p, run d start os = Some (Ok p) /\ state_shows p e.
Proof. intros os e R. destruct (run_ok d os _ _ _ (SI_start d) R) as (p & E & S). exists p. split; auto. now apply SI_shows. Qed.

(** * C31: counts and lifetimes *)
Lemma children_kids (h : heap (T := T)) : (forall a c, live h a c -> 0 < rc c) -> forall a, cnt (flat_map children_of h) a = refs h a.
Proof.
  induction h as [|o h IH]; intros C a; [reflexivity|]. rewrite refs_cons. cbn [flat_map]. rewrite cnt_app, IH by (intros b c L; exact (C (S b) c L)).
  f_equal. destruct o as [[n [vs|cs]]|]; cbn; auto; destruct (Nat.eqb_spec n 0) as [->|]; auto.
  specialize (C 0 (mkCell 0 (Branch cs)) eq_refl). cbn in C. lia.
Qed.
Lemma SI_references p e : SI d p e -> forall a c, nth_error (mem p) a = Some (Some c) -> rc c = references p a.
Proof.
  intros [(lv & I & _) C] a c L. rewrite (inv_rc _ _ _ I _ _ L). unfold references. change (count_occ Nat.eq_dec) with cnt.
  now rewrite (children_kids _ C).
Qed.
Lemma live_children (h : heap (T := T)) b c a : live h b c -> In a (kids (bd c)) <-> In a (children_of (Some c)).
Proof. destruct c as [n [vs|cs]]; reflexivity. Qed.
Lemma SI_reachable p e : SI d p e -> forall a, allocated (mem p) a <-> reachable p a.
Proof.
  intros [(lv & I & A) C] a. split.
  - (* go up: each step raises the level, which is bounded by that of the variables' roots *)
    assert (Up : forall a c, live (mem p) a c -> In a (var_roots (vars p)) \/
               exists b cb, live (mem p) b cb /\ In a (kids (bd cb)) /\ lv b = S (lv a)).
    { intros x c L. pose proof (inv_rc _ _ _ I _ _ L) as R. specialize (C _ _ L).
      destruct (Nat.eq_dec (cnt (var_roots (vars p)) x) 0) as [Z|Z].
      - right. destruct (refs_pos (mem p) x) as (b & cb & Lb & Pb & Kb); [lia|]. exists b, cb. conjs; auto.
        pose proof (inv_shape _ _ _ I _ _ Lb) as Sh. destruct (bd cb) as [vs|cs]; [contradiction|].
        destruct (lv b) as [|n]; [contradiction|]. destruct Sh as [_ F]. rewrite Forall_forall in F. now rewrite (F x Kb).
      - left. apply cnt_in. lia. }
    assert (Bd : exists M, forall a c, live (mem p) a c -> lv a <= M).
    { exists (list_max (map lv (seq 0 (length (mem p))))). intros x c L. apply live_lt in L.
      pose proof (proj1 (list_max_le (map lv (seq 0 (length (mem p)))) _) (le_n _)) as F. rewrite Forall_forall in F. apply F.
      apply in_map, in_seq. lia. }
    destruct Bd as (M & Bd). intros (c & L). change (live (mem p) a c) in L.
    remember (M - lv a) as n eqn:En. revert a c L En. induction n as [|n IH]; intros a c L En;
      destruct (Up a c L) as [H|(b & cb & Lb & K & Lv)]; try (now apply reach_root).
    + exfalso. pose proof (Bd _ _ Lb). lia.
    + eapply reach_child; [apply (IH b cb Lb); pose proof (Bd _ _ Lb); lia|exact Lb|]. eapply live_children; eauto.
  - induction 1 as [a H|a b c R IH N H].
    + destruct (inv_root _ _ _ _ I H) as (c & L & _). exists c. exact L.
    + destruct c as [c|]; [|contradiction]. change (live (mem p) b c) in N. apply (live_children _ _ _ _ N) in H.
      destruct (inv_kid _ _ _ _ _ _ I N (C _ _ N) H) as (ca & La & _). exists ca. exact La.
Qed.
Theorem C31_counts_and_lifetimes : forall os e, runs nothing os e ->
  exists p, run d start os = Some (Ok p) /\
    (forall a c, nth_error (mem p) a = Some (Some c) -> rc c = references p a) /\
    (forall a, allocated (mem p) a <-> reachable p a).
Proof.
  intros os e R. destruct (run_ok d os _ _ _ (SI_start d) R) as (p & E & S). exists p. conjs; auto.
  - eapply SI_references; eauto.
  - eapply SI_reachable; eauto.
Qed.
Theorem C31_nothing_leaks : forall os e, runs nothing os e -> (forall i, e i = None) ->
  exists p, run d start os = Some (Ok p) /\ forall a, ~ allocated (mem p) a.
Proof.
  intros os e R N. destruct (run_ok d os _ _ _ (SI_start d) R) as (p & E & S). exists p. split; auto.
  intros a Al. apply (SI_reachable _ _ S) in Al. pose proof S as [(lv & I & A) _].
  assert (Z : forall v, ~ In v (var_roots (vars p))).
  { intros r H. apply in_flat_map in H as (o & H & Hr). destruct o as [v|]; [|contradiction]. apply In_nth_error in H as (i & H).
    specialize (A i). rewrite N in A. unfold var in A. rewrite H in A. exact A. }
  induction Al as [a H|]; auto. now apply (Z a).
Qed.

(** * C32: iteration *)
Lemma iter_loop_ok h lv v l e : vecok d lv h v l -> forall n j it fuel, j + n = length l -> n < fuel ->
  offset it = (j / 4) * 4 -> sub it = j mod 4 -> (j < length l -> leaf_for (level v) h (root v) j = Ok (current it)) ->
  offset e + sub e = length l -> (exists lf, leaf_for (level v) h (root v) (length l) = Ok lf) ->
  iter_loop fuel h v it e = Ok (skipn j l).
Proof.
  intros V. pose proof V as (Lv & Sz & H & B & _). induction n as [|n IH]; intros j it fuel En Fu Eo Es Ec Ee (le & Le);
    (destruct fuel as [|fuel]; [lia|]); cbn [iter_loop]; unfold iter_eq; rewrite Eo, Es, Ee;
    pose proof (Nat.div_mod j 4 ltac:(discriminate)) as Dm.
  - replace (j / 4 * 4 + j mod 4) with j by lia. replace (j =? length l) with true by (symmetry; apply Nat.eqb_eq; lia).
    rewrite skipn_all2 by lia. reflexivity.
  - replace (j / 4 * 4 + j mod 4) with j by lia. destruct (Nat.eqb_spec j (length l)); [lia|].
    assert (Hj : j < length l) by lia. specialize (Ec Hj).
    destruct (leaf_for_ok d _ _ _ _ j H) as (lf & vs & E1 & E2 & E3); [rewrite Nat.mod_small; lia|].
    rewrite Ec in E1. injection E1 as <-. rewrite (Nat.mod_small j (4 ^ _)) in E3 by lia.
    destruct (nth_error l j) as [x|] eqn:Nx; [|apply nth_error_None in Nx; lia].
    unfold iter_get, value_in. rewrite Es, Eo, Sz. replace (j mod 4 + j / 4 * 4) with j by lia.
    destruct (Nat.ltb_spec j (length l)); [|lia]. cbn [ab_assert bind]. rewrite E2. cbn [bind]. rewrite E3. cbn [bind].
    assert (Sk : skipn j l = x :: skipn (S j) l).
    { clear - Nx. revert l Nx. induction j as [|j IHj]; intros [|y l] Nx; cbn in *; try discriminate; [congruence|auto]. }
    rewrite Sk. unfold iter_next. rewrite Es, Eo. replace (j mod 4 + 1 + j / 4 * 4) with (S j) by lia.
    assert (Es4 : (S j) / 4 = if j mod 4 + 1 =? 4 then j / 4 + 1 else j / 4).
    { destruct (Nat.eqb_spec (j mod 4 + 1) 4).
      - replace (S j) with ((j / 4 + 1) * 4) by lia. now rewrite Nat.div_mul.
      - symmetry. apply (Nat.div_unique _ _ _ (j mod 4 + 1)); [pose proof (Nat.mod_upper_bound j 4); lia|lia]. }
    assert (Em4 : (S j) mod 4 = if j mod 4 + 1 =? 4 then 0 else j mod 4 + 1).
    { pose proof (Nat.div_mod (S j) 4 ltac:(discriminate)) as D2. rewrite Es4 in D2. destruct (j mod 4 + 1 =? 4) eqn:Q; [apply Nat.eqb_eq in Q|]; lia. }
    destruct (Nat.eqb_spec (j mod 4 + 1) 4) as [Q|Q].
    + assert (Nl : exists lf, leaf_for (level v) h (root v) (S j) = Ok lf).
      { destruct (Nat.eq_dec (S j) (length l)) as [->|Nn]; [eauto|].
        destruct (leaf_for_ok d _ _ _ _ (S j) H) as (lf & vs' & F1 & _); [rewrite Nat.mod_small; lia|eauto]. }
      destruct Nl as (lf & Nl). rewrite Nl. cbn [bind]. rewrite (IH (S j)); auto; cbn [offset sub current]; try lia.
      exists le. exact Le.
    + cbn [bind]. rewrite (IH (S j)); auto; cbn [offset sub current]; try lia.
      * intros _. rewrite <- Ec. apply leaf_for_block. exact Es4.
      * exists le. exact Le.
Qed.

Lemma end_leaf h lv v l : vecok d lv h v l ->
  leaf_for (level v) h (root v) (length l) = Trap Assertion /\ aborts (length l) \/
  (exists lf, leaf_for (level v) h (root v) (length l) = Ok lf) /\ ~ aborts (length l).
Proof.
  intros (Lv & Sz & H & B & Lw). destruct (level v) as [|k] eqn:El.
  - right. split; [exists (root v); reflexivity|]. intros (_ & A & _). cbn in B. lia.
  - destruct Lw as [Lw|Lw]; [discriminate|].
    assert (L4 : 4 < length l) by (cbn [Nat.pow] in Lw; pose proof (pow4_pos k); lia).
    destruct (Nat.eq_dec (length l mod 4) 0) as [M|M].
    + destruct (Nat.eq_dec (length l) (4 ^ (S k + 1))) as [F|F].
      * right. split.
        -- destruct (leaf_for_ok d _ _ _ _ (length l) H) as (lf & vs & E1 & _); [|eauto].
           rewrite F at 1. rewrite Nat.mod_same by (apply Nat.pow_nonzero; discriminate). lia.
        -- intros (_ & _ & A). now apply (A (S k + 1)).
      * left. split.
        -- apply (leaf_for_trap d k h (root v) l (length l)); auto. replace (k + 1 + 1) with (S k + 1) by lia. rewrite Nat.mod_small by lia. lia.
        -- split; [auto|split; [auto|]]. intros m E. rewrite E in Lw, B. apply Nat.pow_lt_mono_r_iff in Lw; [|lia].
           apply Nat.pow_le_mono_r_iff in B; [|lia]. apply F. rewrite E. f_equal. lia.
    + right. split; [|intros (A & _); contradiction].
      destruct (leaf_for_ok d _ _ _ _ (length l - 1) H) as (lf & vs & E1 & _); [rewrite Nat.mod_small; lia|].
      exists lf. rewrite <- E1. apply leaf_for_block. pose proof (Nat.div_mod (length l) 4 ltac:(discriminate)).
      pose proof (Nat.mod_upper_bound (length l) 4 ltac:(discriminate)).
      apply (Nat.div_unique _ _ _ (length l mod 4 - 1)); lia.
Qed.
Lemma iterate_ok h lv v l : vecok d lv h v l ->
  (aborts (length l) -> forall fuel, iterate fuel h v = Trap Assertion) /\
  (~ aborts (length l) -> forall fuel, length l < fuel -> iterate fuel h v = Ok l).
Proof.
  intros V. pose proof V as (Lv & Sz & H & B & Lw).
  assert (E0 : exists lf, leaf_for (level v) h (root v) 0 = Ok lf).
  { destruct (level v) as [|k] eqn:El; [exists (root v); reflexivity|]. destruct Lw as [Lw|Lw]; [discriminate|].
    destruct (leaf_for_ok d _ _ _ _ 0 H) as (lf & vs & E1 & _); [rewrite Nat.mod_0_l by (apply Nat.pow_nonzero; discriminate); pose proof (pow4_pos (S k)); lia|eauto]. }
  destruct E0 as (l0 & E0). unfold iterate, iter_at. rewrite E0. cbn [bind]. rewrite Sz.
  destruct (end_leaf h lv v l V) as [(E & A)|((lf & E) & A)]; split; intros A'; try contradiction.
  - intros fuel. rewrite E. reflexivity.
  - intros fuel F. rewrite E. cbn [bind].
    change l with (skipn 0 l) at 3. eapply iter_loop_ok with (n := length l); eauto; cbn [offset sub current]; try lia; auto.
    rewrite land3, Nat.shiftr_div_pow2, Nat.shiftl_mul_pow2. change (2 ^ 2) with 4.
    pose proof (Nat.div_mod (length l) 4 ltac:(discriminate)). lia.
Qed.

(** What they do *)
Theorem C32_range_for_partial : forall os e i l, runs nothing os e -> e i = Some l ->
  exists p v, run d start os = Some (Ok p) /\ var p i = Some v /\
    (~ aborts (length l) -> forall fuel, length l < fuel -> iterate fuel (mem p) v = Ok l) /\
    (aborts (length l) -> forall fuel, iterate fuel (mem p) v = Trap Assertion).
Proof.
  intros os e i l R E. destruct (run_ok d os _ _ _ (SI_start d) R) as (p & Ep & S). pose proof S as [(lv & _ & A) _].
  destruct (agrees_get d _ _ _ _ _ _ A E) as (v & W & V). exists p, v. destruct (iterate_ok _ _ _ _ V). auto.
Qed.
Theorem C32_foreach_partial : forall os e i l, runs nothing os e -> e i = Some l ->
  exists p v k, run d start os = Some (Ok p) /\ var p i = Some v /\ foreach_vec (mem p) v = Ok (l ++ repeat d k) /\
    k <= 4 /\ (k = 0 <-> l <> [] /\ length l mod 4 = 0).
Proof.
  intros os e i l R E. destruct (run_ok d os _ _ _ (SI_start d) R) as (p & Ep & S). pose proof S as [(lv & _ & A) _].
  destruct (agrees_get d _ _ _ _ _ _ A E) as (v & W & V). pose proof V as (_ & _ & H & B & Lw).
  destruct l as [|x l'].
  - exists p, v, 4. conjs; auto; [|split; [discriminate|intros [Q _]; contradiction]].
    destruct Lw as [Lw|Lw]; [|cbn in Lw; lia]. unfold foreach_vec. rewrite Lw in *. destruct H as (c & L & _ & Bc).
    cbn [foreach]. now rewrite (leaf_live _ _ _ _ L Bc).
  - set (l := x :: l') in *. assert (N : l <> []) by discriminate. exists p, v, (padding (length l)). conjs; auto.
    + now apply (foreach_ok d).
    + unfold padding. pose proof (Nat.mod_upper_bound (4 - length l mod 4) 4 ltac:(discriminate)). lia.
    + unfold padding. pose proof (Nat.mod_upper_bound (length l) 4 ltac:(discriminate)) as U.
      split; [intros Z; split; auto|intros [_ Z]; now rewrite Z].
      destruct (Nat.eq_dec (length l mod 4) 0) as [|Nz]; auto. rewrite Nat.mod_small in Z by lia. lia.
Qed.

(** * C74: assigning a vector to itself *)
Lemma put_put (h : heap (T := T)) a o o' : put (put h a o) a o' = put h a o'.
Proof. revert a; induction h as [|y h IH]; intros [|a]; cbn; auto. now rewrite IH. Qed.
Lemma put_same (h : heap (T := T)) a o : nth_error h a = Some o -> put h a o = h.
Proof. revert a; induction h as [|y h IH]; intros [|a] H; cbn in *; try discriminate; [congruence|]. now rewrite IH. Qed.
Lemma set_nth_same {A} (l : list A) i x : nth_error l i = Some x -> set_nth l i x = l.
Proof. revert i; induction l as [|y l IH]; intros [|i] H; cbn in *; try discriminate; [congruence|]. now rewrite IH. Qed.
Lemma pad_same : forall n l, n <= length l -> pad l n = l.
Proof. induction n as [|n IH]; intros [|x l] H; cbn in *; auto; try lia. now rewrite IH by lia. Qed.

Theorem C74_self_assignment_partial : forall os e i l, runs nothing os e -> e i = Some l ->
  exists p v, run d start os = Some (Ok p) /\ var p i = Some v /\
    (2 <= references p (root v) -> run d start (os ++ [OAssign i i]) = Some (Ok p)) /\
    (references p (root v) < 2 -> run d start (os ++ [OAssign i i]) = Some (UB UseAfterFree)).
Proof.
  intros os e i l R E. destruct (run_ok d os _ _ _ (SI_start d) R) as (p & Ep & S). pose proof S as [(lv & I & A) C].
  destruct (agrees_get d _ _ _ _ _ _ A E) as (v & W & V). exists p, v.
  assert (App : forall os p0, run d p0 os = Some (Ok p) -> run d p0 (os ++ [OAssign i i]) = run d p [OAssign i i]).
  { clear. induction os as [|o os IH]; intros p0 H; cbn [run app] in *; [now injection H as ->|].
    destruct (do_op d p0 o) as [[p1| | | |]|]; try discriminate. now apply IH. }
  rewrite (App _ _ Ep). cbn [run do_op]. rewrite W.
  destruct (inv_root _ _ _ _ I (root_in _ _ _ W)) as (c & L & Pc). pose proof (SI_references _ _ S _ _ L) as Rc. rewrite <- Rc.
  conjs; auto; intros H.
  - unfold assign_vec. rewrite (release_shared _ _ _ _ L) by lia. cbn [bind].
    rewrite (inc_live _ _ _ (live_put_same _ _ _ _ L)). cbn [bind rc bd]. do 2 f_equal. rewrite put_put.
    assert (Ecell : mkCell (Datatypes.S (rc c - 1)) (bd c) = c).
    { replace (Datatypes.S (rc c - 1)) with (rc c) by lia. now destruct c. }
    rewrite Ecell.
    rewrite put_same by exact L. unfold set_var. unfold var in W. destruct (nth_error (vars p) i) as [o|] eqn:N; [|discriminate]. subst o.
    rewrite pad_same by (apply nth_error_Some; congruence). rewrite set_nth_same by exact N. now destruct p.
  - pose proof (roots_var p (mem p) i None) as P. rewrite W in P. cbn [oroot app] in P.
    destruct (release_ok lv (level v) (mem p) (root v) (var_roots (vars (set_var p (mem p) i None)))) as (h' & E1 & I' & K & F).
    { eapply inv_perm; [apply Permutation_sym; exact P|exact I]. }
    { apply V. }
    unfold assign_vec. rewrite E1. cbn [bind]. unfold inc, load.
    assert (Nn : nth_error h' (root v) = Some None).
    { destruct (nth_error h' (root v)) as [[c'|]|] eqn:N; auto.
      - exfalso. change (live h' (root v) c') in N. pose proof (fewer_counted _ _ C F _ _ N) as Pn.
        pose proof (inv_rc _ _ _ I' _ _ N) as R'.
        (* the only reference is the one given up *)
        assert (Hz : cnt (var_roots (vars (set_var p (mem p) i None))) (root v) = 0 /\ refs (mem p) (root v) = 0).
        { pose proof (inv_rc _ _ _ I _ _ L) as Q. rewrite <- (cnt_perm _ _ (root v) P), cnt_cons in Q. destruct (Nat.eq_dec (root v) (root v)); [lia|contradiction]. }
        destruct (refs_pos h' (root v)) as (b & cb & Lb & Pb & Kb); [lia|].
        destruct K as (_ & K & _). destruct (K _ _ Lb) as (cb0 & Lb0 & Bb & Pb0).
        rewrite Bb in Kb. pose proof (kid_refs _ _ _ _ Lb0 (Pb0 Pb) Kb). lia.
      - exfalso. apply nth_error_None in N. destruct K as (Kl & _). apply live_lt in L. lia. }
    rewrite Nn. reflexivity.
Qed.

(** * C73: how far a vector can grow *)
Lemma appends n x : (N.of_nat n <= LIMIT + 1)%N -> exists e, runs nothing (ONew 0 :: repeat (OAppend 0 0 x) n) e /\ e 0 = Some (repeat (x : T) n).
Proof.
  intros B. assert (G : forall n e l, e 0 = Some l -> (N.of_nat (length l + n) <= LIMIT + 1)%N ->
    exists e', runs e (repeat (OAppend 0 0 x) n) e' /\ e' 0 = Some (l ++ repeat x n)).
  { clear. induction n as [|n IH]; intros e l E B; cbn [repeat].
    - exists e. rewrite app_nil_r. split; [constructor|auto].
    - destruct (IH (set_env e 0 (Some (l ++ [x]))) (l ++ [x])) as (e' & R & E').
      { reflexivity. }
      { rewrite app_length. cbn [length]. rewrite <- Nat.add_assoc. exact B. }
      exists e'. split; [|rewrite E', <- app_assoc; reflexivity]. econstructor; [|exact R]. eapply m_append; eauto. unfold fits. lia. }
  destruct (G n (set_env nothing 0 (Some [])) [] eq_refl B) as (e & R & E). exists e. split; auto. econstructor; [now constructor|exact R].
Qed.
Theorem C73_growing_partial : forall os e j l x, runs nothing os e -> e j = Some l -> fits l ->
  exists p v v' h', run d start os = Some (Ok p) /\ var p j = Some v /\ cons_vec d (mem p) v x = Ok (v', h') /\ shows h' v' (l ++ [x]).
Proof.
  intros os e j l x R E B. destruct (run_ok d os _ _ _ (SI_start d) R) as (p & Ep & S). pose proof S as [(lv & I & A) C].
  destruct (agrees_get d _ _ _ _ _ _ A E) as (v & W & V).
  destruct (cons_ok d lv (mem p) _ v l x I (root_in _ _ _ W) V B) as (v' & h' & lv' & E1 & _ & _ & _ & V' & _).
  exists p, v, v', h'. conjs; auto. eapply vecok_shows; eauto.
Qed.
Theorem C73_growing_refuted : exists os, run d start os = Some (UB BadShift).
Proof.
  set (n := N.to_nat (LIMIT + 1)). destruct (appends n d) as (e & R & E); [unfold n; rewrite N2Nat.id; lia|].
  destruct (run_ok d _ _ _ _ (SI_start d) R) as (p & Ep & S). pose proof S as [(lv & I & A) C].
  destruct (agrees_get d _ _ _ _ _ _ A E) as (v & W & V).
  exists ((ONew 0 :: repeat (OAppend 0 0 d) n) ++ [OAppend 0 0 d]).
  assert (App : forall os p0, run d p0 os = Some (Ok p) -> run d p0 (os ++ [OAppend 0 0 d]) = run d p [OAppend 0 0 d]).
  { clear. induction os as [|o os IH]; intros p0 H; cbn [run app] in *; [now injection H as ->|].
    destruct (do_op d p0 o) as [[p1| | | |]|]; try discriminate. now apply IH. }
  rewrite (App _ _ Ep). cbn [run do_op]. rewrite W. unfold cons_vec, capacity.
  destruct V as (_ & _ & _ & B & Lw). rewrite repeat_length in *.
  assert (K : 15 <= level v).
  { destruct (Nat.le_gt_cases 15 (level v)) as [|K]; auto. exfalso.
    assert (Bn : (N.of_nat n <= N.of_nat (4 ^ (level v + 1)))%N) by lia. rewrite Nat2N.inj_pow in Bn. unfold n in Bn. rewrite N2Nat.id in Bn.
    assert (Le : (N.of_nat 4 ^ N.of_nat (level v + 1) <= 4 ^ 15)%N) by (apply N.pow_le_mono_r; lia).
    unfold LIMIT in Bn. change (2 ^ 30)%N with (4 ^ 15)%N in Bn. lia. }
  destruct (Nat.ltb_spec ((level v + 1) * 2) 32); [lia|]. reflexivity.
Qed.
End Props.

(** * Concrete cases *)
Definition nats (n : nat) : list (op (T := nat)) := map (fun x => OAppend 0 0 x) (seq 1 n).
(** Two versions of a vector that share nodes, one of them grown to a third level, then the first
    one is overwritten and the second one destroyed. *)
Definition history : list (op (T := nat)) :=
  ONew 0 :: nats 9 ++ [OCons 1 0 100; OAppend 0 0 10] ++ nats 8 ++ [OAssign 1 0; OAppend 1 1 7; ODestroy 0].

Ltac runs_by_computing :=
  repeat match goal with
  | |- runs _ [] _ => apply r_nil
  | |- runs _ (_ :: _) _ => eapply r_cons; [econstructor; try reflexivity; try discriminate; unfold fits; cbn; unfold LIMIT; lia|]
  end.
Example history_runs : exists e, runs nothing history e /\ e 0 = None /\
  e 1 = Some [1;2;3;4;5;6;7;8;9;10;1;2;3;4;5;6;7;8;7].
Proof. unfold history, nats. cbn [seq map app]. eexists. split; [runs_by_computing|split; reflexivity]. Qed.
Example history_ends_empty : exists e, runs nothing (history ++ [ODestroy 1]) e /\ forall i, e i = None.
Proof.
  unfold history, nats. cbn [seq map app]. eexists. split; [runs_by_computing|].
  intros [|[|i]]; reflexivity.
Qed.
(** Ten elements: the loops visit them and, in foreach's case, two more *)
Definition after (n : nat) : option (outcome (prog (T := nat))) := run 0 start (ONew 0 :: nats n).
Definition ranged (n : nat) : option (outcome (list nat)) :=
  match after n with Some (Ok p) => match var p 0 with Some v => Some (iterate 100 (mem p) v) | None => None end | _ => None end.
Definition visited (n : nat) : option (outcome (list nat)) :=
  match after n with Some (Ok p) => match var p 0 with Some v => Some (foreach_vec (mem p) v) | None => None end | _ => None end.
Example ranged_10 : ranged 10 = Some (Ok (seq 1 10)). Proof. vm_compute. reflexivity. Qed.
Example ranged_16 : ranged 16 = Some (Ok (seq 1 16)). Proof. vm_compute. reflexivity. Qed.
Example ranged_64 : ranged 64 = Some (Ok (seq 1 64)). Proof. vm_compute. reflexivity. Qed.
Example ranged_8 : ranged 8 = Some (Trap Assertion). Proof. vm_compute. reflexivity. Qed.
Example visited_10 : visited 10 = Some (Ok (seq 1 10 ++ [0; 0])). Proof. vm_compute. reflexivity. Qed.
Example aborts_8 : aborts 8.
Proof.
  unfold aborts. conjs; [reflexivity|lia|]. intros k E. destruct k as [|[|k]]; [cbn in E; lia|cbn in E; lia|].
  assert (0 < 4 ^ k) by (apply Nat.neq_0_lt_0, Nat.pow_nonzero; discriminate). cbn [Nat.pow] in E. lia.
Qed.
Example not_aborts_10 : ~ aborts 10. Proof. intros (A & _). discriminate. Qed.

(** C32 as wished for is false of both loops: after eight appends the range-for aborts, and after
    one append forEach visits four values. *)
Theorem C32_range_for_refuted : exists os e p v l, runs nothing os e /\ e 0 = Some l /\
  run 0 start os = Some (Ok p) /\ var p 0 = Some v /\ forall fuel, iterate fuel (mem p) v = Trap Assertion.
Proof.
  exists (ONew 0 :: nats 8). unfold nats. cbn [seq map].
  eexists. eexists. eexists. eexists. split; [runs_by_computing|].
  split; [reflexivity|]. split; [vm_compute; reflexivity|]. split; [reflexivity|]. intros fuel. reflexivity.
Qed.
Theorem C32_foreach_refuted : exists os e p v, runs nothing os e /\ e 0 = Some [5] /\
  run 0 start os = Some (Ok p) /\ var p 0 = Some v /\ foreach_vec (mem p) v = Ok [5; 0; 0; 0].
Proof.
  exists [ONew 0; OAppend 0 0 5]. eexists. eexists. eexists. split; [runs_by_computing|].
  split; [reflexivity|]. split; [vm_compute; reflexivity|]. split; reflexivity.
Qed.
(** C74 as wished for is false: Vec<int> v; v = v; uses a freed node. *)
Theorem C74_self_assignment_refuted : forall (T : Type) (d : T), run d start [ONew 0; OAssign 0 0] = Some (UB UseAfterFree).
Proof. reflexivity. Qed.
(** A vector whose root another variable shares survives it. *)
Example shared_self_assignment : exists p, run 0 start [ONew 0; ONew 1; OAssign 1 0; OAssign 0 0] = Some (Ok p).
Proof. eexists. vm_compute. reflexivity. Qed.
Print Assumptions C30_appending_is_pure.
Print Assumptions C31_counts_and_lifetimes.
Print Assumptions C31_nothing_leaks.
Print Assumptions C32_range_for_partial.
Print Assumptions C32_foreach_partial.
Print Assumptions C73_growing_partial.
Print Assumptions C73_growing_refuted.
Print Assumptions C74_self_assignment_partial.
Print Assumptions C32_range_for_refuted.
Print Assumptions C32_foreach_refuted.
Print Assumptions C74_self_assignment_refuted.
