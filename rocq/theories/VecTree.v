From Coq Require Import List Arith Bool Lia Permutation.
From Verif Require Import Outcome VecModel VecSpec VecProofs.
Import ListNotations.
Local Open Scope nat_scope.

Lemma subindex_div k i : subindex k i = (i / 4 ^ k) mod 4.
Proof.
  unfold subindex. rewrite Nat.shiftr_div_pow2. change 3 with (Nat.ones 2). rewrite Nat.land_ones.
  rewrite (Nat.mul_comm k 2), Nat.pow_mul_r. reflexivity.
Qed.
Lemma land3 i : Nat.land i 3 = i mod 4.
Proof. change 3 with (Nat.ones 2). rewrite Nat.land_ones. reflexivity. Qed.
Lemma pow4_pos k : 0 < 4 ^ k.
Proof. apply Nat.neq_0_lt_0. now apply Nat.pow_nonzero. Qed.
Lemma mod_div_pow i k : (i mod 4 ^ (k + 1)) / 4 ^ k = (i / 4 ^ k) mod 4.
Proof.
  rewrite Nat.pow_add_r. change (4 ^ 1) with 4. pose proof (pow4_pos k).
  rewrite Nat.mod_mul_r by lia. rewrite Nat.mul_comm, Nat.div_add by lia.
  rewrite Nat.div_small by (apply Nat.mod_upper_bound; lia). reflexivity.
Qed.
Lemma mod_mod_pow i k : (i mod 4 ^ (k + 1)) mod 4 ^ k = i mod 4 ^ k.
Proof.
  rewrite Nat.pow_add_r. change (4 ^ 1) with 4. pose proof (pow4_pos k).
  rewrite Nat.mod_mul_r by lia. rewrite Nat.mul_comm, Nat.mod_add by lia. now apply Nat.mod_mod; lia.
Qed.

Section Tree.
Context {T : Type} (d : T).
Notation heap := (@heap T).
Notation cell := (@cell T).
Notation body := (@body T).
Notation update := (update d).
Implicit Types (h : heap).

(** Children [cs] hold the list [l], in blocks of [cap], all full but the last one used *)
Fixpoint spread (P : option nat -> list T -> Prop) (cap : nat) (cs : list (option nat)) (l : list T) : Prop :=
  match cs with
  | [] => l = []
  | c :: cs => exists l1 l2, l = l1 ++ l2 /\ P c l1 /\ length l1 <= cap /\ (l2 <> [] -> length l1 = cap) /\
               (c = None <-> l1 = []) /\ spread P cap cs l2
  end.
Fixpoint holds h (k : nat) (node : option nat) (l : list T) : Prop :=
  match node with
  | None => l = []
  | Some a =>
      match k with
      | O => exists c, live h a c /\ length l <= 4 /\ bd c = Leaf (l ++ repeat d (4 - length l))
      | S k => exists c cs, live h a c /\ bd c = Branch cs /\ length cs = 4 /\ spread (holds h k) (4 ^ (k + 1)) cs l
      end
  end.

Lemma spread_mono (P Q : option nat -> list T -> Prop) cap cs l : (forall c l, In c cs -> P c l -> Q c l) -> spread P cap cs l -> spread Q cap cs l.
Proof.
  revert l. induction cs as [|c cs IH]; intros l M S; cbn [spread] in *; auto.
  destruct S as (l1 & l2 & -> & H1 & H2 & H3 & H4 & H5). exists l1, l2. conjs; auto.
  - apply M; cbn; auto.
  - apply IH; auto. intros; apply M; cbn; auto.
Qed.
Lemma spread_len P cap cs l : spread P cap cs l -> length l <= length cs * cap.
Proof.
  revert l. induction cs as [|c cs IH]; intros l S; cbn [spread] in *; [subst; auto|].
  destruct S as (l1 & l2 & -> & H1 & H2 & H3 & H4 & H5). rewrite app_length. apply IH in H5. cbn [length]. lia.
Qed.
Lemma spread_none (P : option nat -> list T -> Prop) cap n : (forall c, c = None -> P c []) -> spread P cap (repeat None n) [].
Proof.
  intros H. induction n as [|n IH]; cbn; auto. exists [], []. conjs; auto; try easy. cbn. lia.
Qed.
Lemma spread_nil P cap cs : spread P cap cs [] -> forall c, In c cs -> c = None.
Proof.
  induction cs as [|c cs IH]; cbn [spread]; intros S x [].
  - subst x. destruct S as (l1 & l2 & E & _ & _ & _ & H & _). symmetry in E. apply app_eq_nil in E as [-> ->]. now apply H.
  - destruct S as (l1 & l2 & E & _ & _ & _ & _ & S). symmetry in E. apply app_eq_nil in E as [-> ->]. auto.
Qed.

(** Where an append lands, and what it makes of the children *)
Lemma spread_append P cap cs l : 0 < cap -> spread P cap cs l -> length l < length cs * cap ->
  exists c ls, nth_error cs (length l / cap) = Some c /\ P c ls /\ length ls = length l mod cap /\
    forall (Q : option nat -> list T -> Prop) n x, (forall c l, In c cs -> P c l -> Q c l) -> Q (Some n) (ls ++ [x]) ->
      spread Q cap (set_nth cs (length l / cap) (Some n)) (l ++ [x]).
Proof.
  intros C. revert l. induction cs as [|c cs IH]; intros l S B; cbn [spread length] in *; [lia|].
  destruct S as (l1 & l2 & -> & H1 & H2 & H3 & H4 & H5). rewrite app_length in *.
  destruct (Nat.eq_dec (length l1) cap) as [E|N].
  - destruct (IH l2 H5 ltac:(lia)) as (c' & ls & E1 & E2 & E3 & E4).
    assert (Ed : (length l1 + length l2) / cap = S (length l2 / cap)).
    { rewrite E. replace (cap + length l2) with (length l2 + 1 * cap) by lia. rewrite Nat.div_add by lia. lia. }
    assert (Em : (length l1 + length l2) mod cap = length l2 mod cap).
    { rewrite E. replace (cap + length l2) with (length l2 + 1 * cap) by lia. now rewrite Nat.mod_add by lia. }
    rewrite Ed, Em. exists c', ls. conjs; auto.
    intros Q n x M Qn. cbn [set_nth spread]. exists l1, (l2 ++ [x]). rewrite app_assoc. conjs; auto.
    + apply M; cbn; auto.
    + apply E4; auto. intros; apply M; cbn; auto.
  - assert (l2 = []) as -> by (destruct l2; auto; exfalso; apply N, H3; discriminate).
    cbn [length] in *. rewrite Nat.add_0_r in *. rewrite Nat.div_small, Nat.mod_small by lia.
    exists c, l1. conjs; auto. intros Q n x M Qn. cbn [set_nth spread]. rewrite app_nil_r. exists (l1 ++ [x]), [].
    rewrite app_nil_r, app_length. cbn [length]. conjs; auto; try easy; try lia.
    + split; [discriminate|]. intros Z. destruct l1; discriminate.
    + eapply spread_mono; [|exact H5]. intros; apply M; cbn; auto.
Qed.

Lemma holds_ext k h h' node l : extends h h' -> holds h k node l -> holds h' k node l.
Proof.
  intros (_ & X). revert node l. induction k as [|k IH]; intros [a|] l H; cbn [holds] in *; auto.
  - destruct H as (c & L & Hl & B). destruct (X _ _ L) as (c' & L' & B' & _). exists c'. conjs; auto. congruence.
  - destruct H as (c & cs & L & B & Lc & S). destruct (X _ _ L) as (c' & L' & B' & _). exists c', cs. conjs; auto; try congruence.
    eapply spread_mono; [|exact S]. auto.
Qed.
(** Preservation when only nodes at [k] and below are known to stay *)
Lemma holds_low lv h h' R k node l : Inv lv h R ->
  (forall a c, live h a c -> lv a <= k -> exists c', live h' a c' /\ bd c' = bd c) ->
  (forall a, node = Some a -> lv a = k) -> holds h k node l -> holds h' k node l.
Proof.
  intros I. revert node l. induction k as [|k IH]; intros [a|] l X Lv H; cbn [holds] in *; auto; specialize (Lv a eq_refl).
  - destruct H as (c & L & Hl & B). destruct (X _ _ L) as (c' & L' & B'); [lia|]. exists c'. conjs; auto. congruence.
  - destruct H as (c & cs & L & B & Lc & S). destruct (X _ _ L) as (c' & L' & B'); [lia|]. exists c', cs. conjs; auto; try congruence.
    eapply spread_mono; [|exact S]. intros o l1 In1 H1. apply IH; auto.
    pose proof (inv_shape _ _ _ I _ _ L) as Sh. rewrite B, Lv in Sh. cbn in Sh. destruct Sh as [_ F]. rewrite Forall_forall in F.
    intros b ->. apply F. apply in_flat_map. exists (Some b). cbn. auto.
Qed.
(** Preservation when nodes are freed: what is reachable stays *)
Lemma holds_kept lv h h' R k node l : Inv lv h' R -> keeps h h' ->
  (forall a, node = Some a -> exists c, live h' a c /\ 0 < rc c) -> holds h k node l -> holds h' k node l.
Proof.
  intros I (_ & K & _). revert node l. induction k as [|k IH]; intros [a|] l A H; cbn [holds] in *; auto;
    destruct (A a eq_refl) as (c' & L' & P'); destruct (K _ _ L') as (c1 & L1 & B1 & _).
  - destruct H as (c & L & Hl & B). pose proof (live_fun _ _ _ _ L L1) as <-. exists c'. conjs; auto. congruence.
  - destruct H as (c & cs & L & B & Lc & S). pose proof (live_fun _ _ _ _ L L1) as <-. exists c', cs. conjs; auto; try congruence.
    eapply spread_mono; [|exact S]. intros o l1 In1 H1. apply IH; auto. intros b ->.
    eapply inv_kid; eauto. rewrite B1, B. cbn. apply in_flat_map. exists (Some b). cbn. auto.
Qed.

(** Which nodes are uncounted *)
Definition zeros h h' (n : nat) : Prop :=
  forall a c', live h' a c' -> rc c' = 0 -> a = n \/ exists c, live h a c /\ rc c = 0.

Lemma okids_set cs i o : nth_error cs i = Some o ->
  Permutation (okids cs) ((match o with Some a => [a] | None => [] end) ++ okids (set_nth cs i None)).
Proof.
  revert i. induction cs as [|x cs IH]; intros [|i] H; try discriminate; cbn [nth_error] in H.
  - injection H as ->. cbn. reflexivity.
  - cbn [set_nth okids flat_map]. fold (okids cs) (okids (set_nth cs i None)). rewrite (IH i H).
    destruct o as [a|]; cbn [app]; auto. apply Permutation_sym, Permutation_middle.
Qed.
Lemma set_set {A} (l : list A) i x y : set_nth (set_nth l i x) i y = set_nth l i y.
Proof. revert i; induction l as [|z l IH]; intros [|i]; cbn; auto. now rewrite IH. Qed.

Lemma inc_live h a c : live h a c -> inc h a = Ok (put h a (Some (mkCell (S (rc c)) (bd c)))).
Proof. intros L. unfold inc. now rewrite (load_live _ _ _ L). Qed.
Lemma inv_inc lv h R a c : Inv lv h R -> live h a c -> 0 < rc c -> Inv lv (put h a (Some (mkCell (S (rc c)) (bd c)))) (a :: R).
Proof.
  intros I L P. eapply inv_recount; eauto; try lia. intros b. rewrite cnt_cons. destruct (Nat.eq_dec a b); lia.
Qed.
Lemma zeros_put h a c n z : live h a c -> 0 < rc c -> 0 < n -> zeros h (put h a (Some (mkCell n (bd c)))) z.
Proof.
  intros L P N b cb Lb Z. destruct (Nat.eq_dec b a) as [->|Nb].
  - pose proof (live_fun _ _ _ _ Lb (live_put_same _ _ _ (mkCell n (bd c)) L)) as ->. cbn in Z. lia.
  - apply live_put_other in Lb; auto. right; eauto. eapply live_lt; eauto.
Qed.
Lemma zeros_trans h1 h2 h3 z : zeros h1 h2 z -> zeros h2 h3 z -> zeros h1 h3 z.
Proof. intros A B a c L Z. destruct (B _ _ L Z) as [->|(c2 & L2 & Z2)]; auto. eapply A; eauto. Qed.

Lemma inc_all_ok lv cs z : forall h R, Inv lv h R -> (forall a, In a (okids cs) -> exists c, live h a c /\ 0 < rc c) ->
  exists h', inc_all h cs = Ok h' /\ Inv lv h' (okids cs ++ R) /\ extends h h' /\ length h' = length h /\ zeros h h' z.
Proof.
  induction cs as [|[a|] cs IH]; intros h R I A; cbn [inc_all okids flat_map app] in *.
  - exists h. conjs; auto; [apply extends_refl|]. intros a c L Z. eauto.
  - destruct (A a (or_introl eq_refl)) as (c & L & P). rewrite (inc_live _ _ _ L). cbn [bind].
    pose proof (extends_put _ _ _ (S (rc c)) L ltac:(lia) ltac:(lia)) as X.
    destruct (IH _ (a :: R) (inv_inc _ _ _ _ _ I L P)) as (h' & E & I' & X' & Le & Zr).
    { intros b Ib. destruct (A b (or_intror Ib)) as (cb & Lb & Pb). destruct (proj2 X _ _ Lb) as (c2 & L2 & _ & P2 & _). eauto. }
    exists h'. conjs; auto.
    + eapply inv_perm; [|exact I']. apply Permutation_sym, Permutation_middle.
    + eapply extends_trans; eauto.
    + now rewrite Le, put_length.
    + eapply zeros_trans; [|exact Zr]. apply zeros_put; auto; lia.
  - destruct (IH h R I A) as (h' & H). exists h'. exact H.
Qed.

(** copy of a branch: a new uncounted node with references to the same children *)
Lemma copy_branch_ok lv h R k node l : Inv lv h R ->
  (forall a, node = Some a -> lv a = S k /\ exists c, live h a c /\ 0 < rc c) -> holds h (S k) node l ->
  exists h1 lv1 cs, copy_branch h node = Ok (length h, h1) /\
    live h1 (length h) (mkCell 0 (Branch cs)) /\ Inv lv1 h1 (okids cs ++ R) /\ extends h h1 /\
    lv1 (length h) = S k /\ (forall a, a < length h -> lv1 a = lv a) /\
    length cs = 4 /\ Forall (fun a => lv a = k) (okids cs) /\
    (forall a, In a (okids cs) -> exists c, live h a c /\ 0 < rc c) /\
    (forall a, In a (okids cs) -> forall c1, live h1 a c1 -> 1 < rc c1) /\
    spread (holds h k) (4 ^ (k + 1)) cs l /\ zeros h h1 (length h).
Proof.
  intros I A H.
  assert (Ag : forall a, a < length h -> upd_lv lv (length h) (S k) a = lv a).
  { intros a Ha. unfold upd_lv. destruct (Nat.eqb_spec a (length h)); lia. }
  destruct node as [a|].
  - destruct (A a eq_refl) as (Lv & c & L & P). cbn [holds] in H. destruct H as (c0 & cs & L0 & B & Lc & S).
    pose proof (live_fun _ _ _ _ L L0) as <-.
    pose proof (inv_shape _ _ _ I _ _ L) as Sh. rewrite B, Lv in Sh. destruct Sh as [_ F].
    pose proof (inv_bound _ _ _ I _ _ L) as Bd. rewrite B in Bd. cbn [kids] in Bd.
    assert (Kd : forall b, In b (okids cs) -> exists c, live h b c /\ 0 < rc c).
    { intros b Ib. eapply inv_kid; eauto. rewrite B. exact Ib. }
    assert (I1 : Inv (upd_lv lv (length h) (Datatypes.S k)) (h ++ [Some (mkCell 0 (Branch cs))]) R).
    { apply inv_alloc; auto. split; auto. }
    destruct (inc_all_ok _ cs (length h) _ _ I1) as (h2 & E2 & I2 & X2 & Le2 & Z2).
    { intros b Ib. destruct (Kd b Ib) as (cb & Lb & Pb). exists cb. split; auto. now apply live_app. }
    pose proof (extends_trans _ _ _ (extends_alloc h (Some (mkCell 0 (Branch cs)))) X2) as X.
    exists h2, (upd_lv lv (length h) (Datatypes.S k)), cs. conjs; auto.
    + unfold copy_branch. rewrite (branch_live _ _ _ cs L B). cbn [bind]. unfold alloc. rewrite E2. reflexivity.
    + destruct (proj2 X2 _ _ (live_alloc h (Branch cs))) as ([r b] & L2 & B2 & _ & Z). cbn in *. rewrite (Z eq_refl), B2 in L2. exact L2.
    + unfold upd_lv. now rewrite Nat.eqb_refl.
    + intros b Ib c1 L1. rewrite (inv_rc _ _ _ I2 _ _ L1). rewrite cnt_app. apply cnt_in in Ib as Q.
      destruct (proj2 X _ _ L) as (ca & La & Ba & Pa & _).
      pose proof (kid_refs h2 a ca b La (Pa P)) as K. rewrite Ba, B in K. specialize (K Ib). lia.
    + intros b cb Lb Zb. destruct (Z2 _ _ Lb Zb) as [->|(c2 & L2 & Zc)]; auto.
      unfold live in L2. destruct (Nat.lt_ge_cases b (length h)) as [Hb|Hb].
      * rewrite nth_error_app1 in L2 by auto. right. exists c2. auto.
      * rewrite nth_error_app2 in L2 by auto. destruct (b - length h) as [|m] eqn:Em; [left; lia|]. destruct m; discriminate.
  - cbn [holds] in H. subst l.
    assert (I1 : Inv (upd_lv lv (length h) (S k)) (h ++ [Some (mkCell 0 (Branch (repeat None 4)))]) R).
    { apply inv_alloc; auto; cbn; auto. }
    exists (h ++ [Some (mkCell 0 (Branch (repeat None 4)))]), (upd_lv lv (length h) (S k)), (repeat None 4). conjs; auto.
    + apply live_alloc.
    + apply extends_alloc.
    + unfold upd_lv. now rewrite Nat.eqb_refl.
    + cbn. constructor.
    + cbn. easy.
    + cbn. easy.
    + apply spread_none. intros c ->. destruct k; reflexivity.
    + intros b cb Lb Zb. unfold live in Lb. destruct (Nat.lt_ge_cases b (length h)) as [Hb|Hb].
      * rewrite nth_error_app1 in Lb by auto. right. exists cb. auto.
      * rewrite nth_error_app2 in Lb by auto. destruct (b - length h) as [|m] eqn:Em; [left; lia|]. destruct m; discriminate.
Qed.

Lemma set_nth_snoc (l : list T) n x : n + length l = 4 -> 0 < n ->
  set_nth (l ++ repeat d n) (length l) x = (l ++ [x]) ++ repeat d (n - 1).
Proof.
  intros E P. rewrite <- app_assoc. cbn [app]. clear E. destruct n as [|n]; [lia|]. rewrite Nat.sub_1_r. cbn [Nat.pred repeat].
  induction l as [|y l IH]; cbn; auto. now rewrite IH.
Qed.

(** * update *)
Lemma update_ok k : forall lv h node i x R l, Inv lv h R ->
  (forall a, node = Some a -> lv a = k /\ exists c, live h a c /\ 0 < rc c) ->
  holds h k node l -> i mod 4 ^ (k + 1) = length l ->
  exists n h' lv' c', update k h node i x = Ok (n, h') /\ length h <= n /\
    live h' n c' /\ rc c' = 0 /\ lv' n = k /\ (forall a, a < length h -> lv' a = lv a) /\
    Inv lv' h' (kids (bd c') ++ R) /\ extends h h' /\ holds h' k (Some n) (l ++ [x]) /\ zeros h h' n.
Proof.
  induction k as [|k IH]; intros lv h node i x R l I A H Ei.
  - assert (Hl : length l < 4). { rewrite <- Ei. apply Nat.mod_upper_bound. discriminate. }
    change (4 ^ (0 + 1)) with 4 in Ei.
    assert (Ec : exists vs, copy_leaf d h node = Ok (alloc h (Leaf vs)) /\ vs = l ++ repeat d (4 - length l)).
    { destruct node as [a|]; cbn [copy_leaf holds] in *.
      - destruct H as (c & L & _ & B). exists (l ++ repeat d (4 - length l)). rewrite (leaf_live _ _ _ _ L B). auto.
      - subst l. eexists. split; reflexivity. }
    destruct Ec as (vs & Ec & Ev).
    assert (Lv : length vs = 4) by (rewrite Ev, app_length, repeat_length; lia).
    assert (I1 : Inv (upd_lv lv (length h) 0) (h ++ [Some (mkCell 0 (Leaf vs))]) R).
    { apply inv_alloc; auto; cbn; auto. }
    pose proof (live_alloc h (Leaf vs)) as L1.
    exists (length h), (put (h ++ [Some (mkCell 0 (Leaf vs))]) (length h) (Some (mkCell 0 (Leaf ((l ++ [x]) ++ repeat d (4 - S (length l))))))),
      (upd_lv lv (length h) 0), (mkCell 0 (Leaf ((l ++ [x]) ++ repeat d (4 - S (length l))))).
    assert (Sv : length ((l ++ [x]) ++ repeat d (4 - S (length l))) = 4) by (rewrite !app_length, repeat_length; cbn [length]; lia).
    conjs; auto.
    + cbn [VecModel.update]. rewrite Ec. unfold alloc. cbn [bind]. unfold set_value. rewrite (load_live _ _ _ L1). cbn [bind bd rc].
      rewrite land3, Ei, Ev. rewrite set_nth_snoc by lia. now replace (4 - length l - 1) with (4 - S (length l)) by lia.
    + eapply live_put_same; eauto.
    + unfold upd_lv. now rewrite Nat.eqb_refl.
    + intros a Ha. unfold upd_lv. destruct (Nat.eqb_spec a (length h)); lia.
    + cbn [kids bd app]. eapply inv_write; eauto; [|constructor]. unfold upd_lv. rewrite Nat.eqb_refl. exact Sv.
    + split; [rewrite put_length, app_length; lia|]. intros a c La. exists c. split; auto.
      apply live_put_other; [rewrite app_length; cbn; lia| |now apply live_app]. apply live_lt in La. lia.
    + cbn [holds]. eexists. split; [eapply live_put_same; eauto|]. cbn [bd]. rewrite app_length. cbn [length].
      split; [lia|]. now replace (length l + 1) with (S (length l)) by lia.
    + intros b cb Lb Zb. destruct (Nat.eq_dec b (length h)) as [->|N]; auto. right.
      apply live_put_other in Lb; [|rewrite app_length; cbn; lia|auto]. unfold live in Lb.
      destruct (Nat.lt_ge_cases b (length h)) as [Hb|Hb]; [rewrite nth_error_app1 in Lb by auto; exists cb; auto|].
      rewrite nth_error_app2 in Lb by auto. destruct (b - length h) as [|m] eqn:Em; [lia|]. destruct m; discriminate.
  - destruct (copy_branch_ok lv h R k node l I A H) as (h1 & lv1 & cs & Ec & L1 & I1 & X1 & Lc1 & Ag1 & Len & Fk & Kd & Kd2 & Sp & Z1).
    assert (Hlen : length l < length cs * 4 ^ (k + 1)).
    { rewrite Len, <- Ei. replace (S k + 1) with (1 + (k + 1)) by lia. rewrite (Nat.pow_add_r 4 1). change (4 ^ 1) with 4.
      apply Nat.mod_upper_bound. pose proof (pow4_pos (k + 1)). lia. }
    destruct (spread_append _ _ _ _ (pow4_pos _) Sp Hlen) as (c & ls & En & Hc & Els & Happ).
    assert (Es : subindex (S k) i = length l / 4 ^ (k + 1)).
    { rewrite subindex_div. rewrite <- Ei. replace (S k + 1) with ((k + 1) + 1) by lia. replace (S k) with (k + 1) by lia.
      now rewrite mod_div_pow. }
    assert (Em : i mod 4 ^ (k + 1) = length ls).
    { rewrite Els, <- Ei. replace (S k + 1) with ((k + 1) + 1) by lia. now rewrite mod_mod_pow. }
    set (si := length l / 4 ^ (k + 1)) in *.
    assert (Hsi : si < length cs) by (apply nth_error_Some; congruence).
    (* release of the child *)
    assert (Rel : exists h2, release k h1 c = Ok h2 /\ Inv lv1 h2 (okids (set_nth cs si None) ++ R) /\ extends h1 h2 /\
                    length h2 = length h1 /\ zeros h1 h2 (length h)).
    { pose proof (okids_set _ _ _ En) as Pm. destruct c as [a|].
      - assert (Ia : In a (okids cs)) by (eapply Permutation_in; [apply Permutation_sym; exact Pm|cbn; auto]).
        destruct (Kd a Ia) as (ca & La & Pa). destruct (proj2 X1 _ _ La) as (c1 & Lc & _).
        pose proof (Kd2 a Ia _ Lc) as P2. eexists. split; [apply release_shared; eauto|]. conjs.
        + apply inv_drop; auto. eapply inv_perm; [|exact I1]. rewrite app_comm_cons. apply Permutation_app_tail. exact Pm.
        + apply extends_put; auto; lia.
        + apply put_length.
        + apply zeros_put; auto; lia.
      - exists h1. conjs; auto.
        + destruct k; reflexivity.
        + eapply inv_perm; [|exact I1]. apply Permutation_app_tail. exact Pm.
        + apply extends_refl.
        + intros b cb Lb Zb. eauto. }
    destruct Rel as (h2 & Er & I2 & X2 & Le2 & Z2).
    pose proof (extends_trans _ _ _ X1 X2) as X12.
    assert (Lv1 : forall a, In a (okids cs) -> lv1 a = k).
    { intros a Ia. rewrite Ag1; [rewrite Forall_forall in Fk; auto|]. destruct (Kd a Ia) as (ca & La & _). eapply live_lt; eauto. }
    assert (Ic : forall a, c = Some a -> In a (okids cs)).
    { intros a ->. apply in_flat_map. exists (Some a). split; [eapply nth_error_In; eauto|cbn; auto]. }
    destruct (IH lv1 h2 c i x _ ls I2) as (n & h3 & lv3 & c3 & E3 & Hn & L3 & Zc3 & Lvn & Ag3 & I3 & X3 & H3 & Zr3).
    { intros a Ea. split; [auto|]. destruct (Kd a (Ic a Ea)) as (ca & La & Pa).
      destruct (proj2 X12 _ _ La) as (c2 & L2 & _ & P2 & _). eauto. }
    { eapply holds_ext; [exact X12|exact Hc]. }
    { exact Em. }
    assert (Ll1 : length h < length h1) by (eapply live_lt; exact L1).
    assert (Lcl : live h3 (length h) (mkCell 0 (Branch cs))).
    { destruct (proj2 (extends_trans _ _ _ X2 X3) _ _ L1) as ([r b] & L & B & _ & Z). cbn in *. rewrite (Z eq_refl), B in L. exact L. }
    assert (Nn : n <> length h) by lia.
    set (h4 := put h3 (length h) (Some (mkCell 0 (Branch (set_nth cs si (Some n)))))).
    assert (Nth : nth_error (set_nth cs si (Some n)) si = Some (Some n)) by (rewrite nth_error_set by auto; now rewrite Nat.eqb_refl).
    pose proof (okids_set _ _ _ Nth) as Pn. rewrite set_set in Pn. cbn [app] in Pn.
    pose proof (okids_set _ _ _ En) as Pc.
    assert (Sub : forall a, In a (okids (set_nth cs si None)) -> In a (okids cs)).
    { intros a Ia. eapply Permutation_in; [apply Permutation_sym; exact Pc|]. apply in_or_app. auto. }
    assert (Lh : length h <= length h2) by (destruct X12; lia).
    assert (Lh2 : length h2 <= length h3) by (destruct X3; lia).
    assert (Lvk : forall a, In a (okids (set_nth cs si None)) -> lv3 a = k /\ a < length h3).
    { intros a Ia. apply Sub in Ia. destruct (Kd a Ia) as (ca & La & _). apply live_lt in La. split; [|lia].
      rewrite Ag3 by lia. auto. }
    assert (I4 : Inv lv3 h4 (kids (bd c3) ++ okids (set_nth cs si None) ++ R)).
    { eapply inv_write; [exact I3|exact Lcl|reflexivity| |].
      - rewrite Ag3 by lia. rewrite Lc1. cbn [shape]. split; [now rewrite set_nth_length|].
        apply Forall_forall. intros a Ia. eapply Permutation_in in Ia; [|exact Pn]. destruct Ia as [<-|Ia]; [auto|]. now apply Lvk.
      - cbn [kids]. apply Forall_forall. intros a Ia. eapply Permutation_in in Ia; [|exact Pn].
        destruct Ia as [<-|Ia]; [eapply live_lt; eauto|]. now apply Lvk. }
    assert (L4 : live h4 n c3) by (apply live_put_other; auto; eapply live_lt; eauto).
    pose proof (inv_adopt _ _ _ _ _ I4 L4 Zc3) as I5.
    set (h5 := put h4 n (Some (mkCell 1 (bd c3)))) in *.
    assert (L5 : live h5 (length h) (mkCell 0 (Branch (set_nth cs si (Some n))))).
    { apply live_put_other; auto; [eapply live_lt; eauto|]. eapply live_put_same; eauto. }
    assert (Low : forall a c0, live h3 a c0 -> a <> length h -> exists c', live h5 a c' /\ bd c' = bd c0 /\ (a <> n -> c' = c0)).
    { intros a c0 La Na. destruct (Nat.eq_dec a n) as [->|Nb].
      - pose proof (live_fun _ _ _ _ La L3) as ->. eexists. split; [eapply live_put_same; eauto|]. split; [reflexivity|congruence].
      - exists c0. split; [|auto]. apply live_put_other; auto; [eapply live_lt; eauto|]. apply live_put_other; auto. eapply live_lt; eauto. }
    assert (X5 : extends h h5).
    { pose proof (extends_trans _ _ _ X12 X3) as X. split; [unfold h5, h4; rewrite !put_length; destruct X; lia|].
      intros a c0 La. destruct (proj2 X _ _ La) as (ca & Lca & Ba & Pa & Za). apply live_lt in La.
      destruct (Low a ca Lca ltac:(lia)) as (c' & Lc' & Bc' & Ec'). rewrite Ec' in Lc' by lia. exists ca. auto. }
    exists (length h), h5, lv3, (mkCell 0 (Branch (set_nth cs si (Some n)))). conjs; auto.
    + cbn [VecModel.update]. rewrite Ec. cbn [bind]. rewrite (branch_live _ _ _ cs L1) by reflexivity. cbn [bind].
      rewrite Es. unfold child. rewrite En. cbn [bind]. rewrite Er. cbn [bind]. rewrite E3. cbn [bind].
      unfold set_child. rewrite (load_live _ _ _ Lcl). cbn [bind bd rc]. fold h4.
      rewrite (inc_live _ _ _ L4). cbn [bind]. rewrite Zc3. reflexivity.
    + rewrite Ag3 by lia. exact Lc1.
    + intros a Ha. rewrite Ag3 by lia. auto.
    + cbn [bd kids]. eapply inv_perm; [|exact I5]. rewrite app_comm_cons. apply Permutation_app_tail. now apply Permutation_sym.
    + cbn [holds]. exists (mkCell 0 (Branch (set_nth cs si (Some n)))), (set_nth cs si (Some n)). conjs; auto; [now rewrite set_nth_length|].
      apply Happ.
      * intros c0 l0 Ic0 H0. eapply holds_ext; eauto.
      * eapply holds_low; [exact I3| | |exact H3].
        -- intros a c0 La Hlv. destruct (Low a c0 La) as (c' & Lc' & Bc' & _); eauto.
           intros ->. rewrite Ag3, Lc1 in Hlv by lia. lia.
        -- intros a [= <-]. exact Lvn.
    + intros b cb Lb Zb. destruct (Nat.eq_dec b (length h)) as [->|Nb]; auto. right.
      destruct (Nat.eq_dec b n) as [->|Nb2].
      { pose proof (live_fun _ _ _ _ Lb (live_put_same _ _ _ (mkCell 1 (bd c3)) L4)) as ->. discriminate. }
      apply live_put_other in Lb; auto; [|eapply live_lt; eauto]. apply live_put_other in Lb; auto; [|eapply live_lt; eauto].
      destruct (Zr3 _ _ Lb Zb) as [->|(c2 & Lc2 & Zc2)]; [contradiction|].
      destruct (Z2 _ _ Lc2 Zc2) as [->|(c4 & Lc4 & Zc4)]; [contradiction|].
      destruct (Z1 _ _ Lc4 Zc4) as [->|HH]; [contradiction|exact HH].
Qed.
End Tree.
