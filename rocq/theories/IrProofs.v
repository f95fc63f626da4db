(** Proofs about node_eq and node_hash. *)

From Coq Require Import ZArith List Bool Lia Permutation.
From Verif Require Import Outcome HashModel IrModel IrSpec.
Import ListNotations.
Local Open Scope Z_scope.

Section NodeInd.
Context (P : node -> Prop).
Context (Hnil : P NNil) (Hbool : forall b, P (NBool b)) (Hint : forall v, P (NInteger v))
  (Hreal : forall x, P (NReal x)) (Hsym : forall i, P (NSymbol i)) (Hkw : forall i, P (NKeyword i))
  (Hchar : forall c, P (NCharacter c)) (Hstr : forall s, P (NString s))
  (Hlist : forall l, Forall P l -> P (NList l)) (Hvec : forall l, Forall P l -> P (NVector l))
  (Hmap : forall es, Forall (fun kv => P (fst kv) /\ P (snd kv)) es -> P (NMap es)) (Hset : P NSet).
Fixpoint node_ind2 (n : node) : P n :=
  let fix go (l : list node) : Forall P l :=
    match l with [] => Forall_nil _ | x :: l => Forall_cons _ (node_ind2 x) (go l) end in
  let fix goe (l : list (node * node)) : Forall (fun kv => P (fst kv) /\ P (snd kv)) l :=
    match l with
    | [] => Forall_nil _
    | kv :: l => Forall_cons kv (match kv as kv return P (fst kv) /\ P (snd kv) with (k, v) => conj (node_ind2 k) (node_ind2 v) end) (goe l)
    end in
  match n with
  | NNil => Hnil | NBool b => Hbool b | NInteger v => Hint v | NReal x => Hreal x | NSymbol i => Hsym i
  | NKeyword i => Hkw i | NCharacter c => Hchar c | NString s => Hstr s
  | NList l => Hlist l (go l) | NVector l => Hvec l (go l) | NMap es => Hmap es (goe es) | NSet => Hset
  end.
End NodeInd.

(** The inner loops of [same], [simple] and [good] as list predicates. *)
Definition same2 (a b : node * node) : Prop := same (fst a) (fst b) /\ same (snd a) (snd b).

Lemma same_list l : forall r,
  (fix go (l r : list node) := match l, r with
     | [], [] => True | x :: l, y :: r => same x y /\ go l r | _, _ => False end) l r <-> Forall2 same l r.
Proof.
  induction l as [|x l IH]; intros [|y r]; try (split; [tauto|inversion 1]).
  - split; auto.
  - rewrite IH. split; [intros [? ?]; constructor; auto|inversion 1; auto].
Qed.
Lemma same_entries l : forall r,
  (fix go (l r : list (node * node)) := match l, r with
     | [], [] => True | (k, v) :: l, (k', v') :: r => (same k k' /\ same v v') /\ go l r | _, _ => False end) l r
  <-> Forall2 same2 l r.
Proof.
  induction l as [|[k v] l IH]; intros [|[k' v'] r]; try (split; [tauto|inversion 1]).
  - split; auto.
  - rewrite IH. split; [intros [? ?]; constructor; auto|inversion 1; auto].
Qed.

Lemma same_NList l r : same (NList l) (NList r) <-> Forall2 same l r.
Proof. apply same_list. Qed.
Lemma same_NVector l r : same (NVector l) (NVector r) <-> Forall2 same l r.
Proof. apply same_list. Qed.
Lemma same_NMap l r : same (NMap l) (NMap r) <-> exists r', Permutation r r' /\ Forall2 same2 l r'.
Proof.
  cbn [same]. split; intros (r' & P & H); exists r'; split; auto; now apply same_entries.
Qed.
Lemma simple_list l : (fix go (l : list node) := match l with [] => True | x :: l => simple x /\ go l end) l <-> Forall simple l.
Proof. induction l as [|x l IH]; [split; auto|]. rewrite IH. split; [intros [? ?]; auto|inversion 1; auto]. Qed.
Lemma good_list l : (fix go (l : list node) := match l with [] => True | x :: l => good x /\ go l end) l <-> Forall good l.
Proof. induction l as [|x l IH]; [split; auto|]. rewrite IH. split; [intros [? ?]; auto|inversion 1; auto]. Qed.
Lemma good_NMap es : good (NMap es) <-> distinct_keys es /\ Forall (fun kv => simple (fst kv) /\ good (snd kv)) es.
Proof.
  cbn [good]. apply and_iff_compat_l. induction es as [|[k v] l IH]; [split; auto|]. rewrite IH.
  split; [intros [? ?]; constructor; auto|inversion 1; auto].
Qed.

(** ** Doubles *)

Lemma is_nan_true x : is_nan x = true <-> nan x.
Proof.
  unfold is_nan, nan, exponent_bits, fraction_bits. rewrite andb_true_iff, negb_true_iff, Z.eqb_eq, Z.eqb_neq.
  change 2047 with (Z.ones 11) at 1. change (2 ^ 52 - 1) with (Z.ones 52). rewrite !Z.land_ones, Z.shiftr_div_pow2 by lia. reflexivity.
Qed.
Lemma is_nan_false x : is_nan x = false <-> ~ nan x.
Proof. rewrite <- is_nan_true. destruct (is_nan x); intuition congruence. Qed.
Lemma is_zero_true x : is_zero x = true <-> zero x.
Proof.
  unfold is_zero, zero, exponent_bits, fraction_bits. rewrite Z.eqb_eq. change (2 ^ 63 - 1) with (Z.ones 63). rewrite Z.land_ones by lia.
  change (2 ^ 63) with (2 ^ 52 * 2 ^ 11). rewrite Z.rem_mul_r by lia. pose proof (Z.mod_pos_bound x (2 ^ 52) ltac:(lia)).
  pose proof (Z.mod_pos_bound (x / 2 ^ 52) (2 ^ 11) ltac:(lia)). nia.
Qed.

(** ** [same] is an equivalence *)

Lemma same_real_sym x y : same_real x y -> same_real y x.
Proof. intros (A & B & C). split; auto. split; auto. destruct C as [->|[? ?]]; auto. Qed.
Lemma same_real_trans x y z : same_real x y -> same_real y z -> same_real x z.
Proof.
  intros (A & B & C) (A' & B' & C'). split; auto. split; auto.
  destruct C as [->|[? ?]], C' as [->|[? ?]]; auto; right; split; congruence.
Qed.

Lemma Forall2_sym_in {A} (R : A -> A -> Prop) l : Forall (fun x => forall y, R x y -> R y x) l ->
  forall r, Forall2 R l r -> Forall2 R r l.
Proof. induction 1; intros r F; inversion F; subst; constructor; auto. Qed.

Lemma Forall2_trans_in {A} (R : A -> A -> Prop) l : Forall (fun x => forall y z, R x y -> R y z -> R x z) l ->
  forall m r, Forall2 R l m -> Forall2 R m r -> Forall2 R l r.
Proof. induction 1; intros m r F G; inversion F; subst; inversion G; subst; constructor; eauto. Qed.

Theorem same_sym : forall a b, same a b -> same b a.
Proof.
  induction a as [| | | | | | | |l IH|l IH|es IH|] using node_ind2; intros [| | | | | | | |r|r|r|]; cbn [same]; try tauto; try congruence.
  - apply same_real_sym.
  - rewrite !same_list. now apply Forall2_sym_in.
  - rewrite !same_list. now apply Forall2_sym_in.
  - intros H. apply same_NMap in H. destruct H as (r' & P & F). apply same_NMap.
    apply Forall2_sym_in in F.
    2:{ eapply Forall_impl; [|exact IH]. intros [k v] [I1 I2] [k' v'] [S1 S2]. cbn in *. split; cbn; auto. }
    eapply Permutation_Forall2 in F; [|symmetry; exact P]. destruct F as (es' & P' & F'). eauto.
Qed.

Theorem same_trans : forall a b c, same a b -> same b c -> same a c.
Proof.
  induction a as [| | | | | | | |l IH|l IH|es IH|] using node_ind2; intros [| | | | | | | |m|m|m|] [| | | | | | | |r|r|r|]; cbn [same]; try tauto; try congruence.
  - apply same_real_trans.
  - rewrite !same_list. now apply Forall2_trans_in.
  - rewrite !same_list. now apply Forall2_trans_in.
  - intros H1 H2. apply same_NMap in H1. apply same_NMap in H2. destruct H1 as (m' & P1 & F1). destruct H2 as (r' & P2 & F2).
    apply same_NMap.
    eapply Permutation_Forall2 in F2; [|exact P1]. destruct F2 as (r'' & P3 & F3).
    exists r''. split; [now rewrite P2|]. eapply Forall2_trans_in; eauto.
    eapply Forall_impl; [|exact IH]. intros [k v] [I1 I2] [k' v'] [k2 v2] [S1 S2] [T1 T2]. cbn in *. split; cbn; eauto.
Qed.

Theorem same_refl : forall a, good a -> same a a.
Proof.
  assert (R : forall l, Forall (fun x => same x x) l -> Forall2 same l l) by (induction 1; auto).
  assert (HS : forall a, simple a -> same a a).
  { induction a as [| | | | | | | |l IH|l IH|es IH|] using node_ind2; cbn [simple same]; try tauto.
    - intros H. repeat split; auto.
    - rewrite simple_list, same_list. intros H. apply R. clear R. induction IH; inversion H; subst; auto.
    - rewrite simple_list, same_list. intros H. apply R. clear R. induction IH; inversion H; subst; auto. }
  induction a as [| | | | | | | |l IH|l IH|es IH|] using node_ind2; intros G; try (cbn; exact I); try reflexivity.
  - cbn in *. repeat split; auto.
  - cbn [good] in G. apply good_list in G. apply same_NList, R. clear R HS. induction IH; inversion G; subst; auto.
  - cbn [good] in G. apply good_list in G. apply same_NVector, R. clear R HS. induction IH; inversion G; subst; auto.
  - apply good_NMap in G. destruct G as [_ G]. apply same_NMap. exists es. split; auto.
    induction IH as [|[k v] es [_ I2] IH]; inversion G as [|? ? [G1 G2] G3]; subst; constructor; auto. split; cbn; auto.
  - cbn in G. contradiction.
Qed.

(** ** Hashes of simple nodes *)

Section WithHash.
Context (sh : std_hash) (Hsh : hash_respects_reals sh).

Lemma hash_list_ok l : Forall (fun n => exists h, node_hash sh n = Ok h) l ->
  forall h, exists h', hash_list (node_hash sh) h l = Ok h'.
Proof.
  induction 1 as [|n l (hn & Hn) _ IH]; intros h; cbn [hash_list]; eauto. rewrite Hn. cbn [bind]. apply IH.
Qed.

Lemma simple_hash_ok n : simple n -> exists h, node_hash sh n = Ok h.
Proof.
  induction n as [| | | | | | | |l IH|l IH|es IH|] using node_ind2; cbn [simple node_hash]; eauto; try tauto.
  - rewrite simple_list. intros S. apply hash_list_ok. induction IH; inversion S; subst; auto.
  - rewrite simple_list. intros S. apply hash_list_ok. induction IH; inversion S; subst; auto.
Qed.

Lemma hash_list_same l r : Forall2 (fun a b => node_hash sh a = node_hash sh b) l r ->
  forall h, hash_list (node_hash sh) h l = hash_list (node_hash sh) h r.
Proof.
  induction 1 as [|a b l r E _ IH]; intros h; cbn [hash_list]; auto. rewrite E.
  destruct (node_hash sh b); cbn [bind]; auto.
Qed.

Lemma no_map_list l : (fix go (l : list node) := match l with [] => True | x :: l => no_map x /\ go l end) l <-> Forall no_map l.
Proof. induction l as [|x l IH]; [split; auto|]. rewrite IH. split; [intros [? ?]; auto|inversion 1; auto]. Qed.

Lemma same_hash : forall a b, no_map a -> same a b -> node_hash sh a = node_hash sh b.
Proof.
  assert (L : forall l, Forall (fun a => forall b, no_map a -> same a b -> node_hash sh a = node_hash sh b) l ->
            Forall no_map l -> forall r, Forall2 same l r -> Forall2 (fun a b => node_hash sh a = node_hash sh b) l r).
  { induction 1; intros N r F; inversion F; subst; constructor; inversion N; subst; auto. }
  induction a as [| | | | | | | |l IH|l IH|es IH|] using node_ind2; intros [| | | | | | | |r|r|r|]; cbn [same no_map]; try tauto; try congruence.
  - intros _ H. cbn [node_hash]. now rewrite (Hsh _ _ H).
  - rewrite no_map_list, same_list. intros N H. cbn [node_hash]. apply hash_list_same; auto.
  - rewrite no_map_list, same_list. intros N H. cbn [node_hash]. apply hash_list_same; auto.
Qed.

Lemma simple_no_map a : simple a -> no_map a.
Proof.
  induction a as [| | | | | | | |l IH|l IH|es IH|] using node_ind2; cbn [simple no_map]; auto.
  - rewrite simple_list, no_map_list. intros S. induction IH; inversion S; subst; auto.
  - rewrite simple_list, no_map_list. intros S. induction IH; inversion S; subst; auto.
Qed.

Lemma simple_good a : simple a -> good a.
Proof.
  induction a as [| | | | | | | |l IH|l IH|es IH|] using node_ind2; cbn [simple]; auto; try (cbn; tauto).
  - rewrite simple_list. intros S. cbn [good]. rewrite good_list. induction IH; inversion S; subst; auto.
  - rewrite simple_list. intros S. cbn [good]. rewrite good_list. induction IH; inversion S; subst; auto.
Qed.

(** ** node_eq *)

Definition decides (a b : node) : Prop := exists e, node_eq sh a b = Ok e /\ (e = true <-> same a b).

Lemma real_eq_same x y : ~ nan x -> ~ nan y -> (real_eq x y = true <-> same_real x y).
Proof.
  intros A B. unfold real_eq, same_real. rewrite <- !is_zero_true. rewrite (proj2 (is_nan_false x) A), (proj2 (is_nan_false y) B). cbn [orb].
  destruct (is_zero x) eqn:Zx, (is_zero y) eqn:Zy; cbn [andb]; rewrite ?Z.eqb_eq; intuition congruence.
Qed.

Lemma list_decides l : Forall (fun a => forall b, good b -> decides a b) l -> forall r, Forall good r -> length l = length r ->
  exists e, list_eq (node_eq sh) l r = Ok e /\ (e = true <-> Forall2 same l r).
Proof.
  induction 1 as [|a l Ha _ IH]; intros [|b r] G L; cbn [length] in L; try discriminate; cbn [list_eq].
  - exists true. split; auto. split; auto.
  - inversion G; subst. destruct (Ha b ltac:(assumption)) as (e & E & S). rewrite E. cbn [bind].
    destruct e.
    + destruct (IH r ltac:(assumption) ltac:(congruence)) as (e & E' & S'). rewrite E'. exists e. split; auto. rewrite S'.
      split; [intros; constructor; tauto|inversion 1; auto].
    + exists false. split; auto. split; [discriminate|]. inversion 1; subst. tauto.
Qed.

Lemma distinct_app l1 l2 : distinct_keys (l1 ++ l2) -> distinct_keys l1 /\ distinct_keys l2.
Proof.
  induction l1 as [|[k v] l IH]; cbn; auto. intros [H1 H2]. destruct (IH H2) as [A B]. split; auto. split; auto.
  intros k' v' Hin. apply (H1 k' v'). apply in_or_app. auto.
Qed.
Lemma distinct_remove l1 kv l2 : distinct_keys (l1 ++ kv :: l2) -> distinct_keys (l1 ++ l2).
Proof.
  induction l1 as [|[k v] l IH]; destruct kv as [k0 v0]; cbn; [tauto|]. intros [H1 H2]. split; auto.
  intros k' v' Hin. apply (H1 k' v'). apply in_app_or in Hin. apply in_or_app. cbn. tauto.
Qed.

(** find returns the entry with the same key, if there is one. *)
Lemma find_entry_ok k hk rhs :
  simple k -> node_hash sh k = Ok hk ->
  Forall (fun kv => simple (fst kv) /\ decides k (fst kv)) rhs -> distinct_keys rhs ->
  exists s, find_entry sh (node_eq sh k) hk rhs = Ok s /\
    (forall v, s = Some v <-> exists k', In (k', v) rhs /\ same k k').
Proof.
  intros Sk Hk F. induction F as [|[k1 v1] rhs [S1 D1] F IH]; intros D; cbn [find_entry].
  - exists None. split; auto. intros v. split; [discriminate|]. intros (? & [] & _).
  - cbn [fst] in *. cbn [distinct_keys] in D. destruct D as [Dn D].
    destruct (IH D) as (s & Es & Hs).
    destruct (simple_hash_ok k1 S1) as (h1 & Hh1). rewrite Hh1. cbn [bind].
    assert (Skip : ~ same k k1 -> forall v, s = Some v <-> (exists k', ((k1, v1) = (k', v) \/ In (k', v) rhs) /\ same k k')).
    { intros N v. rewrite Hs. split; intros (k' & Hin & SS); exists k'; split; auto.
      destruct Hin as [E|]; auto. injection E as <- <-. contradiction. }
    destruct (Z.eqb_spec h1 hk) as [->|N].
    + destruct D1 as (e & E & He). rewrite E. cbn [bind]. destruct e.
      * exists (Some v1). split; auto. assert (Sk1 : same k k1) by tauto. intros v. split.
        { intros [= <-]. exists k1. split; cbn; auto. }
        intros (k' & [EE|Hin] & SS); [now injection EE as -> ->|].
        exfalso. apply (Dn k' v Hin). eapply same_trans; [apply same_sym; exact Sk1|exact SS].
      * exists s. split; auto. cbn [In]. apply Skip. intros SS. apply He in SS. discriminate.
    + exists s. split; auto. cbn [In]. apply Skip. intros SS. apply N.
      pose proof (same_hash k k1 (simple_no_map k Sk) SS). congruence.
Qed.

Lemma map_eq_ok rhs : Forall (fun kv => simple (fst kv) /\ good (snd kv)) rhs -> distinct_keys rhs ->
  forall es, Forall (fun kv => (forall b, good b -> decides (fst kv) b) /\ (forall b, good b -> decides (snd kv) b)) es ->
    Forall (fun kv => simple (fst kv)) es ->
  exists e, map_eq sh (node_eq sh) rhs es = Ok e /\
    (e = true <-> forall k v, In (k, v) es -> exists k' v', In (k', v') rhs /\ same k k' /\ same v v').
Proof.
  intros G D. induction 1 as [|[k v] es [Dk Dv] _ IH]; intros S; cbn [map_eq].
  - exists true. split; auto. split; auto. intros _ k v [].
  - inversion S as [|? ? Sk Ss]; subst. cbn [fst snd] in *. destruct (IH Ss) as (e & Ee & He).
    destruct (simple_hash_ok k Sk) as (hk & Hhk). rewrite Hhk. cbn [bind].
    destruct (find_entry_ok k hk rhs Sk Hhk) as (s & Es & Hs); auto.
    { eapply Forall_impl; [|exact G]. intros [k1 v1] [A B]. cbn [fst snd] in *. split; auto. apply Dk. now apply simple_good. }
    rewrite Es. cbn [bind]. destruct s as [rv|].
    + destruct (proj1 (Hs rv) eq_refl) as (k' & Hin & Skk).
      assert (Grv : good rv). { rewrite Forall_forall in G. apply (G (k', rv) Hin). }
      destruct (Dv rv Grv) as (e1 & E1 & H1). rewrite E1. cbn [bind]. destruct e1.
      * exists e. split; auto. rewrite He. split.
        { intros H k0 v0 [EE|Hin0]; [injection EE as <- <-|eauto]. exists k', rv. tauto. }
        { intros H k0 v0 Hin0. apply H. right. auto. }
      * exists false. split; auto. split; [discriminate|]. intros H. exfalso.
        destruct (H k v ltac:(left; reflexivity)) as (k2 & v2 & Hin2 & SK & SV).
        assert (EE : Some rv = Some v2) by (apply Hs; eauto).
        injection EE as ->. apply H1 in SV. discriminate.
    + exists false. split; auto. split; [discriminate|]. intros H. exfalso.
      destruct (H k v ltac:(left; reflexivity)) as (k2 & v2 & Hin2 & SK & SV).
      assert (EE : @None node = Some v2) by (apply Hs; eauto). discriminate.
Qed.

(** A matching of equally many entries with distinct keys is a permutation. *)
Lemma matching_permutation es : forall rhs, length es = length rhs -> distinct_keys es -> 
  (forall k v, In (k, v) es -> exists k' v', In (k', v') rhs /\ same k k' /\ same v v') ->
  exists r', Permutation rhs r' /\ Forall2 same2 es r'.
Proof.
  induction es as [|[k v] es IH]; intros rhs L D H.
  - destruct rhs; [|discriminate]. exists []. auto.
  - cbn [distinct_keys] in D. destruct D as [Dn D].
    destruct (H k v ltac:(left; reflexivity)) as (k' & v' & Hin & SK & SV).
    apply in_split in Hin. destruct Hin as (r1 & r2 & ->).
    destruct (IH (r1 ++ r2)) as (r' & P & F); auto.
    { rewrite app_length in *. cbn in L. lia. }
    { intros k0 v0 Hin0. destruct (H k0 v0 ltac:(right; auto)) as (k1 & v1 & Hin1 & SK1 & SV1).
      exists k1, v1. split; auto. apply in_app_or in Hin1. apply in_or_app. cbn in Hin1.
      destruct Hin1 as [|[EE|]]; auto. injection EE as <- <-. exfalso. apply (Dn k0 v0 Hin0).
      eapply same_trans; [exact SK|]. now apply same_sym. }
    exists ((k', v') :: r'). split.
    { rewrite <- P. symmetry. apply Permutation_middle. }
    constructor; auto. split; auto.
Qed.

Lemma Forall2_in_l {A B} (R : A -> B -> Prop) l r : Forall2 R l r -> forall x, In x l -> exists y, In y r /\ R x y.
Proof. induction 1; intros z []; subst; [exists y; cbn; auto|]. destruct (IHForall2 z H1) as (w & ? & ?). exists w. cbn. auto. Qed.
Lemma Forall2_len {A B} (R : A -> B -> Prop) l r : Forall2 R l r -> length l = length r.
Proof. induction 1; cbn; auto. Qed.

Theorem node_eq_decides : forall a b, good a -> good b -> decides a b.
Proof.
  induction a as [| | | | | | | |l IH|l IH|es IH|] using node_ind2; intros b0 Ga Gb;
    destruct b0 as [| | | | | | | |r|r|r|]; unfold decides;
    try (exists false; split; [reflexivity|]; cbn [same]; split; [discriminate|contradiction]);
    cbn [node_eq].
  - exists true. cbn. tauto.
  - eexists. split; [reflexivity|]. cbn. apply eqb_true_iff.
  - eexists. split; [reflexivity|]. cbn. apply Z.eqb_eq.
  - eexists. split; [reflexivity|]. cbn [same]. apply real_eq_same; auto.
  - eexists. split; [reflexivity|]. cbn. apply Z.eqb_eq.
  - eexists. split; [reflexivity|]. cbn. apply Z.eqb_eq.
  - eexists. split; [reflexivity|]. cbn. apply Z.eqb_eq.
  - eexists. split; [reflexivity|]. cbn. destruct (list_eq_dec Z.eq_dec s s0); split; congruence.
  - cbn [good] in Ga, Gb. apply good_list in Ga, Gb. setoid_rewrite same_NList.
    destruct (Nat.eqb_spec (length l) (length r)) as [L|L]; cbn [negb].
    + apply list_decides; auto. clear -IH Ga. induction IH; inversion Ga; subst; auto.
    + exists false. split; auto. split; [discriminate|]. intros F. exfalso. apply L. eapply Forall2_len; eauto.
  - cbn [good] in Ga, Gb. apply good_list in Ga, Gb. setoid_rewrite same_NVector.
    destruct (Nat.eqb_spec (length l) (length r)) as [L|L]; cbn [negb].
    + apply list_decides; auto. clear -IH Ga. induction IH; inversion Ga; subst; auto.
    + exists false. split; auto. split; [discriminate|]. intros F. exfalso. apply L. eapply Forall2_len; eauto.
  - apply good_NMap in Ga, Gb. destruct Ga as [Da Ga], Gb as [Db Gb].
    destruct (Nat.eqb_spec (length es) (length r)) as [L|L]; cbn [negb].
    + destruct (map_eq_ok r Gb Db es) as (e & E & He).
      { clear -IH Ga. induction IH as [|[k v] es [I1 I2] IH]; inversion Ga as [|? ? [G1 G2] G3]; subst; constructor; auto.
        cbn [fst snd] in *. split; intros b Gb; auto. apply I1; auto. now apply simple_good. }
      { eapply Forall_impl; [|exact Ga]. intros [? ?] [? ?]; auto. }
      exists e. split; auto. rewrite He, same_NMap. split.
      * intros H. apply matching_permutation; auto.
      * intros (r' & P & F) k v Hin. destruct (Forall2_in_l _ _ _ F _ Hin) as ([k' v'] & Hin' & [S1 S2]).
        exists k', v'. cbn in *. split; auto. eapply Permutation_in; [symmetry; exact P|auto].
    + exists false. split; auto. split; [discriminate|]. rewrite same_NMap. intros (r' & P & F). exfalso. apply L.
      rewrite (Forall2_len _ _ _ F). symmetry. now apply Permutation_length.
  - cbn in Ga. contradiction.
Qed.

End WithHash.
