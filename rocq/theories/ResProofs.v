(** Each result in scope owns one object. *)

From Coq Require Import List Arith Bool Lia Permutation.
From Verif Require Import Outcome ResModel ResSpec.
Import ListNotations.

Section Assoc.
Context {A : Type}.
Implicit Type l : list (nat * A).
Lemma find_in k l : find k l <> None <-> In k (map fst l).
Proof.
  induction l as [|(j, a) l IH]; cbn; [tauto|]. destruct (Nat.eqb_spec j k); [|rewrite IH; tauto]. split; [auto|discriminate].
Qed.
Lemma find_In k l a : find k l = Some a -> In (k, a) l.
Proof.
  induction l as [|(j, b) l IH]; cbn; [discriminate|]. destruct (Nat.eqb_spec j k) as [->|]; [intros E; injection E as ->; auto|auto].
Qed.
Lemma In_find k l a : NoDup (map fst l) -> In (k, a) l -> find k l = Some a.
Proof.
  induction l as [|(j, b) l IH]; cbn; intros N; [easy|]. intros [H|H]; inversion N as [|? ? N1 N2]; subst.
  - injection H as -> ->. now rewrite Nat.eqb_refl.
  - destruct (Nat.eqb_spec j k) as [->|]; auto. exfalso. apply N1. apply (in_map fst) in H. exact H.
Qed.
Lemma drop_keys k l j : In j (map fst (drop k l)) -> In j (map fst l).
Proof. induction l as [|(i, a) l IH]; cbn; [auto|]. destruct (i =? k); cbn; tauto. Qed.
Lemma drop_nodup k l : NoDup (map fst l) -> NoDup (map fst (drop k l)).
Proof.
  induction l as [|(i, a) l IH]; cbn; intros N; [auto|]. inversion N as [|? ? N1 N2]; subst. destruct (i =? k); auto. cbn. constructor; auto.
  intros H. apply N1. eapply drop_keys; eauto.
Qed.
Lemma find_drop k l j : NoDup (map fst l) -> find j (drop k l) = if k =? j then None else find j l.
Proof.
  induction l as [|(i, a) l IH]; cbn; intros N; [now destruct (k =? j)|]. inversion N as [|? ? N1 N2]; subst.
  destruct (Nat.eqb_spec i k) as [->|Nk].
  - destruct (Nat.eqb_spec k j) as [->|Nj]; auto. destruct (find j l) eqn:F; auto. exfalso. apply N1. apply find_in. congruence.
  - cbn. rewrite IH by auto. destruct (Nat.eqb_spec i j) as [->|]; auto. destruct (Nat.eqb_spec k j); [congruence|reflexivity].
Qed.
Lemma replace_keys k a l : map fst (replace k a l) = map fst l.
Proof. induction l as [|(i, b) l IH]; cbn; auto. destruct (i =? k); cbn; congruence. Qed.
Lemma find_replace k a l j : find j (replace k a l) = if k =? j then option_map (fun _ => a) (find j l) else find j l.
Proof.
  induction l as [|(i, b) l IH]; cbn; [now destruct (k =? j)|]. destruct (Nat.eqb_spec i k) as [->|Nk]; cbn.
  - destruct (Nat.eqb_spec k j); auto.
  - rewrite IH. destruct (Nat.eqb_spec i j) as [->|]; auto. destruct (Nat.eqb_spec k j); [congruence|reflexivity].
Qed.
End Assoc.

Section Result.
Variables T E : Type.
Variable moved_t : T -> T.
Variable moved_e : E -> E.
Variables triv_t triv_e : bool.

Definition kind_of (x : T + E) : rkind := match x with inl _ => KOk | inr _ => KErr end.

Record rinv (s : rstate T E) (h : holding T E) : Prop := {
  q_vars : NoDup (map fst (r_vars _ _ s));
  q_objs : NoDup (map fst (r_objs _ _ s));
  q_holds : forall i, match h i with
    | Some x => exists k, find i (r_vars _ _ s) = Some (mkRes (kind_of x) k) /\ find k (r_objs _ _ s) = Some x
    | None => find i (r_vars _ _ s) = None
    end;
  q_inj : forall i j r r', find i (r_vars _ _ s) = Some r -> find j (r_vars _ _ s) = Some r' -> r_member r = r_member r' -> i = j;
  q_owned : forall k, In k (map fst (r_objs _ _ s)) -> exists i r, find i (r_vars _ _ s) = Some r /\ r_member r = k;
  q_next : forall k, In k (map fst (r_objs _ _ s)) -> k < r_next _ _ s }.

Lemma rinv_ext s h h' : (forall i, h i = h' i) -> rinv s h -> rinv s h'.
Proof. intros H [A B C D F G]. constructor; auto. intros i. rewrite <- H. apply C. Qed.

Lemma holds s h i x : rinv s h -> h i = Some x ->
  exists k, find i (r_vars _ _ s) = Some (mkRes (kind_of x) k) /\ find k (r_objs _ _ s) = Some x.
Proof. intros I H. pose proof (q_holds _ _ I i) as Q. now rewrite H in Q. Qed.

Lemma construct_ok s h i x : rinv s h -> h i = None -> rinv (construct T E s i x) (put T E h i (Some x)).
Proof.
  intros I Hi. pose proof (q_holds _ _ I i) as Fi. rewrite Hi in Fi.
  assert (Fk : forall k, find k (r_objs _ _ s) <> None -> k < r_next _ _ s) by (intros k; rewrite find_in; apply (q_next _ _ I)).
  assert (M : forall j r, find j (r_vars _ _ s) = Some r -> r_member r < r_next _ _ s).
  { intros j r F. pose proof (q_holds _ _ I j) as Q. destruct (h j) as [y|]; [|congruence]. destruct Q as (k & Q1 & Q2).
    rewrite F in Q1. injection Q1 as ->. cbn. apply Fk. congruence. }
  constructor; unfold construct; cbn [r_vars r_objs r_next map fst].
  - constructor; [|apply (q_vars _ _ I)]. rewrite <- find_in. congruence.
  - constructor; [|apply (q_objs _ _ I)]. intros H. apply (q_next _ _ I) in H. lia.
  - intros j. unfold put. cbn [find]. destruct (Nat.eqb_spec i j) as [->|N].
    + exists (r_next _ _ s). rewrite Nat.eqb_refl. auto.
    + pose proof (q_holds _ _ I j) as Q. destruct (h j) as [y|]; auto. destruct Q as (k & Q1 & Q2). exists k. split; auto.
      destruct (Nat.eqb_spec (r_next _ _ s) k) as [E1|]; auto. exfalso. assert (k < r_next _ _ s) by (apply Fk; congruence). lia.
  - intros j j' r r'. cbn [find]. destruct (Nat.eqb_spec i j) as [E1|N], (Nat.eqb_spec i j') as [E2|N'].
    + congruence.
    + intros H1 H2 H3. injection H1 as <-. cbn in H3. apply M in H2. lia.
    + intros H1 H2 H3. injection H2 as <-. cbn in H3. apply M in H1. lia.
    + apply (q_inj _ _ I).
  - intros k [<-|H].
    + exists i. cbn [find]. rewrite Nat.eqb_refl. eexists. split; reflexivity.
    + destruct (q_owned _ _ I k H) as (j & r & H1 & H2). exists j, r. split; auto. cbn [find].
      destruct (Nat.eqb_spec i j); [congruence|auto].
  - intros k [<-|H]; [lia|]. apply (q_next _ _ I) in H. lia.
Qed.

(** Writing to the object of a variable. *)
Lemma replace_ok s h i x y k : rinv s h -> h i = Some x -> find i (r_vars _ _ s) = Some (mkRes (kind_of x) k) -> kind_of x = kind_of y ->
  rinv (mkRS T E (replace k y (r_objs _ _ s)) (r_next _ _ s) (r_vars _ _ s)) (put T E h i (Some y)).
Proof.
  intros I Hi Fi K. constructor; cbn [r_vars r_objs r_next]; rewrite ?replace_keys; try apply I.
  intros j. unfold put. destruct (Nat.eqb_spec i j) as [->|N].
  - exists k. rewrite <- K. split; auto. rewrite find_replace, Nat.eqb_refl.
    destruct (holds s h j x I Hi) as (k' & Q1 & Q2). rewrite Fi in Q1. injection Q1 as <-. now rewrite Q2.
  - pose proof (q_holds _ _ I j) as Q. destruct (h j) as [z|]; auto. destruct Q as (k' & Q1 & Q2). exists k'. split; auto.
    rewrite find_replace. destruct (Nat.eqb_spec k k') as [->|]; auto. exfalso. apply N. eapply (q_inj _ _ I); eauto.
Qed.

(** Ending the object of a variable and the variable. *)
Lemma end_ok s h i x k : rinv s h -> h i = Some x -> find i (r_vars _ _ s) = Some (mkRes (kind_of x) k) ->
  destroy T E s k = Ok (mkRS T E (drop k (r_objs _ _ s)) (r_next _ _ s) (r_vars _ _ s)) /\
  rinv (forget T E (mkRS T E (drop k (r_objs _ _ s)) (r_next _ _ s) (r_vars _ _ s)) i) (put T E h i None).
Proof.
  intros I Hi Fi. destruct (holds s h i x I Hi) as (k' & Q1 & Q2). rewrite Fi in Q1. injection Q1 as <-. split.
  { unfold destroy. now rewrite Q2. }
  pose proof (q_vars _ _ I) as NV. pose proof (q_objs _ _ I) as NO.
  constructor; unfold forget; cbn [r_vars r_objs r_next].
  - now apply drop_nodup.
  - now apply drop_nodup.
  - intros j. unfold put. rewrite find_drop by auto. destruct (Nat.eqb_spec i j) as [->|N]; auto.
    pose proof (q_holds _ _ I j) as Q. destruct (h j) as [z|]; auto. destruct Q as (k' & Q1 & Q3). exists k'. split; auto.
    rewrite find_drop by auto. destruct (Nat.eqb_spec k k') as [->|]; auto. exfalso. apply N. eapply (q_inj _ _ I); eauto.
  - intros j j' r r'. rewrite !find_drop by auto. destruct (i =? j), (i =? j'); try discriminate. apply (q_inj _ _ I).
  - intros k' H. assert (k' <> k). { intros ->. apply find_in in H. rewrite find_drop, Nat.eqb_refl in H by auto. congruence. }
    apply drop_keys in H. destruct (q_owned _ _ I k' H) as (j & r & H1 & H2). exists j, r. split; auto. rewrite find_drop by auto.
    destruct (Nat.eqb_spec i j) as [->|]; auto. exfalso. rewrite Fi in H1. injection H1 as <-. cbn in H2. congruence.
  - intros k' H. apply drop_keys in H. now apply (q_next _ _ I).
Qed.

Lemma put_put h i x y j : put T E (put T E h i x) i y j = put T E h i y j.
Proof. unfold put. destruct (i =? j); reflexivity. Qed.
Lemma put_same h i j : put T E h i (h i) j = h j.
Proof. unfold put. destruct (Nat.eqb_spec i j) as [->|]; reflexivity. Qed.
Lemma put_at h i x : put T E h i x i = x.
Proof. unfold put. now rewrite Nat.eqb_refl. Qed.
Lemma put_other h i x j : i <> j -> put T E h i x j = h j.
Proof. intros N. unfold put. destruct (Nat.eqb_spec i j); congruence. Qed.

(** Every operation, when assignments keep the kind, or the types are trivial. *)
Lemma rexec_ok s h o : rinv s h -> rallowed T E h o -> (keeps_kind T E h o \/ triv_t && triv_e = true) ->
  exists s', rexec T E moved_t moved_e triv_t triv_e s o = Ok s' /\ rinv s' (rafter T E moved_t moved_e h o).
Proof.
  intros I A K. destruct o as [i v|i e|i j|i j|i v|i e|i]; cbn [rexec rallowed rafter keeps_kind] in *.
  - eexists. split; [reflexivity|]. now apply construct_ok.
  - eexists. split; [reflexivity|]. now apply construct_ok.
  - destruct A as (Hi & Hj). destruct (h j) as [x|] eqn:Ej; [|easy]. destruct (holds s h j x I Ej) as (k & F1 & F2).
    unfold var. rewrite F1. cbn [bind r_kind r_member]. unfold value_of, error_of. rewrite F2.
    destruct x as [v|e]; cbn [kind_of bind]; (eexists; split; [reflexivity|]; now apply construct_ok).
  - destruct A as (Hi & Hj). destruct (h j) as [x|] eqn:Ej; [|easy]. destruct (holds s h j x I Ej) as (k & F1 & F2).
    assert (Nij : j <> i) by congruence.
    unfold var. rewrite F1. cbn [bind r_kind r_member]. unfold value_of, error_of. rewrite F2.
    destruct x as [v|e]; cbn [kind_of bind option_map moved]; (eexists; split; [reflexivity|]; apply construct_ok;
      [eapply replace_ok; eauto; reflexivity|now rewrite put_other]).
  - destruct (h i) as [x|] eqn:Ei; [|easy]. destruct (holds s h i x I Ei) as (k & F1 & F2).
    unfold var. rewrite F1. cbn [bind r_kind r_member]. destruct x as [v'|e]; cbn [kind_of] in *.
    + unfold value_of. rewrite F2. cbn [bind]. eexists. split; [reflexivity|]. eapply replace_ok; eauto; reflexivity.
    + destruct (end_ok s h i (inr e) k I Ei F1) as (D & I'). rewrite D. cbn [bind].
      assert (triv_t = true) as ->. { destruct K as [K|K]; [exfalso; now apply (K e)|now apply andb_prop in K]. }
      eexists. split; [reflexivity|]. eapply rinv_ext; [apply put_put|]. apply construct_ok; [exact I'|apply put_at].
  - destruct (h i) as [x|] eqn:Ei; [|easy]. destruct (holds s h i x I Ei) as (k & F1 & F2).
    unfold var. rewrite F1. cbn [bind r_kind r_member]. destruct x as [v|e']; cbn [kind_of] in *.
    + destruct (end_ok s h i (inl v) k I Ei F1) as (D & I').
      assert (triv_t = true /\ triv_e = true) as (-> & ->). { destruct K as [K|K]; [exfalso; now apply (K v)|now apply andb_prop in K]. }
      rewrite D. cbn [bind]. eexists. split; [reflexivity|]. eapply rinv_ext; [apply put_put|]. apply construct_ok; [exact I'|apply put_at].
    + unfold error_of. rewrite F2. cbn [bind]. eexists. split; [reflexivity|]. eapply replace_ok; eauto; reflexivity.
  - destruct (h i) as [x|] eqn:Ei; [|easy]. destruct (holds s h i x I Ei) as (k & F1 & F2).
    unfold var. rewrite F1. cbn [bind r_kind r_member]. destruct (end_ok s h i x k I Ei F1) as (D & I').
    unfold value_of, error_of. rewrite F2, D. destruct x; cbn [kind_of bind]; (eexists; split; [reflexivity|exact I']).
Qed.

Lemma rinv0 : rinv (rstate0 T E) (fun _ => None).
Proof. constructor; cbn; try constructor; try contradiction; auto; try discriminate. Qed.

Lemma rexec_app s a b : rexec_all T E moved_t moved_e triv_t triv_e s (a ++ b) =
  do s <- rexec_all T E moved_t moved_e triv_t triv_e s a; rexec_all T E moved_t moved_e triv_t triv_e s b.
Proof. revert s. induction a as [|o a IH]; intros s; cbn [app rexec_all bind]; auto. destruct (rexec _ _ _ _ _ _ s o); cbn [bind]; auto. Qed.

Lemma rexec_all_ok os : throughout T E moved_t moved_e (rallowed T E) os ->
  (throughout T E moved_t moved_e (keeps_kind T E) os \/ triv_t && triv_e = true) ->
  exists s, rexec_all T E moved_t moved_e triv_t triv_e (rstate0 T E) os = Ok s /\ rinv s (rhistory T E moved_t moved_e os).
Proof.
  induction os as [|o os IH] using rev_ind; intros A K.
  - exists (rstate0 T E). split; auto. exact rinv0.
  - assert (P : forall P, throughout T E moved_t moved_e P (os ++ [o]) -> throughout T E moved_t moved_e P os).
    { intros P H before o' later Eq. apply (H before o' (later ++ [o])). rewrite Eq, <- app_assoc. reflexivity. }
    destruct IH as (s & Es & I); [auto|destruct K; auto|].
    destruct (rexec_ok s (rhistory T E moved_t moved_e os) o I) as (s' & Es' & I').
    + apply (A os o []). reflexivity.
    + destruct K as [K|K]; [left; apply (K os o []); reflexivity|auto].
    + exists s'. rewrite rexec_app, Es. cbn [bind rexec_all]. rewrite Es'. split; auto. unfold rhistory. rewrite fold_left_app. exact I'.
Qed.

(** The objects alive are those of the variables in scope. *)
Lemma rinv_alive s h : rinv s h ->
  exists scope, NoDup scope /\ (forall i, In i scope <-> h i <> None) /\
    Permutation (map snd (r_objs _ _ s)) (flat_map (fun i => match h i with Some x => [x] | None => [] end) scope).
Proof.
  intros I. exists (map fst (r_vars _ _ s)). split; [apply I|]. split.
  - intros i. rewrite <- find_in. pose proof (q_holds _ _ I i) as Q. destruct (h i) as [x|].
    + destruct Q as (k & -> & _). split; discriminate.
    + rewrite Q. tauto.
  - (* pair each variable with its object *)
    assert (G : forall vars, (forall v, In v vars -> In v (r_vars _ _ s)) -> exists l,
      map fst l = map (fun v => r_member (snd v)) vars /\ map snd l = flat_map (fun i => match h i with Some x => [x] | None => [] end) (map fst vars) /\
      forall p, In p l -> In p (r_objs _ _ s)).
    { induction vars as [|(i, r) vars IH]; intros H.
      - exists []. cbn. split; auto. split; auto. contradiction.
      - destruct IH as (l & L1 & L2 & L3); [intros v Hv; apply H; cbn; auto|].
        assert (F : find i (r_vars _ _ s) = Some r) by (apply In_find; [apply I|apply H; cbn; auto]).
        pose proof (q_holds _ _ I i) as Q. destruct (h i) as [x|] eqn:Ei; [|congruence]. destruct Q as (k & Q1 & Q2).
        rewrite F in Q1. injection Q1 as ->. exists ((k, x) :: l). cbn [map fst snd flat_map r_member]. rewrite Ei, L1, L2. split; auto. split; auto.
        intros p [<-|Hp]; auto. now apply find_In. }
    destruct (G (r_vars _ _ s)) as (l & L1 & L2 & L3); auto. rewrite <- L2. apply Permutation_map.
    assert (N : NoDup (map fst l)).
    { rewrite L1. pose proof (q_vars _ _ I) as NV.
      assert (X : forall vars, (forall v, In v vars -> In v (r_vars _ _ s)) -> NoDup (map fst vars) -> NoDup (map (fun v => r_member (snd v)) vars)).
      { induction vars as [|(i, r) vars IH]; intros H N; cbn [map]; [constructor|]. cbn [map fst] in N. inversion N as [|? ? N1 N2]; subst.
        constructor; [|apply IH; auto; intros v Hv; apply H; cbn; auto].
        intros Hin. apply in_map_iff in Hin as ((j, r') & Em & Hin). cbn [snd] in Em. apply N1.
        assert (j = i) as ->; [|apply (in_map fst) in Hin; exact Hin].
        apply (q_inj _ _ I j i r' r); auto; apply In_find; try apply I; apply H; cbn; auto. }
      apply X; auto. }
    apply NoDup_Permutation.
    + eapply NoDup_map_inv, (q_objs _ _ I).
    + eapply NoDup_map_inv, N.
    + intros (k, x). split; [|apply L3]. intros H.
      assert (Hk : In k (map fst (r_objs _ _ s))) by (apply (in_map fst) in H; exact H).
      destruct (q_owned _ _ I k Hk) as (i & r & F & M). apply find_In in F.
      assert (Hl : In k (map fst l)). { rewrite L1. apply in_map_iff. exists (i, r). auto. }
      apply in_map_iff in Hl as ((k', y) & Ek & Hl). cbn in Ek. subst k'. assert (x = y) as ->; auto.
      apply L3 in Hl. apply In_find in H, Hl; try apply I. congruence.
Qed.
End Result.
