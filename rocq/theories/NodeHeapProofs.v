From Coq Require Import ZArith List Bool Arith Lia.
From Verif Require Import Outcome HashModel IrModel IrSpec IrProofs NodeHeapModel NodeHeapSpec.
Import ListNotations.
Local Open Scope Z_scope.

Lemma deref_cell h p : deref h p = match cell_at h p with Some c => Ok c | None => match p with None => UB NullDeref | _ => UB UseAfterFree end end.
Proof. destruct p as [a|]; cbn; [|reflexivity]. unfold cell_at. cbn. now destruct (nth_error h a). Qed.
Lemma deref_ok h p c : deref h p = Ok c <-> cell_at h p = Some c.
Proof. rewrite deref_cell. destruct (cell_at h p); [split; congruence|]. split; [|discriminate]. destruct p; discriminate. Qed.

Lemma all_in {A B} (f : A -> option B) l ys : all f l = Some ys <-> Forall2 (fun x y => f x = Some y) l ys.
Proof.
  revert ys. induction l as [|x l IH]; intros ys; cbn [all].
  - split; [injection 1 as <-; constructor|]. now inversion 1.
  - split.
    + destruct (f x) eqn:E; [|discriminate]. destruct (all f l) eqn:El; [|discriminate]. injection 1 as <-. constructor; auto. now apply IH.
    + inversion 1; subst. match goal with H : f x = Some _ |- _ => rewrite H end.
      match goal with H : Forall2 _ l _ |- _ => apply IH in H; rewrite H end. reflexivity.
Qed.
Definition ent_value (d : nat) (h : heap) (e : entry) : option (node * node) :=
  match value_within d h (e_key e), value_within d h (e_val e) with Some k, Some v => Some (k, v) | _, _ => None end.
Lemma ent_value_ok d h e k v : ent_value d h e = Some (k, v) <-> value_within d h (e_key e) = Some k /\ value_within d h (e_val e) = Some v.
Proof.
  unfold ent_value. destruct (value_within d h (e_key e)), (value_within d h (e_val e)); split; intros H; try discriminate; try (destruct H; discriminate).
  - now injection H as <- <-.
  - destruct H as [H1 H2]. congruence.
Qed.

(** The cases of a value *)
Inductive value_case (d : nat) (h : heap) : cell -> node -> Prop :=
| vc_nil : value_case d h CNil NNil
| vc_bool b : value_case d h (CBool b) (NBool b)
| vc_integer v : value_case d h (CInteger v) (NInteger v)
| vc_real x : value_case d h (CReal x) (NReal x)
| vc_symbol i : value_case d h (CSymbol i) (NSymbol i)
| vc_keyword i : value_case d h (CKeyword i) (NKeyword i)
| vc_character c : value_case d h (CCharacter c) (NCharacter c)
| vc_string s : value_case d h (CString s) (NString s)
| vc_set : value_case d h CSet NSet
| vc_list l ns : Forall2 (fun p n => value_within d h p = Some n) l ns -> value_case d h (CList l) (NList ns)
| vc_vector l ns : Forall2 (fun p n => value_within d h p = Some n) l ns -> value_case d h (CVector l) (NVector ns)
| vc_map es kvs : Forall2 (fun e kv => ent_value d h e = Some kv) es kvs -> value_case d h (CMap es) (NMap kvs).
Lemma value_cases d h p n : value_within (S d) h p = Some n <-> exists c, cell_at h p = Some c /\ value_case d h c n.
Proof.
  cbn [value_within]. split.
  - destruct (cell_at h p) as [c|]; [|discriminate]. intros H. exists c. split; [reflexivity|].
    destruct c; try (injection H as <-; constructor).
    + destruct (all (value_within d h) l) eqn:E; [|discriminate]. injection H as <-. constructor. now apply all_in.
    + destruct (all (value_within d h) l) eqn:E; [|discriminate]. injection H as <-. constructor. now apply all_in.
    + match goal with H : option_map _ ?x = _ |- _ => destruct x eqn:E end; [|discriminate]. injection H as <-. constructor. now apply all_in.
  - intros (c & -> & H). destruct H; try reflexivity; apply all_in in H; unfold ent_value in H; now rewrite H.
Qed.
Lemma F2_impl {A B} (R S : A -> B -> Prop) l r : (forall x y, In x l -> R x y -> S x y) -> Forall2 R l r -> Forall2 S l r.
Proof. intros H F. induction F; constructor; [apply H; [now left|auto]|]. apply IHF. intros. apply H; [now right|auto]. Qed.
Lemma value_more h : forall d p n, value_within d h p = Some n -> forall d', (d <= d')%nat -> value_within d' h p = Some n.
Proof.
  induction d as [|d IH]; intros p n H d' L; [discriminate|]. destruct d' as [|d']; [lia|].
  assert (L' : (d <= d')%nat) by lia.
  apply value_cases in H as (c & Hc & H). apply value_cases. exists c. split; [exact Hc|].
  destruct H; constructor.
  - eapply F2_impl; [|eassumption]. cbn. eauto.
  - eapply F2_impl; [|eassumption]. cbn. eauto.
  - eapply F2_impl; [|eassumption]. cbn. intros x [k v] _ E. apply ent_value_ok in E. apply ent_value_ok. destruct E. eauto.
Qed.
Lemma value_one h d p n d' n' : value_within d h p = Some n -> value_within d' h p = Some n' -> n = n'.
Proof.
  intros H H'. apply (value_more h d p n) with (d' := Nat.max d d') in H; [|lia].
  apply (value_more h d' p n') with (d' := Nat.max d d') in H'; [|lia]. congruence.
Qed.
Lemma stands_for_one h p n n' : stands_for h p n -> stands_for h p n' -> n = n'.
Proof. intros (d & H) (d' & H'). eauto using value_one. Qed.

Section Sh.
Context (sh : std_hash).

(** ** Hashing *)
Lemma hash_elems_value d h fuel : (forall p n, value_within d h p = Some n -> hhash sh fuel h p = node_hash sh n) ->
  forall l ns acc, Forall2 (fun p n => value_within d h p = Some n) l ns ->
  hash_elems (hhash sh fuel h) acc l = hash_list (node_hash sh) acc ns.
Proof.
  intros IH l ns acc H. revert acc. induction H as [|p n l ns H _ IHl]; intros acc; [reflexivity|].
  cbn [hash_elems hash_list]. rewrite (IH _ _ H). destruct (node_hash sh n); cbn [bind]; auto.
Qed.
Lemma hash_ents_value d h fuel : (forall p n, value_within d h p = Some n -> hhash sh fuel h p = node_hash sh n) ->
  forall l ns acc, Forall2 (fun e kv => ent_value d h e = Some kv) l ns ->
  hash_ents (hhash sh fuel h) acc l = hash_entries (node_hash sh) acc ns.
Proof.
  intros IH l ns acc H. revert acc. induction H as [|e [k v] l ns H _ IHl]; intros acc; [reflexivity|].
  apply ent_value_ok in H as [Hk Hv].
  cbn [hash_ents hash_entries]. rewrite (IH _ _ Hk), (IH _ _ Hv). destruct (node_hash sh k); cbn [bind]; auto. destruct (node_hash sh v); cbn [bind]; auto.
Qed.
Lemma hhash_value h : forall d p n fuel, value_within d h p = Some n -> (d <= fuel)%nat -> hhash sh fuel h p = node_hash sh n.
Proof.
  induction d as [|d IH]; intros p n fuel H L; [discriminate|]. destruct fuel as [|fuel]; [lia|].
  apply value_cases in H as (c & Hc & H). cbn [hhash]. rewrite (proj2 (deref_ok h p c) Hc). cbn [bind].
  assert (I : forall p n, value_within d h p = Some n -> hhash sh fuel h p = node_hash sh n) by (intros; apply IH; [auto|lia]).
  destruct H; try reflexivity.
  - eapply hash_elems_value; eauto.
  - eapply hash_elems_value; eauto.
  - eapply hash_ents_value; eauto.
Qed.
Lemma hash_elems_Ok (f : ptr -> outcome Z) l : forall acc v, hash_elems f acc l = Ok v -> Forall (fun p => exists x, f p = Ok x) l.
Proof. induction l as [|p l IH]; intros acc v H; [constructor|]. cbn in H. destruct (f p) eqn:E; try discriminate. constructor; eauto. Qed.
Lemma hash_ents_Ok (f : ptr -> outcome Z) l : forall acc v, hash_ents f acc l = Ok v ->
  Forall (fun e => (exists x, f (e_key e) = Ok x) /\ exists x, f (e_val e) = Ok x) l.
Proof.
  induction l as [|e l IH]; intros acc v H; [constructor|]. cbn in H. destruct (f (e_key e)) eqn:E; try discriminate. cbn in H.
  destruct (f (e_val e)) eqn:E'; try discriminate. cbn in H. constructor; eauto.
Qed.
Lemma forall_exists2 {A B} (R : A -> B -> Prop) l : Forall (fun x => exists y, R x y) l -> exists r, Forall2 R l r.
Proof. induction 1 as [|x l (y & H) _ (r & IH)]; [now exists []|]. exists (y :: r). now constructor. Qed.
Lemma hhash_has_value h : forall fuel p v, hhash sh fuel h p = Ok v -> exists n, value_within fuel h p = Some n.
Proof.
  induction fuel as [|fuel IH]; intros p v H; [discriminate|]. cbn [hhash] in H.
  destruct (deref h p) as [c| | | |] eqn:E; try discriminate. cbn [bind] in H. apply deref_ok in E.
  assert (G : exists n, value_case fuel h c n).
  { destruct c; try discriminate; try (eexists; constructor; fail).
    - apply hash_elems_Ok in H. destruct (forall_exists2 (fun p n => value_within fuel h p = Some n) l) as (ns & F);
        [eapply Forall_impl; [|exact H]; intros a (x & Hx); eauto|]. eexists. constructor. exact F.
    - apply hash_elems_Ok in H. destruct (forall_exists2 (fun p n => value_within fuel h p = Some n) l) as (ns & F);
        [eapply Forall_impl; [|exact H]; intros a (x & Hx); eauto|]. eexists. constructor. exact F.
    - apply hash_ents_Ok in H. destruct (forall_exists2 (fun e kv => ent_value fuel h e = Some kv) es) as (ns & F);
        [|eexists; constructor; exact F].
      eapply Forall_impl; [|exact H]. intros a ((x & Hx) & (y & Hy)). destruct (IH _ _ Hx) as (k & Hk), (IH _ _ Hy) as (w & Hw).
      exists (k, w). now apply ent_value_ok. }
  destruct G as (n & G). exists n. apply value_cases. eauto.
Qed.

(** ** Comparing *)
Lemma reaches_trans h p q r : reaches h p q -> reaches h q r -> reaches h p r.
Proof. induction 1; [auto|]. intros. econstructor; eauto. Qed.
Lemma keys_step h p c q : keys_up_to_date sh h p -> cell_at h p = Some c -> In q (pointers c) -> keys_up_to_date sh h q.
Proof. intros K Hc Hq r es e Hr. apply K. econstructor; eauto. Qed.
Lemma pointers_key e es : In e es -> In (e_key e) (pointers (CMap es)) /\ In (e_val e) (pointers (CMap es)).
Proof. intros H. cbn. split; apply in_flat_map; exists e; cbn; auto. Qed.

Lemma F2_len {A B} (R : A -> B -> Prop) l r : Forall2 R l r -> length l = length r.
Proof. induction 1; cbn; auto. Qed.

Lemma heq_value h : forall d fuel p q n m, value_within d h p = Some n -> value_within d h q = Some m -> (d <= fuel)%nat ->
  keys_up_to_date sh h q -> heq sh fuel h p q = node_eq sh n m.
Proof.
  induction d as [|d IH]; intros fuel p q n m Hn Hm L K; [discriminate|]. destruct fuel as [|fuel]; [lia|].
  assert (Lf : (d <= fuel)%nat) by lia.
  apply value_cases in Hn as (c & Hc & Hn). apply value_cases in Hm as (c' & Hc' & Hm).
  cbn [heq]. rewrite (proj2 (deref_ok h p c) Hc), (proj2 (deref_ok h q c') Hc'). cbn [bind].
  assert (EL : forall l ns r ms, Forall2 (fun p n => value_within d h p = Some n) l ns -> Forall2 (fun p n => value_within d h p = Some n) r ms ->
     (forall q, In q r -> keys_up_to_date sh h q) -> eq_elems (heq sh fuel h) l r = list_eq (node_eq sh) ns ms).
  { intros l ns r ms Hl. revert r ms. induction Hl as [|a x l ns Ha _ IHl]; intros r ms Hr Hk; [reflexivity|].
    destruct Hr as [|b y r ms Hb Hr]; [reflexivity|]. cbn [eq_elems list_eq].
    rewrite (IH fuel a b x y Ha Hb Lf); [|apply Hk; now left]. destruct (node_eq sh x y) as [[]| | | |]; cbn [bind]; auto.
    apply IHl; auto. intros; apply Hk; now right. }
  destruct Hn, Hm; try reflexivity.
  - cbn [node_eq]. rewrite <- (F2_len _ _ _ H), <- (F2_len _ _ _ H0). destruct (Nat.eqb _ _); [|reflexivity]. cbn [negb].
    apply EL; auto. intros r Hr. eapply keys_step; eauto.
  - cbn [node_eq]. rewrite <- (F2_len _ _ _ H), <- (F2_len _ _ _ H0). destruct (Nat.eqb _ _); [|reflexivity]. cbn [negb].
    apply EL; auto. intros r Hr. eapply keys_step; eauto.
  - cbn [node_eq]. rewrite (F2_len _ _ _ H), (F2_len _ _ _ H0). destruct (Nat.eqb _ _); [|reflexivity]. cbn [negb].
    assert (Kq : forall e, In e es0 -> keys_up_to_date sh h (e_key e) /\ keys_up_to_date sh h (e_val e)).
    { intros e He. destruct (pointers_key e es0 He). split; eapply keys_step; eauto. }
    assert (Uq : forall e, In e es0 -> up_to_date sh h e) by (intros e He; eapply K; eauto; constructor).
    clear Hc Hc' K.
    assert (FE : forall a x hk i es ms, value_within d h a = Some x -> Forall2 (fun e kv => ent_value d h e = Some kv) es ms ->
       (forall e, In e es -> keys_up_to_date sh h (e_key e) /\ up_to_date sh h e) ->
       match find_ent (heq sh fuel h a) hk i es, find_entry sh (node_eq sh x) hk ms with
       | Ok (Some (_, e)), Ok (Some v) => In e es /\ value_within d h (e_val e) = Some v
       | Ok None, Ok None => True
       | Throw e, Throw e' => e = e' | Trap e, Trap e' => e = e' | UB e, UB e' => e = e' | OutOfFuel, OutOfFuel => True
       | _, _ => False
       end).
    { intros a x hk i es' ms Ha F. revert i. induction F as [|e [k v] es' ms He _ IHf]; intros i Hk; [exact I|].
      apply ent_value_ok in He as [Ek Ev]. cbn [find_ent find_entry].
      destruct (Hk e (or_introl eq_refl)) as (Kk & (k' & (dk & Sk) & Hh)).
      assert (k' = k) as -> by eauto using value_one. rewrite Hh. cbn [bind].
      assert (REST : match find_ent (heq sh fuel h a) hk (S i) es', find_entry sh (node_eq sh x) hk ms with
       | Ok (Some (_, e0)), Ok (Some v0) => In e0 (e :: es') /\ value_within d h (e_val e0) = Some v0
       | Ok None, Ok None => True
       | Throw e, Throw e' => e = e' | Trap e, Trap e' => e = e' | UB e, UB e' => e = e' | OutOfFuel, OutOfFuel => True
       | _, _ => False
       end).
      { specialize (IHf (S i) ltac:(intros; apply Hk; now right)).
        destruct (find_ent _ _ _ es') as [[[j e0]|]| | | |], (find_entry _ _ _ ms) as [[v0|]| | | |]; auto. destruct IHf. split; [now right|auto]. }
      destruct (e_hash e =? hk); [|exact REST].
      rewrite (IH fuel a (e_key e) x k Ha Ek Lf Kk). destruct (node_eq sh x k) as [[]| | | |]; cbn [bind]; auto.
      split; [now left|auto]. }
    assert (EE : forall es' ns, Forall2 (fun e kv => ent_value d h e = Some kv) es' ns ->
      eq_ents (hhash sh fuel h) (heq sh fuel h) es0 es' = map_eq sh (node_eq sh) kvs0 ns).
    { clear H. intros es' ns F. induction F as [|e [k v] es' ns He _ IHf]; [reflexivity|]. apply ent_value_ok in He as [Ek Ev].
      cbn [eq_ents map_eq]. rewrite (hhash_value h d _ _ fuel Ek Lf). destruct (node_hash sh k) as [hk| | | |]; cbn [bind]; auto.
      specialize (FE (e_key e) k hk 0%nat es0 kvs0 Ek H0 ltac:(intros e0 I0; split; [apply Kq; auto|auto])).
      destruct (find_ent _ _ _ es0) as [[[j e0]|]| | | |], (find_entry _ _ _ kvs0) as [[v0|]| | | |]; try contradiction; cbn [bind]; subst; auto.
      destruct FE as (I0 & V0). rewrite (IH fuel (e_val e) (e_val e0) v v0 Ev V0 Lf) by (apply Kq; auto).
      destruct (node_eq sh v v0) as [[]| | | |]; cbn [bind]; auto. }
    apply EE, H.
Qed.
(** [find] *)
Lemma find_value h d fuel k kn es ms : value_within d h k = Some kn -> Forall2 (fun e kv => ent_value d h e = Some kv) es ms -> (d <= fuel)%nat ->
  (forall e, In e es -> keys_up_to_date sh h (e_key e) /\ up_to_date sh h e) ->
  match hfind sh fuel h es k, map_find sh ms kn with
  | Ok (Some (i, e)), Ok (Some v) => nth_error es i = Some e /\ value_within d h (e_val e) = Some v
  | Ok None, Ok None => True
  | Throw e, Throw e' => e = e' | Trap e, Trap e' => e = e' | UB e, UB e' => e = e' | OutOfFuel, OutOfFuel => True
  | _, _ => False
  end.
Proof.
  intros Hk F L Hu. unfold hfind, map_find. rewrite (hhash_value h d k kn fuel Hk L). destruct (node_hash sh kn) as [hk| | | |]; cbn [bind]; auto.
  assert (G : forall pre es ms, Forall2 (fun e kv => ent_value d h e = Some kv) es ms ->
     (forall e, In e es -> keys_up_to_date sh h (e_key e) /\ up_to_date sh h e) ->
     match find_ent (heq sh fuel h k) hk (length pre) es, find_entry sh (node_eq sh kn) hk ms with
       | Ok (Some (i, e)), Ok (Some v) => nth_error (pre ++ es) i = Some e /\ value_within d h (e_val e) = Some v
       | Ok None, Ok None => True
       | Throw e, Throw e' => e = e' | Trap e, Trap e' => e = e' | UB e, UB e' => e = e' | OutOfFuel, OutOfFuel => True
       | _, _ => False
       end); [|apply (G [] es ms F Hu)].
  clear F Hu es ms. intros pre es ms F. revert pre. induction F as [|e [k' v] es ms He _ IHf]; intros pre Hu; [exact I|].
  apply ent_value_ok in He as [Ek Ev]. cbn [find_ent find_entry].
  destruct (Hu e (or_introl eq_refl)) as (Kk & (k2 & (dk & Sk) & Hh)).
  assert (k2 = k') as -> by eauto using value_one. rewrite Hh. cbn [bind].
  specialize (IHf (pre ++ [e]) ltac:(intros; apply Hu; now right)). rewrite app_length in IHf. cbn [length] in IHf.
  rewrite Nat.add_1_r, <- app_assoc in IHf. cbn [app] in IHf.
  destruct (e_hash e =? hk); [|exact IHf].
  rewrite (heq_value h d fuel k (e_key e) kn k' Hk Ek L Kk). destruct (node_eq sh kn k') as [[]| | | |]; cbn [bind]; auto.
  split; [|exact Ev]. rewrite nth_error_app2, Nat.sub_diag by lia. reflexivity.
Qed.

(** ** Nodes inside themselves *)
Lemma value_pointers h d c n q : value_case d h c n -> In q (pointers c) -> exists m, value_within d h q = Some m.
Proof.
  intros H Hq. destruct H; cbn [pointers] in Hq; try contradiction.
  - apply In_nth_error in Hq as (i & Hi). revert i Hi. induction H; intros i Hi; destruct i; try discriminate; cbn in Hi; [injection Hi as <-; eauto|eauto].
  - apply In_nth_error in Hq as (i & Hi). revert i Hi. induction H; intros i Hi; destruct i; try discriminate; cbn in Hi; [injection Hi as <-; eauto|eauto].
  - induction H as [|e [k v] es ms He _ IH]; [contradiction|]. cbn [flat_map app] in Hq. apply ent_value_ok in He as [Ek Ev].
    destruct Hq as [<-|[<-|Hq]]; eauto.
Qed.
Lemma reached_value h p q : reaches h p q -> forall d n, value_within d h p = Some n -> exists m, value_within d h q = Some m.
Proof.
  induction 1 as [p|p c q r Hc Hq _ IH]; intros d n H; [eauto|]. destruct d as [|d]; [discriminate|].
  apply value_cases in H as (c' & Hc' & H). rewrite Hc in Hc'. injection Hc' as <-.
  destruct (value_pointers h d c n q H Hq) as (m & Hm). destruct (IH d m Hm) as (m' & Hm'). exists m'. eapply value_more; eauto.
Qed.
Lemma inside_itself_no_value h p : inside_itself h p -> forall d, value_within d h p = None.
Proof.
  intros (c & q & Hc & Hq & R) d. destruct (value_within d h p) as [n|] eqn:E; [exfalso|reflexivity].
  revert n E. induction d as [|d IH]; intros n E; [discriminate|].
  apply value_cases in E as (c' & Hc' & H). rewrite Hc in Hc'. injection Hc' as <-.
  destruct (value_pointers h d c n q H Hq) as (m & Hm). destruct (reached_value h q p R d m Hm) as (m' & Hm'). eauto.
Qed.
Lemma eq_elems_true f l : forall r, eq_elems f l r = Ok true -> length l = length r -> Forall2 (fun a b => f a b = Ok true) l r.
Proof.
  induction l as [|a l IH]; intros [|b r] H L; try discriminate; [constructor|]. cbn in H. destruct (f a b) as [[]| | | |] eqn:E; try discriminate.
  cbn in H, L. constructor; auto.
Qed.
Lemma eq_ents_true hash f rhs es : eq_ents hash f rhs es = Ok true ->
  Forall (fun e => (exists v, hash (e_key e) = Ok v) /\ exists p, f (e_val e) p = Ok true) es.
Proof.
  induction es as [|e es IH]; intros H; [constructor|]. cbn in H. destruct (hash (e_key e)) eqn:E; try discriminate. cbn in H.
  destruct (find_ent _ _ _ _) as [[[j e']|]| | | |]; try discriminate. cbn in H. destruct (f (e_val e) (e_val e')) as [[]| | | |] eqn:E'; try discriminate.
  cbn in H. constructor; eauto.
Qed.
Lemma heq_true_value h : forall fuel p q, heq sh fuel h p q = Ok true -> exists n, value_within fuel h p = Some n.
Proof.
  induction fuel as [|fuel IH]; intros p q H; [discriminate|]. cbn [heq] in H.
  destruct (deref h p) as [c| | | |] eqn:E; try discriminate. cbn [bind] in H. apply deref_ok in E.
  destruct (deref h q) as [c'| | | |] eqn:E'; try discriminate. cbn [bind] in H.
  assert (G : exists n, value_case fuel h c n); [|destruct G as (n & G); exists n; apply value_cases; eauto].
  destruct c; try (eexists; constructor; fail); destruct c'; try discriminate.
  - destruct (Nat.eqb_spec (length l) (length l0)) as [L|]; [|discriminate]. apply eq_elems_true in H; [|exact L].
    destruct (forall_exists2 (fun p n => value_within fuel h p = Some n) l) as (ns & F); [|eexists; constructor; exact F].
    clear E L. clear - IH H. induction H; constructor; eauto.
  - destruct (Nat.eqb_spec (length l) (length l0)) as [L|]; [|discriminate]. apply eq_elems_true in H; [|exact L].
    destruct (forall_exists2 (fun p n => value_within fuel h p = Some n) l) as (ns & F); [|eexists; constructor; exact F].
    clear E L. clear - IH H. induction H; constructor; eauto.
  - destruct (Nat.eqb_spec (length es) (length es0)) as [L|]; [|discriminate]. apply eq_ents_true in H.
    destruct (forall_exists2 (fun e kv => ent_value fuel h e = Some kv) es) as (ns & F); [|eexists; constructor; exact F].
    eapply Forall_impl; [|exact H]. intros e ((v & Hv) & (r & Hr)). destruct (hhash_has_value h _ _ _ Hv) as (k & Hk).
    destruct (IH _ _ Hr) as (w & Hw). exists (k, w). now apply ent_value_ok.
Qed.
End Sh.
