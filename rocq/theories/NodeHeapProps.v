(** Property theorems about EDN nodes as shared, changeable objects (C141-C145). *)
From Coq Require Import ZArith List Bool Arith Lia Permutation.
From Verif Require Import Outcome HashModel IrModel IrSpec IrProofs IrProps NodeHeapModel NodeHeapSpec NodeHeapProofs NodeHeapChange.
Import ListNotations.
Local Open Scope Z_scope.

(** * C141: nodes are hashed, compared and looked up by contents *)
Theorem C141_hash_by_contents : forall sh h p n,
  stands_for h p n -> ends_with (fun fuel => hhash sh fuel h p) (node_hash sh n).
Proof. intros sh h p n (d & V). exists d. intros fuel L. eapply hhash_value; eauto. Qed.
Print Assumptions C141_hash_by_contents.

Theorem C141_equality_by_contents : forall sh h p q n m,
  stands_for h p n -> stands_for h q m -> keys_up_to_date sh h q ->
  ends_with (fun fuel => heq sh fuel h p q) (node_eq sh n m).
Proof.
  intros sh h p q n m (d & V) (d' & V') K. exists (Nat.max d d'). intros fuel L.
  apply (heq_value sh h (Nat.max d d')); [eapply value_more; eauto; lia|eapply value_more; eauto; lia|exact L|exact K].
Qed.
Print Assumptions C141_equality_by_contents.

(** With the meaning of node_eq (C23): same objects or copies, shared parts or not *)
Theorem C141_equal_iff_same_value : forall sh h p q n m, hash_respects_reals sh ->
  stands_for h p n -> stands_for h q m -> good n -> good m -> keys_up_to_date sh h q ->
  exists b, ends_with (fun fuel => heq sh fuel h p q) (Ok b) /\ (b = true <-> same n m).
Proof.
  intros sh h p q n m R V V' G G' K. destruct (C23_equality_is_structural sh n m R G G') as (b & E & S).
  exists b. rewrite <- E. split; [now apply C141_equality_by_contents|exact S].
Qed.
Print Assumptions C141_equal_iff_same_value.

(** Looking up a key in a map finds what looking up its value in the map's value finds. *)
Theorem C141_find_by_contents : forall sh h q es kvs k kn,
  cell_at h q = Some (CMap es) -> stands_for h q (NMap kvs) -> keys_up_to_date sh h q -> stands_for h k kn ->
  exists n, forall fuel, (n <= fuel)%nat ->
  match hfind sh fuel h es k, map_find sh kvs kn with
  | Ok (Some (i, e)), Ok (Some v) => nth_error es i = Some e /\ stands_for h (e_val e) v
  | Ok None, Ok None => True
  | Throw e, Throw e' => e = e' | Trap e, Trap e' => e = e' | UB e, UB e' => e = e' | OutOfFuel, OutOfFuel => True
  | _, _ => False
  end.
Proof.
  intros sh h q es kvs k kn Hc ([|d] & V) K (d' & Vk); [discriminate|]. exists (Nat.max d d'). intros fuel L.
  apply value_cases in V as (c & Hc' & V). rewrite Hc in Hc'. injection Hc' as <-. inversion V as [| | | | | | | | | | |es' kvs' F]; subst.
  pose proof (find_value sh h (Nat.max d d') fuel k kn es kvs) as FV.
  assert (V1 : value_within (Nat.max d d') h k = Some kn) by (eapply value_more; [exact Vk|lia]).
  assert (F1 : Forall2 (fun e kv => ent_value (Nat.max d d') h e = Some kv) es kvs).
  { eapply F2_impl; [|exact F]. intros e kv _ E. eapply ent_value_more; [exact E|lia]. }
  specialize (FV V1 F1 L). assert (U : forall e, In e es -> keys_up_to_date sh h (e_key e) /\ up_to_date sh h e).
  { intros e He. destruct (pointers_key e es He). split; [eapply keys_step; eauto|]. eapply K; eauto. constructor. }
  specialize (FV U). destruct (hfind sh fuel h es k) as [[[i e]|]| | | |], (map_find sh kvs kn) as [[v|]| | | |]; auto.
  destruct FV. split; [assumption|]. now exists (Nat.max d d').
Qed.
Print Assumptions C141_find_by_contents.

(** That keys are up to date is all one has to see to, and it stays so as long as no part of a key is
    changed: the histories of making nodes and changing them. *)
Inductive careful (sh : std_hash) (place : entry -> list entry -> list entry) : heap -> Prop :=
| careful_start : careful sh place []
| careful_make h meta b c : careful sh place h -> (forall es, c = CMap es -> es = []) -> careful sh place (fst (make h meta b c))
| careful_change h fuel a op h' : careful sh place h -> apply_change sh place fuel h a op = Ok h' ->
    ~ part_of_a_key h a -> (forall k v, op = Insert k v -> ~ reaches h k (Some a)) -> careful sh place h'.
Lemma make_cell h meta b c q c0 : cell_at h q = Some c0 -> cell_at (fst (make h meta b c)) q = Some c0.
Proof.
  destruct q as [a|]; [|discriminate]. unfold cell_at, make. cbn [object_at fst]. intros H.
  destruct (nth_error h a) eqn:E; [|discriminate]. rewrite nth_error_app1, E by (apply nth_error_Some; congruence). exact H.
Qed.
Lemma make_value h meta b c : forall d q n, value_within d h q = Some n -> value_within d (fst (make h meta b c)) q = Some n.
Proof.
  induction d as [|d IH]; intros q n V; [discriminate|]. apply value_cases in V as (c0 & Hc & V). apply value_cases.
  exists c0. split; [now apply make_cell|]. destruct V; constructor; (eapply F2_impl; [|eassumption]); cbn beta; eauto.
  intros e [k v] _ E. apply ent_value_ok in E as [E1 E2]. apply ent_value_ok. eauto.
Qed.
Theorem C141_keys_stay_up_to_date : forall sh place, permutes place ->
  forall h, careful sh place h -> all_keys_up_to_date sh h /\ forall p, keys_up_to_date sh h p.
Proof.
  intros sh place P h C. assert (A : all_keys_up_to_date sh h); [|split; [exact A|intros p q es e _; apply A]].
  induction C as [|h meta b c _ IH E|h fuel a op h' _ IH H N I].
  - intros [[|a]|] es e Hq; discriminate.
  - intros q es e Hq He. destruct (cell_at h q) as [c0|] eqn:Ec.
    + pose proof (make_cell h meta b c q c0 Ec) as Hm. rewrite Hq in Hm. injection Hm as <-. destruct (IH q es e Ec He) as (k & (d & V) & Hh).
      exists k. split; [|exact Hh]. exists d. now apply make_value.
    + exfalso. destruct q as [a|]; [|discriminate]. unfold cell_at, make in *. cbn [object_at fst] in *.
      destruct (nth_error h a) eqn:En; [discriminate|]. apply nth_error_None in En. rewrite nth_error_app2 in Hq by exact En.
      destruct (a - length h)%nat as [|x]; [|destruct x; discriminate]. cbn in Hq. injection Hq as Hq.
      destruct c; try discriminate. rewrite (E es0 eq_refl) in Hq. injection Hq as <-. destruct He.
  - eapply keys_stay; eauto.
Qed.
Print Assumptions C141_keys_stay_up_to_date.

(** * C142: a change is seen wherever the node is, and nowhere else *)
Theorem C142_elsewhere_unchanged : forall sh place fuel h a op h', apply_change sh place fuel h a op = Ok h' ->
  forall p, ~ reaches h p (Some a) ->
    (forall n, stands_for h' p n <-> stands_for h p n) /\
    (forall f, hhash sh f h' p = hhash sh f h p) /\
    (forall q f, ~ reaches h q (Some a) -> heq sh f h' p q = heq sh f h p q).
Proof.
  intros sh place fuel h a op h' H p N. pose proof (change_frame sh place _ _ _ _ _ p H N) as A. split; [|split].
  - intros n. split; intros (d & V); exists d; [now rewrite <- (agree_value h h' d p A)|now rewrite (agree_value h h' d p A)].
  - intros f. now apply agree_hash.
  - intros q f Nq. apply agree_eq; [exact A|]. eapply change_frame; eauto.
Qed.
Print Assumptions C142_elsewhere_unchanged.

(** Metadata has no part in values, hashes and comparisons. *)
Theorem C142_metadata_invisible : forall sh place fuel h a m h', apply_change sh place fuel h a (SetMetadata m) = Ok h' ->
  (exists o, nth_error h' a = Some o /\ o_meta o = m) /\
  forall p, (forall n, stands_for h' p n <-> stands_for h p n) /\ (forall f, hhash sh f h' p = hhash sh f h p) /\
            (forall q f, heq sh f h' p q = heq sh f h p q).
Proof.
  intros sh place fuel h a m h' H. unfold apply_change in H. destruct (nth_error h a) as [o|] eqn:E; [|discriminate].
  assert (H' : h' = store h a (mkObj m (o_cell o))) by congruence. clear H. subst h'.
  assert (ST : forall b, nth_error (store h a (mkObj m (o_cell o))) b = if Nat.eqb b a then Some (mkObj m (o_cell o)) else nth_error h b)
    by (intros b; eapply store_nth; eauto).
  assert (A : forall p, agree h (store h a (mkObj m (o_cell o))) p).
  { intros p q _. destruct q as [b|]; [|reflexivity]. unfold cell_at. cbn [object_at]. rewrite ST. destruct (Nat.eqb_spec b a) as [->|]; [|reflexivity].
    now rewrite E. }
  split. { exists (mkObj m (o_cell o)). now rewrite ST, Nat.eqb_refl. }
  intros p. split; [|split].
  - intros n. split; intros (d & V); exists d; [now rewrite <- (agree_value h _ d p (A p))|now rewrite (agree_value h _ d p (A p))].
  - intros f. now apply agree_hash.
  - intros q f. now apply agree_eq.
Qed.
Print Assumptions C142_metadata_invisible.

(** The way from [p] does not come past the object [a] (its end included). *)
Definition avoids (h : heap) (p : ptr) (way : list step) (a : nat) : Prop :=
  forall before after, way = before ++ after -> follow h p before <> Some (Some a).
Lemma follow_avoiding h h' a : differ_at h h' a -> forall way p, avoids h p way a -> follow h' p way = follow h p way.
Proof.
  intros D way. induction way as [|s way IH]; intros p A; [reflexivity|]. cbn [follow].
  assert (N : p <> Some a) by (intros ->; apply (A [] (s :: way) eq_refl); reflexivity).
  rewrite (differ_cell h h' a p D N). destruct (cell_at h p) as [c|] eqn:E; [|reflexivity]. destruct (step_from c s) as [q|] eqn:S; [|reflexivity].
  apply IH. intros before after Hw F. apply (A (s :: before) after); [cbn; now rewrite Hw|]. cbn [follow]. now rewrite E, S.
Qed.
(** Every value of which the changed node is part, at however many places, has the node's new value at
    each of those places; its other parts are as before. *)
Theorem C142_seen_at_every_place : forall sh place fuel h a op h', permutes place ->
  apply_change sh place fuel h a op = Ok h' ->
  (forall q, In q (brings op) -> (exists m, stands_for h q m) /\ ~ reaches h q (Some a)) ->
  (exists n, stands_for h (Some a) n) ->
  exists new, stands_for h' (Some a) new /\
    forall p n, stands_for h p n -> exists n', stands_for h' p n' /\
      (forall way, follow h p way = Some (Some a) -> part n' way = Some new) /\
      (forall way q, follow h p way = Some q -> avoids h p way a -> ~ reaches h q (Some a) -> part n' way = part n way).
Proof.
  intros sh place fuel h a op h' P H B (na & Va). destruct (change_pointers sh place P _ _ _ _ _ H) as (c & c' & Hc & Hc' & D & _).
  destruct (change_keeps_values sh place P _ _ _ _ _ H (ex_intro _ na Va) B (Some a) na Va) as (new & Vn). exists new. split; [exact Vn|].
  intros p n V. destruct (change_keeps_values sh place P _ _ _ _ _ H (ex_intro _ na Va) B p n V) as (n' & V'). exists n'. split; [exact V'|]. split.
  - intros way F. pose proof (follow_still h h' a D (ex_intro _ na Va) way p F) as F'.
    destruct (follow_part h' way p (Some a) n' V' F') as (m & Hm & Vm). rewrite Hm. f_equal. eapply stands_for_one; eauto.
  - intros way q F A N. pose proof (follow_avoiding h h' a D way p A) as F'. rewrite F in F'.
    destruct (follow_part h' way p q n' V' F') as (m & -> & Vm). destruct (follow_part h way p q n V F) as (m0 & -> & Vm0). f_equal.
    destruct Vm as (d & Vm), Vm0 as (d0 & Vm0). rewrite (agree_value h h' d q (differ_agree h h' a q D N)) in Vm. eauto using value_one.
Qed.
Print Assumptions C142_seen_at_every_place.

Lemma stands_list h a l ns : cell_at h (Some a) = Some (CList l) -> Forall2 (stands_for h) l ns -> stands_for h (Some a) (NList ns).
Proof.
  intros Hc F. assert (G : exists d, Forall2 (fun p n => value_within d h p = Some n) l ns).
  { clear Hc. induction F as [|p n l ns (d & V) _ (d' & IH)]; [exists 0%nat; constructor|]. exists (Nat.max d d').
    constructor; [eapply value_more; eauto; lia|]. eapply F2_impl; [|exact IH]. cbn beta. intros. eapply value_more; eauto. lia. }
  destruct G as (d & G). exists (S d). apply value_cases. eexists. split; [exact Hc|]. now constructor.
Qed.
Lemma stands_vector h a l ns : cell_at h (Some a) = Some (CVector l) -> Forall2 (stands_for h) l ns -> stands_for h (Some a) (NVector ns).
Proof.
  intros Hc F. assert (G : exists d, Forall2 (fun p n => value_within d h p = Some n) l ns).
  { clear Hc. induction F as [|p n l ns (d & V) _ (d' & IH)]; [exists 0%nat; constructor|]. exists (Nat.max d d').
    constructor; [eapply value_more; eauto; lia|]. eapply F2_impl; [|exact IH]. cbn beta. intros. eapply value_more; eauto. lia. }
  destruct G as (d & G). exists (S d). apply value_cases. eexists. split; [exact Hc|]. now constructor.
Qed.
Lemma stands_map h a es kvs : cell_at h (Some a) = Some (CMap es) ->
  Forall2 (fun e kv => stands_for h (e_key e) (fst kv) /\ stands_for h (e_val e) (snd kv)) es kvs -> stands_for h (Some a) (NMap kvs).
Proof.
  intros Hc F. assert (G : exists d, Forall2 (fun e kv => ent_value d h e = Some kv) es kvs).
  { clear Hc. induction F as [|e [k v] es kvs ((d1 & V1) & (d2 & V2)) _ (d' & IH)]; [exists 0%nat; constructor|]. exists (Nat.max (Nat.max d1 d2) d').
    constructor; [apply ent_value_ok; cbn in *; split; eapply value_more; eauto; lia|]. eapply F2_impl; [|exact IH]. cbn beta. intros. eapply ent_value_more; eauto. lia. }
  destruct G as (d & G). exists (S d). apply value_cases. eexists. split; [exact Hc|]. now constructor.
Qed.

(** What the changed node stands for then *)
Definition pushed (n m : node) : node :=
  match n with NList l => NList (l ++ [m]) | NVector l => NVector (l ++ [m]) | n => n end.
Definition replaced (n : node) (i : nat) (m : node) : node :=
  match n with NList l => NList (firstn i l ++ m :: skipn (S i) l) | NVector l => NVector (firstn i l ++ m :: skipn (S i) l) | n => n end.
Definition with_elements (n : node) (ms : list node) : node :=
  match n with NList _ => NList ms | NVector _ => NVector ms | n => n end.
Lemma set_elem_split {A} (l : list A) : forall i x, (i < length l)%nat -> set_elem l i x = firstn i l ++ x :: skipn (S i) l.
Proof. induction l as [|y l IH]; intros [|i] x L; cbn in *; try lia; [reflexivity|]. rewrite IH by lia. reflexivity. Qed.
Lemma F2_firstn {A B} (R : A -> B -> Prop) l r : Forall2 R l r -> forall i, Forall2 R (firstn i l) (firstn i r).
Proof. induction 1; intros [|i]; cbn; constructor; auto. Qed.
Lemma F2_skipn {A B} (R : A -> B -> Prop) l r : Forall2 R l r -> forall i, Forall2 R (skipn i l) (skipn i r).
Proof. induction 1; intros [|i]; cbn; auto. Qed.
Lemma F2_set_elem {A B} (R : A -> B -> Prop) l r i x y : Forall2 R l r -> R x y -> (i < length l)%nat -> Forall2 R (set_elem l i x) (firstn i r ++ y :: skipn (S i) r).
Proof.
  intros F H L. rewrite set_elem_split by exact L. apply Forall2_app; [exact (F2_firstn _ _ _ F i)|]. constructor; [exact H|]. exact (F2_skipn _ _ _ F (S i)).
Qed.
Section Values.
Context (sh : std_hash) (place : entry -> list entry -> list entry) (P : forall e es, Permutation (place e es) (e :: es)).
Lemma permutes_place : permutes place.
Proof. intros e es x. split; intros H; [apply (Permutation_in _ (P e es)) in H; cbn in H; intuition|].
  apply (Permutation_in _ (Permutation_sym (P e es))). cbn. intuition. Qed.
Context (fuel : nat) (h : heap) (a : nat) (h' : heap).
Lemma kept op q m : apply_change sh place fuel h a op = Ok h' -> stands_for h q m -> ~ reaches h q (Some a) -> stands_for h' q m.
Proof.
  intros H (d & V) N. exists d. rewrite (agree_value h h' d q); [exact V|]. eapply change_frame; eauto.
Qed.
Lemma own_elements n c q : stands_for h (Some a) n -> cell_at h (Some a) = Some c -> In q (pointers c) -> ~ reaches h q (Some a).
Proof.
  intros (d & V) Hc Hq R. assert (I : inside_itself h (Some a)) by (exists c, q; auto).
  rewrite (inside_itself_no_value h (Some a) I) in V. discriminate.
Qed.
(** The elements of the object, as they stand afterwards *)
Lemma kept_list op l ns : apply_change sh place fuel h a op = Ok h' -> cell_at h (Some a) = Some (CList l) -> stands_for h (Some a) (NList ns) -> Forall2 (stands_for h') l ns.
Proof.
  intros H Hc V. pose proof V as ([|d] & V'); [discriminate|]. apply value_cases in V' as (c & Hc' & V'). rewrite Hc in Hc'. injection Hc' as <-.
  inversion V'; subst. eapply F2_impl; [|eassumption]. cbn beta. intros q m Hq Vq. eapply kept; eauto; [now exists d|]. eapply own_elements; eauto.
Qed.
Lemma kept_vector op l ns : apply_change sh place fuel h a op = Ok h' -> cell_at h (Some a) = Some (CVector l) -> stands_for h (Some a) (NVector ns) -> Forall2 (stands_for h') l ns.
Proof.
  intros H Hc V. pose proof V as ([|d] & V'); [discriminate|]. apply value_cases in V' as (c & Hc' & V'). rewrite Hc in Hc'. injection Hc' as <-.
  inversion V'; subst. eapply F2_impl; [|eassumption]. cbn beta. intros q m Hq Vq. eapply kept; eauto; [now exists d|]. eapply own_elements; eauto.
Qed.
Definition ent_stands (h : heap) (e : entry) (kv : node * node) : Prop := stands_for h (e_key e) (fst kv) /\ stands_for h (e_val e) (snd kv).
Lemma map_stands es kvs : cell_at h (Some a) = Some (CMap es) -> stands_for h (Some a) (NMap kvs) -> Forall2 (ent_stands h) es kvs.
Proof.
  intros Hc ([|d] & V'); [discriminate|]. apply value_cases in V' as (c & Hc' & V'). rewrite Hc in Hc'. injection Hc' as <-.
  inversion V'; subst. eapply F2_impl; [|eassumption]. cbn beta. intros e [k v] _ E. apply ent_value_ok in E as [E1 E2]. split; now exists d.
Qed.
Lemma kept_map op es kvs : apply_change sh place fuel h a op = Ok h' -> cell_at h (Some a) = Some (CMap es) -> stands_for h (Some a) (NMap kvs) -> Forall2 (ent_stands h') es kvs.
Proof.
  intros H Hc V. eapply F2_impl; [|eapply map_stands; eauto]. intros e kv He [V1 V2]. destruct (pointers_key e es He).
  split; eapply kept; eauto; eapply own_elements; eauto.
Qed.
Lemma object_cell o : nth_error h a = Some o -> cell_at h (Some a) = Some (o_cell o).
Proof. intros E. unfold cell_at. cbn. now rewrite E. Qed.
Lemma stored_cell o o' : nth_error h a = Some o -> cell_at (store h a o') (Some a) = Some (o_cell o').
Proof. intros E. unfold cell_at. cbn [object_at]. rewrite (store_nth h a o' o a E). now rewrite Nat.eqb_refl. Qed.
Lemma stands_cell c n : stands_for h (Some a) n -> cell_at h (Some a) = Some c -> exists d, value_case d h c n.
Proof. intros ([|d] & V) Hc; [discriminate|]. apply value_cases in V as (c' & Hc' & V). exists d. congruence. Qed.

Lemma new_value_set c : apply_change sh place fuel h a (SetValue c) = Ok h' -> exists v, plain_value c = Some v /\ stands_for h' (Some a) v.
Proof.
  unfold apply_change. destruct (nth_error h a) as [o|] eqn:E; [|discriminate]. destruct (has_value (o_cell o)) eqn:Ho; [|discriminate].
  destruct (Z.eqb_spec (ckind (o_cell o)) (ckind c)) as [K|]; [|discriminate]. cbn [andb]. intros H. injection H as <-.
  pose proof (stored_cell o (mkObj (o_meta o) c) E) as S. cbn [o_cell] in S.
  destruct (o_cell o), c; try discriminate; (eexists; split; [reflexivity|]); exists 1%nat; cbn [value_within]; rewrite S; reflexivity.
Qed.
Lemma new_value_pushed p old m : apply_change sh place fuel h a (PushBack p) = Ok h' -> stands_for h (Some a) old -> stands_for h p m ->
  ~ reaches h p (Some a) -> stands_for h' (Some a) (pushed old m).
Proof.
  intros H V Vp N. pose proof (kept _ _ _ H Vp N) as Vp'.
  pose proof (fun l ns => kept_list _ l ns H) as KL. pose proof (fun l ns => kept_vector _ l ns H) as KV. pose proof H as H'. revert H'.
  unfold apply_change. destruct (nth_error h a) as [o|] eqn:E; [|discriminate]. pose proof (object_cell o E) as Hc.
  destruct (o_cell o) eqn:Ec; try discriminate; intros G; injection G as G; destruct (stands_cell _ _ V Hc) as (d & Vc); inversion Vc; subst; cbn [pushed].
  - eapply stands_list; [rewrite (stored_cell _ _ E); cbn [o_cell]; reflexivity|]. apply Forall2_app; [|constructor; [exact Vp'|constructor]]. eapply KL; eauto.
  - eapply stands_vector; [rewrite (stored_cell _ _ E); cbn [o_cell]; reflexivity|]. apply Forall2_app; [|constructor; [exact Vp'|constructor]]. eapply KV; eauto.
Qed.
Lemma new_value_at i p old m : apply_change sh place fuel h a (SetAt i p) = Ok h' -> stands_for h (Some a) old -> stands_for h p m ->
  ~ reaches h p (Some a) -> stands_for h' (Some a) (replaced old i m).
Proof.
  intros H V Vp N. pose proof (kept _ _ _ H Vp N) as Vp'.
  pose proof (fun l ns => kept_list _ l ns H) as KL. pose proof (fun l ns => kept_vector _ l ns H) as KV. pose proof H as H'. revert H'.
  unfold apply_change. destruct (nth_error h a) as [o|] eqn:E; [|discriminate]. pose proof (object_cell o E) as Hc.
  destruct (o_cell o) eqn:Ec; try discriminate; destruct (Nat.ltb_spec i (length l)) as [Li|]; try discriminate; intros G; injection G as G;
    destruct (stands_cell _ _ V Hc) as (d & Vc); inversion Vc; subst; cbn [replaced].
  - eapply stands_list; [rewrite (stored_cell _ _ E); cbn [o_cell]; reflexivity|].
    exact (F2_set_elem _ _ _ _ _ _ (KL _ _ Hc V) Vp' Li).
  - eapply stands_vector; [rewrite (stored_cell _ _ E); cbn [o_cell]; reflexivity|].
    exact (F2_set_elem _ _ _ _ _ _ (KV _ _ Hc V) Vp' Li).
Qed.
Lemma find_agrees es kvs k kn r : cell_at h (Some a) = Some (CMap es) -> stands_for h (Some a) (NMap kvs) -> keys_up_to_date sh h (Some a) -> stands_for h k kn ->
  hfind sh fuel h es k = Ok r ->
  match r, map_find sh kvs kn with
  | Some (i, e), Ok (Some v) => nth_error es i = Some e /\ stands_for h (e_val e) v
  | None, Ok None => True
  | _, _ => False
  end.
Proof.
  intros Hc V K Vk E. destruct (C141_find_by_contents sh h (Some a) es kvs k kn Hc V K Vk) as (n & F).
  specialize (F (Nat.max n fuel) ltac:(lia)). destruct (hfind_le sh h fuel (Nat.max n fuel) es k ltac:(lia)) as [X|X]; [congruence|].
  rewrite <- X, E in F. destruct r as [[i e]|], (map_find sh kvs kn) as [[v|]| | | |]; auto.
Qed.
Lemma F2_perm {A B} (R : A -> B -> Prop) (l l' : list A) : Permutation l l' -> forall r, Forall2 R l r -> exists r', Permutation r r' /\ Forall2 R l' r'.
Proof.
  induction 1 as [|x l l' _ IH|x y l|l1 l2 l3 _ IH1 _ IH2]; intros r F.
  - inversion F; subst. exists []. split; constructor.
  - inversion F as [|? b ? r0 Hx F']; subst. destruct (IH r0 F') as (r' & P' & F2). exists (b :: r'). split; constructor; auto.
  - inversion F as [|? b ? r0 Hx F']; subst. inversion F' as [|? c ? r1 Hy F'']; subst. exists (c :: b :: r1). split; [apply perm_swap|repeat constructor; auto].
  - destruct (IH1 r F) as (r1 & P1 & F1), (IH2 r1 F1) as (r2 & P2 & F2). exists r2. split; [eapply perm_trans; eauto|exact F2].
Qed.
Lemma new_value_insert k v kvs kn vn : apply_change sh place fuel h a (Insert k v) = Ok h' -> stands_for h (Some a) (NMap kvs) ->
  keys_up_to_date sh h (Some a) -> stands_for h k kn -> stands_for h v vn -> ~ reaches h k (Some a) -> ~ reaches h v (Some a) ->
  exists kvs', stands_for h' (Some a) (NMap kvs') /\
    match map_find sh kvs kn with
    | Ok (Some _) => kvs' = kvs
    | Ok None => Permutation kvs' ((kn, vn) :: kvs)
    | _ => False
    end.
Proof.
  intros H V K Vk Vv Nk Nv. pose proof (kept _ _ _ H Vk Nk) as Vk'. pose proof (kept _ _ _ H Vv Nv) as Vv'.
  pose proof (fun es kvs => kept_map _ es kvs H) as KM. pose proof H as H'. revert H'.
  unfold apply_change. destruct (nth_error h a) as [o|] eqn:E; [|discriminate]. pose proof (object_cell o E) as Hc.
  destruct (o_cell o) eqn:Ec; try discriminate. intros G.
  destruct (hhash sh fuel h k) as [hk| | | |] eqn:Eh; try discriminate. cbn [bind] in G.
  destruct (find_ent (heq sh fuel h k) hk 0 es) as [r| | | |] eqn:Ef; try discriminate. cbn [bind] in G.
  pose proof (find_agrees es kvs k kn r Hc V K Vk) as FA. unfold hfind in FA. rewrite Eh in FA. cbn [bind] in FA. specialize (FA Ef).
  destruct r as [[i e]|]; injection G as G; subst h'.
  - exists kvs. split; [exact V|]. destruct (map_find sh kvs kn) as [[w|]| | | |]; try contradiction. reflexivity.
  - pose proof (KM _ _ Hc V) as F.
    assert (F1 : Forall2 (ent_stands (store h a (mkObj (o_meta o) (CMap (place (mkEntry hk k v) es))))) (mkEntry hk k v :: es) ((kn, vn) :: kvs))
      by (constructor; [split; assumption|exact F]).
    destruct (F2_perm _ _ _ (Permutation_sym (P (mkEntry hk k v) es)) _ F1) as (kvs' & Pm & F').
    exists kvs'. split; [|destruct (map_find sh kvs kn) as [[w|]| | | |]; try contradiction; now apply Permutation_sym].
    eapply stands_map; [rewrite (stored_cell _ _ E); cbn [o_cell]; reflexivity|exact F'].
Qed.
(** The entry found: its key is equal to the one looked for. *)
Lemma find_ent_found f hk : forall es i j e, find_ent f hk i es = Ok (Some (j, e)) ->
  f (e_key e) = Ok true /\ exists n, j = (i + n)%nat /\ nth_error es n = Some e.
Proof.
  induction es as [|x es IH]; intros i j e E; [discriminate|]. cbn [find_ent] in E.
  assert (R : find_ent f hk (S i) es = Ok (Some (j, e)) -> f (e_key e) = Ok true /\ exists n, j = (i + n)%nat /\ nth_error (x :: es) n = Some e).
  { intros X. destruct (IH _ _ _ X) as (Hf & n & -> & Hn). split; [exact Hf|]. exists (S n). split; [lia|exact Hn]. }
  destruct (e_hash x =? hk); [|auto]. destruct (f (e_key x)) as [[]| | | |] eqn:Hx; try discriminate; cbn [bind] in E; [|auto].
  injection E as <- <-. split; [exact Hx|]. exists 0%nat. split; [lia|reflexivity].
Qed.
Lemma F2_nth {A B} (R : A -> B -> Prop) l r : Forall2 R l r -> forall i x, nth_error l i = Some x -> exists y, nth_error r i = Some y /\ R x y.
Proof. induction 1; intros [|i] z Hz; cbn in *; try discriminate; [injection Hz as <-; eauto|eauto]. Qed.
Lemma nth_split_at {A} (l : list A) : forall i x, nth_error l i = Some x -> l = firstn i l ++ x :: skipn (S i) l.
Proof. induction l as [|y l IH]; intros [|i] x H; cbn in *; try discriminate; [congruence|]. f_equal. now apply IH. Qed.
Lemma found_entry es kvs k kn i e : cell_at h (Some a) = Some (CMap es) -> stands_for h (Some a) (NMap kvs) -> keys_up_to_date sh h (Some a) -> stands_for h k kn ->
  hfind sh fuel h es k = Ok (Some (i, e)) ->
  nth_error es i = Some e /\ exists k0 v0, nth_error kvs i = Some (k0, v0) /\ node_eq sh kn k0 = Ok true /\ map_find sh kvs kn = Ok (Some v0) /\ ent_stands h e (k0, v0).
Proof.
  intros Hc V K Vk E. pose proof (find_agrees es kvs k kn _ Hc V K Vk E) as FA.
  destruct (map_find sh kvs kn) as [[v|]| | | |] eqn:Em; try contradiction. destruct FA as [Hn Hv]. split; [exact Hn|].
  destruct (F2_nth _ _ _ (map_stands es kvs Hc V) _ _ Hn) as ([k0 v0] & Hk & Hst). exists k0, v0. split; [exact Hk|].
  destruct Hst as [S1 S2]. cbn [fst snd] in S1, S2. assert (v0 = v) by (eapply stands_for_one; eauto). subst v0. split; [|split; [reflexivity|split; assumption]].
  unfold hfind in E. destruct (hhash sh fuel h k) as [hk| | | |]; try discriminate. cbn [bind] in E. apply find_ent_found in E as (Hf & _).
  destruct (pointers_key e es (nth_error_In _ _ Hn)) as [Pk _]. assert (K0 : keys_up_to_date sh h (e_key e)) by (eapply keys_step; eauto).
  destruct (C141_equality_by_contents sh h k (e_key e) kn k0 Vk S1 K0) as (n & F). specialize (F (Nat.max n fuel) ltac:(lia)). cbn beta in F.
  destruct (heq_le sh h fuel (Nat.max n fuel) k (e_key e) ltac:(lia)) as [X|X]; congruence.
Qed.
Lemma new_value_at_key k v kvs kn vn : apply_change sh place fuel h a (AtKey k v) = Ok h' -> stands_for h (Some a) (NMap kvs) ->
  keys_up_to_date sh h (Some a) -> stands_for h k kn -> stands_for h v vn -> ~ reaches h v (Some a) ->
  exists before k0 v0 after, kvs = before ++ (k0, v0) :: after /\ node_eq sh kn k0 = Ok true /\ map_find sh kvs kn = Ok (Some v0) /\
    stands_for h' (Some a) (NMap (before ++ (k0, vn) :: after)).
Proof.
  intros H V K Vk Vv Nv. pose proof (kept _ _ _ H Vv Nv) as Vv'.
  pose proof (fun es kvs => kept_map _ es kvs H) as KM. pose proof H as H'. revert H'.
  unfold apply_change. destruct (nth_error h a) as [o|] eqn:E; [|discriminate]. pose proof (object_cell o E) as Hc.
  destruct (o_cell o) eqn:Ec; try discriminate. intros G.
  destruct (hfind sh fuel h es k) as [[[i e]|]| | | |] eqn:Ef; try discriminate. cbn [bind] in G. injection G as G.
  destruct (found_entry es kvs k kn i e Hc V K Vk Ef) as (Hn & k0 & v0 & Hk & Q & Fd & S1 & S2).
  exists (firstn i kvs), k0, v0, (skipn (S i) kvs). split; [now apply nth_split_at|]. split; [exact Q|]. split; [exact Fd|].
  pose proof (KM _ _ Hc V) as F. destruct (F2_nth _ _ _ F _ _ Hn) as (kv & Hk' & S1' & _). rewrite Hk in Hk'. injection Hk' as <-.
  subst h'. eapply stands_map; [rewrite (stored_cell _ _ E); cbn [o_cell]; reflexivity|].
  apply F2_set_elem; [exact F|split; [exact S1'|exact Vv']|]. apply nth_error_Some. congruence.
Qed.
Lemma new_value_erase k kvs kn : apply_change sh place fuel h a (EraseKey k) = Ok h' -> stands_for h (Some a) (NMap kvs) ->
  keys_up_to_date sh h (Some a) -> stands_for h k kn ->
  match map_find sh kvs kn with
  | Ok None => stands_for h' (Some a) (NMap kvs)
  | Ok (Some v0) => exists before k0 after, kvs = before ++ (k0, v0) :: after /\ node_eq sh kn k0 = Ok true /\ stands_for h' (Some a) (NMap (before ++ after))
  | _ => False
  end.
Proof.
  intros H V K Vk. pose proof (fun es kvs => kept_map _ es kvs H) as KM. pose proof H as H'. revert H'.
  unfold apply_change. destruct (nth_error h a) as [o|] eqn:E; [|discriminate]. pose proof (object_cell o E) as Hc.
  destruct (o_cell o) eqn:Ec; try discriminate. intros G.
  destruct (hfind sh fuel h es k) as [[[i e]|]| | | |] eqn:Ef; try discriminate; cbn [bind] in G; injection G as G.
  - destruct (found_entry es kvs k kn i e Hc V K Vk Ef) as (Hn & k0 & v0 & Hk & Q & Fd & S1 & S2). rewrite Fd.
    exists (firstn i kvs), k0, (skipn (S i) kvs). split; [now apply nth_split_at|]. split; [exact Q|].
    pose proof (KM _ _ Hc V) as F. subst h'. eapply stands_map; [rewrite (stored_cell _ _ E); cbn [o_cell]; reflexivity|].
    apply Forall2_app; [exact (F2_firstn _ _ _ F i)|exact (F2_skipn _ _ _ F (S i))].
  - pose proof (find_agrees es kvs k kn _ Hc V K Vk Ef) as FA. destruct (map_find sh kvs kn) as [[w|]| | | |]; try contradiction. subst h'. exact V.
Qed.
Lemma new_value_elements l old ms : apply_change sh place fuel h a (Elements l) = Ok h' -> stands_for h (Some a) old -> Forall2 (stands_for h) l ms ->
  (forall q, In q l -> ~ reaches h q (Some a)) -> stands_for h' (Some a) (with_elements old ms).
Proof.
  intros H V F N. assert (F' : Forall2 (stands_for h') l ms) by (eapply F2_impl; [|exact F]; intros q m Hq Vq; eapply kept; eauto). revert H.
  unfold apply_change. destruct (nth_error h a) as [o|] eqn:E; [|discriminate]. pose proof (object_cell o E) as Hc.
  destruct (o_cell o) eqn:Ec; try discriminate; intros G; injection G as G; destruct (stands_cell _ _ V Hc) as (d & Vc); inversion Vc; subst; cbn [with_elements].
  - eapply stands_list; [rewrite (stored_cell _ _ E); cbn [o_cell]; reflexivity|exact F'].
  - eapply stands_vector; [rewrite (stored_cell _ _ E); cbn [o_cell]; reflexivity|exact F'].
Qed.
End Values.
(** The values of the changed node: set, with one more element at the end, with element [i] replaced,
    with an entry added unless the key is there (in the sense of the map's value), with the elements
    given, with the value at an equal key replaced, with the entry of an equal key removed, as before. *)
Theorem C142_new_value : forall sh place fuel h a op h' old,
  (forall e es, Permutation (place e es) (e :: es)) ->
  apply_change sh place fuel h a op = Ok h' -> stands_for h (Some a) old -> (forall q, In q (brings op) -> ~ reaches h q (Some a)) ->
  match op with
  | SetValue c => exists v, plain_value c = Some v /\ stands_for h' (Some a) v
  | PushBack p => forall m, stands_for h p m -> stands_for h' (Some a) (pushed old m)
  | SetAt i p => forall m, stands_for h p m -> stands_for h' (Some a) (replaced old i m)
  | Insert k v => forall kvs kn vn, old = NMap kvs -> keys_up_to_date sh h (Some a) -> stands_for h k kn -> stands_for h v vn ->
      exists kvs', stands_for h' (Some a) (NMap kvs') /\
        match map_find sh kvs kn with
        | Ok (Some _) => kvs' = kvs
        | Ok None => Permutation kvs' ((kn, vn) :: kvs)
        | _ => False
        end
  | Elements l => forall ms, Forall2 (stands_for h) l ms -> stands_for h' (Some a) (with_elements old ms)
  | AtKey k v => forall kvs kn vn, old = NMap kvs -> keys_up_to_date sh h (Some a) -> stands_for h k kn -> stands_for h v vn ->
      exists before k0 v0 after, kvs = before ++ (k0, v0) :: after /\ node_eq sh kn k0 = Ok true /\ map_find sh kvs kn = Ok (Some v0) /\
        stands_for h' (Some a) (NMap (before ++ (k0, vn) :: after))
  | EraseKey k => forall kvs kn, old = NMap kvs -> keys_up_to_date sh h (Some a) -> stands_for h k kn ->
      match map_find sh kvs kn with
      | Ok None => stands_for h' (Some a) (NMap kvs)
      | Ok (Some v0) => exists before k0 after, kvs = before ++ (k0, v0) :: after /\ node_eq sh kn k0 = Ok true /\
          stands_for h' (Some a) (NMap (before ++ after))
      | _ => False
      end
  | SetMetadata _ => stands_for h' (Some a) old
  end.
Proof.
  intros sh place fuel h a op h' old P H V B. destruct op; cbn [brings] in B.
  - eapply new_value_set; eauto.
  - intros m Vm. eapply new_value_pushed; eauto. apply B. now left.
  - intros m Vm. eapply new_value_at; eauto. apply B. now left.
  - intros ms F. eapply new_value_elements; eauto.
  - intros kvs kn vn -> K Vk Vv. eapply new_value_insert; eauto; apply B; cbn; auto.
  - intros kvs kn vn -> K Vk Vv. eapply new_value_at_key; eauto. apply B. now left.
  - intros kvs kn -> K Vk. eapply new_value_erase; eauto.
  - destruct (C142_metadata_invisible _ _ _ _ _ _ _ H) as (_ & M). now apply M.
Qed.
Print Assumptions C142_new_value.

(** When a change is carried out: always, if the node is of the right kind; an index or a key that is not
    there is an exception. *)
Definition done {A} (r : outcome A) : Prop := exists x, r = Ok x.
Lemma cell_object h a c : cell_at h (Some a) = Some c -> exists o, nth_error h a = Some o /\ o_cell o = c.
Proof. unfold cell_at. cbn [object_at]. destruct (nth_error h a) as [o|]; [|discriminate]. intros H. injection H as <-. eauto. Qed.
Theorem C142_when_carried_out : forall sh place fuel h a old op, stands_for h (Some a) old ->
  let r := apply_change sh place fuel h a op in
  match op, old with
  | SetMetadata _, _ => done r
  | SetValue c, _ => done r <-> has_value c = true /\ kind old = ckind c
  | PushBack _, (NList _ | NVector _) | Elements _, (NList _ | NVector _) => done r
  | SetAt i _, (NList l | NVector l) => if Nat.ltb i (length l) then done r else r = Throw StdException
  | Insert _ _, NMap _ | EraseKey _, NMap _ | AtKey _ _, NMap _ => True   (* next theorem *)
  | _, _ => ~ done r
  end.
Proof.
  intros sh place fuel h a old op ([|d] & V); [discriminate|]. apply value_cases in V as (c & Hc & V).
  destruct (cell_object h a c Hc) as (o & Ho & Eo). cbv zeta. unfold apply_change, done. rewrite Ho, Eo.
  destruct op; [| | | | | | |eauto].
  { split.
    - intros (x & H). destruct (has_value c) eqn:Hv; [|discriminate]. destruct (Z.eqb_spec (ckind c) (ckind c0)) as [K|]; [|discriminate].
      split; destruct V, c0; try discriminate; reflexivity.
    - intros [Hv K]. destruct V, c0; try discriminate; cbn [has_value ckind kind andb Z.eqb Pos.eqb] in *; try discriminate; eauto. }
  all: destruct V; try exact I; try (intros (? & X); discriminate X); try (eexists; reflexivity).
  all: rewrite (F2_len _ _ _ H); destruct (Nat.ltb i (length ns)); [eexists; reflexivity|reflexivity].
Qed.
Print Assumptions C142_when_carried_out.
Theorem C142_when_carried_out_on_a_map : forall sh place h a kvs k v kn, stands_for h (Some a) (NMap kvs) -> keys_up_to_date sh h (Some a) -> stands_for h k kn ->
  exists n, forall fuel, (n <= fuel)%nat ->
  match map_find sh kvs kn with
  | Ok s =>
      done (apply_change sh place fuel h a (Insert k v)) /\ done (apply_change sh place fuel h a (EraseKey k)) /\
      match s with
      | Some _ => done (apply_change sh place fuel h a (AtKey k v))
      | None => apply_change sh place fuel h a (AtKey k v) = Throw StdException
      end
  | _ => ~ done (apply_change sh place fuel h a (Insert k v)) /\ ~ done (apply_change sh place fuel h a (EraseKey k)) /\
         ~ done (apply_change sh place fuel h a (AtKey k v))
  end.
Proof.
  intros sh place h a kvs k v kn V K Vk. pose proof V as ([|d] & V'); [discriminate|]. apply value_cases in V' as (c & Hc & V').
  inversion V' as [| | | | | | | | | | |es kvs' F]; subst.
  destruct (C141_find_by_contents sh h (Some a) es kvs k kn Hc V K Vk) as (n & FC). exists n. intros fuel L. specialize (FC fuel L).
  destruct (cell_object h a _ Hc) as (o & Ho & Eo). unfold apply_change, done. rewrite Ho, Eo.
  change (do hk <- hhash sh fuel h k; do s <- find_ent (heq sh fuel h k) hk 0 es;
    match s with Some _ => Ok h | None => Ok (store h a (mkObj (o_meta o) (CMap (place (mkEntry hk k v) es)))) end) with
   (do hk <- hhash sh fuel h k; do s <- find_ent (heq sh fuel h k) hk 0 es;
    (fun hk s => match s with Some _ => Ok h | None => Ok (store h a (mkObj (o_meta o) (CMap (place (mkEntry hk k v) es)))) end) hk s).
  unfold hfind in *. destruct (hhash sh fuel h k) as [hk| | | |]; cbn [bind] in *.
  2-5: destruct (map_find sh kvs kn) as [[]| | | |]; try contradiction; repeat split; intros (? & X); discriminate X.
  destruct (find_ent (heq sh fuel h k) hk 0 es) as [[[i e]|]| | | |]; cbn [bind] in *;
    destruct (map_find sh kvs kn) as [[w|]| | | |]; try contradiction;
    repeat split; try (eexists; reflexivity); try reflexivity; intros (? & X); discriminate X.
Qed.
Print Assumptions C142_when_carried_out_on_a_map.
