(** Property theorems about changed keys (C143), nodes inside themselves (C144) and nodes made with
    metadata (C145). *)
From Coq Require Import ZArith List Bool Arith Lia Permutation.
From Verif Require Import Outcome HashModel IrModel IrSpec IrProofs IrProps NodeHeapModel NodeHeapSpec NodeHeapProofs NodeHeapChange NodeHeapProps.
Import ListNotations.
Local Open Scope Z_scope.

(** * C143: "if a key is mutated, that entry is no longer retrievable" *)
Lemma simple_no_maps h : forall p q, reaches h p q -> forall n, stands_for h p n -> simple n -> forall es, cell_at h q <> Some (CMap es).
Proof.
  induction 1 as [p|p c q r Hc Hq _ IH]; intros n ([|d] & V) S es E; try discriminate; apply value_cases in V as (c' & Hc' & V).
  - rewrite E in Hc'. injection Hc' as <-. inversion V; subst. destruct S.
  - rewrite Hc in Hc'. injection Hc' as <-.
    assert (G : exists m, stands_for h q m /\ simple m); [|destruct G as (m & Vm & Sm); exact (IH m Vm Sm es E)].
    clear IH. destruct V; cbn [pointers] in Hq; try contradiction.
    + cbn [simple] in S. rewrite simple_list in S. apply In_nth_error in Hq as (i & Hi). destruct (F2_nth _ _ _ H _ _ Hi) as (m & Hm & Vm).
      exists m. split; [now exists d|]. rewrite Forall_forall in S. eapply S, nth_error_In; eauto.
    + cbn [simple] in S. rewrite simple_list in S. apply In_nth_error in Hq as (i & Hi). destruct (F2_nth _ _ _ H _ _ Hi) as (m & Hm & Vm).
      exists m. split; [now exists d|]. rewrite Forall_forall in S. eapply S, nth_error_In; eauto.
Qed.
Lemma simple_up_to_date sh h p n : stands_for h p n -> simple n -> keys_up_to_date sh h p.
Proof. intros V S q es e R E. destruct (simple_no_maps h p q R n V S es E). Qed.
(** What [find] gives: an entry with the hash of the key looked for kept in it, and an equal key *)
Lemma found_ent f hk l : forall i j e, find_ent f hk i l = Ok (Some (j, e)) -> e_hash e = hk /\ f (e_key e) = Ok true.
Proof.
  induction l as [|y l IH]; intros i j e H; [discriminate|]. cbn [find_ent] in H. destruct (Z.eqb_spec (e_hash y) hk) as [E|]; [|eauto].
  destruct (f (e_key y)) as [[]| | | |] eqn:F; cbn [bind] in H; try discriminate; eauto. injection H as _ <-. auto.
Qed.
Lemma equal_same sh h fuel p q n m : hash_respects_reals sh -> stands_for h p n -> stands_for h q m -> good n -> simple m ->
  heq sh fuel h p q = Ok true -> same n m.
Proof.
  intros R V W G S E. destruct (C141_equal_iff_same_value sh h p q n m R V W G (simple_good _ S) (simple_up_to_date sh h q m W S)) as (b & (N & B) & I).
  apply I. specialize (B (Nat.max N fuel) ltac:(lia)). destruct (heq_le sh h fuel (Nat.max N fuel) p q ltac:(lia)) as [X|X]; congruence.
Qed.
Lemma hash_of sh h fuel p n v : stands_for h p n -> hhash sh fuel h p = Ok v -> node_hash sh n = Ok v.
Proof.
  intros (d & V) E. destruct (hhash_le sh h fuel (Nat.max d fuel) p ltac:(lia)) as [X|X]; [congruence|].
  rewrite E in X. rewrite X. symmetry. eapply hhash_value; eauto. lia.
Qed.
(** The entry is found by no key at all, neither by the new nor by the old contents, if the hash of the key
    is no longer the one it had when the entry was made. *)
Theorem C143_changed_key_is_lost_partial : forall sh h es i e kn, hash_respects_reals sh ->
  nth_error es i = Some e -> stands_for h (e_key e) kn -> simple kn -> node_hash sh kn <> Ok (e_hash e) ->
  forall k n fuel j e', stands_for h k n -> good n -> hfind sh fuel h es k = Ok (Some (j, e')) -> j <> i.
Proof.
  intros sh h es i e kn R Hi Vk S N k n fuel j e' V G F ->. unfold hfind in F. destruct (hhash sh fuel h k) as [hk| | | |] eqn:Eh; try discriminate.
  cbn [bind] in F. pose proof (find_ent_in _ _ _ _ _ F) as Hj. rewrite Hi in Hj. injection Hj as <-. apply found_ent in F as [E1 E2].
  pose proof (equal_same sh h fuel k (e_key e) n kn R V Vk G S E2) as Sm. apply same_sym in Sm.
  apply N. rewrite (same_hash sh R kn n (simple_no_map _ S) Sm), E1. eapply hash_of; eauto.
Qed.
Print Assumptions C143_changed_key_is_lost_partial.

(** A map with such an entry is not equal to itself. *)
Theorem C143_map_differs_from_itself : forall sh h m es i e kn, hash_respects_reals sh ->
  cell_at h m = Some (CMap es) -> nth_error es i = Some e -> stands_for h (e_key e) kn -> simple kn -> node_hash sh kn <> Ok (e_hash e) ->
  (forall j e', nth_error es j = Some e' -> j <> i -> exists kn', stands_for h (e_key e') kn' /\ simple kn' /\ ~ same kn kn') ->
  forall fuel, heq sh fuel h m m <> Ok true.
Proof.
  intros sh h m es i e kn R Hm Hi Vk S N D fuel E. destruct fuel as [|fuel]; [discriminate|]. cbn [heq] in E.
  rewrite (proj2 (deref_ok h m _) Hm) in E. cbn [bind] in E. rewrite Nat.eqb_refl in E. cbn [negb] in E.
  assert (G : forall l, eq_ents (hhash sh fuel h) (heq sh fuel h) es l = Ok true -> In e l ->
    exists hk j e', hhash sh fuel h (e_key e) = Ok hk /\ find_ent (heq sh fuel h (e_key e)) hk 0 es = Ok (Some (j, e'))).
  { induction l as [|x l IH]; intros H I; [destruct I|]. cbn [eq_ents] in H. destruct (hhash sh fuel h (e_key x)) as [hk| | | |] eqn:Eh; try discriminate.
    cbn [bind] in H. destruct (find_ent _ hk 0 es) as [[[j e']|]| | | |] eqn:Ef; cbn [bind] in H; try discriminate.
    destruct (heq sh fuel h (e_val x) (e_val e')) as [[]| | | |]; cbn [bind] in H; try discriminate.
    destruct I as [->|I]; [eauto|auto]. }
  destruct (G es E (nth_error_In _ _ Hi)) as (hk & j & e' & Eh & Ef). pose proof (find_ent_in _ _ _ _ _ Ef) as Hj. apply found_ent in Ef as [E1 E2].
  pose proof (hash_of sh h fuel _ _ _ Vk Eh) as Hh. destruct (Nat.eq_dec j i) as [->|Nj].
  - rewrite Hi in Hj. injection Hj as <-. apply N. now rewrite Hh, E1.
  - destruct (D j e' Hj Nj) as (kn' & Vk' & S' & Ns). apply Ns. eapply (equal_same sh h fuel (e_key e) (e_key e')); eauto using simple_good.
Qed.
Print Assumptions C143_map_differs_from_itself.

(** Two integers and a map with the first as key, the second as value *)
Definition in_front (e : entry) (es : list entry) : list entry := e :: es.
Definition key_heap : heap := [mkObj None (CInteger 1); mkObj None (CInteger 10); mkObj None (CMap [])].
Definition map_heap (sh : std_hash) : outcome heap := apply_change sh in_front 5 key_heap 2 (Insert (Some 0%nat) (Some 1%nat)).
Definition changed_heap (sh : std_hash) : outcome heap := do h <- map_heap sh; apply_change sh in_front 5 h 0 (SetValue (CInteger 2)).
Definition entries (h : heap) (a : nat) : list entry := match cell_at h (Some a) with Some (CMap es) => es | _ => [] end.

(** The comment is not quite true: where the new contents hash like the old ones the entry is found again,
    under the new key.  Nothing in the standard keeps std::hash from giving the same number for all. *)
Definition constant_hash : std_hash := mkStdHash (fun _ => 0) (fun _ => 0) (fun _ => 0) (fun _ => 0) (fun _ => 0).
Theorem C143_same_hash_refuted : hash_respects_reals constant_hash /\
  exists h, changed_heap constant_hash = Ok h /\ cell_at h (Some 0%nat) = Some (CInteger 2) /\
    exists e, hfind constant_hash 5 h (entries h 2) (Some 0%nat) = Ok (Some (0%nat, e)) /\ e_val e = Some 1%nat.
Proof. split; [intros x y _; reflexivity|]. eexists. split; [vm_compute; reflexivity|]. split; [reflexivity|]. eexists. split; vm_compute; reflexivity. Qed.
Print Assumptions C143_same_hash_refuted.
(** With GNU's std::hash the conditions of the theorems hold in this heap: the map differs from itself, and
    inserting the changed key again gives a second entry with an equal key. *)
Example changed_key_lost : exists h e, changed_heap gnu_hash = Ok h /\ entries h 2 = [e] /\ stands_for h (e_key e) (NInteger 2) /\
  node_hash gnu_hash (NInteger 2) <> Ok (e_hash e) /\ hfind gnu_hash 5 h (entries h 2) (Some 0%nat) = Ok None /\
  heq gnu_hash 5 h (Some 2%nat) (Some 2%nat) = Ok false /\
  exists h2, apply_change gnu_hash in_front 5 h 2 (Insert (Some 0%nat) (Some 1%nat)) = Ok h2 /\ length (entries h2 2) = 2%nat.
Proof.
  eexists. eexists. split; [vm_compute; reflexivity|]. split; [vm_compute; reflexivity|]. split; [exists 1%nat; vm_compute; reflexivity|].
  split; [vm_compute; discriminate|]. split; [vm_compute; reflexivity|]. split; [vm_compute; reflexivity|].
  eexists. split; vm_compute; reflexivity.
Qed.

(** * C144: comparing and hashing end *)
(** No null pointer and no pointer to nothing in the objects reached *)
Definition no_null (h : heap) (p : ptr) : Prop := forall q, reaches h p q -> exists c, cell_at h q = Some c.
Definition no_cycle (h : heap) (p : ptr) : Prop := forall q, reaches h p q -> ~ inside_itself h q.
Lemma value_by_depth h : forall d p seen, no_null h p -> no_cycle h p -> NoDup seen ->
  (forall a, In a seen -> (a < length h)%nat /\ exists c q, cell_at h (Some a) = Some c /\ In q (pointers c) /\ reaches h q p) ->
  (length h < d + length seen)%nat -> exists n, stands_for h p n.
Proof.
  induction d as [|d IH]; intros p seen N C ND Hs L.
  - exfalso. assert (length seen <= length (seq 0 (length h)))%nat; [|rewrite seq_length in *; lia].
    apply NoDup_incl_length; [exact ND|]. intros a Ha. apply in_seq. destruct (Hs a Ha). lia.
  - destruct (N p (reaches_self h p)) as (c & Hc). assert (exists a, p = Some a) as (a & ->) by (destruct p; [eauto|discriminate]).
    assert (La : (a < length h)%nat).
    { unfold cell_at in Hc. cbn in Hc. destruct (nth_error h a) eqn:E; [|discriminate]. apply nth_error_Some. congruence. }
    destruct (case_by_pointers h c) as (d' & n & V).
    + intros q Hq. apply (IH q (a :: seen)).
      * intros r Hr. apply N. econstructor; eauto.
      * intros r Hr. apply C. econstructor; eauto.
      * constructor; [|exact ND]. intros Ha. destruct (Hs a Ha) as (_ & c' & q' & Hc' & Hq' & R').
        apply (C (Some a) (reaches_self _ _)). exists c', q'. auto.
      * intros b [<-|Hb].
        -- split; [exact La|]. exists c, q. split; [exact Hc|]. split; [exact Hq|]. constructor.
        -- destruct (Hs b Hb) as (Lb & c' & q' & Hc' & Hq' & R'). split; [exact Lb|]. exists c', q'. split; [exact Hc'|]. split; [exact Hq'|].
           eapply reaches_trans; [exact R'|]. eapply reaches_step; [exact Hc|exact Hq|constructor].
      * cbn [length]. lia.
    + exists n, (S d'). apply value_cases. eauto.
Qed.
(** A node stands for a value exactly if no pointer to follow is null and nothing is inside itself. *)
Theorem C144_finite_values : forall h p, (no_null h p /\ no_cycle h p) <-> exists n, stands_for h p n.
Proof.
  intros h p. split.
  - intros (N & C). apply (value_by_depth h (S (length h)) p []); auto; [constructor|intros a []|cbn; lia].
  - intros (n & d & V). split; intros q R; destruct (reached_value h p q R d n V) as (m & W).
    + destruct d as [|d]; [discriminate|]. apply value_cases in W as (c & Hc & _). eauto.
    + intros I. rewrite (inside_itself_no_value h q I d) in W. discriminate.
Qed.
Print Assumptions C144_finite_values.
(** Then hashing ends, and so does comparing two such nodes; what comes out is C141. *)
Theorem C144_operations_end_partial : forall sh h p, no_null h p -> no_cycle h p ->
  (exists r, ((exists v, r = Ok v) \/ r = Trap Assertion) /\ ends_with (fun fuel => hhash sh fuel h p) r) /\
  (forall q, no_null h q -> no_cycle h q -> keys_up_to_date sh h q -> exists r, ((exists v, r = Ok v) \/ r = Trap Assertion) /\ ends_with (fun fuel => heq sh fuel h p q) r).
Proof.
  intros sh h p N C. destruct (proj1 (C144_finite_values h p) (conj N C)) as (n & V). split.
  - exists (node_hash sh n). split; [|now apply C141_hash_by_contents]. exact (hash_ends sh n).
  - intros q Nq Cq K. destruct (proj1 (C144_finite_values h q) (conj Nq Cq)) as (m & W). exists (node_eq sh n m).
    split; [|now apply C141_equality_by_contents]. exact (C62_comparing_ends_partial sh n m).
Qed.
Print Assumptions C144_operations_end_partial.
(** A node inside itself, or with such a node in it, is never hashed and never found equal to anything, not
    to itself either. *)
Theorem C144_inside_itself_refuted : forall sh h p q, reaches h p q -> inside_itself h q ->
  forall fuel, (forall v, hhash sh fuel h p <> Ok v) /\ forall r, heq sh fuel h p r <> Ok true.
Proof.
  intros sh h p q R I fuel. split.
  - intros v E. destruct (hhash_has_value sh h fuel p v E) as (n & V). destruct (reached_value h p q R fuel n V) as (m & W).
    rewrite (inside_itself_no_value h q I) in W. discriminate.
  - intros r E. destruct (heq_true_value sh h fuel p r E) as (n & V). destruct (reached_value h p q R fuel n V) as (m & W).
    rewrite (inside_itself_no_value h q I) in W. discriminate.
Qed.
Print Assumptions C144_inside_itself_refuted.
(** A list to which it was itself appended: neither hashing it nor comparing it with itself ever comes back. *)
Theorem C144_list_in_itself_refuted : forall sh place fuel h a l h' ns, cell_at h (Some a) = Some (CList l) ->
  stands_for h (Some a) (NList ns) -> Forall (fun n => exists v, node_hash sh n = Ok v) ns -> Forall (fun n => node_eq sh n n = Ok true) ns ->
  keys_up_to_date sh h (Some a) ->
  apply_change sh place fuel h a (PushBack (Some a)) = Ok h' ->
  forall f, hhash sh f h' (Some a) = OutOfFuel /\ heq sh f h' (Some a) (Some a) = OutOfFuel.
Proof.
  intros sh place fuel h a l h' ns Hc V Hh He K H.
  assert (Hc' : cell_at h' (Some a) = Some (CList (l ++ [Some a]))).
  { revert H. unfold apply_change. unfold cell_at in Hc. cbn [object_at] in Hc. destruct (nth_error h a) as [o|] eqn:E; [|discriminate].
    cbn in Hc. injection Hc as Hc. rewrite Hc. intros G. injection G as <-. rewrite (stored_cell h a o _ E). reflexivity. }
  pose proof V as ([|d] & Vd); [discriminate|]. apply value_cases in Vd as (c & Hc2 & Vd). rewrite Hc in Hc2. injection Hc2 as <-. inversion Vd; subst.
  assert (El : forall q, In q l -> agree h h' q).
  { intros q Hq. eapply change_frame; eauto. eapply own_elements; eauto. }
  induction f as [|f IH]; [split; reflexivity|]. destruct IH as [IH1 IH2].
  cbn [hhash heq]. rewrite (proj2 (deref_ok h' (Some a) _) Hc'). cbn [bind]. rewrite Nat.eqb_refl. cbn [negb]. split.
  - generalize (mix HASH_SEED 8). clear Hc Hc' V Vd He. revert ns Hh H2 El. induction l as [|x l IHl]; intros ns Hh F El acc.
    + cbn [app hash_elems]. now rewrite IH1.
    + inversion F as [|? n ? ns' Vx F']; subst. cbn [app hash_elems].
      rewrite (agree_hash sh h h' f x (El x (or_introl eq_refl))). inversion Hh as [|? ? (v & Hv) Hh']; subst.
      destruct (hhash_le sh h f (Nat.max d f) x ltac:(lia)) as [X|X]; [now rewrite X|].
      rewrite X, (hhash_value sh h d x n (Nat.max d f) Vx ltac:(lia)), Hv. cbn [bind]. eapply IHl; eauto. intros; apply El; now right.
  - assert (Kl : forall q, In q l -> keys_up_to_date sh h q) by (intros q Hq; eapply keys_step; eauto).
    clear Hc Hc' V Vd Hh. revert ns He H2 El Kl. induction l as [|x l IHl]; intros ns He F El Kl.
    + cbn [app eq_elems]. now rewrite IH2.
    + inversion F as [|? n ? ns' Vx F']; subst. cbn [app eq_elems]. inversion He as [|? ? Hv He']; subst.
      rewrite (agree_eq sh h h' f x x (El x (or_introl eq_refl)) (El x (or_introl eq_refl))).
      destruct (heq_le sh h f (Nat.max d f) x x ltac:(lia)) as [X|X]; [now rewrite X|].
      rewrite X, (heq_value sh h d (Nat.max d f) x x n n Vx Vx ltac:(lia) (Kl x (or_introl eq_refl))), Hv. cbn [bind].
      eapply IHl; eauto; intros; [apply El|apply Kl]; now right.
Qed.
Print Assumptions C144_list_in_itself_refuted.
Definition list_heap : heap := [mkObj None (CInteger 1); mkObj None (CList [Some 0%nat; Some 0%nat])].
Example list_in_itself : exists h', apply_change gnu_hash in_front 5 list_heap 1 (PushBack (Some 1%nat)) = Ok h' /\
  inside_itself h' (Some 1%nat) /\ forall f, hhash gnu_hash f h' (Some 1%nat) = OutOfFuel /\ heq gnu_hash f h' (Some 1%nat) (Some 1%nat) = OutOfFuel.
Proof.
  eexists. split; [vm_compute; reflexivity|]. split.
  - eexists. exists (Some 1%nat). split; [reflexivity|]. split; [cbn; auto|constructor].
  - eapply (C144_list_in_itself_refuted gnu_hash in_front 5 list_heap 1 [Some 0%nat; Some 0%nat] _ [NInteger 1; NInteger 1]).
    + reflexivity.
    + exists 2%nat. reflexivity.
    + repeat constructor; eexists; vm_compute; reflexivity.
    + repeat constructor.
    + intros q es e R E. exfalso. apply (simple_no_maps list_heap (Some 1%nat) q R (NList [NInteger 1; NInteger 1])) with (es := es);
        [exists 2%nat; reflexivity|cbn; auto|exact E].
    + vm_compute. reflexivity.
Qed.

(** * C145: a node made with metadata has the value given *)
Theorem C145_value_kept_partial : forall h meta b c, (forall v, c <> CCharacter v) ->
  let (h', p) := make h meta b c in cell_at h' p = Some c /\ option_map o_meta (object_at h' p) = Some meta /\
    forall q c0, cell_at h q = Some c0 -> cell_at h' q = Some c0.
Proof.
  intros h meta b c N. pose proof (make_cell h meta b c) as M. unfold make in *. cbn [fst] in M. unfold cell_at at 1. cbn [object_at].
  rewrite nth_error_app2, Nat.sub_diag by lia. cbn [nth_error option_map o_cell o_meta]. split; [|split; [reflexivity|intros; now apply M]].
  destruct c; try reflexivity. now destruct (N c).
Qed.
Print Assumptions C145_value_kept_partial.
(** Characters other than 0 and 1 become 1. *)
Theorem C145_characters_refuted : forall h meta v, v <> 0 ->
  let (h', p) := make h meta true (CCharacter v) in cell_at h' p = Some (CCharacter 1).
Proof.
  intros h meta v N. unfold make. unfold cell_at. cbn [object_at]. rewrite nth_error_app2, Nat.sub_diag by lia. cbn. destruct (Z.eqb_spec v 0); congruence.
Qed.
Print Assumptions C145_characters_refuted.
(** Exactly the characters 0 and 1 are kept with metadata, and all without. *)
Theorem C145_which_characters_partial : forall h meta v,
  (let (h', p) := make h meta true (CCharacter v) in cell_at h' p = Some (CCharacter v) <-> v = 0 \/ v = 1) /\
  (let (h', p) := make h meta false (CCharacter v) in cell_at h' p = Some (CCharacter v)).
Proof.
  intros h meta v. unfold make, cell_at. cbn [object_at]. rewrite !nth_error_app2, Nat.sub_diag by lia. cbn.
  split; [|reflexivity]. destruct (Z.eqb_spec v 0) as [->|N]; split; intros H; auto.
  - injection H as H. auto.
  - destruct H as [H| ->]; [congruence|reflexivity].
Qed.
Print Assumptions C145_which_characters_partial.

(** * Witnesses for C141 and C142: [[1 1] [1 1] 1] with one vector in two places and one integer in five *)
Definition shared : heap :=
  [mkObj None (CInteger 1); mkObj (Some 3%nat) (CVector [Some 0%nat; Some 0%nat]);
   mkObj None (CVector [Some 1%nat; Some 1%nat; Some 0%nat]); mkObj None (CMap [])].
Definition apart : heap := shared ++
  [mkObj None (CInteger 1); mkObj None (CInteger 1); mkObj None (CVector [Some 4%nat; Some 5%nat]); mkObj None (CInteger 1); mkObj None (CInteger 1);
   mkObj None (CVector [Some 7%nat; Some 8%nat]); mkObj None (CInteger 1); mkObj None (CVector [Some 6%nat; Some 9%nat; Some 10%nat])].
Definition five_ones : node := NVector [NVector [NInteger 1; NInteger 1]; NVector [NInteger 1; NInteger 1]; NInteger 1].
Example shared_equal : stands_for apart (Some 2%nat) five_ones /\ stands_for apart (Some 11%nat) five_ones /\ good five_ones /\
  keys_up_to_date gnu_hash apart (Some 11%nat) /\ heq gnu_hash 5 apart (Some 2%nat) (Some 11%nat) = Ok true.
Proof.
  assert (V : stands_for apart (Some 11%nat) five_ones) by (exists 3%nat; reflexivity).
  split; [exists 3%nat; reflexivity|]. split; [exact V|]. split; [cbn; auto 10|]. split; [|vm_compute; reflexivity].
  eapply simple_up_to_date; [exact V|cbn; auto 10].
Qed.
Example seen_everywhere : exists h', apply_change gnu_hash in_front 5 shared 0 (SetValue (CInteger 7)) = Ok h' /\
  stands_for h' (Some 2%nat) (NVector [NVector [NInteger 7; NInteger 7]; NVector [NInteger 7; NInteger 7]; NInteger 7]) /\
  follow shared (Some 2%nat) [Elem 1; Elem 0] = Some (Some 0%nat).
Proof. eexists. split; [vm_compute; reflexivity|]. split; [exists 3%nat; reflexivity|reflexivity]. Qed.
Example careful_map : careful gnu_hash in_front (match map_heap gnu_hash with Ok h => h | _ => [] end) /\
  permutes in_front.
Proof.
  split; [|intros e es x; cbn; intuition]. eapply careful_change with (h := key_heap) (fuel := 5%nat) (a := 2%nat) (op := Insert (Some 0%nat) (Some 1%nat)).
  - assert (C1 : careful gnu_hash in_front [mkObj None (CInteger 1)])
      by (apply (careful_make gnu_hash in_front [] None false (CInteger 1)); [constructor|discriminate]).
    assert (C2 : careful gnu_hash in_front [mkObj None (CInteger 1); mkObj None (CInteger 10)])
      by (apply (careful_make gnu_hash in_front _ None false (CInteger 10)) in C1; [exact C1|discriminate]).
    apply (careful_make gnu_hash in_front _ None false (CMap [])) in C2; [exact C2|]. intros es E. now injection E.
  - vm_compute. reflexivity.
  - intros (q & es & e & Hq & He & _). destruct q as [[|[|[|[|]]]]|]; try discriminate. injection Hq as <-. destruct He.
  - intros k v E R. injection E as <- <-. inversion R as [|? c q ? Hc Hq _]; subst. injection Hc as <-. destruct Hq.
Qed.
(** Assigning to and erasing a key, found by an equal node that is another object *)
Example key_changes : exists h, map_heap gnu_hash = Ok h /\
  let h := h ++ [mkObj None (CInteger 1)] in
  stands_for h (Some 2%nat) (NMap [(NInteger 1, NInteger 10)]) /\ keys_up_to_date gnu_hash h (Some 2%nat) /\
  (exists h', apply_change gnu_hash in_front 5 h 2 (AtKey (Some 3%nat) (Some 3%nat)) = Ok h' /\ stands_for h' (Some 2%nat) (NMap [(NInteger 1, NInteger 1)])) /\
  (exists h', apply_change gnu_hash in_front 5 h 2 (EraseKey (Some 3%nat)) = Ok h' /\ stands_for h' (Some 2%nat) (NMap [])).
Proof.
  eexists. split; [vm_compute; reflexivity|]. cbn zeta. split; [exists 2%nat; vm_compute; reflexivity|]. split; [|split].
  - intros q es e _ Hq He. destruct q as [[|[|[|[|[|]]]]]|]; try discriminate. injection Hq as <-. destruct He as [<-|[]].
    exists (NInteger 1). split; [exists 1%nat; reflexivity|vm_compute; reflexivity].
  - eexists. split; [vm_compute; reflexivity|]. exists 2%nat. vm_compute. reflexivity.
  - eexists. split; [vm_compute; reflexivity|]. exists 2%nat. vm_compute. reflexivity.
Qed.
