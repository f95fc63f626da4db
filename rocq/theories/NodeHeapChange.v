(** What changes to objects do to values. *)
From Coq Require Import ZArith List Bool Arith Lia.
From Verif Require Import Outcome HashModel IrModel IrSpec IrProofs NodeHeapModel NodeHeapSpec NodeHeapProofs.
Import ListNotations.
Local Open Scope Z_scope.

Lemma store_nth h a o o0 b : nth_error h a = Some o0 -> nth_error (store h a o) b = if Nat.eqb b a then Some o else nth_error h b.
Proof.
  intros H. unfold store. pose proof (nth_error_split h a H) as (l1 & l2 & -> & L). subst a.
  rewrite firstn_app, Nat.sub_diag, firstn_all. cbn [firstn]. rewrite app_nil_r.
  replace (skipn (S (length l1)) (l1 ++ o0 :: l2)) with l2.
  2:{ clear. induction l1; cbn; auto. }
  destruct (Nat.eqb_spec b (length l1)) as [->|N].
  - rewrite nth_error_app2, Nat.sub_diag by lia. reflexivity.
  - destruct (Nat.lt_ge_cases b (length l1)).
    + now rewrite !nth_error_app1 by lia.
    + rewrite !nth_error_app2 by lia. destruct (b - length l1)%nat eqn:E; [lia|reflexivity].
Qed.

(** Heaps that agree on all that is reached from a pointer *)
Definition agree (h h' : heap) (p : ptr) : Prop := forall q, reaches h p q -> cell_at h' q = cell_at h q.
Lemma agree_step h h' p c q : agree h h' p -> cell_at h p = Some c -> In q (pointers c) -> agree h h' q.
Proof. intros A Hc Hq r Hr. apply A. econstructor; eauto. Qed.
Lemma agree_self h h' p : agree h h' p -> cell_at h' p = cell_at h p. Proof. intros A. apply A. constructor. Qed.
Lemma all_ext {A B} (f g : A -> option B) l : (forall x, In x l -> f x = g x) -> all f l = all g l.
Proof. induction l as [|x l IH]; intros H; [reflexivity|]. cbn [all]. rewrite H, IH; [reflexivity| |now left]. intros; apply H; now right. Qed.
Lemma agree_value h h' : forall d p, agree h h' p -> value_within d h' p = value_within d h p.
Proof.
  induction d as [|d IH]; intros p A; [reflexivity|]. cbn [value_within]. rewrite (agree_self _ _ _ A).
  destruct (cell_at h p) as [c|] eqn:E; [|reflexivity]. destruct c; try reflexivity; f_equal; apply all_ext; intros x Hx.
  - apply IH. eapply agree_step; eauto.
  - apply IH. eapply agree_step; eauto.
  - destruct (pointers_key x es Hx). now rewrite !IH by (eapply agree_step; eauto).
Qed.
Lemma agree_reaches h h' p : agree h h' p -> forall q, reaches h' p q <-> reaches h p q.
Proof.
  intros A q. split.
  - intros R. revert A. induction R as [p|p c q r Hc Hq _ IH]; intros A; [constructor|].
    rewrite (agree_self _ _ _ A) in Hc. econstructor; eauto. apply IH. eapply agree_step; eauto.
  - intros R. revert A. induction R as [p|p c q r Hc Hq _ IH]; intros A; [constructor|].
    econstructor; [rewrite (agree_self _ _ _ A); eauto|eauto|]. apply IH. eapply agree_step; eauto.
Qed.

Section Sh.
Context (sh : std_hash).
Lemma agree_hash h h' : forall fuel p, agree h h' p -> hhash sh fuel h' p = hhash sh fuel h p.
Proof.
  induction fuel as [|fuel IH]; intros p A; [reflexivity|]. cbn [hhash].
  assert (D : deref h' p = deref h p) by (rewrite !deref_cell, (agree_self _ _ _ A); reflexivity).
  rewrite D. destruct (deref h p) as [c| | | |] eqn:E; try reflexivity. cbn [bind]. apply deref_ok in E.
  assert (I : forall q, In q (pointers c) -> hhash sh fuel h' q = hhash sh fuel h q) by (intros; apply IH; eapply agree_step; eauto).
  assert (L : forall l, (forall q, In q l -> hhash sh fuel h' q = hhash sh fuel h q) -> forall acc,
    hash_elems (hhash sh fuel h') acc l = hash_elems (hhash sh fuel h) acc l).
  { clear. induction l as [|x l IHl]; intros H acc; [reflexivity|]. cbn [hash_elems]. rewrite H by (now left).
    destruct (hhash sh fuel h x); cbn [bind]; try reflexivity. apply IHl. intros; apply H; now right. }
  destruct c; try reflexivity; [apply L, I|apply L, I|].
  assert (LE : forall l, (forall e, In e l -> hhash sh fuel h' (e_key e) = hhash sh fuel h (e_key e) /\ hhash sh fuel h' (e_val e) = hhash sh fuel h (e_val e)) ->
    forall acc, hash_ents (hhash sh fuel h') acc l = hash_ents (hhash sh fuel h) acc l).
  { clear. induction l as [|x l IHl]; intros H acc; [reflexivity|]. cbn [hash_ents]. destruct (H x (or_introl eq_refl)) as (-> & ->).
    destruct (hhash sh fuel h (e_key x)); cbn [bind]; try reflexivity. destruct (hhash sh fuel h (e_val x)); cbn [bind]; try reflexivity. apply IHl. intros; apply H; now right. }
  apply LE. intros e He. destruct (pointers_key e es He). auto.
Qed.
Lemma agree_eq h h' : forall fuel p q, agree h h' p -> agree h h' q -> heq sh fuel h' p q = heq sh fuel h p q.
Proof.
  induction fuel as [|fuel IH]; intros p q A B; [reflexivity|]. cbn [heq].
  assert (D : deref h' p = deref h p) by (rewrite !deref_cell, (agree_self _ _ _ A); reflexivity).
  assert (D' : deref h' q = deref h q) by (rewrite !deref_cell, (agree_self _ _ _ B); reflexivity).
  rewrite D, D'. destruct (deref h p) as [c| | | |] eqn:E; try reflexivity. cbn [bind]. apply deref_ok in E.
  destruct (deref h q) as [c'| | | |] eqn:E'; try reflexivity. cbn [bind]. apply deref_ok in E'.
  assert (I : forall x y, In x (pointers c) -> In y (pointers c') -> heq sh fuel h' x y = heq sh fuel h x y)
    by (intros x y Hx Hy; apply IH; [exact (agree_step h h' p c x A E Hx)|exact (agree_step h h' q c' y B E' Hy)]).
  assert (J : forall x, In x (pointers c) -> hhash sh fuel h' x = hhash sh fuel h x)
    by (intros x Hx; apply agree_hash; exact (agree_step h h' p c x A E Hx)).
  assert (L : forall l r, (forall x y, In x l -> In y r -> heq sh fuel h' x y = heq sh fuel h x y) ->
    eq_elems (heq sh fuel h') l r = eq_elems (heq sh fuel h) l r).
  { clear. induction l as [|x l IHl]; intros [|y r] H; try reflexivity. cbn [eq_elems]. rewrite H by (now left).
    destruct (heq sh fuel h x y) as [[]| | | |]; cbn [bind]; try reflexivity. apply IHl. intros; apply H; now right. }
  destruct c, c'; try reflexivity; cbn [pointers] in I, J.
  - rewrite (L l l0) by exact I. reflexivity.
  - rewrite (L l l0) by exact I. reflexivity.
  - assert (K1 : forall x, In x es -> In (e_key x) (pointers (CMap es)) /\ In (e_val x) (pointers (CMap es))) by (intros x Hx; exact (pointers_key x es Hx)).
    assert (K2 : forall x, In x es0 -> In (e_key x) (pointers (CMap es0)) /\ In (e_val x) (pointers (CMap es0))) by (intros x Hx; exact (pointers_key x es0 Hx)).
    cbn [pointers] in K1, K2.
    assert (F : forall k hk l i, In k (flat_map (fun e => [e_key e; e_val e]) es) -> (forall e, In e l -> In e es0) ->
       find_ent (heq sh fuel h' k) hk i l = find_ent (heq sh fuel h k) hk i l).
    { intros k hk l. induction l as [|x l IHl]; intros i Hk Hl; [reflexivity|]. cbn [find_ent]. rewrite !IHl by (auto; intros; apply Hl; now right).
      rewrite I; [reflexivity|auto|]. apply K2, Hl. now left. }
    assert (G : forall l, (forall e, In e l -> In e es) -> eq_ents (hhash sh fuel h') (heq sh fuel h') es0 l = eq_ents (hhash sh fuel h) (heq sh fuel h) es0 l).
    { induction l as [|x l IHl]; intros Hl; [reflexivity|]. cbn [eq_ents].
      assert (Hx : In x es) by (apply Hl; now left). destruct (K1 x Hx) as [Kx Vx].
      rewrite J by auto. destruct (hhash sh fuel h (e_key x)) as [hk| | | |]; cbn [bind]; auto. rewrite F by auto.
      destruct (find_ent _ _ _ es0) as [[[j e]|]| | | |] eqn:Ef; cbn [bind]; auto.
      assert (He : In e es0).
      { clear - Ef. revert Ef. generalize 0%nat. assert (X : forall l i, find_ent (heq sh fuel h (e_key x)) hk i l = Ok (Some (j, e)) -> In e l).
        { induction l as [|y l IH]; intros i H; [discriminate|]. cbn in H. destruct (e_hash y =? hk).
          - destruct (heq sh fuel h (e_key x) (e_key y)) as [[]| | | |]; cbn in H; try discriminate; [injection H as _ ->; now left|right; eauto].
          - right; eauto. }
        intros n H. eauto. }
      rewrite I; [|auto|apply K2, He]. destruct (heq sh fuel h (e_val x) (e_val e)) as [[]| | | |]; cbn [bind]; try reflexivity. apply IHl. intros; apply Hl; now right. }
    now rewrite G by auto.
Qed.

(** ** Changes *)
Context (place : entry -> list entry -> list entry).
Lemma change_elsewhere fuel h a op h' : apply_change sh place fuel h a op = Ok h' ->
  (forall b, b <> a -> nth_error h' b = nth_error h b) /\ (exists o, nth_error h a = Some o) /\ (exists o, nth_error h' a = Some o).
Proof.
  unfold apply_change. destruct (nth_error h a) as [o|] eqn:E; [|discriminate]. intros H.
  assert (S : forall o', (forall b, b <> a -> nth_error (store h a o') b = nth_error h b) /\ nth_error (store h a o') a = Some o').
  { intros o'. split.
    - intros b N. rewrite (store_nth h a o' o b E). now rewrite (proj2 (Nat.eqb_neq b a) N).
    - rewrite (store_nth h a o' o a E). now rewrite Nat.eqb_refl. }
  assert (G : h' = h \/ exists o', h' = store h a o').
  { destruct op, (o_cell o); cbn [o_cell] in H;
      repeat first [ discriminate | match type of H with
        | Ok _ = Ok _ => injection H as <-
        | (if ?b then _ else _) = _ => destruct b
        | bind ?m _ = _ => destruct m; cbn [bind] in H
        | match ?x with Some _ => _ | None => _ end = _ => destruct x as [|]
        | (let (_, _) := ?x in _) = _ => destruct x end ]; eauto. }
  destruct G as [->|(o' & ->)].
  - split; [auto|]. split; eauto.
  - destruct (S o') as [S1 S2]. split; [exact S1|]. split; eauto.
Qed.
Lemma change_frame fuel h a op h' p : apply_change sh place fuel h a op = Ok h' -> ~ reaches h p (Some a) -> agree h h' p.
Proof.
  intros H N q R. destruct (change_elsewhere _ _ _ _ _ H) as (S & _). destruct q as [b|]; [|reflexivity].
  unfold cell_at. cbn [object_at]. rewrite S; [reflexivity|]. intros ->. auto.
Qed.
End Sh.

(** ** Parts *)
Lemma F2_nth {A B} (R : A -> B -> Prop) l r : Forall2 R l r -> forall i x, nth_error l i = Some x -> exists y, nth_error r i = Some y /\ R x y.
Proof. induction 1; intros [|i] z E; try discriminate; cbn in *; [injection E as <-; eauto|eauto]. Qed.
Lemma step_part d h c n s q : value_case d h c n -> step_from c s = Some q -> exists m, part_step n s = Some m /\ value_within d h q = Some m.
Proof.
  intros V S. destruct V, s; try discriminate; cbn [step_from part_step] in *.
  - eapply F2_nth in H; eauto.
  - eapply F2_nth in H; eauto.
  - destruct (nth_error es i) as [e|] eqn:E; [|discriminate]. injection S as <-. destruct (F2_nth _ _ _ H _ _ E) as ([k v] & -> & Hv).
    apply ent_value_ok in Hv as [Hk _]. eexists. split; [reflexivity|exact Hk].
  - destruct (nth_error es i) as [e|] eqn:E; [|discriminate]. injection S as <-. destruct (F2_nth _ _ _ H _ _ E) as ([k v] & -> & Hv).
    apply ent_value_ok in Hv as [_ Hw]. eexists. split; [reflexivity|exact Hw].
Qed.
Lemma follow_part h way : forall p q n, stands_for h p n -> follow h p way = Some q -> exists m, part n way = Some m /\ stands_for h q m.
Proof.
  induction way as [|s way IH]; intros p q n V F; cbn [follow part] in *; [injection F as <-; eauto|].
  destruct V as ([|d] & V); [discriminate|]. apply value_cases in V as (c & Hc & V). rewrite Hc in F.
  destruct (step_from c s) as [r|] eqn:S; [|discriminate]. destruct (step_part d h c n s r V S) as (m & -> & Vm).
  eapply IH; eauto. now exists d.
Qed.
Lemma step_pointer c s q : step_from c s = Some q -> In q (pointers c).
Proof.
  destruct c, s; cbn [step_from pointers]; try discriminate; try apply nth_error_In.
  - destruct (nth_error es i) as [e|] eqn:E; [|discriminate]. injection 1 as <-. apply nth_error_In in E. now apply (pointers_key e es).
  - destruct (nth_error es i) as [e|] eqn:E; [|discriminate]. injection 1 as <-. apply nth_error_In in E. now apply (pointers_key e es).
Qed.
Lemma follow_reaches h way : forall p q, follow h p way = Some q -> reaches h p q.
Proof.
  induction way as [|s way IH]; intros p q F; cbn [follow] in F; [injection F as <-; constructor|].
  destruct (cell_at h p) as [c|] eqn:E; [|discriminate]. destruct (step_from c s) as [r|] eqn:S; [|discriminate].
  econstructor; eauto using step_pointer.
Qed.

(** ** Keeping values *)
Definition differ_at (h h' : heap) (a : nat) : Prop := forall b, b <> a -> nth_error h' b = nth_error h b.
Lemma differ_cell h h' a p : differ_at h h' a -> p <> Some a -> cell_at h' p = cell_at h p.
Proof. intros D N. destruct p as [b|]; [|reflexivity]. unfold cell_at. cbn. rewrite D; [reflexivity|congruence]. Qed.
Lemma differ_agree h h' a p : differ_at h h' a -> ~ reaches h p (Some a) -> agree h h' p.
Proof. intros D N q R. apply differ_cell with (a := a); [exact D|]. intros ->. auto. Qed.
Lemma common_depth {A B} (R : nat -> A -> B -> Prop) : (forall d d' x y, R d x y -> (d <= d')%nat -> R d' x y) ->
  forall l, Forall (fun x => exists d y, R d x y) l -> exists d r, Forall2 (R d) l r.
Proof.
  intros M l F. induction F as [|x l (d & y & H) _ (d' & r & IH)]; [exists 0%nat, []; constructor|].
  exists (Nat.max d d'), (y :: r). constructor; [eapply M; [exact H|lia]|].
  eapply F2_impl; [|exact IH]. intros. eapply M; eauto. lia.
Qed.
Lemma ent_value_more h d d' e kv : ent_value d h e = Some kv -> (d <= d')%nat -> ent_value d' h e = Some kv.
Proof. destruct kv as [k v]. intros H L. apply ent_value_ok in H as [H1 H2]. apply ent_value_ok. split; eapply value_more; eauto. Qed.
Lemma case_by_pointers h c : (forall q, In q (pointers c) -> exists n, stands_for h q n) -> exists d n, value_case d h c n.
Proof.
  intros H.
  assert (L : forall l, (forall q, In q l -> exists n, stands_for h q n) -> exists d ns, Forall2 (fun p n => value_within d h p = Some n) l ns).
  { intros l G. apply (common_depth (fun d p n => value_within d h p = Some n)); [intros; eapply value_more; eauto|].
    apply Forall_forall. intros q Hq. destruct (G q Hq) as (n & d & V). eauto. }
  destruct c; try (exists 0%nat; eexists; constructor; fail); cbn [pointers] in H.
  - destruct (L l H) as (d & ns & F). exists d, (NList ns). now constructor.
  - destruct (L l H) as (d & ns & F). exists d, (NVector ns). now constructor.
  - destruct (common_depth (fun d e kv => ent_value d h e = Some kv)) with (l := es) as (d & ns & F).
    + intros; eapply ent_value_more; eauto.
    + apply Forall_forall. intros e He. destruct (pointers_key e es He) as [K V]. destruct (H _ K) as (k & dk & Hk), (H _ V) as (v & dv & Hv).
      exists (Nat.max dk dv), (k, v). apply ent_value_ok. split; eapply value_more; eauto; lia.
    + exists d, (NMap ns). now constructor.
Qed.
Lemma still_value h h' a : differ_at h h' a -> (exists m, stands_for h' (Some a) m) ->
  forall d p n, value_within d h p = Some n -> exists n', stands_for h' p n'.
Proof.
  intros D Va. induction d as [|d IH]; intros p n V; [discriminate|].
  assert (dec : p = Some a \/ p <> Some a) by (destruct p as [b|]; [destruct (Nat.eq_dec b a); [left|right]; congruence|right; discriminate]).
  destruct dec as [->|N]; [exact Va|]. apply value_cases in V as (c & Hc & V).
  destruct (case_by_pointers h' c) as (d' & n' & V').
  - intros q Hq. destruct (value_pointers h d c n q V Hq) as (m & Vm). eauto.
  - exists n', (S d'). apply value_cases. exists c. split; [|exact V']. now rewrite (differ_cell h h' a p D N).
Qed.

(** The new contents of a changed object *)
Definition permutes (place : entry -> list entry -> list entry) : Prop := forall e es x, In x (place e es) <-> x = e \/ In x es.
Lemma set_elem_in {A} (l : list A) : forall i x y, In y (set_elem l i x) -> y = x \/ In y l.
Proof. induction l as [|z l IH]; intros [|i] x y H; cbn in *; try contradiction; intuition. destruct (IH i x y H0); intuition. Qed.
Lemma find_ent_nth f hk l : forall pre j e, find_ent f hk (length pre) l = Ok (Some (j, e)) -> nth_error (pre ++ l) j = Some e /\ (length pre <= j)%nat.
Proof.
  induction l as [|y l IH]; intros pre j e H; [discriminate|]. cbn [find_ent] in H.
  assert (R : find_ent f hk (S (length pre)) l = Ok (Some (j, e)) -> nth_error (pre ++ y :: l) j = Some e /\ (length pre <= j)%nat).
  { intros G. specialize (IH (pre ++ [y]) j e). rewrite app_length in IH. cbn [length] in IH. rewrite Nat.add_1_r, <- app_assoc in IH.
    destruct (IH G). split; [assumption|lia]. }
  destruct (e_hash y =? hk); [|auto]. destruct (f (e_key y)) as [[]| | | |]; cbn [bind] in H; try discriminate; auto.
  injection H as <- <-. rewrite nth_error_app2, Nat.sub_diag by lia. auto.
Qed.
Lemma find_ent_in f hk l j e : find_ent f hk 0 l = Ok (Some (j, e)) -> nth_error l j = Some e.
Proof. intros H. now apply (find_ent_nth f hk l [] j e) in H as [H _]. Qed.

Section Sh2.
Context (sh : std_hash) (place : entry -> list entry -> list entry) (P : permutes place).
Lemma change_pointers fuel h a op h' : apply_change sh place fuel h a op = Ok h' ->
  exists c c', cell_at h (Some a) = Some c /\ cell_at h' (Some a) = Some c' /\ differ_at h h' a /\
    (forall q, In q (pointers c') -> In q (pointers c) \/ In q (brings op)).
Proof.
  intros H. destruct (change_elsewhere _ _ _ _ _ _ _ H) as (D & _ & _). revert H. unfold apply_change, cell_at. cbn [object_at].
  destruct (nth_error h a) as [o|] eqn:E; [|discriminate]. intros H. cbn [option_map].
  assert (ST : forall o', nth_error (store h a o') a = Some o') by (intros o'; rewrite (store_nth h a o' o a E); now rewrite Nat.eqb_refl).
  assert (PUT : forall o', h' = store h a o' -> (forall q, In q (pointers (o_cell o')) -> In q (pointers (o_cell o)) \/ In q (brings op)) ->
    exists c c', Some (o_cell o) = Some c /\ option_map o_cell (nth_error h' a) = Some c' /\ differ_at h h' a /\
      (forall q, In q (pointers c') -> In q (pointers c) \/ In q (brings op))).
  { intros o' -> G. exists (o_cell o), (o_cell o'). rewrite ST. auto. }
  destruct op; cbn [brings].
  - destruct (has_value (o_cell o)) eqn:Ho; [|discriminate]. destruct (Z.eqb_spec (ckind (o_cell o)) (ckind c)) as [K|]; [|discriminate].
    cbn [andb] in H. eapply PUT; [injection H as <-; reflexivity|]. cbn [o_cell]. intros q Hq. exfalso.
    destruct (o_cell o), c; try discriminate; destruct Hq.
  - destruct (o_cell o) eqn:Ec; try discriminate; (eapply PUT; [injection H as <-; reflexivity|]); cbn [o_cell pointers]; intros q Hq;
      apply in_app_iff in Hq; exact Hq.
  - destruct (o_cell o) eqn:Ec; try discriminate; destruct (Nat.ltb i (length l)); try discriminate;
      (eapply PUT; [injection H as <-; reflexivity|]); cbn [o_cell pointers]; intros q Hq; apply set_elem_in in Hq; cbn; intuition.
  - destruct (o_cell o) eqn:Ec; try discriminate; (eapply PUT; [injection H as <-; reflexivity|]); cbn [o_cell pointers]; auto.
  - destruct (o_cell o) eqn:Ec; try discriminate. destruct (hhash sh fuel h k) as [hk| | | |]; try discriminate. cbn [bind] in H.
    destruct (find_ent (heq sh fuel h k) hk 0 es) as [[s|]| | | |]; cbn [bind] in H; try discriminate.
    + injection H as <-. exists (CMap es), (CMap es). rewrite E. cbn [option_map]. rewrite Ec. auto.
    + eapply PUT; [injection H as <-; reflexivity|]. cbn [o_cell pointers]. intros q Hq. apply in_flat_map in Hq as (x & Hx & Hq).
      apply P in Hx as [->|Hx]; [right; cbn in *; intuition|]. left. apply in_flat_map. eauto.
  - destruct (o_cell o) eqn:Ec; try discriminate. unfold hfind in H. destruct (hhash sh fuel h k) as [hk| | | |]; try discriminate. cbn [bind] in H.
    destruct (find_ent (heq sh fuel h k) hk 0 es) as [[[i e]|]| | | |] eqn:F; cbn [bind] in H; try discriminate. apply find_ent_in in F. apply nth_error_In in F.
    eapply PUT; [injection H as <-; reflexivity|]. cbn [o_cell pointers]. intros q Hq. apply in_flat_map in Hq as (x & Hx & Hq).
    apply set_elem_in in Hx as [->|Hx].
    + cbn [e_key e_val] in Hq. destruct Hq as [<-|[<-|[]]]; [left; apply in_flat_map; exists e; cbn; auto|right; now left].
    + left. apply in_flat_map. eauto.
  - destruct (o_cell o) eqn:Ec; try discriminate. unfold hfind in H. destruct (hhash sh fuel h k) as [hk| | | |]; try discriminate. cbn [bind] in H.
    destruct (find_ent (heq sh fuel h k) hk 0 es) as [[[i e]|]| | | |] eqn:F; cbn [bind] in H; try discriminate.
    + eapply PUT; [injection H as <-; reflexivity|]. cbn [o_cell pointers]. intros q Hq. left. apply in_flat_map in Hq as (x & Hx & Hq).
      apply in_flat_map. exists x. split; [|exact Hq]. apply in_app_iff in Hx as [Hx|Hx].
      * rewrite <- (firstn_skipn i es). apply in_app_iff. now left.
      * rewrite <- (firstn_skipn (S i) es). apply in_app_iff. now right.
    + injection H as <-. exists (CMap es), (CMap es). rewrite E. cbn [option_map]. rewrite Ec. auto.
  - eapply PUT; [injection H as <-; reflexivity|]. cbn [o_cell]. auto.
Qed.
(** A change that brings in only values the object is not part of leaves every value a value. *)
Lemma change_keeps_values fuel h a op h' : apply_change sh place fuel h a op = Ok h' -> (exists n, stands_for h (Some a) n) ->
  (forall q, In q (brings op) -> (exists m, stands_for h q m) /\ ~ reaches h q (Some a)) ->
  forall p n, stands_for h p n -> exists n', stands_for h' p n'.
Proof.
  intros H (na & Va) B p n (d & V). destruct (change_pointers _ _ _ _ _ H) as (c & c' & Hc & Hc' & D & PS).
  eapply still_value; eauto. destruct (case_by_pointers h' c') as (d' & m & Vm); [|exists m, (S d'); apply value_cases; eauto].
  assert (A : forall q m, stands_for h q m -> ~ reaches h q (Some a) -> stands_for h' q m).
  { intros q m0 (d0 & V0) N. exists d0. rewrite (agree_value h h' d0 q (differ_agree h h' a q D N)). exact V0. }
  intros q Hq. destruct (PS q Hq) as [Hq'|Hq'].
  - destruct Va as ([|d0] & Va); [discriminate|]. pose proof Va as Va'. apply value_cases in Va as (c0 & Hc0 & Va). rewrite Hc in Hc0. injection Hc0 as <-.
    destruct (value_pointers h d0 c na q Va Hq') as (m0 & V0). exists m0. apply A; [now exists d0|].
    intros R. assert (I : inside_itself h (Some a)) by (exists c, q; auto). rewrite (inside_itself_no_value h (Some a) I) in Va'. discriminate.
  - destruct (B q Hq') as ((m0 & V0) & N). eauto.
Qed.
(** Ways to the changed object lead there still. *)
Lemma follow_still h h' a : differ_at h h' a -> (exists n, stands_for h (Some a) n) ->
  forall way p, follow h p way = Some (Some a) -> follow h' p way = Some (Some a).
Proof.
  intros D (na & Va) way. induction way as [|s way IH]; intros p F; [exact F|]. cbn [follow] in *.
  assert (dec : p = Some a \/ p <> Some a) by (destruct p as [b|]; [destruct (Nat.eq_dec b a); [left|right]; congruence|right; discriminate]).
  destruct dec as [->|N].
  - exfalso. destruct (cell_at h (Some a)) as [c|] eqn:E; [|discriminate]. destruct (step_from c s) as [q|] eqn:S; [|discriminate].
    assert (I : inside_itself h (Some a)) by (exists c, q; eauto using step_pointer, follow_reaches).
    destruct Va as (d & Va). rewrite (inside_itself_no_value h (Some a) I) in Va. discriminate.
  - rewrite (differ_cell h h' a p D N). destruct (cell_at h p) as [c|]; [|discriminate]. destruct (step_from c s); [|discriminate]. auto.
Qed.

(** ** Keys that are not changed stay up to date. *)
Lemma keys_stay fuel h a op h' : apply_change sh place fuel h a op = Ok h' -> all_keys_up_to_date sh h -> ~ part_of_a_key h a ->
  (forall k v, op = Insert k v -> ~ reaches h k (Some a)) -> all_keys_up_to_date sh h'.
Proof.
  intros H K N I. destruct (change_pointers _ _ _ _ _ H) as (c & c' & Hc & Hc' & D & _).
  assert (Old : forall q es e, cell_at h q = Some (CMap es) -> In e es -> up_to_date sh h' e).
  { intros q es e Hq He. destruct (K q es e Hq He) as (k & (d & V) & Hh). exists k. split; [|exact Hh]. exists d.
    rewrite (agree_value h h' d (e_key e)); [exact V|]. apply differ_agree with (a := a); [exact D|]. intros R. apply N. exists q, es, e. auto. }
  intros q es e Hq He.
  assert (dec : q = Some a \/ q <> Some a) by (destruct q as [b|]; [destruct (Nat.eq_dec b a); [left|right]; congruence|right; discriminate]).
  destruct dec as [->|Nq]; [|rewrite (differ_cell h h' a q D Nq) in Hq; eauto].
  revert H. unfold apply_change. unfold cell_at in Hc, Hq, Hc'. cbn [object_at] in Hc, Hq, Hc'. destruct (nth_error h a) as [o|] eqn:E; [|discriminate].
  cbn [option_map] in Hc. intros H.
  assert (ST : forall o', nth_error (store h a o') a = Some o') by (intros o'; rewrite (store_nth h a o' o a E); now rewrite Nat.eqb_refl).
  assert (OldA : forall es0 e0, o_cell o = CMap es0 -> In e0 es0 -> up_to_date sh h' e0).
  { intros es0 e0 Ho. apply (Old (Some a)). unfold cell_at. cbn [object_at]. rewrite E. cbn. congruence. }
  destruct op.
  - destruct (has_value (o_cell o)) eqn:Ho; [|discriminate]. destruct (Z.eqb_spec (ckind (o_cell o)) (ckind c0)) as [Kd|]; [|discriminate].
    cbn [andb] in H. injection H as <-. rewrite ST in Hq. cbn in Hq. injection Hq as ->. destruct (o_cell o); discriminate.
  - destruct (o_cell o) eqn:Ec; try discriminate; injection H as <-; rewrite ST in Hq; discriminate.
  - destruct (o_cell o) eqn:Ec; try discriminate; destruct (Nat.ltb i (length l)); try discriminate; injection H as <-; rewrite ST in Hq; discriminate.
  - destruct (o_cell o) eqn:Ec; try discriminate; injection H as <-; rewrite ST in Hq; discriminate.
  - destruct (o_cell o) eqn:Ec; try discriminate. destruct (hhash sh fuel h k) as [hk| | | |] eqn:Ek; try discriminate. cbn [bind] in H.
    destruct (find_ent (heq sh fuel h k) hk 0 es0) as [[s|]| | | |]; cbn [bind] in H; try discriminate.
    + injection H as <-. rewrite E in Hq. cbn in Hq. apply (OldA es); [congruence|exact He].
    + injection H as <-. rewrite ST in Hq. cbn in Hq. injection Hq as <-. apply P in He as [->|He]; [|eauto].
      destruct (hhash_has_value sh h fuel k hk Ek) as (kn & V). exists kn. cbn [e_key e_hash]. split.
      * exists fuel. rewrite (agree_value h _ fuel k); [exact V|]. apply differ_agree with (a := a); [exact D|]. eapply I. reflexivity.
      * rewrite <- Ek. symmetry. eapply hhash_value; eauto.
  - destruct (o_cell o) eqn:Ec; try discriminate. unfold hfind in H. destruct (hhash sh fuel h k) as [hk| | | |]; try discriminate. cbn [bind] in H.
    destruct (find_ent (heq sh fuel h k) hk 0 es0) as [[[i e1]|]| | | |] eqn:F; cbn [bind] in H; try discriminate. apply find_ent_in in F. apply nth_error_In in F.
    injection H as <-. rewrite ST in Hq. cbn in Hq. injection Hq as <-. apply set_elem_in in He as [->|He]; [|eauto].
    destruct (OldA es0 e1 eq_refl F) as (kn & V & Hh). exists kn. auto.
  - destruct (o_cell o) eqn:Ec; try discriminate. unfold hfind in H. destruct (hhash sh fuel h k) as [hk| | | |]; try discriminate. cbn [bind] in H.
    destruct (find_ent (heq sh fuel h k) hk 0 es0) as [[[i e1]|]| | | |] eqn:F; cbn [bind] in H; try discriminate.
    + injection H as <-. rewrite ST in Hq. cbn in Hq. injection Hq as <-. eapply OldA; [reflexivity|].
      apply in_app_iff in He as [He|He].
      * rewrite <- (firstn_skipn i es0). apply in_app_iff. now left.
      * rewrite <- (firstn_skipn (S i) es0). apply in_app_iff. now right.
    + injection H as <-. rewrite E in Hq. cbn in Hq. apply (OldA es); [congruence|exact He].
  - injection H as <-. rewrite ST in Hq. cbn in Hq. apply (OldA es); [congruence|exact He].
Qed.
End Sh2.

(** ** More fuel *)
Definition le_out {A} (r r' : outcome A) : Prop := r = OutOfFuel \/ r = r'.
Lemma le_refl {A} (r : outcome A) : le_out r r. Proof. now right. Qed.
Lemma le_bind {A B} (m m' : outcome A) (k k' : A -> outcome B) : le_out m m' -> (forall a, le_out (k a) (k' a)) -> le_out (bind m k) (bind m' k').
Proof. intros [->| ->] H; [now left|]. destruct m'; cbn; try apply le_refl. apply H. Qed.
Lemma le_elems (f g : ptr -> outcome Z) : (forall p, le_out (f p) (g p)) -> forall l acc, le_out (hash_elems f acc l) (hash_elems g acc l).
Proof. intros H. induction l as [|p l IH]; intros acc; cbn [hash_elems]; [apply le_refl|]. apply le_bind; auto. Qed.
Lemma le_ents (f g : ptr -> outcome Z) : (forall p, le_out (f p) (g p)) -> forall l acc, le_out (hash_ents f acc l) (hash_ents g acc l).
Proof. intros H. induction l as [|e l IH]; intros acc; cbn [hash_ents]; [apply le_refl|]. apply le_bind; auto. intros. apply le_bind; auto. Qed.
Lemma le_eq_elems f g : (forall p q, le_out (f p q) (g p q)) -> forall l r, le_out (eq_elems f l r) (eq_elems g l r).
Proof. intros H. induction l as [|p l IH]; intros [|q r]; cbn [eq_elems]; try apply le_refl. apply le_bind; auto. intros []; auto using @le_refl. Qed.
Lemma le_find f g hk : (forall p, le_out (f p) (g p)) -> forall l i, le_out (find_ent f hk i l) (find_ent g hk i l).
Proof.
  intros H. induction l as [|e l IH]; intros i; cbn [find_ent]; [apply le_refl|]. destruct (e_hash e =? hk); auto.
  apply le_bind; auto. intros []; auto using @le_refl.
Qed.
Lemma le_eq_ents hf hg f g : (forall p, le_out (hf p) (hg p)) -> (forall p q, le_out (f p q) (g p q)) ->
  forall rhs l, le_out (eq_ents hf f rhs l) (eq_ents hg g rhs l).
Proof.
  intros Hh H rhs. induction l as [|e l IH]; cbn [eq_ents]; [apply le_refl|]. apply le_bind; auto. intros hk. apply le_bind; [now apply le_find|].
  intros [[j e']|]; [|apply le_refl]. apply le_bind; auto. intros []; auto using @le_refl.
Qed.
Section Sh3.
Context (sh : std_hash) (h : heap).
Lemma hhash_le : forall fuel fuel' p, (fuel <= fuel')%nat -> le_out (hhash sh fuel h p) (hhash sh fuel' h p).
Proof.
  induction fuel as [|fuel IH]; intros fuel' p L; [now left|]. destruct fuel' as [|fuel']; [lia|]. cbn [hhash]. apply le_bind; [apply le_refl|].
  assert (I : forall p, le_out (hhash sh fuel h p) (hhash sh fuel' h p)) by (intros; apply IH; lia).
  intros []; try apply le_refl; auto using le_elems, le_ents.
Qed.
Lemma heq_le : forall fuel fuel' p q, (fuel <= fuel')%nat -> le_out (heq sh fuel h p q) (heq sh fuel' h p q).
Proof.
  induction fuel as [|fuel IH]; intros fuel' p q L; [now left|]. destruct fuel' as [|fuel']; [lia|]. cbn [heq]. apply le_bind; [apply le_refl|].
  assert (I : forall p q, le_out (heq sh fuel h p q) (heq sh fuel' h p q)) by (intros; apply IH; lia).
  assert (J : forall p, le_out (hhash sh fuel h p) (hhash sh fuel' h p)) by (intros; apply hhash_le; lia).
  intros c. apply le_bind; [apply le_refl|]. intros c'. destruct c, c'; try apply le_refl.
  - destruct (negb _); [apply le_refl|]. now apply le_eq_elems.
  - destruct (negb _); [apply le_refl|]. now apply le_eq_elems.
  - destruct (negb _); [apply le_refl|]. now apply le_eq_ents.
Qed.
Lemma hfind_le fuel fuel' es k : (fuel <= fuel')%nat -> le_out (hfind sh fuel h es k) (hfind sh fuel' h es k).
Proof. intros L. unfold hfind. apply le_bind; [now apply hhash_le|]. intros. apply le_find. intros. now apply heq_le. Qed.
End Sh3.
