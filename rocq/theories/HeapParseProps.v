(** Property theorems about the objects a parsed document consists of (C146). *)
From Coq Require Import String ZArith List Bool Arith Lia Permutation SpecFloat.
From Verif Require Import Outcome HashModel TablesModel IrModel IrSpec IrProps LexModel ParseModel NodeHeapModel NodeHeapSpec NodeHeapProofs NodeHeapChange HeapParseModel HeapParseSpec HeapParseProofs.
Import ListNotations.
Local Open Scope Z_scope.
Local Open Scope list_scope.

Lemma hparse_both pow10 sh order fuel cmp syms text h : orders order -> (fuel <= cmp)%nat ->
  match parse pow10 sh (place_value sh order) fuel syms text, hparse pow10 sh (place_entry order) cmp fuel syms text h with
  | Ok d, Ok (ps, (s, h')) =>
      left_alone h h' /\ Forall2 (fun p n => value_within fuel h' p = Some n) ps (doc_nodes d) /\
      doc_lines d = lx_lines (ps_lx s) /\ doc_log d = ps_log s /\ doc_syms d = ps_syms s /\
      forest sh fuel h' (length h) (length h') ps
  | Throw e, Throw e' => e = e' | Trap e, Trap e' => e = e' | UB e, UB e' => e = e' | OutOfFuel, OutOfFuel => True
  | _, _ => False
  end.
Proof.
  intros O L. unfold parse, hparse. destruct (next pow10 (new_lexer new_line_info text)) as [[t lx]| | | |]; cbn [bind]; auto.
  pose proof (loop_from sh pow10 order O cmp fuel (mkP lx t [] syms) h [] [] fuel (length h) (le_n _) L (le_n _) (Forall2_nil _) (forest_nil _ _ _ _ _)) as B.
  revert B. destruct (parse_loop _ _ _ _ _ _) as [[ns s]| | | |], (hp_loop _ _ _ _ _ _ _ _) as [[ps [s' h']]| | | |]; cbn [both bind]; auto.
  intros (-> & _ & E & V & F). cbn [doc_nodes doc_lines doc_log doc_syms]. conjs; auto.
Qed.

(** * C146: a parsed document is a forest of nodes of its own *)
(** Parsing into memory has the outcome that parsing into values has (C28, C29, C71, C72 say which), and its
    pointers stand for the nodes of that document. *)
Theorem C146_same_outcome : forall pow10 sh order fuel cmp syms text h, orders order -> (fuel <= cmp)%nat ->
  match parse pow10 sh (place_value sh order) fuel syms text, hparse pow10 sh (place_entry order) cmp fuel syms text h with
  | Ok d, Ok (ps, (s, h')) =>
      Forall2 (stands_for h') ps (doc_nodes d) /\
      doc_lines d = lx_lines (ps_lx s) /\ doc_log d = ps_log s /\ doc_syms d = ps_syms s
  | Throw e, Throw e' => e = e' | Trap e, Trap e' => e = e' | UB e, UB e' => e = e' | OutOfFuel, OutOfFuel => True
  | _, _ => False
  end.
Proof.
  intros pow10 sh order fuel cmp syms text h O L. pose proof (hparse_both pow10 sh order fuel cmp syms text h O L) as B. revert B.
  destruct (parse _ _ _ _ _ _), (hparse _ _ _ _ _ _ _ _) as [[ps [s h']]| | | |]; auto. intros (_ & V & Ln & Lg & Sy & _). conjs; auto.
  eapply F2_impl; [|exact V]. intros p n _ H. now exists fuel.
Qed.
Print Assumptions C146_same_outcome.

(** All objects of the document are new, each is at one place only, all that was in memory before is as it
    was, and all its maps can be searched. *)
Theorem C146_nothing_shared : forall pow10 sh order fuel cmp syms text h ps s h', orders order -> (fuel <= cmp)%nat ->
  hparse pow10 sh (place_entry order) cmp fuel syms text h = Ok (ps, (s, h')) ->
  nothing_shared h' ps /\ all_new h h' ps /\ left_alone h h' /\ (forall p, In p ps -> keys_up_to_date sh h' p).
Proof.
  intros pow10 sh order fuel cmp syms text h ps s h' O L E. pose proof (hparse_both pow10 sh order fuel cmp syms text h O L) as B.
  rewrite E in B. destruct (parse _ _ _ _ _ _); try contradiction. destruct B as (A & _ & _ & _ & _ & F).
  destruct (forest_not_shared sh _ _ _ _ _ F) as (N & R). conjs; auto. intros p Hp. now apply F.
Qed.
Print Assumptions C146_nothing_shared.

(** A change of a node of the document is seen at its own place and in the nodes around it only. *)
Definition elsewhere (i : nat) (way : list step) (j : nat) (w : list step) : Prop :=
  i <> j \/ (forall t, way <> w ++ t) /\ (forall t, w <> way ++ t).
Lemma reaches_follow h p q : reaches h p q -> exists w, follow h p w = Some q.
Proof.
  induction 1 as [p|p c q r Hc Hq _ (w & Hw)]; [now exists []|].
  assert (exists s, step_from c s = Some q) as (s & Hs).
  { destruct c; cbn [pointers] in Hq; try contradiction.
    - apply In_nth_error in Hq as (i & Hi). now exists (Elem i).
    - apply In_nth_error in Hq as (i & Hi). now exists (Elem i).
    - apply in_flat_map in Hq as (e & He & Hq). apply In_nth_error in He as (i & Hi).
      destruct Hq as [<-|[<-|[]]]; [exists (Key i)|exists (Val i)]; cbn [step_from]; now rewrite Hi. }
  exists (s :: w). cbn [follow]. now rewrite Hc, Hs.
Qed.
Lemma follow_app h w t : forall p q, follow h p w = Some q -> follow h p (w ++ t) = follow h q t.
Proof.
  induction w as [|s w IH]; intros p q H; cbn [follow app] in *; [congruence|].
  destruct (cell_at h p) as [c|]; [|discriminate]. destruct (step_from c s); [|discriminate]. now apply IH.
Qed.
Theorem C146_change_stays_in_place : forall pow10 sh order fuel cmp syms text h ps s h' i root way a op place cfuel h'',
  orders order -> (fuel <= cmp)%nat -> hparse pow10 sh (place_entry order) cmp fuel syms text h = Ok (ps, (s, h')) ->
  nth_error ps i = Some root -> follow h' root way = Some (Some a) -> apply_change sh place cfuel h' a op = Ok h'' ->
  forall j q w b, nth_error ps j = Some q -> follow h' q w = Some b -> elsewhere i way j w ->
    follow h'' q w = Some b /\ forall n, stands_for h' b n -> stands_for h'' b n.
Proof.
  intros pow10 sh order fuel cmp syms text h ps s h' i root way a op place cfuel h'' O L E Hi Hw Hc j q w b Hj Hb El.
  destruct (C146_nothing_shared _ _ _ _ _ _ _ _ _ _ _ O L E) as (NS & _).
  assert (Df : differ_at h' h'' a) by (intros x Hx; exact (proj1 (change_elsewhere sh place cfuel h' a op h'' Hc) x Hx)).
  assert (Nr : ~ reaches h' b (Some a)).
  { intros R. apply reaches_follow in R as (t & Ht). pose proof (follow_app h' w t q b Hb) as Ha. rewrite Ht in Ha.
    destruct (NS i j root q way (w ++ t) a Hi Hj Hw Ha) as (Eij & Ew). destruct El as [El|(El & _)]; [contradiction|]. exact (El t Ew). }
  split.
  - (* the way there does not pass the place changed *)
    assert (P : forall w1 w2 r, w = w1 ++ w2 -> follow h' q w1 = Some r -> w2 <> [] -> r <> Some a).
    { intros w1 w2 r Ew Hr _ ->. destruct (NS i j root q way w1 a Hi Hj Hw Hr) as (Eij & E1). subst w1. destruct El as [El|(_ & El)]; [contradiction|]. exact (El w2 Ew). }
    assert (G : forall w2 w1 r, w = w1 ++ w2 -> follow h' q w1 = Some r -> follow h'' r w2 = Some b).
    { induction w2 as [|st w2 IH]; intros w1 r Ew Hr.
      - rewrite app_nil_r in Ew. subst w1. cbn [follow]. congruence.
      - pose proof (follow_app h' w1 (st :: w2) q r Hr) as Hf. rewrite <- Ew, Hb in Hf. symmetry in Hf. cbn [follow] in *.
        rewrite (differ_cell h' h'' a r Df (P w1 (st :: w2) r Ew Hr ltac:(discriminate))).
        destruct (cell_at h' r) as [c|] eqn:Ec; [|discriminate]. destruct (step_from c st) as [r'|] eqn:Es; [|discriminate].
        apply (IH (w1 ++ [st]) r'); [now rewrite <- app_assoc|]. rewrite (follow_app h' w1 [st] q r Hr). cbn [follow]. now rewrite Ec, Es. }
    exact (G w [] q eq_refl eq_refl).
  - intros n (d & V). exists d. rewrite (agree_value h' h'' d b); [exact V|]. now apply (differ_agree h' h'' a).
Qed.
Print Assumptions C146_change_stays_in_place.

(** "(a a) {x (1)} [{x (1)}]", read into a memory that already has a node *)
Definition in_front_order (k : Z) (ks : list Z) : list nat := seq 0 (S (length ks)).
Lemma in_front_orders : orders in_front_order. Proof. intros k ks. apply Permutation_refl. Qed.
Definition forest_text : list Z := [40;97;32;97;41;32;123;120;32;40;49;41;125;32;91;123;120;32;40;49;41;125;93].
Example forest_witness : exists ps s h', hparse (fun _ => f64_of_Z 1) gnu_hash (place_entry in_front_order) 60 60 empty_symtab forest_text [mkObj None (CInteger 5)] = Ok (ps, (s, h')) /\
  length ps = 3%nat /\ length h' = 13%nat /\ ps_log s = [] /\
  (exists p, nth_error ps 0 = Some p /\ stands_for h' p (NList [NSymbol 0; NSymbol 0])) /\
  (exists p m, nth_error ps 1 = Some p /\ m = NMap [(NSymbol 1, NList [NInteger 1])] /\ stands_for h' p m) /\
  (exists p, nth_error ps 2 = Some p /\ stands_for h' p (NVector [NMap [(NSymbol 1, NList [NInteger 1])]]) /\
    follow h' p [Elem 0; Val 0] = Some (Some 11%nat)) /\
  exists h'', apply_change gnu_hash (place_entry in_front_order) 9 h' 11 (PushBack (Some 0%nat)) = Ok h'' /\
    exists p, nth_error ps 2 = Some p /\ stands_for h'' p (NVector [NMap [(NSymbol 1, NList [NInteger 1; NInteger 5])]]).
Proof.
  eexists _, _, _. split; [vm_compute; reflexivity|]. split; [reflexivity|]. split; [reflexivity|]. split; [reflexivity|].
  split; [eexists; split; [reflexivity|exists 9%nat; vm_compute; reflexivity]|].
  split; [eexists _, _; split; [reflexivity|split; [reflexivity|exists 9%nat; vm_compute; reflexivity]]|].
  split; [eexists; split; [reflexivity|split; [exists 9%nat; vm_compute; reflexivity|vm_compute; reflexivity]]|].
  eexists. split; [vm_compute; reflexivity|]. eexists; split; [reflexivity|exists 9%nat; vm_compute; reflexivity].
Qed.
(** {x 1 x 2}: the second value is dropped, and reported. *)
Example duplicate_witness : exists ps s h', hparse (fun _ => f64_of_Z 1) gnu_hash (place_entry in_front_order) 60 60 empty_symtab [123;120;32;49;32;120;32;50;125] [] = Ok (ps, (s, h')) /\
  length (ps_log s) = 1%nat /\ exists p, ps = [p] /\ stands_for h' p (NMap [(NSymbol 0, NInteger 1)]).
Proof. eexists _, _, _. split; [vm_compute; reflexivity|]. split; [reflexivity|]. eexists; split; [reflexivity|exists 9%nat; vm_compute; reflexivity]. Qed.
