(** C151: handles to stack memory. *)

From Coq Require Import ZArith List Bool Lia Permutation.
From Verif Require Import Outcome StackModel.
Import ListNotations.
Local Open Scope Z_scope.

(** * Specification: who owns what *)

(** The handles that exist; each owns a block of some size or nothing. *)
Definition owners := list (Z * option (Z * Z)).
Fixpoint owns (l : owners) (h : Z) : option (option (Z * Z)) :=
  match l with [] => None | (k, v) :: l => if k =? h then Some v else owns l h end.
Definition drop (h : Z) (l : owners) : owners := filter (fun p => negb (fst p =? h)) l.
Fixpoint owned (l : owners) : list (Z * Z) :=
  match l with [] => [] | (_, Some b) :: l => b :: owned l | (_, None) :: l => owned l end.

Definition own_step (l : owners) (o : k_op) : owners :=
  match o with
  | KMake h b n => (h, Some (b, n)) :: l
  | KDefault h b => (h, Some (b, 8192)) :: l
  | KMove d s => (d, match owns l s with Some v => v | None => None end) :: (s, None) :: drop s l
  | KDestroy h => drop h l
  end.
Fixpoint own_run (l : owners) (ops : list k_op) : owners :=
  match ops with [] => l | o :: ops => own_run (own_step l o) ops end.

(** Handles are made at addresses where there is none, moved from and destroyed while they exist; new[] gives a
    block that is not in use. *)
Fixpoint well_kept (l : owners) (ops : list k_op) : Prop :=
  match ops with
  | [] => True
  | o :: ops =>
    match o with
    | KMake h b _ | KDefault h b => owns l h = None /\ b <> 0 /\ ~ In b (map fst (owned l))
    | KMove d s => owns l d = None /\ owns l s <> None
    | KDestroy h => owns l h <> None
    end /\ well_kept (own_step l o) ops
  end.

(** * Proofs *)

Definition addr_of (v : option (Z * Z)) : Z := match v with Some (b, _) => b | None => 0 end.

Record agree (st : stacks) (l : owners) : Prop := {
  ag_handles : forall h, k_handle st h = option_map addr_of (owns l h);
  ag_blocks : Permutation (k_blocks st) (owned l);
  ag_own : NoDup (map fst (owned l));
  ag_keys : NoDup (map fst l);
  ag_nonnull : ~ In 0 (map fst (owned l)) }.

Lemma owns_drop l h h' : owns (drop h l) h' = if h' =? h then None else owns l h'.
Proof.
  induction l as [|[k v] l IH]; [cbn; now destruct (h' =? h)|]. cbn [drop filter fst owns]. fold (drop h l).
  destruct (Z.eqb_spec k h) as [->|N]; cbn [negb owns].
  - rewrite IH. destruct (Z.eqb_spec h' h) as [E|E]; [reflexivity|]. destruct (Z.eqb_spec h h'); [congruence|reflexivity].
  - destruct (Z.eqb_spec k h') as [->|]; [|exact IH]. destruct (Z.eqb_spec h' h); [congruence|reflexivity].
Qed.
Lemma owns_in l h : owns l h <> None <-> In h (map fst l).
Proof.
  induction l as [|[k v] l IH]; cbn; [split; [congruence|contradiction]|].
  destruct (Z.eqb_spec k h) as [->|N]; [split; [auto|discriminate]|]. rewrite IH. split; [auto|]. intros [?|?]; [congruence|auto].
Qed.
Lemma drop_keys l h : NoDup (map fst l) -> NoDup (map fst (drop h l)) /\ forall k, In k (map fst (drop h l)) -> In k (map fst l) /\ k <> h.
Proof.
  induction l as [|[k v] l IH]; intros ND; [split; [constructor|contradiction]|]. cbn [drop filter fst map] in *. fold (drop h l).
  inversion ND as [|? ? A B]; subst. destruct (IH B) as (I1 & I2).
  destruct (Z.eqb_spec k h) as [->|N]; cbn; [split; [exact I1|]; intros k' H; destruct (I2 k' H); auto|].
  split; [constructor; auto; intros H; destruct (I2 k H); auto|]. intros k' [<-|H]; [auto|]. destruct (I2 k' H); auto.
Qed.
Lemma drop_notin l h : ~ In h (map fst l) -> drop h l = l.
Proof.
  induction l as [|[k v] l IH]; cbn [map fst In drop filter]; intros H; [reflexivity|]. fold (drop h l).
  destruct (Z.eqb_spec k h); [tauto|]. cbn [negb]. now rewrite IH by tauto.
Qed.
(** The owned blocks with the one of a handle taken out of its place. *)
Lemma owned_drop l h : NoDup (map fst l) -> forall v, owns l h = Some v ->
  exists a b, owned l = a ++ match v with Some x => [x] | None => [] end ++ b /\ owned (drop h l) = a ++ b.
Proof.
  induction l as [|[k w] l IH]; cbn [map fst owns]; intros ND v H; [discriminate|]. inversion ND as [|? ? A B]; subst.
  cbn [drop filter fst]. destruct (Z.eqb_spec k h) as [->|N]; cbn [negb].
  - injection H as ->. exists [], (owned l). fold (drop h l). rewrite (drop_notin l h A). destruct v; auto.
  - destruct (IH B v H) as (a & b & E1 & E2). cbn [owned]. destruct w as [x|].
    + exists (x :: a), b. fold (drop h l). rewrite E1, E2. auto.
    + exists a, b. fold (drop h l). rewrite E1, E2. auto.
Qed.

Lemma agree_none : agree no_stacks [].
Proof. constructor; cbn; auto; try constructor; tauto. Qed.

Lemma agree_make st l h b n : agree st l -> owns l h = None -> b <> 0 -> ~ In b (map fst (owned l)) ->
  exists st', stack_make st h b n = Ok st' /\ agree st' ((h, Some (b, n)) :: l).
Proof.
  intros [G B O K Z0] Hh Hb Hn. unfold stack_make. destruct (Z.eqb_spec b 0); [contradiction|]. eexists. split; [reflexivity|].
  constructor; cbn [k_handle k_blocks owned map fst length owns].
  - intros q. unfold set_handle. rewrite (Z.eqb_sym q h). destruct (h =? q); [reflexivity|apply G].
  - now constructor.
  - constructor; auto.
  - constructor; auto. rewrite <- owns_in. congruence.
  - intros [E|H]; auto.
Qed.

Lemma in_mid {A} (a m b : list A) x : In x (a ++ m ++ b) <-> In x m \/ In x (a ++ b).
Proof. rewrite !in_app_iff. tauto. Qed.

Lemma agree_move st l d s : agree st l -> owns l d = None -> owns l s <> None ->
  exists st', stack_move st d s = Ok st' /\ agree st' (own_step l (KMove d s)).
Proof.
  intros [G B O K Z0] Hd Hs. destruct (owns l s) as [v|] eqn:Ev; [|congruence].
  unfold stack_move, handle_at. rewrite G, Ev. cbn [option_map bind]. eexists. split; [reflexivity|].
  assert (d <> s) as Hds by congruence.
  destruct (owned_drop l s K v Ev) as (a & b & E1 & E2). cbn [own_step]. rewrite Ev.
  assert (owned ((d, v) :: (s, None) :: drop s l) = match v with Some x => [x] | None => [] end ++ a ++ b) as Eo.
  { cbn [owned]. rewrite E2. destruct v; reflexivity. }
  constructor; cbn [k_handle k_blocks]; rewrite ?Eo.
  - intros q. unfold set_handle. cbn [owns]. rewrite (Z.eqb_sym s q), (Z.eqb_sym d q).
    destruct (Z.eqb_spec q s) as [->|Ns].
    + destruct (Z.eqb_spec s d); [congruence|]. reflexivity.
    + destruct (Z.eqb_spec q d) as [->|Nd]; [reflexivity|]. rewrite owns_drop. destruct (Z.eqb_spec q s); [congruence|apply G].
  - rewrite B, E1. apply Permutation_app_swap_app.
  - rewrite E1 in O. destruct v as [x|]; [|exact O]. rewrite !map_app in *. cbn [map app] in *.
    constructor; [now apply NoDup_remove_2|now apply NoDup_remove_1 in O].
  - destruct (drop_keys l s K) as (D1 & D2). cbn [map fst]. constructor; [|constructor; [|exact D1]].
    + intros [E|H]; [congruence|]. destruct (D2 _ H) as (H1 & _). apply owns_in in H1. congruence.
    + intros H. destruct (D2 _ H). congruence.
  - rewrite E1, !map_app in Z0. intros H. apply Z0. rewrite !map_app in H. rewrite in_mid. rewrite !in_app_iff in *. exact H.
Qed.

Lemma filter_none {A} (f : A -> bool) l : (forall x, In x l -> f x = true) -> filter f l = l.
Proof. induction l as [|x l IH]; cbn; intros H; [reflexivity|]. rewrite (H x) by auto. f_equal. apply IH. auto. Qed.

Lemma perm_filter {A} (f : A -> bool) l m : Permutation l m -> Permutation (filter f l) (filter f m).
Proof.
  induction 1 as [|x l m H IH|x y l|l m n H1 I1 H2 I2]; cbn.
  - constructor.
  - destruct (f x); [constructor|]; exact IH.
  - destruct (f x), (f y); try constructor; reflexivity.
  - etransitivity; eassumption.
Qed.

Lemma agree_destroy st l h : agree st l -> owns l h <> None ->
  exists st', stack_destroy st h = Ok st' /\ agree st' (drop h l).
Proof.
  intros [G B O K Z0] Hh. destruct (owns l h) as [v|] eqn:Ev; [|congruence].
  unfold stack_destroy, handle_at. rewrite G, Ev. cbn [option_map bind].
  destruct (owned_drop l h K v Ev) as (a & b & E1 & E2). destruct (drop_keys l h K) as (D1 & D2).
  assert (forall q, set_handle (k_handle st) h None q = option_map addr_of (owns (drop h l) q)) as Gh.
  { intros q. unfold set_handle. rewrite owns_drop. destruct (q =? h); [reflexivity|apply G]. }
  assert (NoDup (map fst (owned (drop h l))) /\ ~ In 0 (map fst (owned (drop h l)))) as (O' & Z').
  { rewrite E1 in O, Z0. rewrite E2. destruct v as [x|]; cbn [app] in *; [|auto]. rewrite !map_app in *. cbn [map] in *.
    split; [now apply NoDup_remove_1 in O|]. intros H. apply Z0. rewrite in_app_iff in *. cbn. tauto. }
  destruct v as [[p n]|]; cbn [addr_of].
  - assert (p <> 0) as Hp by (intros ->; apply Z0; rewrite E1, map_app; apply in_or_app; cbn; auto).
    destruct (Z.eqb_spec p 0); [contradiction|]. cbn [negb]. unfold block_delete.
    replace (existsb (fun q => fst q =? p) (k_blocks st)) with true.
    2:{ symmetry. apply existsb_exists. exists (p, n). split; [|apply Z.eqb_refl].
        eapply Permutation_in; [symmetry; exact B|]. rewrite E1. apply in_or_app. cbn. auto. }
    cbn [bind]. eexists. split; [reflexivity|]. constructor; cbn [k_handle k_blocks]; auto.
    rewrite (perm_filter _ _ _ B), E1, E2. cbn [app]. rewrite filter_app. cbn [filter fst]. rewrite Z.eqb_refl. cbn [negb].
    rewrite E1, map_app in O. cbn [app map fst] in O. apply NoDup_remove_2 in O.
    rewrite !filter_none; [reflexivity| |]; intros x Hx; apply negb_true_iff, Z.eqb_neq; intros <-; apply O;
      apply in_or_app; [right|left]; now apply in_map.
  - cbn [negb Z.eqb bind]. eexists. split; [reflexivity|]. constructor; cbn [k_handle k_blocks]; auto.
    rewrite B, E1, E2. reflexivity.
Qed.

Lemma k_run_ok ops : forall st l, agree st l -> well_kept l ops -> exists st', k_run st ops = Ok st' /\ agree st' (own_run l ops).
Proof.
  induction ops as [|o ops IH]; intros st l A W; [exists st; auto|]. cbn [well_kept k_run own_run] in *. destruct W as (W & W').
  assert (exists st', k_step st o = Ok st' /\ agree st' (own_step l o)) as (st' & E & A').
  { destruct o as [h b n|h b|d s|h]; cbn [k_step own_step].
    - destruct W as (W1 & W2 & W3). now apply agree_make.
    - destruct W as (W1 & W2 & W3). now apply (agree_make st l h b 8192).
    - destruct W as (W1 & W2). now apply agree_move.
    - now apply agree_destroy. }
  rewrite E. cbn [bind]. now apply IH.
Qed.

(** ** C151 *)

(** Every history: nothing is undefined; a handle's address is the block it owns, null once it was moved from; and
    the blocks in use are those owned, each by one handle.  So a block is deleted when, and only when, the handle
    that owns it is destroyed. *)
Theorem C151_stack_handles : forall ops, well_kept [] ops ->
  exists st, k_run no_stacks ops = Ok st /\
    Permutation (k_blocks st) (owned (own_run [] ops)) /\
    NoDup (map fst (owned (own_run [] ops))) /\
    forall h, match owns (own_run [] ops) h with
              | None => k_handle st h = None
              | Some None => stack_address st h = Ok 0
              | Some (Some (b, _)) => stack_address st h = Ok b /\ b <> 0
              end.
Proof.
  intros ops W. destruct (k_run_ok ops _ _ agree_none W) as (st & E & [G B O K Z0]). exists st. split; [exact E|].
  split; [exact B|]. split; [exact O|]. intros h. unfold stack_address, handle_at. rewrite G.
  destruct (owns (own_run [] ops) h) as [[[b n]|]|] eqn:Ev; cbn; auto. split; [reflexivity|]. intros ->. apply Z0.
  destruct (owned_drop _ h K _ Ev) as (a & c & -> & _). rewrite map_app. apply in_or_app. cbn. auto.
Qed.
Print Assumptions C151_stack_handles.

(** When every handle has been destroyed no block is left. *)
Corollary C151_no_leaks : forall ops st, well_kept [] ops -> k_run no_stacks ops = Ok st -> own_run [] ops = [] -> k_blocks st = [].
Proof.
  intros ops st W E H. destruct (C151_stack_handles ops W) as (st' & E' & P & _). rewrite E in E'. injection E' as <-.
  rewrite H in P. cbn in P. now apply Permutation_nil, Permutation_sym.
Qed.
Print Assumptions C151_no_leaks.

(** Without memory the process ends; no handle holds null instead of a block. *)
Theorem C151_no_memory : forall st h n, stack_make st h 0 n = Trap Assertion.
Proof. reflexivity. Qed.
Print Assumptions C151_no_memory.

Definition some_uses := [KMake 1 100 64; KDefault 2 200; KMove 3 1; KMove 4 3; KDestroy 1; KDestroy 2; KMake 2 200 16].
Example C151_case : well_kept [] some_uses /\ own_run [] some_uses = [(2, Some (200, 16)); (4, Some (100, 64)); (3, None)].
Proof. split; [|reflexivity]. cbn. repeat split; try discriminate; try (intros H; decompose [or] H; congruence || lia). Qed.
