From Coq Require Import List Arith Lia.
From Verif Require Import Outcome MaybeModel MaybeSpec MaybeProofs.
Import ListNotations.
Local Open Scope nat_scope.

(** * C34 *)
(** Programs that assign only values, and not a Maybe to itself: every operation succeeds, every
    variable holds what it should, and when every variable is out of scope every value that was
    constructed, temporaries included, has been destroyed (exactly once: destroying twice is an
    error in the model). *)
Theorem C34_assignment_replaces_partial T (moved : T -> T) os w : runs T moved [] os w ->
  exists s, exec_all T moved (empty_state T) os = Ok s /\
    (forall i x, holds T w i x -> observe T s i = Ok x) /\
    ((forall i x, nth_error w i = Some x -> x = None) -> forall k v, nth_error (objs T s) k <> Some (Some v)).
Proof.
  intros H. destruct (exec_all_sound T moved _ _ _ H _ (R_empty T)) as (s & E & Hr). exists s. split; [exact E|]. split.
  - intros i x Hx. eapply R_observe; eauto.
  - intros Hall k v Hk. destruct (R_live _ _ _ _ Hr k) as [[]|(i & O)]; [exists v; exact Hk|].
    unfold owns in O. pose proof (nth_lt _ _ _ O) as L. rewrite (R_len _ _ _ _ Hr) in L.
    destruct (nth_error w i) as [x|] eqn:Ex; [|apply nth_error_None in Ex; lia].
    pose proof (R_vars _ _ _ _ Hr _ _ _ O Ex) as S. rewrite (Hall _ _ Ex) in S. exact S.
Qed.
Print Assumptions C34_assignment_replaces_partial.
(** The same at every point of a program: one value per variable that holds one, nothing else. *)
Theorem C34_values_live_partial T (moved : T -> T) os w s : runs T moved [] os w ->
  exec_all T moved (empty_state T) os = Ok s ->
  (forall k v, nth_error (objs T s) k = Some (Some v) -> exists! i, nth_error (vars T s) i = Some (Some (Some k))) /\
  (forall i k, nth_error (vars T s) i = Some (Some (Some k)) -> exists v, nth_error (objs T s) k = Some (Some v)).
Proof.
  intros H E. destruct (exec_all_sound T moved _ _ _ H _ (R_empty T)) as (s' & E' & Hr).
  rewrite E in E'. injection E' as <-. split.
  - intros k v Hk. destruct (R_live _ _ _ _ Hr k) as [[]|(i & O)]; [exists v; exact Hk|].
    exists i. split; [exact O|]. intros j Oj. exact (R_inj _ _ _ _ Hr _ _ _ O Oj).
  - intros i k O. pose proof (nth_lt _ _ _ O) as L. rewrite (R_len _ _ _ _ Hr) in L.
    destruct (nth_error w i) as [x|] eqn:Ex; [|apply nth_error_None in Ex; lia].
    pose proof (R_vars _ _ _ _ Hr _ _ _ O Ex) as S. destruct x as [[v|]|]; cbn in S; try contradiction. eauto.
Qed.
Print Assumptions C34_values_live_partial.

Definition demo : list (op nat) :=
  [OJust nat 0 7; ONothing nat 1; OAssign nat 1 0; OMove nat 2 1; OAssignTemp nat 0 (Some 9); OAssignMove nat 2 0;
   OCopy nat 3 2; ODestroy nat 0; ODestroy nat 1; ODestroy nat 2; OAssignTemp nat 3 (Some 4); ODestroy nat 3].
Example C34_example : runs nat (fun _ => 0) [] demo [None; None; None; None].
Proof.
  unfold demo.
  eapply r_cons; [apply m_just; left; reflexivity|exact I|cbn].
  eapply r_cons; [apply m_nothing; left; reflexivity|exact I|cbn].
  eapply r_cons; [eapply m_assign; reflexivity|split; [lia|eexists; reflexivity]|cbn].
  eapply r_cons; [eapply m_move; [left; reflexivity|reflexivity]|exact I|cbn].
  eapply r_cons; [eapply m_assign_temp; reflexivity|cbn; discriminate|cbn].
  eapply r_cons; [eapply m_assign_move; [lia|reflexivity|reflexivity]|split; [lia|eexists; reflexivity]|cbn].
  eapply r_cons; [eapply m_copy; [left; reflexivity|reflexivity]|exact I|cbn].
  eapply r_cons; [eapply m_destroy; reflexivity|exact I|cbn].
  eapply r_cons; [eapply m_destroy; reflexivity|exact I|cbn].
  eapply r_cons; [eapply m_destroy; reflexivity|exact I|cbn].
  eapply r_cons; [eapply m_assign_temp; reflexivity|cbn; discriminate|cbn].
  eapply r_cons; [eapply m_destroy; reflexivity|exact I|cbn].
  apply r_nil.
Qed.

(** What is missing: assigning a Maybe that holds nothing changes nothing; the old value stays. *)
Theorem C34_assignment_replaces_refuted :
  exists os s, exec_all nat (fun x => x) (empty_state nat) (os ++ [OAssign nat 0 1]) = Ok s /\
    observe nat s 1 = Ok None /\ observe nat s 0 = Ok (Some 7).
Proof. exists [OJust nat 0 7; ONothing nat 1]. eexists. repeat split. Qed.
Print Assumptions C34_assignment_replaces_refuted.
(** In general: whatever the state, assigning a nothing leaves the destination as it is. *)
Theorem C34_assign_nothing_keeps T (moved : T -> T) os w i j x : runs T moved [] os w ->
  holds T w i x -> holds T w j None ->
  exists s, exec_all T moved (empty_state T) (os ++ [OAssign T i j]) = Ok s /\ observe T s i = Ok x.
Proof.
  intros H Hi Hj. destruct (exec_all_sound T moved _ _ _ H _ (R_empty T)) as (s & E & Hr).
  destruct (R_holds _ _ _ _ _ _ Hr Hj) as (m & G & Hm & S). destruct m as [k|]; [contradiction S|].
  destruct (return_ok _ moved _ _ _ _ _ Hr Hi) as (s2 & E2 & R2 & _).
  exists s2. split; [|eapply R_observe; eauto].
  assert (App : forall a b s0 s1, exec_all T moved s0 a = Ok s1 -> exec_all T moved s0 (a ++ b) = exec_all T moved s1 b).
  { induction a as [|o a IH]; intros b s0 s1 Ea; cbn [exec_all app] in *; [injection Ea as ->; reflexivity|].
    apply bind_ok in Ea as (sm & E1 & E3). rewrite E1. cbn [bind]. auto. }
  rewrite (App _ _ _ _ E). cbn [exec_all exec]. rewrite G. cbn [bind option_map assign]. rewrite E2. reflexivity.
Qed.
Print Assumptions C34_assign_nothing_keeps.
(** ... and assigning a Maybe with a value to itself copies a destroyed value. *)
Theorem C34_self_assignment_refuted T (moved : T -> T) os w i v : runs T moved [] os w -> holds T w i (Some v) ->
  exec_all T moved (empty_state T) (os ++ [OAssign T i i]) = UB UseAfterFree.
Proof.
  intros H Hi. destruct (exec_all_sound T moved _ _ _ H _ (R_empty T)) as (s & E & Hr).
  assert (App : forall a b s0 s1, exec_all T moved s0 a = Ok s1 -> exec_all T moved s0 (a ++ b) = exec_all T moved s1 b).
  { induction a as [|o a IH]; intros b s0 s1 Ea; cbn [exec_all app] in *; [injection Ea as ->; reflexivity|].
    apply bind_ok in Ea as (sm & E1 & E3). rewrite E1. cbn [bind]. auto. }
  rewrite (App _ _ _ _ E). cbn [exec_all exec].
  destruct (R_holds _ _ _ _ _ _ Hr Hi) as (m & G & Hm & S). rewrite G. destruct m as [k|]; cbn in S; [|contradiction].
  cbn [bind option_map]. unfold assign, set_in_place, set_nothing. rewrite G. cbn [bind]. unfold destroy. rewrite S. cbn [bind].
  unfold make, value_of. cbn [set_var objs]. rewrite put_same by (eapply nth_lt; eauto). reflexivity.
Qed.
Print Assumptions C34_self_assignment_refuted.
Example C34_self_example : runs nat (fun x => x) [] [OJust nat 0 7] [Some (Some 7)] /\ holds nat [Some (Some 7)] 0 (Some 7).
Proof. split; [|reflexivity]. eapply r_cons; [apply m_just; left; reflexivity|exact I|apply r_nil]. Qed.

(** * C85: a Maybe of a pointer *)
(** A Maybe made from a pointer holds it exactly when it is not null; copying is exact. *)
Theorem C85_pointer_maybe_partial p : p <> None ->
  nullable_is_just (nullable_just p) = true /\ nullable_copy (nullable_just p) = nullable_just p /\
  (forall m, nullable_assign m (nullable_just p) = nullable_just p) /\
  nullable_is_just nullable_nothing = false.
Proof. intros H. destruct p as [k|]; [|congruence]. repeat split. Qed.
Print Assumptions C85_pointer_maybe_partial.
Example C85_case : nullable_is_just (nullable_just (Some 7%nat)) = true /\ nullable_is_just (nullable_just None) = false.
Proof. split; reflexivity. Qed.
(** What is missing: just(nullptr) is nothing, and assigning a nothing keeps the old pointer. *)
Theorem C85_pointer_maybe_refuted :
  (exists p, nullable_is_just (nullable_just p) = false) /\
  (exists m other, nullable_assign m other <> other).
Proof. split; [exists None; reflexivity|]. exists (Some 1), None. discriminate. Qed.
Print Assumptions C85_pointer_maybe_refuted.
