(** Theorems about results: C119, C120. *)

From Coq Require Import List Arith Bool Lia Permutation.
From Verif Require Import Outcome ResModel ResSpec ResProofs.
Import ListNotations.

Section Result.
Variables T E : Type.
Variable moved_t : T -> T.
Variable moved_e : E -> E.
Variables triv_t triv_e : bool.
Notation run := (rexec_all T E moved_t moved_e triv_t triv_e (rstate0 T E)).
Notation hist := (rhistory T E moved_t moved_e).
Notation thr := (throughout T E moved_t moved_e).

(** What [i] answers when it should hold [x]. *)
Definition answers (s : rstate T E) (i : nat) (x : T + E) : Prop :=
  match x with
  | inl v => is_ok T E s i = Ok true /\ get_ok T E s i = Ok v /\ get_err T E s i = Trap Assertion
  | inr e => is_ok T E s i = Ok false /\ get_err T E s i = Ok e /\ get_ok T E s i = Trap Assertion
  end.
(** The values and errors of the results in scope: one each. *)
Definition one_per_result (h : holding T E) (alive : list (T + E)) : Prop :=
  exists scope, NoDup scope /\ (forall i, In i scope <-> h i <> None) /\
    Permutation alive (flat_map (fun i => match h i with Some x => [x] | None => [] end) scope).

Lemma rinv_answers s h i x : rinv T E s h -> h i = Some x -> answers s i x.
Proof.
  intros I H. destruct (holds T E s h i x I H) as (k & F1 & F2).
  destruct x; unfold answers, is_ok, get_ok, get_err, var; rewrite F1; cbn [bind r_kind r_member kind_of]; unfold value_of, error_of; rewrite ?F2; auto.
Qed.

(** ** C119 *)

(** For any types: constructing, copying, moving, assigning without changing the kind, and ending results. *)
Theorem C119_results_hold_what_was_stored os : thr (rallowed T E) os -> thr (keeps_kind T E) os ->
  exists s, run os = Ok s /\ (forall i x, hist os i = Some x -> answers s i x) /\
    one_per_result (hist os) (map snd (r_objs T E s)).
Proof.
  intros A K. destruct (rexec_all_ok T E moved_t moved_e triv_t triv_e os A (or_introl K)) as (s & Es & I).
  exists s. conjs; auto. { intros. eapply rinv_answers; eauto. } now apply rinv_alive.
Qed.

(** Every value and error has been destroyed, once, when every result is gone. *)
Theorem C119_nothing_left os : thr (rallowed T E) os -> thr (keeps_kind T E) os -> (forall i, hist os i = None) ->
  exists s, run os = Ok s /\ r_objs T E s = [].
Proof.
  intros A K H. destruct (C119_results_hold_what_was_stored os A K) as (s & Es & _ & scope & _ & S & P). exists s. split; auto.
  destruct scope as [|i scope]; [|exfalso; apply (proj1 (S i)); cbn; auto]. cbn in P. apply Permutation_sym, Permutation_nil in P.
  now destruct (r_objs T E s).
Qed.

(** ** C120 *)

(** Trivial types can be replaced by either kind. *)
Theorem C120_trivial_types_partial os : thr (rallowed T E) os -> triv_t && triv_e = true ->
  exists s, run os = Ok s /\ (forall i x, hist os i = Some x -> answers s i x) /\
    one_per_result (hist os) (map snd (r_objs T E s)).
Proof.
  intros A K. destruct (rexec_all_ok T E moved_t moved_e triv_t triv_e os A (or_intror K)) as (s & Es & I).
  exists s. conjs; auto. { intros. eapply rinv_answers; eauto. } now apply rinv_alive.
Qed.

(** Class types can not: after any such history, an error assigned over a value is assigned to an
    object that does not exist, and so is a value assigned over an error. *)
Theorem C120_error_over_value_refuted os i v e : thr (rallowed T E) os -> thr (keeps_kind T E) os -> triv_e = false ->
  hist os i = Some (inl v) -> run (os ++ [RSetErr T E i e]) = UB UseAfterFree.
Proof.
  intros A K -> H. destruct (rexec_all_ok T E moved_t moved_e triv_t false os A (or_introl K)) as (s & Es & I).
  destruct (holds T E s _ i _ I H) as (k & F1 & F2). rewrite rexec_app, Es. cbn [bind rexec_all rexec]. unfold var. rewrite F1. reflexivity.
Qed.
Theorem C120_value_over_error_refuted os i v e : thr (rallowed T E) os -> thr (keeps_kind T E) os -> triv_t = false ->
  hist os i = Some (inr e) -> run (os ++ [RSetOk T E i v]) = UB UseAfterFree.
Proof.
  intros A K -> H. destruct (rexec_all_ok T E moved_t moved_e false triv_e os A (or_introl K)) as (s & Es & I).
  destruct (holds T E s _ i _ I H) as (k & F1 & F2). rewrite rexec_app, Es. cbn [bind rexec_all rexec]. unfold var. rewrite F1.
  cbn [bind r_kind kind_of r_member]. unfold destroy. rewrite F2. reflexivity.
Qed.

(** With a trivial error type the value is never destroyed. *)
Theorem C120_value_leaks_refuted v e : triv_t = false -> triv_e = true ->
  exists s, run [ROk T E 0 v; RSetErr T E 0 e; REnd T E 0] = Ok s /\ map snd (r_objs T E s) = [inl v] /\
    hist [ROk T E 0 v; RSetErr T E 0 e; REnd T E 0] 0 = None.
Proof. intros -> ->. eexists. split; [reflexivity|]. split; reflexivity. Qed.
End Result.

(** A history that meets the hypotheses: three results, a move, assignments within a kind, two ends. *)
Definition case : list (rop nat bool) :=
  [ROk _ _ 1 7; RErr _ _ 2 true; RMove _ _ 3 1; RCopy _ _ 4 2; RSetOk _ _ 1 9; RSetErr _ _ 4 false; REnd _ _ 3; REnd _ _ 2].
Example C119_case : throughout _ _ (fun _ => 0) (fun b => b) (rallowed _ _) case /\ throughout _ _ (fun _ => 0) (fun b => b) (keeps_kind _ _) case /\
  rhistory _ _ (fun _ => 0) (fun b => b) case 1 = Some (inl 9) /\ rhistory _ _ (fun _ => 0) (fun b => b) case 4 = Some (inr false) /\
  rhistory _ _ (fun _ => 0) (fun b => b) case 2 = None /\ rhistory _ _ (fun _ => 0) (fun b => b) (firstn 3 case) 1 = Some (inl 0).
Proof.
  conjs; try reflexivity; intros before o later H;
    repeat (destruct before as [|? before]; [injection H as <- _; cbn; try split; try exact I; try reflexivity; congruence|]; injection H as <- H);
    destruct before; discriminate H.
Qed.
Example C120_case : exists s, rexec_all nat bool (fun n => n) (fun b => b) true true (rstate0 _ _) [ROk _ _ 1 7; RSetErr _ _ 1 true; RSetOk _ _ 1 8] = Ok s /\
  get_ok _ _ s 1 = Ok 8 /\ map snd (r_objs _ _ s) = [inl 8].
Proof. eexists. split; [reflexivity|]. split; reflexivity. Qed.

Print Assumptions C119_results_hold_what_was_stored.
Print Assumptions C119_nothing_left.
Print Assumptions C120_trivial_types_partial.
Print Assumptions C120_error_over_value_refuted.
Print Assumptions C120_value_over_error_refuted.
Print Assumptions C120_value_leaks_refuted.
