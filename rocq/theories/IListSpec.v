(** Specification: a registry is a sequence of elements, newest first. *)

From Coq Require Import ZArith List Bool.
From Verif Require Import IListModel.
Import ListNotations.
Local Open Scope Z_scope.

Definition spec_step (l : list ptr) (o : il_op) : list ptr :=
  match o with
  | IAdd e => e :: l
  | IRemove e => List.remove Z.eq_dec e l
  end.
Fixpoint spec_run (l : list ptr) (ops : list il_op) : list ptr :=
  match ops with [] => l | o :: ops => spec_run (spec_step l o) ops end.

(** A correct client adds live elements that are not in the list and removes only elements that
    are in it. *)
Fixpoint well_used (live : ptr -> Prop) (l : list ptr) (ops : list il_op) : Prop :=
  match ops with
  | [] => True
  | o :: ops =>
      match o with
      | IAdd e => live e /\ e <> NULL /\ ~ In e l
      | IRemove e => In e l
      end /\ well_used live (spec_step l o) ops
  end.

(** Live contexts with the blocks of their stacks, newest first. *)
Definition without (c : ptr) (l : list (ptr * ptr)) : list (ptr * ptr) := filter (fun p => negb (fst p =? c)) l.
Fixpoint live_contexts (l : list (ptr * ptr)) (ops : list cx_op) : list (ptr * ptr) :=
  match ops with
  | [] => l
  | CCreate c b :: ops => live_contexts ((c, b) :: l) ops
  | CDestroy c :: ops => live_contexts (without c l) ops
  | CMove _ _ :: ops => live_contexts l ops
  end.

(** Objects are created at addresses not in use and destroyed while they live; none is moved.
    new[] gives a block that is not in use. *)
Fixpoint cx_used_well (l : list (ptr * ptr)) (ops : list cx_op) : Prop :=
  match ops with
  | [] => True
  | CCreate c b :: ops => c <> NULL /\ ~ In c (map fst l) /\ b <> NULL /\ ~ In b (map snd l) /\ cx_used_well ((c, b) :: l) ops
  | CDestroy c :: ops => In c (map fst l) /\ cx_used_well (without c l) ops
  | CMove _ _ :: _ => False
  end.

