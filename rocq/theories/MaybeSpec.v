From Coq Require Import List Arith.
From Verif Require Import Outcome MaybeModel.
Import ListNotations.

(** What programs with Maybe variables should mean: each variable in scope holds nothing or a
    value. *)
Section Spec.
Variable T : Type.
Variable moved : T -> T.
Definition world := list (option (option T)).     (* None: not in scope *)

Definition holds (w : world) (i : nat) (x : option T) : Prop := nth_error w i = Some (Some x).
Definition may_declare (w : world) (i : nat) : Prop := i = length w \/ nth_error w i = Some None.
Definition declared (w : world) (i : nat) (x : option T) : world :=
  if i =? length w then w ++ [Some x] else put w i (Some x).
Definition assigned (w : world) (i : nat) (x : option T) : world := put w i (Some x).
Definition after_move (x : option T) : option T := option_map moved x.

(** Assignment replaces the destination by what the source holds. *)
Inductive means : world -> op T -> world -> Prop :=
| m_nothing w i : may_declare w i -> means w (ONothing T i) (declared w i None)
| m_just w i v : may_declare w i -> means w (OJust T i v) (declared w i (Some v))
| m_copy w i j x : may_declare w i -> holds w j x -> means w (OCopy T i j) (declared w i x)
| m_move w i j x : may_declare w i -> holds w j x -> means w (OMove T i j) (declared (assigned w j (after_move x)) i x)
| m_assign w i j x y : holds w i y -> holds w j x -> means w (OAssign T i j) (assigned w i x)
| m_assign_move w i j x y : i <> j -> holds w i y -> holds w j x ->
    means w (OAssignMove T i j) (assigned (assigned w j (after_move x)) i x)
| m_assign_temp w i x y : holds w i y -> means w (OAssignTemp T i x) (assigned w i x)
| m_destroy w i x : holds w i x -> means w (ODestroy T i) (put w i None).

(** Programs in which nothing is never assigned to a Maybe, and no Maybe to itself. *)
Definition assigns_values (w : world) (o : op T) : Prop :=
  match o with
  | OAssign _ i j | OAssignMove _ i j => i <> j /\ exists v, holds w j (Some v)
  | OAssignTemp _ _ x => x <> None
  | _ => True
  end.
Inductive runs : world -> list (op T) -> world -> Prop :=
| r_nil w : runs w [] w
| r_cons w o w1 os w2 : means w o w1 -> assigns_values w o -> runs w1 os w2 -> runs w (o :: os) w2.
End Spec.
