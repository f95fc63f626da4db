(** What results hold, by name. *)

From Coq Require Import List Arith Bool.
From Verif Require Import ResModel.
Import ListNotations.

Section Result.
Variables T E : Type.
Variable moved_t : T -> T.
Variable moved_e : E -> E.

Definition holding := nat -> option (T + E).
Definition put (h : holding) (i : nat) (x : option (T + E)) : holding := fun j => if i =? j then x else h j.
Definition moved (x : T + E) : T + E := match x with inl v => inl (moved_t v) | inr e => inr (moved_e e) end.

Definition rafter (h : holding) (o : rop T E) : holding :=
  match o with
  | ROk _ _ i v | RSetOk _ _ i v => put h i (Some (inl v))
  | RErr _ _ i e | RSetErr _ _ i e => put h i (Some (inr e))
  | RCopy _ _ i j => put h i (h j)
  | RMove _ _ i j => put (put h j (option_map moved (h j))) i (h j)
  | REnd _ _ i => put h i None
  end.
Definition rhistory (os : list (rop T E)) : holding := fold_left rafter os (fun _ => None).

(** Names are declared once and used while they exist. *)
Definition rallowed (h : holding) (o : rop T E) : Prop :=
  match o with
  | ROk _ _ i _ | RErr _ _ i _ => h i = None
  | RCopy _ _ i j | RMove _ _ i j => h i = None /\ h j <> None
  | RSetOk _ _ i _ | RSetErr _ _ i _ | REnd _ _ i => h i <> None
  end.
(** An assignment keeps the kind. *)
Definition keeps_kind (h : holding) (o : rop T E) : Prop :=
  match o with
  | RSetOk _ _ i _ => forall e, h i <> Some (inr e)
  | RSetErr _ _ i _ => forall v, h i <> Some (inl v)
  | _ => True
  end.
Definition throughout (P : holding -> rop T E -> Prop) (os : list (rop T E)) : Prop :=
  forall before o later, os = before ++ o :: later -> P (rhistory before) o.
End Result.
