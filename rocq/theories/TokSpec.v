(** What comparing and printing tokens should mean. *)

From Coq Require Import ZArith String Ascii List Bool.
From Verif Require Import Outcome SexprModel IrSpec TokModel.
Import ListNotations.
Local Open Scope Z_scope.

(** A token as the constructors of Token.hpp make it: a number or a truth value where its kind has one; of a
    kind that tokens have. *)
Definition made (t : etok) : Prop :=
  match et_kind t with
  | INTEGER => exists v, et_data t = DInteger v
  | REAL => exists x, et_data t = DReal x
  | BOOL => exists b, et_data t = DBool b
  | UNINITIALIZED | DELIMITER | HASH => False
  | _ => True
  end.
(** The same kind, place and value; doubles compare as numbers. *)
Definition same_value (k : tkind) (d d' : tdata) : Prop :=
  match k, d, d' with
  | INTEGER, DInteger v, DInteger v' => v = v'
  | REAL, DReal x, DReal x' => same_real x x'
  | BOOL, DBool b, DBool b' => b = b'
  | (INTEGER | REAL | BOOL), _, _ => False
  | _, _, _ => True
  end.
Definition same_token (a b : etok) : Prop :=
  et_kind a = et_kind b /\ et_range a = et_range b /\ same_value (et_kind a) (et_data a) (et_data b).

(** Offsets are std::size_t. *)
Definition in_range (r : srange) : Prop := 0 <= sr_begin r < 2 ^ 64 /\ 0 <= sr_end r < 2 ^ 64.
