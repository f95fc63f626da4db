(** Specifications of the tables, independent of their representation. *)

From Coq Require Import ZArith List Bool.
From Verif Require Import TablesModel.
Import ListNotations.
Local Open Scope Z_scope.

(** * Labels: what is known about each label, in order of allocation: its offset once placed. *)
Definition labels := list (option Z).

(** [None]: the operation is not allowed. *)
Definition labels_step (s : labels) (o : lt_op) : option (labels * Z) :=
  match o with
  | LAlloc => Some (s ++ [None], Z.of_nat (length s))
  | LAllocAt off => Some (s ++ [Some off], Z.of_nat (length s))
  | LPlace id off =>
      match nth_error s (Z.to_nat id) with
      | Some None => Some (replace_nth (Z.to_nat id) (Some (off mod 2 ^ 32)) s, id)
      | _ => None
      end
  end.
Fixpoint labels_run (s : labels) (ops : list lt_op) : option (labels * list Z) :=
  match ops with
  | [] => Some (s, [])
  | o :: ops =>
      match labels_step s o with
      | None => None
      | Some (s, id) => match labels_run s ops with None => None | Some (s, ids) => Some (s, id :: ids) end
      end
  end.
(** Arguments have their C++ types: unsigned, std::size_t, std::int32_t. *)
Definition label_args (o : lt_op) : Prop :=
  match o with
  | LAlloc => True
  | LAllocAt off => 0 <= off < 2 ^ 32
  | LPlace id off => 0 <= id < 2 ^ 64 /\ - 2 ^ 31 <= off < 2 ^ 31
  end.

(** * Lines and columns: reading [off] characters from the start; a newline starts a new line,
    anything else (also beyond the end of the text) is one column. *)
Fixpoint walk_text (text : list Z) (off : nat) (l c : Z) : Z * Z :=
  match off with
  | O => (l, c)
  | S off =>
      match text with
      | ch :: text => if ch =? 10 then walk_text text off (l + 1) 0 else walk_text text off l (c + 1)
      | [] => (l, c + Z.of_nat (S off))
      end
  end.

(** The table a scanner produces: a break after each newline of the text. *)
Fixpoint breaks_of (li : line_info) (pos : Z) (text : list Z) : line_info :=
  match text with
  | [] => li
  | ch :: text => breaks_of (if ch =? 10 then record_br li (pos + 1) else li) (pos + 1) text
  end.

(** * Storage: objects are created and moved into under names not in use, and moved from and
    destroyed while they exist. *)
Fixpoint sg_used_well (live : list Z) (ops : list sg_op) : Prop :=
  match ops with
  | [] => True
  | SCreate x _ _ :: ops => ~ In x live /\ sg_used_well (x :: live) ops
  | SMove d s :: ops => In s live /\ ~ In d live /\ sg_used_well (d :: live) ops
  | SDestroy x :: ops => In x live /\ sg_used_well (List.remove Z.eq_dec x live) ops
  end.
Fixpoint sg_live (live : list Z) (ops : list sg_op) : list Z :=
  match ops with
  | [] => live
  | SCreate x _ _ :: ops => sg_live (x :: live) ops
  | SMove d _ :: ops => sg_live (d :: live) ops
  | SDestroy x :: ops => sg_live (List.remove Z.eq_dec x live) ops
  end.
(** The storages handed over that have something to delete, as (deleter, address). *)
Fixpoint sg_owned (ops : list sg_op) : list (Z * Z) :=
  match ops with
  | [] => []
  | SCreate _ a d :: ops => (if negb (a =? 0) && negb (d =? 0) then [(d, a)] else []) ++ sg_owned ops
  | _ :: ops => sg_owned ops
  end.
