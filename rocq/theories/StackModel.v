(** Model of class Stack, core/include/Ab/Interpreter.hpp.jinja 13-48: a handle to stack memory. *)

From Coq Require Import ZArith List Bool.
From Verif Require Import Outcome.
Import ListNotations.
Local Open Scope Z_scope.

(** The handles that exist, by address, with their member address_ (47; 0 is nullptr), and the blocks
    that new[] has given and delete[] has not taken back, with their sizes. *)
Record stacks := mkStacks { k_handle : Z -> option Z; k_blocks : list (Z * Z) }.
Definition no_stacks : stacks := mkStacks (fun _ => None) [].
Definition set_handle (f : Z -> option Z) (h : Z) (v : option Z) : Z -> option Z := fun q => if q =? h then v else f q.

(** A use of a handle that does not exist is undefined. *)
Definition handle_at (st : stacks) (h : Z) : outcome Z :=
  match k_handle st h with Some a => Ok a | None => UB UseAfterFree end.

(** 21-24: [new_block] is what new (std::nothrow) Byte[size] returns; 0 if there is no memory *)
Definition stack_make (st : stacks) (h new_block size : Z) : outcome stacks :=
  if new_block =? 0 then Trap Assertion
  else Ok (mkStacks (set_handle (k_handle st) h (Some new_block)) ((new_block, size) :: k_blocks st)).

(** 19, 33: the default size *)
Definition DEFAULT_SIZE : Z := 8 * 1024.
Definition stack_default (st : stacks) (h new_block : Z) : outcome stacks := stack_make st h new_block DEFAULT_SIZE.

(** 28-31: the move constructor *)
Definition stack_move (st : stacks) (dst src : Z) : outcome stacks :=
  do a <- handle_at st src;
  let hs := set_handle (k_handle st) dst (Some a) in
  Ok (mkStacks (set_handle hs src (Some 0)) (k_blocks st)).

(** delete[] of a block *)
Definition block_delete (bl : list (Z * Z)) (a : Z) : outcome (list (Z * Z)) :=
  if existsb (fun p => fst p =? a) bl then Ok (filter (fun p => negb (fst p =? a)) bl) else UB DoubleFree.

(** 35-39: the destructor; then the handle is gone. *)
Definition stack_destroy (st : stacks) (h : Z) : outcome stacks :=
  do a <- handle_at st h;
  do bl <- (if negb (a =? 0) then block_delete (k_blocks st) a else Ok (k_blocks st));
  Ok (mkStacks (set_handle (k_handle st) h None) bl).

(** 41, 43: address *)
Definition stack_address (st : stacks) (h : Z) : outcome Z := handle_at st h.

(** A history of uses. *)
Inductive k_op := KMake (h block size : Z) | KDefault (h block : Z) | KMove (dst src : Z) | KDestroy (h : Z).
Definition k_step (st : stacks) (o : k_op) : outcome stacks :=
  match o with
  | KMake h b n => stack_make st h b n
  | KDefault h b => stack_default st h b
  | KMove d s => stack_move st d s
  | KDestroy h => stack_destroy st h
  end.
Fixpoint k_run (st : stacks) (ops : list k_op) : outcome stacks :=
  match ops with [] => Ok st | o :: ops => do st <- k_step st o; k_run st ops end.
