(** Model of InstructionListReader (core/include/Ab/ModuleReader.hpp 8-43). *)

From Coq Require Import ZArith List Bool.
From Verif Require Import Outcome CodecModel.
Import ListNotations.
Local Open Scope Z_scope.

(** core/include/Ab/ModuleReader.hpp 18-31: the cases of the switch (all three advance by one
    byte); opcodes from core/include/Ab/Opcode.hpp.jinja 11-31. *)
Definition list_opcode (c : Z) : option insn :=
  if c =? 0 then Some Unreachable
  else if c =? 1 then Some Nop
  else if c =? 4 then Some Halt
  else None.

(** core/include/Ab/ModuleReader.hpp 14-33, 36-39: [bs] are the readable bytes from start_,
    [size] is size_.  The result is the sequence of callbacks.  An opcode without a case
    leaves offset unchanged. *)
Fixpoint accept_loop (fuel : nat) (bs : bytes) (size offset : Z) : outcome (list insn) :=
  match fuel with
  | O => OutOfFuel
  | S fuel =>
    if offset <? size then                                               (* 16 *)
      match nth_error bs (Z.to_nat offset) with                          (* 17 *)
      | None => UB OutOfBounds
      | Some c => match list_opcode c with
                  | Some i => do is <- accept_loop fuel bs size (offset + 1); Ok (i :: is)
                  | None => accept_loop fuel bs size offset
                  end
      end
    else Ok []
  end.

Definition accept (fuel : nat) (bs : bytes) (size : Z) : outcome (list insn) :=
  accept_loop fuel bs size 0.
