(** What LEB128 means, independently of any code (DWARF / WebAssembly definition). *)

From Coq Require Import ZArith List.
From Verif Require Import Outcome.
Import ListNotations.
Local Open Scope Z_scope.

(** One LEB128 number: bytes with the top bit set, then one byte with the top bit clear. *)
Inductive leb_shape : bytes -> Prop :=
| leb_last : forall b, 0 <= b < 128 -> leb_shape [b]
| leb_more : forall b bs, 128 <= b < 256 -> leb_shape bs -> leb_shape (b :: bs).

(** Its unsigned value: 7 bits per byte, least significant group first. *)
Fixpoint uleb_value (bs : bytes) : Z :=
  match bs with
  | [] => 0
  | b :: bs => b mod 128 + 128 * uleb_value bs
  end.

(** Its signed value: bit 6 of the last byte is the sign bit. *)
Fixpoint sleb_value (bs : bytes) : Z :=
  match bs with
  | [] => 0
  | [b] => if b mod 128 <? 64 then b mod 128 else b mod 128 - 128
  | b :: bs => b mod 128 + 128 * sleb_value bs
  end.
