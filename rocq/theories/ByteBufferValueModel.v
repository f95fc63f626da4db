From Coq Require Import ZArith List Bool.
From Verif Require Import Outcome ByteBufferModel.
Import ListNotations.
Local Open Scope Z_scope.

(** util/include/Ab/ByteBuffer.hpp 107-128: reinterpret<T> and read<T> for a type T of [n] bytes and
    alignment [align] (1 for bytes and arrays of bytes, for which it is [bb_read]).  Memory from malloc
    and realloc is aligned for every T, so the place is aligned if the offset is; an access through a T*
    that is not aligned is undefined.  The value is told by its bytes. *)
Definition bb_read_as (h : heap) (b : buf) (offset n align : Z) : outcome (list cell) :=
  ab_assert ((offset + n) mod SIZE_MOD <=? b_size b) ;;                   (* 126, 117, 110 *)
  if offset mod align =? 0 then load_cells h (b_data b) offset n          (* 118, 111 *)
  else UB Misaligned.
