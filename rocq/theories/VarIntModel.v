(** Model of util/include/Ab/VarInt.hpp and of the number readers of the module
    decoder in core/src/ab-core-Loading.cpp. *)

From Coq Require Import ZArith List Bool.
From Verif Require Import Outcome.
Import ListNotations.
Local Open Scope Z_scope.

(** util/include/Ab/VarInt.hpp 28-35: the do/while loop of append_varuint<N, T>, where
    [value] is the current value of the unsigned variable of type T.  The bytes appended
    are returned in order (appending to a ByteBuffer is list append: see ByteBufferModel).
    [fuel] bounds the iterations; a 64-bit value needs at most 10. *)
Fixpoint append_varuint_loop (fuel : nat) (value : Z) : outcome bytes :=
  match fuel with
  | O => OutOfFuel
  | S fuel =>
      let byte := Z.land value 127 in                 (* 29: uint8_t(value) & data_mask *)
      let value := Z.shiftr value 7 in                (* 30 *)
      if value =? 0 then Ok [byte]                    (* 31, 34, 35 *)
      else
        do rest <- append_varuint_loop fuel value;    (* 35 *)
        Ok (Z.lor byte 128 :: rest)                   (* 32, 34 *)
  end.

(** util/include/Ab/VarInt.hpp 20: append_varuint<N, T>, T an unsigned type of [width]
    bits; the argument is converted to T on entry.  N is only used in static_asserts. *)
Definition append_varuint (width : Z) (value : Z) : outcome bytes :=
  append_varuint_loop 11 (value mod 2 ^ width).

(** util/include/Ab/VarInt.hpp 40-42 *)
Definition append_varuint7 (value : Z) : outcome bytes := append_varuint 8 value.

(** util/include/Ab/VarInt.hpp 46-48 *)
Definition append_varuint32 (value : Z) : outcome bytes := append_varuint 32 value.

(** core/src/ab-core-Loading.cpp 16-142: class Decoder.  A decoder is the module's bytes
    and a position in them; operations take the position and return the new one.
    Simplification: addresses are offsets from bytes_.data() (an integer, so that the
    pointer end() - sizeof(T) of line 132 may lie before the buffer; that C++ makes the
    formation of such a pointer undefined is not modelled). *)
Definition dec (A : Type) := bytes -> Z -> outcome (A * Z).

Definition dret {A} (a : A) : dec A := fun _ p => Ok (a, p).
Definition dbind {A B} (m : dec A) (f : A -> dec B) : dec B :=
  fun bs p => do (a, p') <- m bs p; f a bs p'.
Definition dthrow {A} (e : exn) : dec A := fun _ _ => Throw e.
Definition dtrap {A} (t : trap) : dec A := fun _ _ => Trap t.

Notation "'let*' x := m 'in' f" := (dbind m (fun x => f))
  (at level 200, x pattern, m at level 100, f at level 200).

(** A raw access to [n] bytes at offset [p]: undefined outside the span. *)
Fixpoint load_bytes (bs : bytes) (p : nat) (n : nat) : option bytes :=
  match n with
  | O => Some []
  | S n =>
      match nth_error bs p with
      | None => None
      | Some b => match load_bytes bs (S p) n with
                  | None => None
                  | Some r => Some (b :: r)
                  end
      end
  end.

Definition load (bs : bytes) (p : Z) (n : nat) : outcome bytes :=
  if p <? 0 then UB OutOfBounds
  else match load_bytes bs (Z.to_nat p) n with
       | Some r => Ok r
       | None => UB OutOfBounds
       end.

(** Little-endian value of a byte string (x86-64 object representation of integers). *)
Fixpoint le_value (bs : bytes) : Z :=
  match bs with
  | [] => 0
  | b :: bs => b + 256 * le_value bs
  end.

(** core/src/ab-core-Loading.cpp 129-138: Decoder::read<T>, sizeof(T) = [n], T unsigned. *)
Definition read_raw (n : nat) : dec Z :=
  fun bs p =>
    if Z.of_nat (length bs) - Z.of_nat n <? p then Throw DecodeError   (* 132-134 *)
    else do v <- load bs p n; Ok (le_value v, p + Z.of_nat n).         (* 135-137 *)

(** core/src/ab-core-Loading.cpp 105 *)
Definition read_byte : dec Z := read_raw 1.
(** core/src/ab-core-Loading.cpp 109 *)
Definition read_u32 : dec Z := read_raw 4.

(** core/src/ab-core-Loading.cpp 89-96: the loop of Decoder::read_varu<N, T>, T unsigned
    of [w] bits.  (T(byte & 0x7f) << shift: for w = 8 the operand is promoted to int and
    the compound assignment truncates; for w = 32, 64 the shift itself is modulo 2^w.
    Both are [mod 2^w] because shift < N <= w.) *)
Fixpoint read_varu_loop (fuel : nat) (n w : Z) (shift result : Z) : dec Z :=
  match fuel with
  | O => fun _ _ => OutOfFuel
  | S fuel =>
      if n <=? shift then dthrow DecodeError                                  (* 90-92 *)
      else
        let* byte := read_byte in                                             (* 93 *)
        let result := Z.lor result (Z.shiftl (Z.land byte 127) shift mod 2 ^ w) in (* 94 *)
        let shift := shift + 7 in                                             (* 95 *)
        if Z.land byte 128 =? 0 then dret result                              (* 96-98 *)
        else read_varu_loop fuel n w shift result
  end.

(** core/src/ab-core-Loading.cpp 76-99 *)
Definition read_varu (n w : Z) : dec Z := read_varu_loop 11 n w 0 0.

(** core/src/ab-core-Loading.cpp 101 *)
Definition read_varu32 : dec Z := read_varu 32 32.
(** core/src/ab-core-Loading.cpp 103 *)
Definition read_varu7 : dec Z := read_varu 7 8.

(** Two's complement reinterpretation of a [w]-bit word as a signed number. *)
Definition to_signed (w x : Z) : Z :=
  let x := x mod 2 ^ w in if x <? 2 ^ (w - 1) then x else x - 2 ^ w.

(** C++17 [expr.shift]/2 for a non-negative int (32-bit) left operand [a]: the count must
    be below 32 and a * 2^s representable in unsigned int, otherwise undefined; the value
    is converted to int. *)
Definition shl_int (a s : Z) : outcome Z :=
  if (s <? 0) || (32 <=? s) then UB BadShift
  else if a * 2 ^ s <? 2 ^ 32 then Ok (to_signed 32 (a * 2 ^ s))
  else UB BadShift.

(** core/src/ab-core-Loading.cpp 53-60: the loop of Decoder::read_vari<N, T>, T signed of
    [w] <= 32 bits (both instantiations are).  byte & data_mask has type int; the compound
    assignment converts back to T. *)
Fixpoint read_vari_loop (fuel : nat) (n w : Z) (shift result : Z) : dec (Z * Z * Z) :=
  match fuel with
  | O => fun _ _ => OutOfFuel
  | S fuel =>
      if n <=? shift then dthrow DecodeError                                  (* 54-56 *)
      else
        let* byte := read_byte in                                             (* 57 *)
        let* v := (fun _ p => do v <- shl_int (Z.land byte 127) shift; Ok (v, p)) in
        let result := to_signed w (Z.lor result v) in                         (* 58 *)
        let shift := shift + 7 in                                             (* 59 *)
        if Z.land byte 128 =? 0 then dret (byte, shift, result)               (* 60 *)
        else read_vari_loop fuel n w shift result
  end.

(** core/src/ab-core-Loading.cpp 39-67: read_vari.  std::numeric_limits<T>::max() is
    promoted to int before the shift of line 63. *)
Definition read_vari (n w : Z) : dec Z :=
  let* (byte, shift, result) := read_vari_loop 11 n w 0 0 in
  if Z.land byte 64 =? 0 then dret result                                     (* 62 *)
  else
    fun _ p =>
      do m <- shl_int (2 ^ (w - 1) - 1) shift;                                (* 63 *)
      Ok (to_signed w (Z.lor result m), p).

(** core/src/ab-core-Loading.cpp 69 *)
Definition read_vari32 : dec Z := read_vari 32 32.
(** core/src/ab-core-Loading.cpp 71 *)
Definition read_vari7 : dec Z := read_vari 7 8.
