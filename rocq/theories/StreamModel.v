(** Model of util/include/Ab/leb128.hpp: LEB128 and fixed-width reads from a std::istream. *)

From Coq Require Import ZArith List Bool.
From Verif Require Import Outcome VarIntModel.
Import ListNotations.
Local Open Scope Z_scope.

(** A std::istream in the good state holding [s_rest] unread bytes; [s_eof] is what eof()
    returns (set once a read hit the end; from then on every read fails and extracts
    nothing).  [s_offset] is ReaderInput::offset_ (leb128.hpp 46-47). *)
Record stream := mkStream { s_rest : bytes; s_eof : bool; s_offset : Z }.

(** util/include/Ab/leb128.hpp 25-29: ReaderInput::get.  istream::get returns EOF (-1, i.e.
    0xff as a uint8_t) and sets eofbit at the end; gcount() is then 0. *)
Definition s_get (s : stream) : Z * stream :=
  match s_rest s with
  | b :: r => (b, mkStream r (s_eof s) (s_offset s + 1))
  | [] => (255, mkStream [] true (s_offset s))
  end.

(** util/include/Ab/leb128.hpp 31-39: ReaderInput::read: all [n] bytes or ReaderError. *)
Definition s_read (n : nat) (s : stream) : outcome (bytes * stream) :=
  if (length (s_rest s) <? n)%nat then Throw ReaderError
  else Ok (firstn n (s_rest s),
           mkStream (skipn n (s_rest s)) (s_eof s) (s_offset s + Z.of_nat n)).

(** util/include/Ab/leb128.hpp 50-56: readNumber<Integer>, sizeof(Integer) = [n], unsigned. *)
Definition readNumber (n : nat) (s : stream) : outcome (Z * stream) :=
  do (b, s') <- s_read n s; Ok (le_value b, s').

(** util/include/Ab/leb128.hpp 67-75 and 98-105: the loop shared by leb128 and uleb128 (the
    two are textually the same); returns the last byte, the shift and the accumulated
    uint64_t. *)
Fixpoint leb_loop (fuel : nat) (shift result : Z) (s : stream)
  : outcome (Z * Z * Z * stream) :=
  match fuel with
  | O => OutOfFuel
  | S fuel =>
      if 63 <? shift then Throw BadNumber                                (* 68-69, 99-100 *)
      else
        let (byte, s) := s_get s in                                      (* 71, 102 *)
        let result :=
          Z.lor result (Z.shiftl (Z.land byte 127) shift mod 2 ^ 64) in  (* 72, 103 *)
        let shift := shift + 7 in                                        (* 73, 104 *)
        if negb (Z.land byte 128 =? 0) && (shift <? 64) && negb (s_eof s) (* 75, 105 *)
        then leb_loop fuel shift result s
        else Ok (byte, shift, result, s)
  end.

(** util/include/Ab/leb128.hpp 58-82: leb128.  Shifting a uint64_t by 64 or more (line 78)
    is undefined; the uint64_t result is converted to int64_t on return. *)
Definition leb128 (s : stream) : outcome (Z * stream) :=
  do (byte, shift, result, s') <- leb_loop 12 0 0 s;
  if Z.land byte 64 =? 0 then Ok (to_signed 64 result, s')               (* 77 *)
  else if 64 <=? shift then UB BadShift                                  (* 78 *)
  else Ok (to_signed 64 (Z.lor result (Z.shiftl (2 ^ 64 - 1) shift mod 2 ^ 64)), s').

(** util/include/Ab/leb128.hpp 90-108: uleb128 *)
Definition uleb128 (s : stream) : outcome (Z * stream) :=
  do (byte, shift, result, s') <- leb_loop 12 0 0 s; Ok (result, s').

(** util/include/Ab/leb128.hpp 115: varuint32 (no range check) *)
Definition varuint32 (s : stream) : outcome (Z * stream) := uleb128 s.
