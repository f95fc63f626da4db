(** Doubles, and what it means that one is the nearest to an integer.  The numbers and the four
    operations are the standard library's ([Coq.Floats.SpecFloat]), with 53 bits and exponents up to
    1024. *)
From Coq Require Import ZArith SpecFloat.
Local Open Scope Z_scope.

Definition dmul : spec_float -> spec_float -> spec_float := SFmul 53 1024.
Definition dadd : spec_float -> spec_float -> spec_float := SFadd 53 1024.
Definition ddiv : spec_float -> spec_float -> spec_float := SFdiv 53 1024.
Definition double_of (n : Z) : spec_float := binary_normalize 53 1024 n 0 false.

(** A double is a whole number of units of 2^-1074. *)
Definition units (x : spec_float) : option Z :=
  match x with
  | S754_zero _ => Some 0
  | S754_finite s m e => Some ((if s then -1 else 1) * (Z.pos m * 2 ^ (e + 1074)))
  | _ => None
  end.
(** No double is nearer to the integer [v]. *)
Definition is_nearest (x : spec_float) (v : Z) : Prop :=
  valid_binary 53 1024 x = true /\
  exists u, units x = Some u /\
    forall y w, valid_binary 53 1024 y = true -> units y = Some w ->
      Z.abs (u - v * 2 ^ 1074) <= Z.abs (w - v * 2 ^ 1074).
