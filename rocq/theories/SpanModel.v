From Coq Require Import ZArith List Bool.
From Verif Require Import Outcome.
Import ListNotations.
Local Open Scope Z_scope.

(** util/include/Ab/Span.hpp.  Pointers are byte addresses, [sz] is sizeof(Type).  Simplification:
    pointers into different objects are compared as addresses (the standard leaves the result
    unspecified), and pointer arithmetic does not leave the address space.
    Not modelled because they do not compile when used (they call the non-const end() on a const
    span): operator>, <= and >= (91-103). *)
Record span := mkSpan { value : Z; len : Z }.
(** 62-64 *)
Definition span_end (sz : Z) (s : span) : Z := value s + (len s - 1) * sz.
(** 67-69 *)
Definition span_size (sz : Z) (s : span) : Z := len s * sz.
(** 77-84 *)
Definition span_eq (a b : span) : bool := (value a =? value b) && (len a =? len b).
Definition span_ne (a b : span) : bool := negb (value a =? value b) || negb (len a =? len b).
(** 86-88 *)
Definition span_lt (sz : Z) (a b : span) : bool := (value a + len a * sz) <? value b.

(** util/include/Ab/StringSpan.hpp.  A string span is given by the bytes it spans. *)
(** std::strncmp on two byte sequences: the sign of the result.  [None]: it would read beyond one
    of the sequences. *)
Fixpoint strncmp (a b : bytes) (n : nat) {struct n} : option comparison :=
  match n with
  | O => Some Eq
  | S n =>
      match a, b with
      | x :: a, y :: b =>
          if x =? y then (if x =? 0 then Some Eq else strncmp a b n) else Some (x ?= y)
      | _, _ => None
      end
  end.
Definition cmp (r : option comparison) : outcome comparison := match r with Some c => Ok c | None => UB OutOfBounds end.
(** a C string with the characters [s]: followed by a terminating NUL *)
Definition c_str (s : bytes) : bytes := s ++ [0].
(** 19-22: compare with the first n characters of s *)
Definition ss_compare_n (a : bytes) (s : bytes) (n : nat) : outcome comparison := cmp (strncmp a s (Nat.min (length a) n)).
(** 24-26 *)
Definition ss_compare_str (a : bytes) (s : bytes) : outcome comparison := cmp (strncmp a (c_str s) (length a)).
(** 28-30 *)
Definition ss_compare (a b : bytes) : outcome comparison := ss_compare_n a b (length b).
Definition is_eq (c : comparison) : bool := match c with Eq => true | _ => false end.
(** 32-41 *)
Definition ss_eq (a b : bytes) : outcome bool :=
  if negb (Nat.eqb (length a) (length b)) then Ok false else do c <- ss_compare a b; Ok (is_eq c).
Definition ss_ne (a b : bytes) : outcome bool := do r <- ss_eq a b; Ok (negb r).
(** 43-54 *)
Definition ss_eq_str (a s : bytes) : outcome bool :=
  if negb (Nat.eqb (length a) (length s)) then Ok false else do c <- ss_compare_n a (c_str s) (length s); Ok (is_eq c).
Definition ss_ne_str (a s : bytes) : outcome bool := do r <- ss_eq_str a s; Ok (negb r).
