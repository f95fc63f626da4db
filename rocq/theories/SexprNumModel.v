(** Numbers sent to the s-expression formatter: the operators of util/include/Ab/Sexpr.hpp 156-184,
    which are in the global namespace and are used by code outside a namespace with an operator<<
    of its own.  Code inside Ab::Wasm does not reach them: see DisModel.v. *)
From Coq Require Import ZArith String Ascii List Bool.
From Verif Require Import SexprModel DisModel TokModel.
Import ListNotations.
Local Open Scope Z_scope.

(** The types of argument for which an operator of 156-184 is chosen: exactly its own type, or, for
    bool, signed char and short, int after promotion.  long, long long and the floating types are
    ambiguous (the program does not compile), and char is the operator of line 86. *)
Inductive int_type := UChar | UShort | Int | UInt | ULong | ULongLong | Bool | SChar | Short.
(** The values of the types (the widths of the supported 64-bit targets) *)
Definition int_min (t : int_type) : Z :=
  match t with Int => - 2 ^ 31 | SChar => - 2 ^ 7 | Short => - 2 ^ 15 | _ => 0 end.
Definition int_max (t : int_type) : Z :=
  match t with
  | UChar => 2 ^ 8 - 1 | UShort => 2 ^ 16 - 1 | Int => 2 ^ 31 - 1 | UInt => 2 ^ 32 - 1
  | ULong | ULongLong => 2 ^ 64 - 1 | Bool => 1 | SChar => 2 ^ 7 - 1 | Short => 2 ^ 15 - 1
  end.

(** The fmt::print of 157, 162, 176 and 181 *)
Definition debug_print (t : int_type) : str :=
  match t with
  | UChar | UShort => lit "asdfasdfasd" ++ [NL]
  | ULong => lit "xxxxxxxxxxxxxxx" ++ [NL]
  | ULongLong => lit "thtergergergergerg" ++ [NL]
  | Int | UInt | Bool | SChar | Short => []
  end.

(** A formatter, and what went to standard output *)
Definition fstate : Type := (formatter * str)%type.
(** 156-184: fmt::format("{}", x) and std::to_string(x) both give the decimal text, which the
    operator for std::string (100-105) appends *)
Definition put_number (s : fstate) (t : int_type) (v : Z) : fstate :=
  (put (fst s) (Atom (integer_text v)), snd s ++ debug_print t).

Inductive item := Req (r : request) | Number (t : int_type) (v : Z).
Definition put_item (s : fstate) (i : item) : fstate :=
  match i with
  | Req r => (put (fst s) r, snd s)
  | Number t v => put_number s t v
  end.
Definition write_items (l : list item) : fstate := fold_left put_item l (new_formatter, []).
