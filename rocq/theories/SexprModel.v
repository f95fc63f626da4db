From Coq Require Import Ascii List Bool Arith.
Import ListNotations.
Local Open Scope nat_scope.

(** The s-expression formatter: util/include/Ab/Sexpr.hpp and util/include/Ab/Indent.hpp.
    Covered: the stream operators for text and the manipulators START, END and FRESH.  Not covered:
    writing to buffer() or setting the flags by hand.  The operators for numbers (157-184) print the
    digits as text (some also print debugging text to standard output). *)
Definition str := list ascii.
Definition NL : ascii := "010"%char.
Definition SP : ascii := " "%char.

(** Indent.hpp 18, 22-34, 43-49 (file lines) *)
Definition MAX_DEPTH := 10.
Definition indent_inc (d : nat) : nat := if d <? MAX_DEPTH then S d else d.
Definition indent_dec (d : nat) : nat := if 0 <? d then d - 1 else d.
Fixpoint indent_string (n : nat) : str :=
  match n with O => [] | S n => indent_string n ++ [SP; SP] end.

(** Sexpr.hpp 80-83 *)
Record formatter := mkF { buffer : str; indent : nat; fresh : bool; needsSpacing : bool }.
(** 15 *)
Definition new_formatter : formatter := mkF [] 0 true false.

(** 25-32 *)
Definition freshen (f : formatter) : formatter :=
  if fresh f then f else mkF (buffer f ++ [NL]) (indent f) true false.
(** 35-44 *)
Definition spacing (f : formatter) : formatter :=
  let b := if fresh f then buffer f ++ indent_string (indent f)
           else if needsSpacing f then buffer f ++ [SP]
           else buffer f in
  mkF b (indent f) false false.

Inductive request := Atom (s : str) | Start | End | Fresh.
(** 86-105, 112-115, 123-130, 138-144 *)
Definition put (f : formatter) (r : request) : formatter :=
  match r with
  | Atom s => let f := spacing f in mkF (buffer f ++ s) (indent f) false true
  | Fresh => freshen f
  | Start => let f := spacing f in mkF (buffer f ++ ["("%char]) (indent_inc (indent f)) false false
  | End => mkF (buffer f ++ [")"%char]) (indent_dec (indent f)) false true
  end.
Definition format (rs : list request) : str := buffer (fold_left put rs new_formatter).

(** 146-148 *)
Definition stringify (s : str) : str := """"%char :: s ++ [""""%char].
