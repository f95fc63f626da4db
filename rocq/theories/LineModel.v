(** Model of the rest of parse/include/Ab/Parse/LineInfo.hpp (line ends, in_line, ranges). *)
From Coq Require Import ZArith List Bool.
From Verif Require Import Outcome HashModel TablesModel.
Import ListNotations.
Local Open Scope Z_scope.

(** LineInfo.hpp 23 *)
Definition line_start (li : line_info) (n : Z) : outcome Z := brk li n.
(** LineInfo.hpp 28 *)
Definition line_end (li : line_info) (n : Z) : outcome Z := brk li (u64 (n + 1)).
(** LineInfo.hpp 32-34: && evaluates line_end only when the left side is true *)
Definition in_line (li : line_info) (off n : Z) : outcome bool :=
  do s <- line_start li n;
  if s <=? off then do e <- line_end li n; Ok (off <? e) else Ok false.
(** LineInfo.hpp 91-93 *)
Definition range (fuel : nat) (li : line_info) (start stop : Z) : outcome ((Z * Z) * (Z * Z)) :=
  do a <- location fuel li start; do b <- location fuel li stop; Ok (a, b).
(** LineInfo.hpp 109 *)
Definition last_break (li : line_info) : outcome Z := brk li (u64 (Z.of_nat (length li) - 1)).
