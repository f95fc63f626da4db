(** What the tokens of a WebAssembly text are, in plain characters. *)

From Coq Require Import String Ascii ZArith List Bool.
From Verif Require Import Outcome SpellSpec WastModel.
Import ListNotations.
Local Open Scope Z_scope.

(** The characters of words, and white space. *)
Definition word_char (c : Z) : Prop := In c letters \/ In c figures \/ In c (chars "_-.~").
Definition white (c : Z) : Prop := In c (chars " ") \/ In c [9; 10; 11; 12; 13].

(** Line and column, counted from one, after the text [w]. *)
Definition line_after (w : list Z) : Z := 1 + Z.of_nat (length (filter (Z.eqb newline) w)).
Fixpoint column_after (w : list Z) (col : Z) : Z :=
  match w with
  | [] => col
  | c :: w => column_after w (if c =? newline then 1 else col + 1)
  end.
Definition location_after (w : list Z) : wloc :=
  mkLoc (Z.of_nat (length w)) (line_after w) (column_after w 1).

(** The tokens of the text [w] that comes after [past], and the tail that begins none. *)
Inductive lexes : list Z -> list Z -> list (wkind * list Z * list Z) -> list Z -> Prop :=
| lx_end past : lexes past [] [] []
| lx_white past c w toks tail : white c -> lexes (past ++ [c]) w toks tail -> lexes past (c :: w) toks tail
| lx_paren past k c w toks tail :
    (k = KLParen /\ [c] = chars "(" \/ k = KRParen /\ [c] = chars ")") ->
    lexes (past ++ [c]) w toks tail -> lexes past (c :: w) ((k, past, [c]) :: toks) tail
| lx_word past k n w toks tail :
    (k = KName /\ n <> [] /\ Forall word_char n \/
     k = KIdentifier /\ exists m, n = chars "$" ++ m /\ m <> [] /\ Forall word_char m) ->
    (forall c w', w = c :: w' -> ~ word_char c) ->
    lexes (past ++ n) w toks tail -> lexes past (n ++ w) ((k, past, n) :: toks) tail
| lx_stop past c w :
    ~ white c -> [c] <> chars "(" -> [c] <> chars ")" -> ~ word_char c ->
    ([c] = chars "$" -> forall c' w', w = c' :: w' -> ~ word_char c') ->
    lexes past (c :: w) [] (c :: w).

(** A token as the lexer gives it: with the locations counted in the text, and its ends in buffer [b]. *)
Definition token_of (b : Z) (t : wkind * list Z * list Z) : wtoken :=
  let '(k, past, n) := t in
  mkWTok k (mkRange (location_after past) (location_after (past ++ n)))
    (b, Z.of_nat (length past)) (b, Z.of_nat (length (past ++ n))).

(** The chunks of one buffer, in order; eof is given with the last one only. *)
Fixpoint consecutive (b : Z) (off : Z) (pieces : list (list Z)) : list (wptr * list Z * bool) :=
  match pieces with
  | [] => []
  | [w] => [((b, off), w, true)]
  | w :: pieces => ((b, off), w, false) :: consecutive b (off + Z.of_nat (length w)) pieces
  end.

(** Pieces in buffers of their own: [b] is the buffer of the piece that begins after [base] characters. *)
Definition token_in (b base : Z) (t : wkind * list Z * list Z) : wtoken :=
  let '(k, past, n) := t in
  mkWTok k (mkRange (location_after past) (location_after (past ++ n)))
    (b, Z.of_nat (length past) - base) (b, Z.of_nat (length (past ++ n)) - base).
(** Every piece but the last is empty, or is made of tokens and white space and does not end in a word. *)
Inductive lexes_pieces : list Z -> list (Z * list Z) -> list wtoken -> Prop :=
| lp_last past b w ks tail : lexes past w ks tail ->
    lexes_pieces past [(b, w)] (map (token_in b (Z.of_nat (length past))) ks)
| lp_more past b w c pieces ks toks : lexes past (w ++ [c]) ks [] -> ~ word_char c ->
    lexes_pieces (past ++ w ++ [c]) pieces toks ->
    lexes_pieces past ((b, w ++ [c]) :: pieces) (map (token_in b (Z.of_nat (length past))) ks ++ toks)
| lp_empty past b pieces toks : lexes_pieces past pieces toks -> lexes_pieces past ((b, []) :: pieces) toks.
(** One call for each; eof is given with the last one only. *)
Fixpoint in_buffers (pieces : list (Z * list Z)) : list (wptr * list Z * bool) :=
  match pieces with
  | [] => []
  | [(b, w)] => [((b, 0), w, true)]
  | (b, w) :: pieces => ((b, 0), w, false) :: in_buffers pieces
  end.
