(** What a reading of a WebAssembly text consists of, and the lines that tell of it. *)

From Coq Require Import String Ascii ZArith List.
From Verif Require Import Outcome CmdModel SpellSpec WastModel WastSpec AsmSpec.
Import ListNotations.
Local Open Scope Z_scope.

(** Tokens, a newline before something that is no white space, and any other run of white space. *)
Inductive piece := Word (k : wkind) | Line | Blank.
Inductive pieces_of : list Z -> list Z -> list (piece * list Z * list Z) -> list Z -> Prop :=
| po_end past : pieces_of past [] [] []
| po_line past w ps tail :
    (forall c w', w = c :: w' -> ~ white c) ->
    pieces_of (past ++ [newline]) w ps tail -> pieces_of past (newline :: w) ((Line, past, [newline]) :: ps) tail
| po_blank past n w ps tail :
    n <> [] -> n <> [newline] -> Forall white n -> (forall c w', w = c :: w' -> ~ white c) ->
    pieces_of (past ++ n) w ps tail -> pieces_of past (n ++ w) ((Blank, past, n) :: ps) tail
| po_paren past k c w ps tail :
    (k = KLParen /\ [c] = chars "(" \/ k = KRParen /\ [c] = chars ")") ->
    pieces_of (past ++ [c]) w ps tail -> pieces_of past (c :: w) ((Word k, past, [c]) :: ps) tail
| po_word past k n w ps tail :
    (k = KName /\ n <> [] /\ Forall word_char n \/
     k = KIdentifier /\ exists m, n = chars "$" ++ m /\ m <> [] /\ Forall word_char m) ->
    (forall c w', w = c :: w' -> ~ word_char c) ->
    pieces_of (past ++ n) w ps tail -> pieces_of past (n ++ w) ((Word k, past, n) :: ps) tail
| po_stop past c w :
    ~ white c -> [c] <> chars "(" -> [c] <> chars ")" -> ~ word_char c ->
    ([c] = chars "$" -> forall c' w', w = c' :: w' -> ~ word_char c') ->
    pieces_of past (c :: w) [] (c :: w).

(** The tokens among them. *)
Fixpoint words_of (ps : list (piece * list Z * list Z)) : list (wkind * list Z * list Z) :=
  match ps with
  | [] => []
  | (Word k, past, n) :: ps => (k, past, n) :: words_of ps
  | _ :: ps => words_of ps
  end.

(** The characters of [n], as printed. *)
Inductive spells : list Z -> str -> Prop :=
| sp_none : spells [] []
| sp_one a n t : spells n t -> spells (Z.of_nat (nat_of_ascii a) :: n) (a :: t).

Definition eol : str := [ascii_of_nat 10].
(** The line for a piece [n] after [past]. *)
Inductive tells : piece * list Z * list Z -> str -> Prop :=
| te_lparen past n a : shows_loc (location_after (past ++ n)) a ->
    tells (Word KLParen, past, n) (lit "(lparen :start " ++ a ++ lit ")" ++ eol)
| te_rparen past n a : shows_loc (location_after (past ++ n)) a ->
    tells (Word KRParen, past, n) (lit "(rparen :start " ++ a ++ lit ")" ++ eol)
| te_name past n t a b : spells n t -> shows_loc (location_after past) a -> shows_loc (location_after (past ++ n)) b ->
    tells (Word KName, past, n) (lit "(name " ++ t ++ lit " :start " ++ a ++ lit " :end " ++ b ++ lit ")" ++ eol)
| te_identifier past n t a b : spells n t -> shows_loc (location_after past) a -> shows_loc (location_after (past ++ n)) b ->
    tells (Word KIdentifier, past, n) (lit "(indentifier " ++ t ++ lit " :start " ++ a ++ lit " :end " ++ b ++ lit ")" ++ eol)
| te_line past n : tells (Line, past, n) (lit "(new-line :start)" ++ eol)
| te_blank past n : tells (Blank, past, n) (lit "(whitespace)" ++ eol).
Inductive tells_all : list (piece * list Z * list Z) -> str -> Prop :=
| ta_none : tells_all [] []
| ta_one p ps t u : tells p t -> tells_all ps u -> tells_all (p :: ps) (t ++ u).
