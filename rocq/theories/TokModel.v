(** Tokens of the EDN lexer as values: edn/include/Ab/Edn/Token.hpp (comparison), DebugPrinting.hpp and
    Printing.hpp (what fmt and << print), parse/include/Ab/Parse/Location.hpp (ranges). *)

From Coq Require Import ZArith String Ascii List Bool.
From Verif Require Import Outcome IrModel LexModel SexprModel DisModel.
Import ListNotations.
Local Open Scope Z_scope.

(** Token.hpp 19-41 *)
Inductive tkind := UNINITIALIZED | ERROR | END | NIL | BOOL | STRING | KEYWORD | DELIMITER | SYMBOL | INTEGER | REAL
| CARAT | HASH | LPAREN | RPAREN | LBRACKET | RBRACKET | LBRACE | RBRACE.
Definition kind_number (k : tkind) : Z :=
  match k with
  | UNINITIALIZED => 0 | ERROR => 1 | END => 2 | NIL => 3 | BOOL => 4 | STRING => 5 | KEYWORD => 6 | DELIMITER => 7
  | SYMBOL => 8 | INTEGER => 9 | REAL => 10 | CARAT => 11 | HASH => 12 | LPAREN => 13 | RPAREN => 14
  | LBRACKET => 15 | RBRACKET => 16 | LBRACE => 17 | RBRACE => 18
  end.
(** 43-57: the union, by its active member; a double is its bits (IrModel.v) *)
Inductive tdata := DDummy | DInteger (v : Z) | DReal (x : Z) | DBool (b : bool).
(** Location.hpp 37-74: SrcRange: two offsets (std::size_t) *)
Record srange := mkSR { sr_begin : Z; sr_end : Z }.
(** Token.hpp 59-105 *)
Record etok := mkET { et_kind : tkind; et_range : srange; et_data : tdata }.

(** 89-93: reading a member of the union that is not the active one has no meaning. *)
Definition integer_data (t : etok) : outcome Z := match et_data t with DInteger v => Ok v | _ => UB UseAfterFree end.
Definition real_data (t : etok) : outcome Z := match et_data t with DReal x => Ok x | _ => UB UseAfterFree end.
Definition bool_data (t : etok) : outcome bool := match et_data t with DBool b => Ok b | _ => UB UseAfterFree end.

(** Location.hpp 26-30, 83-89 *)
Definition range_eq (a b : srange) : bool := (sr_begin a =? sr_begin b) && (sr_end a =? sr_end b).
(** Token.hpp 114-150: operator==; AB_ASSERT_UNREACHABLE aborts *)
Definition tok_eq (a b : etok) : outcome bool :=
  if negb (kind_number (et_kind a) =? kind_number (et_kind b)) then Ok false
  else if negb (range_eq (et_range a) (et_range b)) then Ok false
  else
    match et_kind a with
    | INTEGER => do x <- integer_data a; do y <- integer_data b; Ok (x =? y)
    | REAL => do x <- real_data a; do y <- real_data b; Ok (real_eq x y)
    | BOOL => do x <- bool_data a; do y <- bool_data b; Ok (eqb x y)
    | END | NIL | KEYWORD | SYMBOL | CARAT | STRING | ERROR | LPAREN | RPAREN | LBRACE | RBRACE | LBRACKET | RBRACKET => Ok true
    | UNINITIALIZED | DELIMITER | HASH => Trap Assertion
    end.

(** 155-178 and edn/src/ab-edn-lexer.cpp.rl 240-352, 381: the tokens the lexer makes *)
Definition of_lexed (t : token) : etok :=
  let r := mkSR (Z.of_nat (tk_begin t)) (Z.of_nat (tk_end t)) in
  match tk_data t with
  | TkEnd => mkET END r DDummy | TkNil => mkET NIL r DDummy | TkBool b => mkET BOOL r (DBool b)
  | TkString => mkET STRING r DDummy | TkKeyword => mkET KEYWORD r DDummy | TkSymbol => mkET SYMBOL r DDummy
  | TkInteger v => mkET INTEGER r (DInteger v) | TkReal x => mkET REAL r (DReal x)
  | TkLParen => mkET LPAREN r DDummy | TkRParen => mkET RPAREN r DDummy
  | TkLBracket => mkET LBRACKET r DDummy | TkRBracket => mkET RBRACKET r DDummy
  | TkLBrace => mkET LBRACE r DDummy | TkRBrace => mkET RBRACE r DDummy
  end.

(** DebugPrinting.hpp 19-66: formatter<TokenKind> *)
Definition kind_text (k : tkind) : str := lit (
  match k with
  | LPAREN => "lparen" | RPAREN => "rparen" | LBRACE => "lbrace" | RBRACE => "rbrace" | LBRACKET => "lbracket"
  | RBRACKET => "rbracket" | SYMBOL => "symbol" | INTEGER => "integer" | REAL => "real" | KEYWORD => "keyword"
  | STRING => "string" | CARAT => "carat" | END => "end"
  | UNINITIALIZED | ERROR | NIL | BOOL | DELIMITER | HASH => "???"
  end)%string.
(** Printing.hpp 9-35: formatter<SrcPos>, formatter<SrcRange> *)
Definition pos_text (p : Z) : str := lit "(src-pos " ++ decimal p ++ lit ")".
Definition range_text (r : srange) : str := lit "(src-range " ++ pos_text (sr_begin r) ++ lit " " ++ pos_text (sr_end r) ++ lit ")".
(** fmt of a std::intptr_t *)
Definition integer_text (v : Z) : str := if v <? 0 then lit "-" ++ decimal (- v) else decimal v.

Section Show.
(** fmt of a double (the shortest decimal that reads back) is left open *)
Context (real_text : Z -> str).
(** DebugPrinting.hpp 76-102: formatter<Token> *)
Definition tok_text (t : etok) : outcome str :=
  let r := range_text (et_range t) in
  match et_kind t with
  | LPAREN | RPAREN | LBRACE | RBRACE | LBRACKET | RBRACKET | KEYWORD | SYMBOL | STRING | CARAT | END =>
      Ok (lit "(" ++ kind_text (et_kind t) ++ lit " " ++ r ++ lit ")")
  | INTEGER => do v <- integer_data t; Ok (lit "(integer " ++ integer_text v ++ lit " " ++ r ++ lit ")")
  | REAL => do x <- real_data t; Ok (lit "(real " ++ real_text x ++ lit " " ++ r ++ lit ")")
  | UNINITIALIZED | ERROR | NIL | BOOL | DELIMITER | HASH =>
      Ok (lit "(unknown " ++ integer_text (kind_number (et_kind t)) ++ lit " " ++ r ++ lit ")")
  end.
End Show.

(** Location.hpp 47, 30-32: length: std::size_t arithmetic *)
Definition range_length (r : srange) : Z := (sr_end r - sr_begin r) mod 2 ^ 64.
(** Location.hpp 66-68: strv: std::string_view::substr throws when the position is past the end and gives
    at most what is there. *)
Definition range_strv (r : srange) (buffer : str) : outcome str :=
  if Z.of_nat (length buffer) <? sr_begin r then Throw StdException
  else Ok (firstn (Z.to_nat (Z.min (range_length r) (Z.of_nat (length buffer)))) (skipn (Z.to_nat (sr_begin r)) buffer)).
