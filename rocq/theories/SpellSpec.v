(** How each kind of token is spelled, in plain characters, without the lexer's patterns (C108), and
    what EDN itself counts as a symbol and as a string (C109, C110: github.com/edn-format/edn). *)

From Coq Require Import String Ascii ZArith List.
From Verif Require Import Outcome LexModel LexSpec.
Import ListNotations.
Local Open Scope Z_scope.

(** The codes of the characters of a string. *)
Definition chars (s : string) : list Z := map (fun a => Z.of_nat (nat_of_ascii a)) (list_ascii_of_string s).

Definition letters : list Z := chars "ABCDEFGHIJKLMNOPQRSTUVWXYZabcdefghijklmnopqrstuvwxyz".
Definition figures : list Z := chars "0123456789".
Definition quote : Z := 34.
Definition apostrophe : Z := 39.
Definition backslash : Z := 92.
Definition newline : Z := 10.
Definition tab : Z := 9.

(** What a name may begin with on its own, what it may begin with when a further such character or
    a letter follows, and what it may contain. *)
Definition opens (c : Z) : Prop := In c letters \/ In c (chars ".*!_?$%&=<").
Definition leads (c : Z) : Prop := In c (chars ".+-").
Definition follows_lead (c : Z) : Prop := In c letters \/ In c (chars ".+-#:*!_?$%&=<").
Definition inside (c : Z) : Prop := In c letters \/ In c figures \/ In c (chars ".+-#:*!_?$%&=<").

Inductive name : list Z -> Prop :=
| n_plain c w : opens c -> Forall inside w -> name (c :: w)
| n_lead c c' w : leads c -> follows_lead c' -> Forall inside w -> name (c :: c' :: w).

Inductive symbol : list Z -> Prop :=
| sy_name n : name n -> symbol n
| sy_prefixed p n : name p -> name n -> symbol (p ++ chars "/" ++ n).

Definition keyword (w : list Z) : Prop := exists s, symbol s /\ w = chars ":" ++ s.

Inductive signed (P : list Z -> Prop) : list Z -> Prop :=
| sg_none w : P w -> signed P w
| sg_plus w : P w -> signed P (chars "+" ++ w)
| sg_minus w : P w -> signed P (chars "-" ++ w).

Definition all_figures (ds : list Z) : Prop := ds <> [] /\ Forall (fun c => In c figures) ds.
(** No leading zeros. *)
Definition natural (ds : list Z) : Prop :=
  all_figures ds /\ (ds = chars "0" \/ forall r, ds <> chars "0" ++ r).
Definition integer : list Z -> Prop := signed natural.

Definition fraction (w : list Z) : Prop := exists ds, all_figures ds /\ w = chars "." ++ ds.
Definition exponent (w : list Z) : Prop :=
  exists e ds, signed all_figures ds /\ (e = chars "e" \/ e = chars "E") /\ w = e ++ ds.
Inductive magnitude : list Z -> Prop :=
| mg_fraction ds f : all_figures ds -> fraction f -> magnitude (ds ++ f)
| mg_exponent ds e : all_figures ds -> exponent e -> magnitude (ds ++ e)
| mg_both ds f e : all_figures ds -> fraction f -> exponent e -> magnitude (ds ++ f ++ e).
Definition real : list Z -> Prop := signed magnitude.

(** What stands between the quotes: characters other than the two quotes, and escapes. *)
Inductive quotable : list Z -> Prop :=
| q_nil : quotable []
| q_char c w : c <> quote -> c <> apostrophe -> quotable w -> quotable (c :: w)
| q_escape c w : c = quote \/ c = apostrophe \/ c = backslash \/ In c (chars "tnr") -> quotable w ->
    quotable (backslash :: c :: w).
Definition string_literal (w : list Z) : Prop := exists b, quotable b /\ w = quote :: b ++ [quote].

Definition spaces (w : list Z) : Prop :=
  w <> [] /\ Forall (fun c => In c (chars " ,") \/ c = tab \/ c = newline) w.
Definition remark (w : list Z) : Prop := exists b, ~ In newline b /\ w = chars ";" ++ b ++ [newline].

(** The spellings of the kinds. *)
Definition spelled (r : rule) : list Z -> Prop :=
  match r with
  | RuNil => eq (chars "nil")
  | RuTrue => eq (chars "true")
  | RuFalse => eq (chars "false")
  | RuReal => real
  | RuInteger => integer
  | RuLParen => eq (chars "(")
  | RuRParen => eq (chars ")")
  | RuLBracket => eq (chars "[")
  | RuRBracket => eq (chars "]")
  | RuLBrace => eq (chars "{")
  | RuRBrace => eq (chars "}")
  | RuKeyword => keyword
  | RuSymbol => symbol
  | RuString => string_literal
  | RuWhitespace => spaces
  | RuComment => remark
  end.

(** The token a text is when it is a single one: numbers have their value. *)
Inductive single (pow10 : Z -> SpecFloat.spec_float) : list Z -> token_data -> Prop :=
| si_nil : single pow10 (chars "nil") TkNil
| si_true : single pow10 (chars "true") (TkBool true)
| si_false : single pow10 (chars "false") (TkBool false)
| si_lparen : single pow10 (chars "(") TkLParen
| si_rparen : single pow10 (chars ")") TkRParen
| si_lbracket : single pow10 (chars "[") TkLBracket
| si_rbracket : single pow10 (chars "]") TkRBracket
| si_lbrace : single pow10 (chars "{") TkLBrace
| si_rbrace : single pow10 (chars "}") TkRBrace
| si_integer w v : integer w -> int_value w v -> - 2 ^ 63 < v < 2 ^ 63 -> single pow10 w (TkInteger v)
| si_real w x : real w -> parse_real pow10 w = Ok x -> single pow10 w (TkReal (bits_of x))
| si_keyword w : keyword w -> single pow10 w TkKeyword
| si_symbol w : symbol w -> w <> chars "nil" -> w <> chars "true" -> w <> chars "false" -> single pow10 w TkSymbol
| si_string w : string_literal w -> single pow10 w TkString.

(** * EDN *)

(** "Symbols begin with a non-numeric character and can contain alphanumeric characters and
    . * + ! - _ ? $ % & = < >.  If -, + or . are the first character, the second character (if any)
    must be non-numeric.  Additionally, : # are allowed as constituent characters in symbols other
    than as the first character.  / has special meaning in symbols.  It can be used once only in the
    middle of a symbol to separate the prefix from the name, or by itself." *)
Definition edn_char (c : Z) : Prop := In c letters \/ In c figures \/ In c (chars ".*+!-_?$%&=<>:#").
Definition edn_first (c : Z) : Prop := In c letters \/ In c (chars ".*+!-_?$%&=<>").
Definition edn_name (w : list Z) : Prop :=
  exists c u, w = c :: u /\ edn_first c /\ Forall edn_char u /\
    (In c (chars "-+.") -> forall c' u', u = c' :: u' -> ~ In c' figures).
Definition edn_symbol (w : list Z) : Prop :=
  edn_name w \/ w = chars "/" \/ exists p n, edn_name p /\ edn_name n /\ w = p ++ chars "/" ++ n.

(** "Strings are enclosed in double quotes and may span multiple lines.  Standard C/Java escape
    characters for tab, return, newline, backslash and double quote are supported." *)
Inductive edn_quotable : list Z -> Prop :=
| eq_nil : edn_quotable []
| eq_char c w : c <> quote -> c <> backslash -> edn_quotable w -> edn_quotable (c :: w)
| eq_escape c w : c = quote \/ c = backslash \/ In c (chars "tnr") -> edn_quotable w -> edn_quotable (backslash :: c :: w).
Definition edn_string (w : list Z) : Prop := exists b, edn_quotable b /\ w = quote :: b ++ [quote].
