(** Model of the EDN parser: edn/src/ab-edn-parser.cpp, with edn/include/Ab/Edn/Error.hpp and the
    token iterator of edn/include/Ab/Edn/Lexer.hpp 84-118. *)

From Coq Require Import String Ascii ZArith List Bool SpecFloat.
From Verif Require Import Outcome TablesModel IrModel LexModel.
Import ListNotations.
Local Open Scope Z_scope.
Local Open Scope list_scope.

(** fmt::format(msg) without arguments (Error.hpp 31-33): "{{" and "}}" stand for one brace; any other
    brace is a format_error (an unmatched '}', or a replacement field without an argument). *)
Fixpoint fmt_format (s : string) : outcome string :=
  match s with
  | EmptyString => Ok EmptyString
  | String c s' =>
      if Ascii.eqb c "{" || Ascii.eqb c "}" then
        match s' with
        | String c' s'' => if Ascii.eqb c c' then do r <- fmt_format s''; Ok (String c r) else Throw StdException
        | EmptyString => Throw StdException
        end
      else do r <- fmt_format s'; Ok (String c r)
  end.

(** Error.hpp 14-18 (the level is always ERROR): the range and the message *)
Record error := mkError { er_begin : nat; er_end : nat; er_msg : string }.

(** What the parsing functions work on: the token iterator (the lexer and its current token), the
    error log and the symbol table. *)
Record pstate := mkP { ps_lx : lexer; ps_tok : token; ps_log : list error; ps_syms : symtab }.

Section Parser.
(** pow(10, ex), std::hash, and where a new entry of a map goes in its iteration order. *)
Context (pow10 : Z -> spec_float) (sh : std_hash)
        (place : node * node -> list (node * node) -> list (node * node)).

(** TokenIter::operator++ / consume: Lexer.hpp 98-110 *)
Definition consume (s : pstate) : outcome pstate :=
  do (t, lx) <- next pow10 (ps_lx s); Ok (mkP lx t (ps_log s) (ps_syms s)).

(** ErrorLog::error, Error.hpp 28-34 *)
Definition log_error (s : pstate) (t : token) (msg : string) : outcome pstate :=
  do m <- fmt_format msg;
  Ok (mkP (ps_lx s) (ps_tok s) (ps_log s ++ [mkError (tk_begin t) (tk_end t) m]) (ps_syms s)).

(** The text of the current token. *)
Definition cur_text (s : pstate) : list Z := strv (ps_lx s) (ps_tok s).

(** ab-edn-parser.cpp 257-271 *)
Definition parse_string (s : pstate) : outcome (option node * pstate) :=
  let str := cur_text s in
  do s <- consume s; Ok (Some (NString str), s).

(** 273-289 (symbols) and 291-307 (keywords, which become symbols too) *)
Definition parse_symbol (s : pstate) : outcome (option node * pstate) :=
  let str := cur_text s in
  do s <- consume s;
  let (st, id) := intern (ps_syms s) str in
  Ok (Some (NSymbol id), mkP (ps_lx s) (ps_tok s) (ps_log s) st).

(** 208-255 parse_node; 30-68 parse_list; 70-108 parse_vector; 110-133 parse_map_k; 135-158
    parse_map_v; 160-206 parse_map.  The loops are the functions that take the nodes read so far.
    A result [None] is the pair whose bool is false. *)
Fixpoint parse_node (fuel : nat) (s : pstate) {struct fuel} : outcome (option node * pstate) :=
  match fuel with
  | O => OutOfFuel
  | S fuel =>
      match tk_data (ps_tok s) with
      | TkEnd => Ok (None, s)
      | TkNil => do s <- consume s; Ok (Some NNil, s)
      | TkBool b => do s <- consume s; Ok (Some (NBool b), s)
      | TkInteger v => do s <- consume s; Ok (Some (NInteger v), s)
      | TkReal x => do s <- consume s; Ok (Some (NReal x), s)
      | TkLParen => do s <- consume s; list_loop fuel s []
      | TkLBracket => do s <- consume s; vector_loop fuel s []
      | TkLBrace => do s <- consume s; map_loop fuel s []
      | TkString => parse_string s
      | TkSymbol => parse_symbol s
      | TkKeyword => parse_symbol s
      | TkRParen | TkRBrace | TkRBracket =>
          let t := ps_tok s in
          do s <- consume s;
          do s <- log_error s t "unexepected closing delimiter.";
          Ok (None, s)
      end
  end
with list_loop (fuel : nat) (s : pstate) (l : list node) {struct fuel} : outcome (option node * pstate) :=
  match fuel with
  | O => OutOfFuel
  | S fuel =>
      let t := ps_tok s in
      match tk_data t with
      | TkEnd => do s <- log_error s t "Unexpected end of file while parsing list"; Ok (Some (NList l), s)
      | TkRParen => do s <- consume s; Ok (Some (NList l), s)
      | TkRBrace =>
          do s <- log_error s t "Unexpected '}' terminating list"; do s <- consume s; Ok (Some (NList l), s)
      | TkRBracket =>
          do s <- log_error s t "Unexpected ']' terminating list"; do s <- consume s; Ok (Some (NList l), s)
      | _ =>
          do (n, s) <- parse_node fuel s;
          list_loop fuel s (match n with Some n => l ++ [n] | None => l end)
      end
  end
with vector_loop (fuel : nat) (s : pstate) (l : list node) {struct fuel} : outcome (option node * pstate) :=
  match fuel with
  | O => OutOfFuel
  | S fuel =>
      let t := ps_tok s in
      match tk_data t with
      | TkEnd => do s <- log_error s t "Unexpected end of file while parsing vector"; Ok (Some (NVector l), s)
      | TkRBracket => do s <- consume s; Ok (Some (NVector l), s)
      | TkRBrace =>
          do s <- log_error s t "Unexpected '}' terminating vector"; do s <- consume s; Ok (Some (NVector l), s)
      | TkRParen =>
          do s <- log_error s t "Unexpected ')' terminating vector"; do s <- consume s; Ok (Some (NVector l), s)
      | _ =>
          do (n, s) <- parse_node fuel s;
          vector_loop fuel s (match n with Some n => l ++ [n] | None => l end)
      end
  end
with map_loop (fuel : nat) (s : pstate) (es : list (node * node)) {struct fuel} : outcome (option node * pstate) :=
  match fuel with
  | O => OutOfFuel
  | S fuel =>
      let t := ps_tok s in
      match tk_data t with
      | TkRBrace => do s <- consume s; Ok (Some (NMap es), s)
      | TkRParen =>
          do s <- log_error s t "Unexpected ')' terminating map"; do s <- consume s; Ok (Some (NMap es), s)
      | TkRBracket =>
          do s <- log_error s t "Unexpected ']' terminating vector"; do s <- consume s; Ok (Some (NMap es), s)
      | _ =>
          do (k, s) <- parse_map_k fuel s;
          match k with
          | None => do s <- log_error s (ps_tok s) "failed to parse map key"; map_loop fuel s es
          | Some k =>
              do (v, s) <- parse_map_v fuel s;
              match v with
              | None => do s <- log_error s (ps_tok s) "key not followed by value in map"; map_loop fuel s es
              | Some v =>
                  do f <- map_find sh es k;
                  do s <- (match f with
                           | Some _ => log_error s (ps_tok s) "duplicate key discovered in map"
                           | None => Ok s end);
                  do es <- map_insert sh place es k v;
                  map_loop fuel s es
              end
          end
      end
  end
with parse_map_k (fuel : nat) (s : pstate) {struct fuel} : outcome (option node * pstate) :=
  match fuel with
  | O => OutOfFuel
  | S fuel =>
      let t := ps_tok s in
      match tk_data t with
      | TkEnd => do s <- log_error s t "Unexpected end of file while parsing map key"; Ok (None, s)
      | TkRBrace => do s <- log_error s t "Unexpected '}' while parsing map key"; do s <- consume s; Ok (None, s)
      | TkRParen => do s <- log_error s t "Unexpected ')' while parsing map key"; do s <- consume s; Ok (None, s)
      | _ => parse_node fuel s
      end
  end
with parse_map_v (fuel : nat) (s : pstate) {struct fuel} : outcome (option node * pstate) :=
  match fuel with
  | O => OutOfFuel
  | S fuel =>
      let t := ps_tok s in
      match tk_data t with
      | TkEnd => do s <- log_error s t "Unexpected end of file while parsing map value"; Ok (None, s)
      | TkRBrace => do s <- log_error s t "Unexpected '}' while parsing map value"; do s <- consume s; Ok (None, s)
      | TkRParen => do s <- log_error s t "Unexpected '}' while parsing map value"; do s <- consume s; Ok (None, s)
      | _ => parse_node fuel s
      end
  end.

(** 20-26: the loop of parse *)
Fixpoint parse_loop (fuel : nat) (s : pstate) (nodes : list node) : outcome (list node * pstate) :=
  match fuel with
  | O => OutOfFuel
  | S fuel =>
      match tk_data (ps_tok s) with
      | TkEnd => Ok (nodes, s)
      | _ =>
          do (n, s) <- parse_node fuel s;
          parse_loop fuel s (match n with Some n => nodes ++ [n] | None => nodes end)
      end
  end.

(** Document (edn/include/Ab/Edn/Parser.hpp 18-22) and the symbol table afterwards. *)
Record document := mkDoc { doc_nodes : list node; doc_lines : line_info; doc_log : list error; doc_syms : symtab }.

(** parse, ab-edn-parser.cpp 15-28, with TokenIter's constructor (Lexer.hpp 86) *)
Definition parse (fuel : nat) (syms : symtab) (text : list Z) : outcome document :=
  do (t, lx) <- next pow10 (new_lexer new_line_info text);
  do (nodes, s) <- parse_loop fuel (mkP lx t [] syms) [];
  Ok (mkDoc nodes (lx_lines (ps_lx s)) (ps_log s) (ps_syms s)).

End Parser.
