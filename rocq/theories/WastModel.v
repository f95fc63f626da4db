(** Model of the lexer of the WebAssembly text format: wast/src/ab-wast-Lexer.cpp.rl and
    wast/include/Ab/Wast/Lexer.hpp, a Ragel scanner, and of FunctionParser::parse
    (wast/src/ab-wast-FunctionParser.cpp.rl.jinja 30-34).

    Patterns are those of LexModel.  The scanner is a state kept between calls of lex, as the members
    cs, act, ts and te are: after each character what is left of the patterns that can still match.
    What the actions print (fmt::print) is in WastPrintModel. *)

From Coq Require Import ZArith List Bool.
From Verif Require Import Outcome LexModel.
Import ListNotations.
Local Open Scope Z_scope.

(** wast/include/Ab/Wast/Location.hpp 7-11; the members are ints *)
Record wloc := mkLoc { l_offset : Z; l_line : Z; l_column : Z }.
(** 13-16 *)
Record wrange := mkRange { r_start : wloc; r_end : wloc }.

Definition int32 (x : Z) : outcome Z :=
  if (- 2 ^ 31 <=? x) && (x <? 2 ^ 31) then Ok x else UB SignedOverflow.

(** A pointer to a character: which buffer, and the offset in it. *)
Definition wptr : Type := Z * Z.
(** te - ts: a difference of pointers into different buffers has no meaning. *)
Definition ptr_diff (te ts : wptr) : outcome Z :=
  if fst te =? fst ts then Ok (snd te - snd ts) else UB OutOfBounds.

(** wast/include/Ab/Wast/Lexer.hpp 26-33 (NUMBER, END and ERROR are never made) *)
Inductive wkind := KName | KIdentifier | KLParen | KRParen.
Record wtoken := mkWTok { wt_kind : wkind; wt_range : wrange; wt_begin : wptr; wt_end : wptr }.

(** ab-wast-Lexer.cpp.rl 38: alnum | [_\-.~] *)
Definition is_allowed (c : Z) : bool := is_alnum c || existsb (Z.eqb c) [95; 45; 46; 126].
(** Ragel's space: tab, newline, vertical tab, form feed, return, blank *)
Definition is_space (c : Z) : bool := (c =? 32) || ((9 <=? c) && (c <=? 13)).

(** 66-99: the patterns of main, in order.  The comments (42-46) and strings (54) that are defined are
    not among them. *)
Inductive wrule := WLParen | WRParen | WNewline | WName | WIdentifier | WSpace.
Definition wpattern (r : wrule) : re :=
  match r with
  | WLParen => ch 40                                                     (* 60, 68 *)
  | WRParen => ch 41                                                     (* 62, 73 *)
  | WNewline => ch 10                                                    (* 78 *)
  | WName => plus (RChr is_allowed)                                      (* 58, 82 *)
  | WIdentifier => RCat (ch 36) (plus (RChr is_allowed))                 (* 56, 88 *)
  | WSpace => plus (RChr is_space)                                       (* 36, 94 *)
  end.
Definition wrules : list wrule := [WLParen; WRParen; WNewline; WName; WIdentifier; WSpace].

(** Which of them begin with MarkStart (18-20, 56-62) and which follow the location (24-36). *)
Definition marks (r : wrule) : bool := match r with WNewline | WSpace => false | _ => true end.
Definition tracks (r : wrule) : bool := match r with WNewline => false | _ => true end.

(** 24-30: for each character the offset and the column, for a newline then the line. *)
Definition track (c : Z) (l : wloc) : outcome wloc :=
  do o <- int32 (l_offset l + 1);
  do col <- int32 (l_column l + 1);
  if c =? 10 then do ln <- int32 (l_line l + 1); Ok (mkLoc o ln 1)
  else Ok (mkLoc o (l_line l) col).

Definition wset := list (wrule * re).
Definition wstart : wset := map (fun r => (r, wpattern r)) wrules.
Definition wadvance (c : Z) (s : wset) : wset :=
  filter (fun x => negb (dead (snd x))) (map (fun x => (fst x, deriv c (snd x))) s).
Definition waccepts (s : wset) : option wrule :=
  option_map fst (find (fun x => nullable (snd x)) s).
(** Nothing longer can match. *)
Definition finished (s : wset) : bool :=
  forallb (fun x => match snd x with REps => true | _ => false end) s.

(** The state between characters: before a token, inside one, or the error state. *)
Inductive wmode := AtStart | Inside (s : wset) | Failed.

(** Lexer.hpp 53-69: [wl_last] is the last match (act, with te) that is not the current state's. *)
Record wlexer := mkWLexer {
  wl_mode : wmode; wl_ts : wptr; wl_last : option wrule;
  wl_start : wloc; wl_loc : wloc; wl_out : list wtoken }.

(** Lexer.hpp 37 and ab-wast-Lexer.cpp.rl 107-109; start, which is not initialised, and ts are
    written before they are read. *)
Definition new_wlexer (l : wloc) : wlexer := mkWLexer AtStart (0, 0) None l l [].

(** 68-98: the actions; string_view(ts, te - ts) is what the printing needs. *)
Definition wemit (r : wrule) (te : wptr) (lx : wlexer) : outcome wlexer :=
  let emit k := mkWLexer AtStart (wl_ts lx) None (wl_start lx) (wl_loc lx)
                  (wl_out lx ++ [mkWTok k (mkRange (wl_start lx) (wl_loc lx)) (wl_ts lx) te]) in
  match r with
  | WLParen => Ok (emit KLParen)
  | WRParen => Ok (emit KRParen)
  | WName => do _ <- ptr_diff te (wl_ts lx); Ok (emit KName)
  | WIdentifier => do _ <- ptr_diff te (wl_ts lx); Ok (emit KIdentifier)
  | WNewline | WSpace => Ok (mkWLexer AtStart (wl_ts lx) None (wl_start lx) (wl_loc lx) (wl_out lx))
  end.

Definition next_ptr (p : wptr) : wptr := (fst p, snd p + 1).

(** The transition on [c], which leaves [s]: the embedded actions and, when nothing longer can match,
    the action of the pattern. *)
Definition wtake (first : bool) (p : wptr) (c : Z) (s : wset) (lx : wlexer) : outcome wlexer :=
  let st := if first && existsb (fun x => marks (fst x)) s then wl_loc lx else wl_start lx in
  do l <- (if existsb (fun x => tracks (fst x)) s then track c (wl_loc lx) else Ok (wl_loc lx));
  let last := match waccepts s with Some r => Some r | None => wl_last lx end in
  let lx := mkWLexer (Inside s) (wl_ts lx) last st l (wl_out lx) in
  match waccepts s with
  | Some r => if finished s then wemit r (next_ptr p) lx else Ok lx
  | None => Ok lx
  end.

(** The first character of a token: ts = p. *)
Definition wfirst (p : wptr) (c : Z) (lx : wlexer) : outcome wlexer :=
  let lx := mkWLexer AtStart p None (wl_start lx) (wl_loc lx) (wl_out lx) in
  match wadvance c wstart with
  | [] => Ok (mkWLexer Failed p None (wl_start lx) (wl_loc lx) (wl_out lx))
  | s => wtake true p c s lx
  end.

(** One character, at [p].  When no pattern can go on and what was read is a match, its action is run
    (te = p) and the character read again.  Going back to an earlier match does not occur with these
    patterns: C111 shows that the result is never [OutOfFuel]. *)
Definition wstep (p : wptr) (c : Z) (lx : wlexer) : outcome wlexer :=
  match wl_mode lx with
  | Failed => Ok lx
  | AtStart => wfirst p c lx
  | Inside s =>
      match wadvance c s with
      | [] =>
          match waccepts s, wl_last lx with
          | Some r, _ => do lx <- wemit r p lx; wfirst p c lx
          | None, None => Ok (mkWLexer Failed (wl_ts lx) None (wl_start lx) (wl_loc lx) (wl_out lx))
          | None, Some _ => OutOfFuel
          end
      | s => wtake false p c s lx
      end
  end.

Fixpoint wrun (p : wptr) (text : list Z) (lx : wlexer) : outcome wlexer :=
  match text with
  | [] => Ok lx
  | c :: text => do lx <- wstep p c lx; wrun (next_ptr p) text lx
  end.

(** At the end of the input, when eof is given: a match is complete. *)
Definition wfinish (p : wptr) (lx : wlexer) : outcome wlexer :=
  match wl_mode lx with
  | Inside s =>
      match waccepts s, wl_last lx with
      | Some r, _ => wemit r p lx
      | None, None => Ok lx
      | None, Some _ => OutOfFuel
      end
  | _ => Ok lx
  end.

(** Lexer::lex, 111-116: the text at [p], and whether eof points to its end or is null. *)
Definition wlex (p : wptr) (text : list Z) (eof : bool) (lx : wlexer) : outcome wlexer :=
  do lx <- wrun p text lx;
  if eof then wfinish (fst p, snd p + Z.of_nat (length text)) lx else Ok lx.

(** Several calls: a chunk is where it is, its text, and whether eof is given. *)
Fixpoint wlex_all (chunks : list (wptr * list Z * bool)) (lx : wlexer) : outcome wlexer :=
  match chunks with
  | [] => Ok lx
  | (p, text, eof) :: chunks => do lx <- wlex p text eof lx; wlex_all chunks lx
  end.

(** Lexer.hpp 37: the default start location *)
Definition start_loc : wloc := mkLoc 0 1 1.

(** ab-wast-FunctionParser.cpp.rl.jinja 30-34 with FunctionParser.hpp 22: a lexer of its own, whose
    tokens are dropped; eof is null unless it is given. *)
Definition parse_function (p : wptr) (text : list Z) (eof : bool) : outcome unit :=
  do _ <- wlex p text eof (new_wlexer start_loc); Ok tt.
