(** Model of what the lexer of the WebAssembly text format prints while it reads
    (wast/src/ab-wast-Lexer.cpp.rl 66-99), and of ab-asm with it: the scanner of WastModel with the text
    printed so far next to its state.  C159 says that the two scanners agree (the state here is the one
    there, so is whether it fails).

    Characters are bytes; a byte is printed as itself. *)

From Coq Require Import String Ascii ZArith List Bool.
From Verif Require Import Outcome LexModel CmdModel WastModel AsmModel.
Import ListNotations.
Local Open Scope Z_scope.

(** What is in the buffers. *)
Definition buffers := wptr -> Z.
Definition byte_text (cs : list Z) : str := map (fun c => ascii_of_nat (Z.to_nat c)) cs.
(** string_view(ts, n) *)
Definition view (mem : buffers) (ts : wptr) (n : Z) : str :=
  byte_text (map (fun i => mem (fst ts, snd ts + Z.of_nat i)) (seq 0 (Z.to_nat n))).

(** 68-98: what each action prints; [te] is the end of the match, [lx] the lexer before the action *)
Definition action_text (mem : buffers) (r : wrule) (te : wptr) (lx : wlexer) : outcome str :=
  match r with
  | WLParen => Ok (lit "(lparen :start " ++ loc_text (wl_loc lx) ++ lit ")" ++ [NL])                  (* 69 *)
  | WRParen => Ok (lit "(rparen :start " ++ loc_text (wl_loc lx) ++ lit ")" ++ [NL])                  (* 74 *)
  | WNewline => Ok (lit "(new-line :start)" ++ [NL])                                                  (* 79 *)
  | WName =>                                                                                          (* 83-84 *)
      do n <- ptr_diff te (wl_ts lx);
      Ok (lit "(name " ++ view mem (wl_ts lx) n ++ lit " :start " ++ loc_text (wl_start lx) ++ lit " :end " ++ loc_text (wl_loc lx) ++ lit ")" ++ [NL])
  | WIdentifier =>                                                                                    (* 89-90 *)
      do n <- ptr_diff te (wl_ts lx);
      Ok (lit "(indentifier " ++ view mem (wl_ts lx) n ++ lit " :start " ++ loc_text (wl_start lx) ++ lit " :end " ++ loc_text (wl_loc lx) ++ lit ")" ++ [NL])
  | WSpace => Ok (lit "(whitespace)" ++ [NL])                                                         (* 95 *)
  end.

(** The lexer and what was printed. *)
Definition plexer : Type := wlexer * str.
Definition pemit (mem : buffers) (r : wrule) (te : wptr) (px : plexer) : outcome plexer :=
  do t <- action_text mem r te (fst px);
  do lx <- wemit r te (fst px); Ok (lx, snd px ++ t).

(** As wtake, wfirst, wstep, wrun, wfinish and wlex of WastModel. *)
Definition ptake (mem : buffers) (first : bool) (p : wptr) (c : Z) (s : wset) (px : plexer) : outcome plexer :=
  let '(lx, out) := px in
  let st := if first && existsb (fun x => marks (fst x)) s then wl_loc lx else wl_start lx in
  do l <- (if existsb (fun x => tracks (fst x)) s then track c (wl_loc lx) else Ok (wl_loc lx));
  let last := match waccepts s with Some r => Some r | None => wl_last lx end in
  let lx := mkWLexer (Inside s) (wl_ts lx) last st l (wl_out lx) in
  match waccepts s with
  | Some r => if finished s then pemit mem r (next_ptr p) (lx, out) else Ok (lx, out)
  | None => Ok (lx, out)
  end.

Definition pfirst (mem : buffers) (p : wptr) (c : Z) (px : plexer) : outcome plexer :=
  let '(lx, out) := px in
  let lx := mkWLexer AtStart p None (wl_start lx) (wl_loc lx) (wl_out lx) in
  match wadvance c wstart with
  | [] => Ok (mkWLexer Failed p None (wl_start lx) (wl_loc lx) (wl_out lx), out)
  | s => ptake mem true p c s (lx, out)
  end.

Definition pstep (mem : buffers) (p : wptr) (c : Z) (px : plexer) : outcome plexer :=
  let '(lx, out) := px in
  match wl_mode lx with
  | Failed => Ok (lx, out)
  | AtStart => pfirst mem p c (lx, out)
  | Inside s =>
      match wadvance c s with
      | [] =>
          match waccepts s, wl_last lx with
          | Some r, _ => do px <- pemit mem r p (lx, out); pfirst mem p c px
          | None, None => Ok (mkWLexer Failed (wl_ts lx) None (wl_start lx) (wl_loc lx) (wl_out lx), out)
          | None, Some _ => OutOfFuel
          end
      | s => ptake mem false p c s (lx, out)
      end
  end.

Fixpoint prun (mem : buffers) (p : wptr) (text : list Z) (px : plexer) : outcome plexer :=
  match text with
  | [] => Ok px
  | c :: text => do px <- pstep mem p c px; prun mem (next_ptr p) text px
  end.

Definition pfinish (mem : buffers) (p : wptr) (px : plexer) : outcome plexer :=
  let '(lx, out) := px in
  match wl_mode lx with
  | Inside s =>
      match waccepts s, wl_last lx with
      | Some r, _ => pemit mem r p (lx, out)
      | None, None => Ok (lx, out)
      | None, Some _ => OutOfFuel
      end
  | _ => Ok (lx, out)
  end.

Definition plex (mem : buffers) (p : wptr) (text : list Z) (eof : bool) (px : plexer) : outcome plexer :=
  do px <- prun mem p text px;
  if eof then pfinish mem (fst p, snd p + Z.of_nat (length text)) px else Ok px.

(** The text of a file that is mapped at one place. *)
Definition mapped (text : list Z) : buffers := fun p => nth (Z.to_nat (snd p)) text 0.

(** ab-asm-main.cpp 67-83: go, with the lexer's printing, which comes first *)
Definition go_all (s : sys) (i : input) : outcome sys :=
  do px <- plex (mapped (i_text i)) (i_buffer i, 0) (i_text i) true (new_wlexer start_loc, []);
  Ok (print_out (print_out s (snd px)) (flat_map token_line (wl_out (fst px)))).
(** 156-166 *)
Definition asm_file_all (addr : Z) (s : sys) (name : str) : outcome (Z * sys) :=
  let (i, s) := input_open addr s name in
  if negb (input_ok i) then Ok (1, print_err s (lit "error: could not open file " ++ quoted name))
  else do s <- go_all s i; Ok (0, input_close s i).
