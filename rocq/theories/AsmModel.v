(** Model of what ab-asm and ab-run do once the command line is read
    (asm/src/ab-asm-main.cpp, run/src/ab-run-main.cpp).

    The lexer's own printing is not in the output here, it is in WastPrintModel (C159). *)

From Coq Require Import String Ascii ZArith List Bool.
From Verif Require Import Outcome CmdModel WastModel.
From Verif Require DisModel.
Import ListNotations.
Local Open Scope Z_scope.

(** What a name stands for: a file with its bytes, or something that can be opened and not mapped (a
    directory, a pipe). *)
Inductive file := Regular (content : list Z) | Other.
(** The system: names, open descriptors, mappings (an address and a length), what was printed, and
    whether fstat and mmap of a non-empty file succeed. *)
Record sys := mkSys {
  y_files : str -> option file; y_fds : list nat; y_maps : list (Z * Z);
  y_out : str; y_err : str; y_stat_ok : bool; y_map_ok : bool }.

(** POSIX: open gives the lowest descriptor that is not open. *)
Definition unused (fds : list nat) (n : nat) : bool := negb (existsb (Nat.eqb n) fds).
Definition lowest (fds : list nat) : nat :=
  match find (unused fds) (seq 0 (S (length fds))) with Some n => n | None => O end.
Definition with_fds (s : sys) (l : list nat) : sys :=
  mkSys (y_files s) l (y_maps s) (y_out s) (y_err s) (y_stat_ok s) (y_map_ok s).
Definition with_maps (s : sys) (l : list (Z * Z)) : sys :=
  mkSys (y_files s) (y_fds s) l (y_out s) (y_err s) (y_stat_ok s) (y_map_ok s).
Definition print_out (s : sys) (t : str) : sys :=
  mkSys (y_files s) (y_fds s) (y_maps s) (y_out s ++ t) (y_err s) (y_stat_ok s) (y_map_ok s).
Definition print_err (s : sys) (t : str) : sys :=
  mkSys (y_files s) (y_fds s) (y_maps s) (y_out s) (y_err s ++ t) (y_stat_ok s) (y_map_ok s).
Definition close_fd (s : sys) (fd : nat) : sys := with_fds s (List.remove Nat.eq_dec fd (y_fds s)).
(** munmap of a range that is mapped removes it; anything else is an error that is not looked at. *)
Definition pair_dec (a b : Z * Z) : {a = b} + {a <> b}.
Proof. decide equality; apply Z.eq_dec. Defined.
Definition unmap (s : sys) (a n : Z) : sys := with_maps s (List.remove pair_dec (a, n) (y_maps s)).

(** ab-asm-main.cpp 60-62: Input; the buffer's address (0: null), the text seen there *)
Record input := mkInput { i_buffer : Z; i_nbytes : Z; i_fd : option nat; i_text : list Z }.
Definition no_input : input := mkInput 0 0 None [].

(** 20-48: Input::open.  [addr] is where mmap places the file. *)
Definition input_open (addr : Z) (s : sys) (name : str) : input * sys :=
  match y_files s name with
  | None => (no_input, s)                                           (* 23-27: -1 *)
  | Some f =>
      let fd := lowest (y_fds s) in
      let s := with_fds s (fd :: y_fds s) in
      if (fd <? 1)%nat then (no_input, s)                           (* 24-27 *)
      else if negb (y_stat_ok s) then (no_input, close_fd s fd)     (* 29-35 *)
      else
        match f with
        | Regular text =>
            (* 37-45: mmap refuses a length of zero *)
            if y_map_ok s && negb (Z.of_nat (length text) =? 0)
            then (mkInput addr (Z.of_nat (length text)) (Some fd) text, with_maps s ((addr, Z.of_nat (length text)) :: y_maps s))
            else (no_input, close_fd s fd)
        | Other => (no_input, close_fd s fd)
        end
  end.
(** 50-53 *)
Definition input_close (s : sys) (i : input) : sys :=
  let s := unmap s (i_buffer i) (i_nbytes i) in
  match i_fd i with Some fd => close_fd s fd | None => s end.
(** 55-57 *)
Definition input_ok (i : input) : bool := negb (i_buffer i =? 0).

(** wast/include/Ab/Wast/Lexer.hpp 9-22 *)
Definition loc_text (l : wloc) : str :=
  DisModel.decimal (l_line l) ++ lit ":" ++ DisModel.decimal (l_column l) ++ lit " @" ++ DisModel.decimal (l_offset l).
Definition NL : ascii := ascii_of_nat 10.
(** 79 *)
Definition token_line (t : wtoken) : str :=
  lit "!(token  :range " ++ loc_text (r_start (wt_range t)) ++ lit " - " ++ loc_text (r_end (wt_range t)) ++ lit ")" ++ [NL].

(** 67-83: go *)
Definition go (s : sys) (i : input) : outcome sys :=
  do lx <- wlex (i_buffer i, 0) (i_text i) true (new_wlexer start_loc);
  Ok (print_out s (flat_map token_line (wl_out lx))).

(** 156-166: the end of main, with its exit status *)
Definition quoted (name : str) : str := [ascii_of_nat 34] ++ name ++ [ascii_of_nat 34].
Definition asm_file (addr : Z) (s : sys) (name : str) : outcome (Z * sys) :=
  let (i, s) := input_open addr s name in
  if negb (input_ok i) then Ok (1, print_err s (lit "error: could not open file " ++ quoted name))
  else do s <- go s i; Ok (0, input_close s i).

(** run/src/ab-run-main.cpp 14-46 with core/src/ab-core-VirtualMachine.cpp 25-29: instantiate_file is
    not implemented. *)
Definition instantiate_file (s : sys) (name : str) : outcome sys := Trap Assertion.
Definition run_file (s : sys) (name : str) : outcome (Z * sys) :=
  match instantiate_file s name with
  | Ok s => Ok (0, s)
  | Throw e => Trap Exit
  | Trap t => Trap t
  | UB u => UB u
  | OutOfFuel => OutOfFuel
  end.
