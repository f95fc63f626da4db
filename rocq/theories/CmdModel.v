From Coq Require Import String Ascii List Bool Arith.
From Verif Require Import Outcome.
Import ListNotations.
Local Open Scope nat_scope.

(** The command line programs: ab (ab/src/ab-main.cpp), ab-run (run/src/ab-run-main.cpp) and
    ab-asm (asm/src/ab-asm-main.cpp): option scanning and command lookup. *)

(** Strings are lists of characters (C strings: without the terminator) *)
Definition str := list ascii.
Definition lit (s : string) : str := list_ascii_of_string s.
Definition str_eqb (a b : str) : bool := if list_eq_dec ascii_dec a b then true else false.

(** The file system as ab-main.cpp sees it: opendir and the names readdir_r returns, in order;
    None if opendir fails.  Simplification: pathconf does not fail on a directory that was just
    opened (the assertion in 39), readdir_r reports no error before the end of the directory (57
    would end the search), and freeing the malloc'ed entry buffer with delete (52, formally
    undefined) works. *)
Definition dirs := str -> option (list str).
Definition env := str -> option str.

(** ab-main.cpp 47-69 *)
Fixpoint scan (names : list str) (name : str) : bool :=
  match names with
  | [] => false                                                          (* 57-59 *)
  | n :: names => if str_eqb name n then true else scan names name       (* 60-63 *)
  end.
Definition find_file_in_dir (fs : dirs) (name dir : str) : option str :=
  match fs dir with
  | None => None
  | Some names => if scan names name then Some (dir ++ lit "/" ++ name) else None
  end.

(** std::string_view::find(char, pos): the first position at or after pos *)
Fixpoint index_of (c : ascii) (s : str) : option nat :=
  match s with
  | [] => None
  | x :: s => if ascii_dec x c then Some 0 else option_map S (index_of c s)
  end.
Definition find_char (s : str) (c : ascii) (pos : nat) : option nat := option_map (fun i => pos + i) (index_of c (skipn pos s)).

(** 72-78 *)
Definition find_sep (s : str) (sep : ascii) (pos : nat) : nat :=
  match find_char s sep pos with None => length s | Some i => i end.

(** std::string::substr throws std::out_of_range if the position is beyond the end *)
Definition substr (s : str) (pos n : nat) : outcome str :=
  if length s <? pos then Throw StdException else Ok (firstn n (skipn pos s)).

(** 80-103 *)
Fixpoint search_loop (fuel : nat) (fs : dirs) (name path : str) (a b : nat) : outcome (option str) :=
  match fuel with
  | O => OutOfFuel
  | S fuel =>
      if b <? length path then                                           (* 89 *)
        let b := find_sep path ":" a in                                  (* 90 *)
        do dir <- substr path a (b - a);                                 (* 92 *)
        match find_file_in_dir fs name dir with                          (* 93 *)
        | Some r => Ok (Some r)                                          (* 95-97 *)
        | None => search_loop fuel fs name path (b + 1) b                (* 99 *)
        end
      else Ok None                                                       (* 102 *)
  end.
Definition find_file_in_search_path (fs : dirs) (name path : str) : outcome (option str) :=
  if length path =? 0 then Ok None                                       (* 82-84 *)
  else search_loop (2 + length path) fs name path 0 0.

(** 105-111 *)
Definition find_file_in_env_search_path (fs : dirs) (e : env) (name var : str) : outcome (option str) :=
  match e var with
  | Some path => find_file_in_search_path fs name path
  | None => Ok None
  end.

(** 115, 117-140 *)
Definition cmd_exe_name (cmd : str) : str := lit "ab-" ++ cmd.
Definition find_cmd (fs : dirs) (e : env) (cmd : str) : outcome (option str) :=
  let name := cmd_exe_name cmd in
  do exe <- find_file_in_env_search_path fs e name (lit "AB_PATH");      (* 121-124 *)
  match exe with
  | Some x => Ok (Some x)
  | None =>
      let home := match e (lit "AB_HOME") with                           (* 126-132 *)
                  | Some h => find_file_in_dir fs name (h ++ lit "/bin")
                  | None => None
                  end in
      match home with
      | Some x => Ok (Some x)
      | None => find_file_in_env_search_path fs e name (lit "PATH")      (* 134-137 *)
      end
  end.

(** What a program does with its command line *)
Inductive action :=
| PrintUsage                          (* and exit with status 0 *)
| PrintVersion                        (* and exit with status 0 *)
| BadOption (arg : str)               (* message and exit with status 1 *)
| MissingArgument                     (* message and exit with status 1 *)
| UnexpectedArgument (arg : str)      (* message and exit with status 1 *)
| UnknownCommand (cmd : str)          (* message and exit with status 1 *)
| Exec (file : str) (argv : list str) (* execv *)
| Load (file : str)                   (* ab-run: run_file; ab-asm: Input::open and go *)
.

Definition starts_with_dash (s : str) : bool := match s with c :: _ => if ascii_dec c "-" then true else false | [] => false end.
Definition is (s : str) (l : string) : bool := str_eqb s (lit l).

(** ab: 146-159, 161-196.  [argv] is argv[0], argv[1], ...; at least argv[0] is there. *)
Definition run_cmd (fs : dirs) (e : env) (cmd : str) (argv : list str) : outcome action :=
  do search <- find_cmd fs e cmd;
  match search with
  | None => Ok (UnknownCommand cmd)
  | Some exe => Ok (Exec exe argv)
  end.
(** the loop 166-185 runs at most once: every branch leaves it.  The result is either an exit or
    the index of the command *)
Definition ab_options (argv : list str) : action + nat :=
  match nth_error argv 1 with
  | None => inr 1
  | Some arg =>
      if is arg "-h" || is arg "--help" then inl PrintUsage
      else if is arg "-v" || is arg "--version" then inl PrintVersion
      else if is arg "--" then inr 2
      else if starts_with_dash arg then inl (BadOption arg)
      else inr 1
  end.
Definition ab_main (fs : dirs) (e : env) (argv : list str) : outcome action :=
  match ab_options argv with
  | inl a => Ok a
  | inr i =>
      match nth_error argv i with
      | None => Ok MissingArgument                                       (* 187-191 *)
      | Some cmd => run_cmd fs e cmd (skipn 1 argv)                      (* 193-194 *)
      end
  end.

(** ab-run: 54-95 (again, every branch of the loop leaves it) *)
Definition run_options (argv : list str) : action + nat :=
  match nth_error argv 1 with
  | None => inr 1
  | Some arg =>
      if is arg "--" then inr 2
      else if is arg "--help" || is arg "-h" then inl PrintUsage
      else if starts_with_dash arg then inl (BadOption arg)
      else inr 1
  end.
Definition run_main (argv : list str) : outcome action :=
  match run_options argv with
  | inl a => Ok a
  | inr i =>
      match length argv - i with                                         (* 78 *)
      | 0 => Ok MissingArgument
      | 1 => match nth_error argv i with Some f => Ok (Load f) | None => UB OutOfBounds end
      | _ => match nth_error argv (i + 1) with Some f => Ok (UnexpectedArgument f) | None => UB OutOfBounds end
      end
  end.

(** ab-asm: 114-166.  std::string_view of a null pointer (156) is undefined. *)
Definition asm_options (argv : list str) : action + nat :=
  match nth_error argv 1 with
  | None => inr 1
  | Some arg =>
      if is arg "--" then inr 2
      else if is arg "-h" || is arg "--help" then inl PrintUsage
      else inr 1
  end.
Definition asm_main (argv : list str) : outcome action :=
  match asm_options argv with
  | inl a => Ok a
  | inr i =>
      match length argv - i with                                         (* 135 *)
      | 0 => Ok MissingArgument
      | 1 => UB NullDeref                                                (* 141-142, 156: in is still null *)
      | 2 => match nth_error argv 1 with Some f => Ok (Load f) | None => UB OutOfBounds end   (* 143-145 *)
      | _ => match nth_error argv (length argv - i - 1) with             (* 146-153 *)
             | Some f => Ok (UnexpectedArgument f)
             | None => UB OutOfBounds
             end
      end
  end.
