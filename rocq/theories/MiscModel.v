From Coq Require Import String Ascii ZArith List Bool.
From Verif Require Import Outcome CmdModel.
Import ListNotations.
Local Open Scope Z_scope.

(** Three small pieces: util/include/Ab/Box.hpp, util/include/Ab/Bytes.hpp, and the programs
    ab-help (help/src/ab-help-main.cpp) and ab-version (version/src/ab-version-main.cpp). *)

(** * Box.  A program with boxes and plain variables of a type T; moving from a value [v] leaves
    [moved v] behind, copying leaves it alone, and neither throws. *)
Section Box.
Variable T : Type.
Variable moved : T -> T.

(** How the source is named in the program: a const lvalue, a non-const lvalue or an rvalue
    (std::move(x), or a temporary). *)
Inductive category := Const | Lvalue | Rvalue.
Record state := mkState { boxes : list T; plain : list T }.
Fixpoint put {A} (l : list A) (i : nat) (x : A) : list A :=
  match l, i with
  | [], _ => []
  | _ :: l, O => x :: l
  | y :: l, S i => y :: put l i x
  end.
Definition get {A} (l : list A) (i : nat) : outcome A :=
  match nth_error l i with Some x => Ok x | None => UB OutOfBounds end.
(** what std::move'd, or copied, object [x] leaves behind *)
Definition after (steal : bool) (x : T) : T := if steal then moved x else x.

(** Box.hpp 30-37: Box(Type&), Box(const Type&), Box(Type&&); the box is a new one *)
Definition from_value (s : state) (c : category) (j : nat) : outcome state :=
  do v <- get (plain s) j;
  let steal := match c with Rvalue => true | _ => false end in
  Ok (mkState (boxes s ++ [v]) (put (plain s) j (after steal v))).
(** 39-52: Box(Box<Other>&), Box(const Box<Other>&), Box(Box<Other>&&) with Other = T.  In the last,
    [other] is an lvalue, so other() is the T& accessor (63-65) *)
Definition from_box (s : state) (c : category) (j : nat) : outcome state :=
  do v <- get (boxes s) j;
  let steal := match c with Rvalue => true | _ => false end in
  Ok (mkState (put (boxes s) j (after steal v) ++ [v]) (plain s)).
(** 88-98: box = x for a T.  A const lvalue selects operator=(const Other&), 88-92 (more specialised
    than Other&& with Other = const T&); everything else selects operator=(Other&&), 94-98, which
    moves, also when Other = T& *)
Definition assign_value (s : state) (i : nat) (c : category) (j : nat) : outcome state :=
  do _ <- get (boxes s) i;
  do v <- get (plain s) j;
  let steal := match c with Const => false | _ => true end in
  Ok (mkState (put (boxes s) i v) (put (plain s) j (after steal v))).
(** box = other box.  A const lvalue selects the implicit copy assignment; a non-const lvalue
    selects operator=(Box<Other>&), 83-86, which moves and then reaches its end without a return; an
    rvalue selects operator=(Other&&), which does not compile (there is no T = Box<T>), so it has
    no case here. *)
Definition assign_box (s : state) (i : nat) (is_const : bool) (j : nat) : outcome state :=
  do _ <- get (boxes s) i;
  do v <- get (boxes s) j;
  if is_const then Ok (mkState (put (boxes s) i v) (plain s)) else UB MissingReturn.
(** 63-73: box() = v, box.value() = v; reading is [get (boxes s) i] *)
Definition write (s : state) (i : nat) (v : T) : outcome state :=
  do _ <- get (boxes s) i; Ok (mkState (put (boxes s) i v) (plain s)).

Inductive command :=
| Make (c : category) (j : nat)                  (* Box<T> b(x_j); the next box *)
| MakeFrom (c : category) (j : nat)              (* Box<T> b(b_j) *)
| Assign (i : nat) (c : category) (j : nat)      (* b_i = x_j *)
| AssignFrom (i : nat) (is_const : bool) (j : nat)  (* b_i = b_j, or b_i = std::as_const(b_j) *)
| Write (i : nat) (v : T).                       (* b_i() = v *)
Definition exec (s : state) (c : command) : outcome state :=
  match c with
  | Make c j => from_value s c j
  | MakeFrom c j => from_box s c j
  | Assign i c j => assign_value s i c j
  | AssignFrom i k j => assign_box s i k j
  | Write i v => write s i v
  end.
Fixpoint exec_all (s : state) (cs : list command) : outcome state :=
  match cs with [] => Ok s | c :: cs => do s <- exec s c; exec_all s cs end.
End Box.
Arguments mkState {T} boxes plain.
Arguments boxes {T} s.
Arguments plain {T} s.
Arguments exec {T} moved s c.
Arguments exec_all {T} moved s cs.
Arguments Make {T} c j.
Arguments MakeFrom {T} c j.
Arguments Assign {T} i c j.
Arguments AssignFrom {T} i is_const j.
Arguments Write {T} i v.

(** * Bytes.hpp: the functions at an unsigned type of [w] bits and at int *)
Definition wrap (w x : Z) : Z := x mod 2 ^ w.
(** 12-15 *)
Definition bytes_u (w n : Z) : Z := n.
(** 17-20: an unsigned type at least as wide as unsigned int wraps *)
Definition kibibytes (w n : Z) : Z := wrap w (1024 * n).
(** 22-25 *)
Definition mebibytes (w n : Z) : Z := wrap w (1024 * kibibytes w n).
(** 27-30 *)
Definition gibibytes (w n : Z) : Z := wrap w (1024 * mebibytes w n).
(** 32-35 *)
Definition tebibytes (w n : Z) : Z := wrap w (1024 * gibibytes w n).
(** 17-20 at int *)
Definition kibibytes_int (n : Z) : outcome Z :=
  let r := 1024 * n in
  if (- 2 ^ 31 <=? r) && (r <? 2 ^ 31) then Ok r else UB SignedOverflow.
(** 37-47: __builtin_popcount counts the ones of the binary representation *)
Fixpoint popcount_pos (p : positive) : Z :=
  match p with
  | xH => 1
  | xO p => popcount_pos p
  | xI p => 1 + popcount_pos p
  end.
Definition popcount (x : Z) : Z := match x with Zpos p => popcount_pos p | _ => 0 end.
(** 51-69: the literals; the value of an integer literal is an unsigned long long *)
Inductive unit_suffix := B | KiB | MiB | GiB.
Definition literal (n : Z) (u : unit_suffix) : Z :=
  match u with
  | B => bytes_u 64 n
  | KiB => kibibytes 64 n
  | MiB => mebibytes 64 n
  | GiB => gibibytes 64 n
  end.

(** * ab-help: what it prints on standard output, whether it hands over to another program, its
    exit status.  [man_runs] says whether execlp succeeds. *)
Inductive help_result :=
| Printed (out : list string) (err : list string) (status : Z)
| Became (program : str) (args : list str).
(** help/src/ab-help-main.cpp 5-17 *)
Definition SHORT_HELP_STRING : string := "ab: a language runtime toolkit".
Definition USAGE_STRING : string := "usage: ab <command> [--] [<args>...]".
Definition HELP_STRING : list string :=
  [ "subcommands:"; "  ab run <abx>             Execute an abx module.";
    "  ab asm <abt> [<out>]     Assemble an abt module into abx.";
    "  ab disasm <abx> [<out>]  Disassemble an abx module into abt.";
    "  ab help                  Print this help message.";
    "  ab version               Print the version of Ab." ]%string.
(** 19-35; the lines printed *)
Definition help_main (man_runs : bool) (argv : list str) : help_result :=
  match argv with
  | [_] => Printed (SHORT_HELP_STRING :: USAGE_STRING :: HELP_STRING) [] 0
  | [_; topic] =>
      if man_runs then Became (lit "man") [lit "man"; topic]
      else Printed [] ["failed to exec man"%string] 2
  | _ => Printed [] ["too many arguments to help command"%string] 1
  end.

(** version/src/ab-version-main.cpp 8-11; Version::STRING is AB_VERSION, fixed when the program is
    configured; the picture is core/src/ab-core-Version.cpp 11-14 *)
Definition version_main (version : string) (argv : list str) : help_result :=
  Printed [String.append "ab: version " version; "  /__/'"; ">|'.' <"; " `---'"]%string [] 0.
