From Coq Require Import ZArith String Ascii List Bool Lia.
From Verif Require Import Outcome StreamModel SexprModel SexprSpec WasmModel WasmSpec DisModel.
Import ListNotations.
Local Open Scope Z_scope.

(** * Parentheses of a text *)
(** The number of open parentheses after reading a text with [d] open; None if one too many is closed. *)
Fixpoint nesting (d : nat) (s : str) : option nat :=
  match s with
  | [] => Some d
  | c :: s => if Ascii.eqb c "("%char then nesting (S d) s
              else if Ascii.eqb c ")"%char then match d with O => None | S d => nesting d s end
              else nesting d s
  end.
Definition balanced (s : str) : Prop := nesting 0 s = Some 0%nat.

(** A number (or the code of a character) that is not, mod 256, the code of a parenthesis. *)
Definition quiet (v : Z) : Prop := v mod 256 <> 40 /\ v mod 256 <> 41.
(** The numbers and the characters of names and data in a module's description. *)
Definition imm_numbers (i : imm) : list Z :=
  match i with
  | INone | IType _ => []
  | IVaruint v | IVarint v | IBits v => [v]
  | ISignature x r => [x; r]
  | IBranchTable ts d => d :: ts
  | IMemory f o => [f; o]
  end.
Definition limits_numbers (l : limits) : list Z := li_initial l :: match li_max l with Some m => [m] | None => [] end.
Definition event_numbers (e : event) : list Z :=
  match e with
  | EvImport m f d =>
      m ++ f ++ match d with ImFunction t => [t] | ImTable _ l | ImMemory l => limits_numbers l | ImGlobal _ => [] end
  | EvGlobal _ i | EvElementEntry _ i _ | EvExpr i => imm_numbers (e_imm i)
  | EvExport f _ i => f ++ [i]
  | EvElement i => [i]
  | EvData _ i d => imm_numbers (e_imm i) ++ d
  | _ => []
  end.

(** * Function types, in the text format *)
Definition value_type (code : Z) : option str :=
  match code with
  | 127 => Some (lit "i32") | 126 => Some (lit "i64") | 125 => Some (lit "f32") | 124 => Some (lit "f64")
  | _ => None
  end.
Definition atom (s : String.string) : tok := TAtom (lit s).
Definition valtok (code : Z) : tok := TAtom (match value_type code with Some s => s | None => [] end).
(** (func (param t ...) (result t)), the parts that are not there left out *)
Definition wat_type (t : ftype) : list tok :=
  [TOpen; atom "func"] ++
  match ft_params t with [] => [] | ps => [TOpen; atom "param"] ++ map valtok ps ++ [TClose] end ++
  match ft_return t with None => [] | Some r => [TOpen; atom "result"; valtok r; TClose] end ++
  [TClose].
Definition valid_type (t : ftype) : Prop :=
  Forall (fun c => value_type c <> None) (ft_params t) /\ (forall r, ft_return t = Some r -> value_type r <> None).
Definition wat_module (ts : list ftype) : list tok :=
  [TOpen; atom "module"] ++ flat_map wat_type ts ++ [TClose].
(** Sections with types and with the functions' types only *)
Definition types_of (p : sec * Z) : list ftype := match fst p with SType l => l | _ => [] end.
Definition only_types (p : sec * Z) : Prop :=
  match fst p with SType l => Forall valid_type l | SFunction _ => True | _ => False end.

(** * Nesting of instructions *)
Definition opens (e : expr) : bool := (e_op e =? 2) || (e_op e =? 3) || (e_op e =? 4).
Definition is_end (e : expr) : bool := e_op e =? 11.
Definition is_else (e : expr) : bool := e_op e =? 5.
(** The nesting depth at which each instruction belongs when [d] blocks are open: what is in a block
    is one deeper than the block, [else] and [end] are as deep as their block.  The [end] of the
    function is at depth 0.  None: [else] without a block. *)
Fixpoint depths (d : nat) (es : list expr) : option (list (nat * expr)) :=
  match es with
  | [] => Some []
  | e :: es =>
      if opens e then option_map (cons (d, e)) (depths (S d) es)
      else if is_end e then option_map (cons (Nat.pred d, e)) (depths (Nat.pred d) es)
      else if is_else e then match d with O => None | S d' => option_map (cons (d', e)) (depths d es) end
      else option_map (cons (d, e)) (depths d es)
  end.
(** An instruction's words with single spaces between them *)
Fixpoint spaced (l : list str) : str :=
  match l with [] => [] | [w] => w | w :: l => w ++ SP :: spaced l end.

(** * Strings *)
(** A string of the text format, after its opening quote: the bytes it stands for and what follows it.
    A backslash starts an escape: a letter, a quote or a backslash, or two hexadecimal digits (\u{...} is
    left out).  None: it does not end, or has a character or an escape that a string cannot have. *)
Definition hex_digit (c : ascii) : option Z :=
  let n := Z.of_nat (nat_of_ascii c) in
  if (48 <=? n) && (n <=? 57) then Some (n - 48)
  else if (65 <=? n) && (n <=? 70) then Some (n - 55)
  else if (97 <=? n) && (n <=? 102) then Some (n - 87) else None.
Definition letter_escape (c : ascii) : option Z :=
  match c with
  | "t"%char => Some 9 | "n"%char => Some 10 | "r"%char => Some 13
  | """"%char => Some 34 | "'"%char => Some 39 | "\"%char => Some 92
  | _ => None
  end.
Definition escape (s : str) : option (Z * str) :=
  match s with
  | [] => None
  | c :: s1 =>
      match letter_escape c with
      | Some v => Some (v, s1)
      | None => match s1 with
                | [] => None
                | d :: s2 => match hex_digit c, hex_digit d with Some a, Some b => Some (16 * a + b, s2) | _, _ => None end
                end
      end
  end.
Fixpoint wat_string (fuel : nat) (s : str) : option (bytes * str) :=
  match fuel with
  | O => None
  | S fuel =>
      match s with
      | [] => None
      | c :: s =>
          let n := Z.of_nat (nat_of_ascii c) in
          let next (v : Z) (s : str) := match wat_string fuel s with Some (b, r) => Some (v :: b, r) | None => None end in
          if n =? 34 then Some ([], s)
          else if n =? 92 then match escape s with Some (v, s) => next v s | None => None end
          else if (n <? 32) || (n =? 127) then None
          else next n s
      end
  end.
Definition read_string (s : str) : option (bytes * str) := wat_string (S (length s)) s.
(** the characters that stand for themselves and are not a space *)
Definition clean (b : Z) : Prop := 33 <= b <= 126 /\ b <> 34 /\ b <> 92.

(** * Command lines of ab-disasm *)
Inductive option_arg := OOut (f : str) | ODebug | OVerbose.
(** how an option may be spelled *)
Inductive spelled : option_arg -> list str -> Prop :=
| Sp_o f : spelled (OOut f) [lit "-o"; f]
| Sp_d : spelled ODebug [lit "-d"]
| Sp_debug : spelled ODebug [lit "--debug"]
| Sp_v : spelled OVerbose [lit "-v"]
| Sp_verbose : spelled OVerbose [lit "--verbose"].
Definition last_out (os : list option_arg) : option str :=
  fold_left (fun r o => match o with OOut f => Some f | _ => r end) os None.
Definition has_debug (os : list option_arg) : bool := existsb (fun o => match o with ODebug => true | _ => false end) os.
Definition has_verbose (os : list option_arg) : bool := existsb (fun o => match o with OVerbose => true | _ => false end) os.
Definition starts_dash (s : str) : Prop := exists r, s = "-"%char :: r.
(** What may follow the options: the input file, if any *)
Inductive operand : list str -> option str -> Prop :=
| Op_none : operand [] None
| Op_file f more : ~ starts_dash f -> operand (f :: more) (Some f)
| Op_dashes_none : operand [lit "--"] None
| Op_dashes f more : operand (lit "--" :: f :: more) (Some f).
