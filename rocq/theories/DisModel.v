(** What ab-disasm prints: core/include/Ab/Wasm/Printing.hpp, the visitor WastPrinter of
    disasm/src/ab-disasm-main.cpp (without --verbose), and the option scanning of that program.
    The calls the visitor receives are the events of WasmModel.v, the formatter is SexprModel.v.

    Which operator<< is meant by [out << x] for a number x: the operators for numbers of Sexpr.hpp
    (157-184) are in the global namespace.  In the functions below, which are in namespace Ab::Wasm,
    unqualified lookup of operator<< stops at the operators of Ab::Wasm, and argument dependent
    lookup for a Sexpr::Formatter adds those of Ab::Sexpr: char, const char*, std::string and the
    manipulators (Sexpr.hpp 86-144).  A number converts to char, and to none of the others. *)

From Coq Require Import ZArith String Ascii List Bool DecimalString.
From Verif Require Import Outcome StreamModel SexprModel WasmModel.
Import ListNotations.
Local Open Scope Z_scope.

(** The character with code [v] mod 256 (conversion of a number to char). *)
Definition chr (v : Z) : ascii := ascii_of_nat (Z.to_nat (v mod 256)).
Definition lit (s : String.string) : str := list_ascii_of_string s.
(** fmt::format("{}", n), n not negative *)
Definition decimal (n : Z) : str := lit (NilZero.string_of_uint (N.to_uint (Z.to_N n))).

(** What is sent to the formatter: a request, or ++indent() / --indent(). *)
Inductive out := Rq (r : request) | Inc | Dec.
Definition word (s : String.string) : out := Rq (Atom (lit s)).
Definition num (v : Z) : out := Rq (Atom [chr v]).
Definition paren (l : list out) : list out := [Rq Start] ++ l ++ [Rq End].
Definition send (f : formatter) (o : out) : formatter :=
  match o with
  | Rq r => put f r
  | Inc => mkF (buffer f) (indent_inc (indent f)) (fresh f) (needsSpacing f)
  | Dec => mkF (buffer f) (indent_dec (indent f)) (fresh f) (needsSpacing f)
  end.

(** core/include/Ab/Wasm/OpCode.hpp.jinja 24-28 with data/wasm_operators.yaml: the operators' names,
    by runs of consecutive codes *)
Definition op_names : list (Z * list String.string) := ([
  (0, ["unreachable"; "nop"; "block"; "loop"; "if"; "else"]);
  (11, ["end"; "br"; "br_if"; "br_table"; "return"; "call"; "call_indirect"]);
  (26, ["drop"; "select"]);
  (32, ["get_local"; "set_local"; "tee_local"; "get_global"; "set_global"]);
  (40, ["i32_load"; "i64_load"; "f32_load"; "f64_load"; "i32_load8_s"; "i32_load8_u";
     "i32_load16_s"; "i32_load16_u"; "i64_load8_s"; "i64_load8_u"; "i64_load16_s"; "i64_load16_u";
     "i64_load32_s"; "i64_load32_u"; "i32_store"; "i64_store"; "f32_store"; "f64_store";
     "i32_store8"; "i32_store16"; "i64_store8"; "i64_store16"; "i64_store32"]);
  (65, ["i32_const"; "i64_const"; "f32_const"; "f64_const"; "i32_eqz"; "i32_eq"; "i32_ne";
     "i32_lt_s"; "i32_lt_u"; "i32_gt_s"; "i32_gt_u"; "i32_le_s"; "i32_le_u"; "i32_ge_s"; "i32_ge_u";
     "i64_eqz"; "i64_eq"; "i64_ne"; "i64_lt_s"; "i64_lt_u"; "i64_gt_s"; "i64_gt_u"; "i64_le_s";
     "i64_le_u"; "i64_ge_s"; "i64_ge_u"; "f32_eq"; "f32_ne"; "f32_lt"; "f32_gt"; "f32_le"; "f32_ge";
     "f64_eq"; "f64_ne"; "f64_lt"; "f64_gt"; "f64_le"; "f64_ge"; "i32_clz"; "i32_ctz"; "i32_popcnt";
     "i32_add"; "i32_sub"; "i32_mul"; "i32_div_s"; "i32_div_u"; "i32_rem_s"; "i32_rem_u"; "i32_and";
     "i32_or"; "i32_xor"; "i32_shl"; "i32_shr_s"; "i32_shr_u"; "i32_rotl"; "i32_rotr"; "i64_clz";
     "i64_ctz"; "i64_popcnt"; "i64_add"; "i64_sub"; "i64_mul"; "i64_div_s"; "i64_div_u";
     "i64_rem_s"; "i64_rem_u"; "i64_and"; "i64_or"; "i64_xor"; "i64_shl"; "i64_shr_s"; "i64_shr_u";
     "i64_rotl"; "i64_rotr"; "f32_abs"; "f32_neg"; "f32_ceil"; "f32_floor"; "f32_trunc";
     "f32_nearest"; "f32_sqrt"; "f32_add"; "f32_sub"; "f32_mul"; "f32_div"; "f32_min"; "f32_max";
     "f32_copysign"; "f64_abs"; "f64_neg"; "f64_ceil"; "f64_floor"; "f64_trunc"; "f64_nearest";
     "f64_sqrt"; "f64_add"; "f64_sub"; "f64_mul"; "f64_div"; "f64_min"; "f64_max"; "f64_copysign"])
])%string.
Fixpoint lookup_name (t : list (Z * list String.string)) (op : Z) : String.string :=
  match t with
  | [] => "unknown"%string
  | (first, names) :: t =>
      if (first <=? op) && (op <? first + Z.of_nat (length names))
      then nth (Z.to_nat (op - first)) names "unknown"%string
      else lookup_name t op
  end.
Definition op_name (op : Z) : out := word (lookup_name op_names op).

(** Printing.hpp 21-40: to_string(TypeCode) *)
Definition type_name (code : Z) : out := word (
  if (code =? 127)%Z then "i32" else if (code =? 126)%Z then "i64" else if (code =? 125)%Z then "f32"
  else if (code =? 124)%Z then "f64" else if (code =? 112)%Z then "anyfunc" else if (code =? 96)%Z then "func"
  else if (code =? 64)%Z then "empty" else "UNKNOWN_TYPECODE")%string.
(** Printing.hpp 141-158: to_string(ExternalKindCode) *)
Definition kind_name (kind : Z) : out := word (
  if (kind =? 0)%Z then "func" else if (kind =? 1)%Z then "table" else if (kind =? 2)%Z then "memory"
  else if (kind =? 3)%Z then "global" else "UNKNOWN_EXTERNAL_KIND_CODE")%string.

(** Names and other text are bytes. *)
Definition text (b : bytes) : str := map chr b.

(** Printing.hpp 96-112: limits, memory and table types *)
Definition p_limits (l : limits) : list out :=
  num (li_initial l) :: match li_max l with Some m => [num m] | None => [] end.
Definition p_memory (l : limits) : list out := paren (word "memory" :: p_limits l).
Definition p_table (e : Z) (l : limits) : list out := paren (word "table" :: p_limits l ++ [type_name e]).
(** 114-129 *)
Definition p_ftype (t : ftype) : list out :=
  Rq Fresh :: paren (word "func" ::
    match ft_params t with [] => [] | ps => paren (word "param" :: map type_name ps) end ++
    match ft_return t with Some r => paren [word "result"; type_name r] | None => [] end).
(** 131-139 *)
Definition p_gtype (g : gtype) : list out :=
  paren ((if gt_mutable g then [word "mut"] else []) ++ [type_name (gt_content g)]).
(** 160-167 *)
Definition p_export (field : bytes) (kind index : Z) : list out :=
  paren ([word "export"; Rq (Atom (stringify (text field)))] ++ paren [kind_name kind; num index]).
(** 169-197 *)
Definition import_kind (d : import_desc) : Z :=
  match d with ImFunction _ => 0 | ImTable _ _ => 1 | ImMemory _ => 2 | ImGlobal _ => 3 end.
Definition p_import (m f : bytes) (d : import_desc) : list out :=
  paren ([word "import"; Rq (Atom (stringify (text m))); Rq (Atom (stringify (text f)));
          word "(;"; word "kind"; num (import_kind d); word ";)"] ++
         match d with
         | ImFunction t => paren [word "type"; word "qqq"; num t]
         | ImTable e l => p_table e l
         | ImMemory l => p_memory l
         | ImGlobal g => p_gtype g
         end).
(** 199-217: a body's local variables *)
Definition p_local (l : local) : list out :=
  flat_map (fun _ => [word "test"; type_name (lo_type l)]) (repeat tt (Z.to_nat (lo_count l))).
Definition p_locals (ls : list local) : list out :=
  paren ([word "local"; Rq (Atom (decimal (Z.of_nat (length ls))))] ++
         flat_map (fun l => word "tttt" :: p_local l) ls).

(** Expression.hpp 63-65 (call_indirect), Printing.hpp 256-269 (br_table: the loop returns after the
    first target; loads and stores) and the plain numbers *)
Definition p_imm (i : imm) : list out :=
  match i with
  | INone => []
  | IType c => [type_name c]
  | IVaruint v => [num v]
  | ISignature x r => [num x; num r]
  | IBranchTable ts d => [word "default"; num d] ++ match ts with [] => [] | t :: _ => [num t] end
  | IMemory f o => [num f; num o]
  | IVarint v => [num v]
  | IBits v => [num v]
  end.
(** 251-254, 276-289: any expression *)
Definition p_expr (e : expr) : list out := op_name (e_op e) :: p_imm (e_imm e).

(** 291-306: a data segment; char is signed *)
Definition signed_char (b : Z) : Z := if b <? 128 then b else b - 256.
Definition data_char (b : Z) : str :=
  if (32 <? signed_char b) && (signed_char b <? 127) then [chr b] else ["\"%char; chr b].
Definition data_text (d : bytes) : str := """"%char :: flat_map data_char d ++ [""""%char].
Definition p_data (init : expr) (d : bytes) : list out :=
  paren (word "data" :: p_expr init ++ [Rq (Atom (data_text d))]).

(** 309-366: ExprPrinter: an expression in a body; the number is block_depth_ *)
Definition p_body_expr (depth : nat) (e : expr) : list out * nat :=
  if (e_op e =? 2) || (e_op e =? 3) || (e_op e =? 4) then                 (* block loop if *)
    (Rq Fresh :: p_expr e ++ [Inc], S depth)
  else if e_op e =? 11 then                                                (* end *)
    match depth with
    | S d => (Dec :: Rq Fresh :: p_expr e, d)
    | O => (Rq Fresh :: p_expr e, O)
    end
  else if e_op e =? 5 then (Dec :: Rq Fresh :: p_expr e ++ [Inc], depth)   (* else *)
  else (Rq Fresh :: p_expr e, depth).

(** ab-disasm-main.cpp 36-169: WastPrinter: the formatter, types_, and the ExprPrinter's
    block_depth_; [p_stdout] is what went to standard output directly (Printing.hpp 208) *)
Record printer := mkP { p_out : formatter; p_types : list Z; p_depth : nat; p_stdout : str }.
Definition new_printer : printer := mkP new_formatter [] 0 [].
Definition send_all (p : printer) (l : list out) : printer :=
  mkP (fold_left send l (p_out p)) (p_types p) (p_depth p) (p_stdout p).
Definition debug_line (n : nat) : str :=
  lit "!!! locals = " ++ decimal (Z.of_nat n) ++ lit " !!!" ++ [NL].
Definition handle (p : printer) (e : event) : printer :=
  match e with
  | EvModuleStart => send_all p [Rq Start; word "module"]                                  (* 40 *)
  | EvModuleEnd => send_all p [Rq End; Rq Fresh]                                           (* 42-45 *)
  | EvHeader _ _ | EvSectionStart _ _ _ | EvSectionEnd _ _
  | EvTypeSection _ | EvImportSection _ => p                                               (* 47-66, 72-78 *)
  | EvFunctionType t => send_all p (Rq Fresh :: p_ftype t)                                 (* 68-70 *)
  | EvImport m f d => send_all p (Rq Fresh :: p_import m f d)                              (* 80-82 *)
  | EvFunction _ t => mkP (p_out p) (p_types p ++ [t]) (p_depth p) (p_stdout p)            (* 93-99 *)
  | EvGlobal g i =>                                                                        (* 109-114 *)
      send_all p (Rq Fresh :: paren (word "global" :: p_gtype g ++ paren (p_expr i)))
  | EvExport f k i => send_all p (Rq Fresh :: p_export f k i)                              (* 116-118 *)
  | EvElementEntry _ o _ => send_all p ([Rq Fresh; Rq Start; word "elem"] ++ paren (p_expr o)) (* 124-128 *)
  | EvElement i => send_all p [num i]                                                      (* 130-132 *)
  | EvElementEnd => send_all p [Rq End]                                                    (* 134-136 *)
  | EvBody i b =>                                                                          (* 148-157 *)
      let p := send_all p ([Rq Fresh; Rq Start; word "func"] ++
                           paren [word "typezz"; Rq (Atom (decimal (nth (Z.to_nat i) (p_types p) 0)))] ++
                           [Rq Fresh] ++ p_locals (fb_locals b)) in
      mkP (p_out p) (p_types p) 0 (p_stdout p ++ debug_line (length (fb_locals b)))
  | EvExpr e =>                                                                            (* 158 *)
      let '(l, d) := p_body_expr (p_depth p) e in
      let p := send_all p l in mkP (p_out p) (p_types p) d (p_stdout p)
  | EvBodyEnd => send_all p [Rq End]                                                       (* 161 *)
  | EvData _ i d => send_all p (Rq Fresh :: p_data i d)                                    (* 166-168 *)
  end.
Definition print_events (l : list event) : printer := fold_left handle l new_printer.

(** ab-disasm-main.cpp 181-187: dump: the text, after everything was read; and what went to standard
    output directly.  Simplification: the text is compared with what is printed only for inputs that
    are read without an error (otherwise the exception ends the program and nothing is printed). *)
Definition disassemble (lim : Z) (strict : bool) (input : bytes) : outcome (str * str) :=
  do evs <- read_module (disasm_cfg lim strict) input;
  let p := print_events evs in Ok (buffer (p_out p), p_stdout p).

(** 20-26: Config; 189-233: parseArguments.  [argv] is argv[0], argv[1], ...; argv[argc] is null, and
    making a std::string of it is undefined (199).  StringSpan comparison with a literal is equality
    (StringSpan.hpp 43-50, see C83: a C string has no NUL inside). *)
Record config := mkConf { cf_in : option str; cf_out : option str; cf_debug : bool; cf_verbose : bool }.
Inductive parsed := Go (c : config) | Usage | Version.
Definition seq_eqb (a b : str) : bool := if list_eq_dec ascii_dec a b then true else false.
Definition is (s : str) (l : String.string) : bool := seq_eqb s (lit l).
(** 229-232 *)
Definition positional (c : config) (args : list str) : parsed :=
  match args with
  | [] => Go c
  | a :: _ => Go (mkConf (Some a) (cf_out c) (cf_debug c) (cf_verbose c))
  end.
Fixpoint scan_args (fuel : nat) (c : config) (args : list str) : outcome parsed :=
  match fuel with
  | O => OutOfFuel
  | S fuel =>
      match args with
      | [] => Ok (positional c [])
      | a :: args' =>
          if is a "-o" || is a "--ouput" then
            match args' with
            | [] => UB NullDeref
            | f :: args'' => scan_args fuel (mkConf (cf_in c) (Some f) (cf_debug c) (cf_verbose c)) args''
            end
          else if is a "-h" || is a "--help" then Ok Usage
          else if is a "--version" then Ok Version
          else if is a "--debug" || is a "-d" then scan_args fuel (mkConf (cf_in c) (cf_out c) true (cf_verbose c)) args'
          else if is a "--verbose" || is a "-v" then scan_args fuel (mkConf (cf_in c) (cf_out c) (cf_debug c) true) args'
          else if is a "--" then Ok (positional c args')
          else Ok (positional c args)
      end
  end.
Definition parse_arguments (argv : list str) : outcome parsed :=
  scan_args (S (length argv)) (mkConf None None false false) (tl argv).

(** 239-262: main: what the standard output and the file named by -o (if any) receive *)
Definition outputs (c : config) (r : str * str) : str * option str :=
  match cf_out c with
  | None => (snd r ++ fst r, None)
  | Some _ => (snd r, Some (fst r))
  end.
