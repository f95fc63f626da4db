(** Model of core/include/Ab/Wasm/Reader.hpp, ExprReader.hpp, Expression.hpp (decoding part) and
    of the visitor of disasm/src/ab-disasm-main.cpp: reading a WebAssembly binary module from a
    std::istream and telling a Visitor what is in it.

    The generated opDispatch (core/include/Ab/Wasm/OpCode.hpp.jinja 29-37) is expanded with
    data/wasm_operators.yaml.  Not modelled: what the visitor of ab-disasm prints (only which
    expressions it is given), std::cerr. *)

From Coq Require Import ZArith List Bool.
From Verif Require Import Outcome VarIntModel StreamModel.
Import ListNotations.
Local Open Scope Z_scope.

(** core/include/Ab/Wasm/Expression.hpp 38-145: the values of immediates. *)
Inductive imm :=
| INone                                          (* NullaryExpr *)
| IType (code : Z)                               (* 107-112 *)
| IVaruint (v : Z)                               (* 45-50 *)
| ISignature (index reserved : Z)                (* 52-61 *)
| IBranchTable (targets : list Z) (default : Z)  (* 114-129 *)
| IMemory (flags offset : Z)                     (* 131-141 *)
| IVarint (v : Z)                                (* 67-79: i32 and i64 alike *)
| IBits (v : Z).                                 (* 81-93: the bits of an f32 or f64 *)

(** Expression.hpp 22-33, 144-: an expression: its opcode and its immediate. *)
Record expr := mkExpr { e_op : Z; e_imm : imm }.

(** core/include/Ab/Wasm/Ir.hpp 32-36: FunctionType. *)
Record ftype := mkFtype { ft_params : list Z; ft_return : option Z }.
(** Ir.hpp 38-41: GlobalType. *)
Record gtype := mkGtype { gt_content : Z; gt_mutable : bool }.
(** Ir.hpp 43-47: ResizableLimits; max is 0 when there is none (Reader.hpp 177-185). *)
Record limits := mkLimits { li_initial : Z; li_max : option Z }.
(** Ir.hpp 60-70: what an import entry describes; the kind is the constructor. *)
Inductive import_desc :=
| ImFunction (type : Z)
| ImTable (element : Z) (l : limits)
| ImMemory (l : limits)
| ImGlobal (g : gtype).
(** Ir.hpp 99-102, 104-107: LocalEntry, FunctionBody. *)
Record local := mkLocal { lo_count : Z; lo_type : Z }.
Record fbody := mkBody { fb_locals : list local; fb_size : Z }.

(** core/include/Ab/Wasm/Visitor.hpp: the calls a visitor receives, with their arguments. *)
Inductive event :=
| EvModuleStart
| EvHeader (magic version : Z)
| EvSectionStart (code length : Z) (name : bytes)
| EvSectionEnd (code length : Z)
| EvTypeSection (count : Z)
| EvFunctionType (t : ftype)
| EvImportSection (count : Z)
| EvImport (module field : bytes) (d : import_desc)
| EvFunction (index type : Z)
| EvGlobal (g : gtype) (init : expr)
| EvExport (field : bytes) (kind index : Z)
| EvElementEntry (index : Z) (offset : expr) (count : Z)
| EvElement (index : Z)
| EvElementEnd
| EvBody (index : Z) (b : fbody)
| EvExpr (e : expr)                   (* what the visitor's own ExprReader hands to its printer *)
| EvBodyEnd
| EvData (index : Z) (init : expr) (data : bytes)
| EvModuleEnd.

(** The reader's state: the istream, whether its failbit is set without its eofbit (a failed
    seek; when eofbit is set failbit is too), and the calls made so far.  [s_offset] counts all
    bytes taken; a ReaderInput's offset is the difference to its value when it was made. *)
Record wst := mkW { w_in : stream; w_stuck : bool; w_log : list event }.

Definition M (A : Type) : Type := wst -> outcome (A * wst).
Definition ret {A} (a : A) : M A := fun s => Ok (a, s).
Definition mbind {A B} (m : M A) (k : A -> M B) : M B := fun s => do (a, s') <- m s; k a s'.
Definition throw {A} (e : exn) : M A := fun _ => Throw e.
Notation "x <~ m ; k" := (mbind m (fun x => k)) (at level 199, m at level 100, right associativity).

(** A call of a visitor method that does not touch the stream. *)
Definition emit (e : event) : M unit := fun s => Ok (tt, mkW (w_in s) (w_stuck s) (w_log s ++ [e])).

(** std::basic_ios::fail, eof *)
Definition w_eof (s : wst) : bool := s_eof (w_in s).
Definition w_fail (s : wst) : bool := s_eof (w_in s) || w_stuck s.

(** leb128.hpp 25-29: ReaderInput::get; a failed stream gives 0xff and takes nothing. *)
Definition get : M Z := fun s =>
  if w_stuck s then Ok (255, s)
  else let (b, i) := s_get (w_in s) in Ok (b, mkW i false (w_log s)).

(** util/include/Ab/leb128.hpp 84-88, 110-113 and 58-108: leb128 and uleb128 on the stream.  On a
    failed stream without eofbit every byte is 0xff and no more than ten are looked at. *)
Definition on_stream {A} (f : stream -> outcome (A * stream)) : M A := fun s =>
  if w_stuck s then do (a, _) <- f (mkStream (repeat 255 10) false 0); Ok (a, s)
  else do (a, i) <- f (w_in s); Ok (a, mkW i false (w_log s)).

(** Reader.hpp 251-265: varint7/32/64 and varuint1/7/32 are leb128 and uleb128, without checks. *)
Definition varint : M Z := on_stream leb128.
Definition varuint : M Z := on_stream uleb128.

(** std::istream::read(buffer, n): as many bytes as there are; too few set eofbit and failbit. *)
Definition in_read (n : Z) : M bytes := fun s =>
  if w_fail s then Ok ([], s)
  else
    let i := w_in s in
    if n <=? Z.of_nat (length (s_rest i))
    then Ok (firstn (Z.to_nat n) (s_rest i),
             mkW (mkStream (skipn (Z.to_nat n) (s_rest i)) false (s_offset i + n)) false (w_log s))
    else Ok (s_rest i,
             mkW (mkStream [] true (s_offset i + Z.of_nat (length (s_rest i)))) false (w_log s)).

(** std::istream::seekg(n, std::ios::cur), n >= 0: eofbit is cleared, then nothing happens if the
    stream has failed.  Seeking past the end is an error for a stringbuf ([strict]) and not for
    a filebuf. *)
Definition seekg (strict : bool) (n : Z) : M unit := fun s =>
  if w_fail s then
    Ok (tt, mkW (mkStream (s_rest (w_in s)) false (s_offset (w_in s))) true (w_log s))
  else
    let i := w_in s in
    if n <=? Z.of_nat (length (s_rest i))
    then Ok (tt, mkW (mkStream (skipn (Z.to_nat n) (s_rest i)) false (s_offset i + n)) false (w_log s))
    else if strict then Ok (tt, mkW i true (w_log s))
    else Ok (tt, mkW (mkStream [] false (s_offset i + n)) false (w_log s)).

(** leb128.hpp 31-39: ReaderInput::read inside readNumber (50-56). *)
Definition read_number (n : nat) : M Z := fun s =>
  if w_stuck s then Throw ReaderError
  else do (v, i) <- readNumber n (w_in s); Ok (v, mkW i false (w_log s)).

(** What a reader is given besides the bytes: how much a container may hold ([c_lim] bytes:
    beyond it std::length_error or std::bad_alloc is thrown), the stream's kind, and the visitor's
    function_body, which reads from the stream itself. *)
Record wcfg := mkCfg { c_lim : Z; c_strict : bool; c_body : Z -> fbody -> M unit }.

Definition alloc (c : wcfg) (n : Z) : M unit := if n <=? c_lim c then ret tt else throw StdException.

Definition u8 (x : Z) : Z := x mod 2 ^ 8.
Definition u32 (x : Z) : Z := x mod 2 ^ 32.
Definition truth (x : Z) : bool := negb (x =? 0).

(** Reader.hpp 233-241: uint<Integer>: [n] bytes, little endian, missing ones 0. *)
Definition uint (n : Z) : M Z := fun s =>
  if w_fail s then Throw BadNumber else (b <~ in_read n; ret (le_value b)) s.

(** for (i = 0; i < count; i++) f(i) *)
Fixpoint iter (n : nat) (i : Z) (f : Z -> M unit) : M unit :=
  match n with O => ret tt | S n => _ <~ f i; iter n (i + 1) f end.
Definition for_count (count : Z) (f : Z -> M unit) : M unit := iter (Z.to_nat count) 0 f.
(** for (i = 0; i < count; i++) out[i] = f() *)
Fixpoint collect {A} (n : nat) (f : M A) : M (list A) :=
  match n with O => ret [] | S n => a <~ f; l <~ collect n f; ret (a :: l) end.

(** Reader.hpp 222-227: type codes are single bytes. *)
Definition type_code : M Z := uint 1.

(** const char* to std::string: up to the first NUL. *)
Fixpoint c_str (b : bytes) : bytes :=
  match b with [] => [] | x :: b => if x =? 0 then [] else x :: c_str b end.

(** Reader.hpp 189-202: string.  The buffer has n + 1 characters (mod 2^64) and buffer[n] is
    written. *)
Definition string (c : wcfg) : M bytes :=
  n <~ varuint;
  if n =? 2 ^ 64 - 1 then (fun _ => UB OutOfBounds)
  else _ <~ alloc c (n + 1); b <~ in_read n; ret (c_str b).

(** Reader.hpp 177-185: resizable_limits *)
Definition resizable_limits : M limits :=
  h <~ varuint; i <~ varuint;
  if truth h then m <~ varuint; ret (mkLimits (u32 i) (Some (u32 m)))
  else ret (mkLimits (u32 i) None).

(** Reader.hpp 204-207: global_type; 209-212: table_type *)
Definition global_type : M gtype := t <~ type_code; m <~ varuint; ret (mkGtype t (truth m)).
Definition table_type : M import_desc := t <~ type_code; l <~ resizable_limits; ret (ImTable t l).

(** data/wasm_operators.yaml (which codes are opcodes) and Expression.hpp 186-1284 (OpTraits:
    which immediate each has).  current_memory, grow_memory (0x3f, 0x40) and the conversions (0xa7 to
    0xbf) are commented out in wasm_operators.yaml (248-255, 489-542) and so are no opcodes. *)
Inductive imm_kind := KNone | KType | KVaruint | KSignature | KBranchTable | KMemory | KVarint | KBits32 | KBits64.
Definition op_kind (op : Z) : option imm_kind :=
  if (op =? 2) || (op =? 3) || (op =? 4) then Some KType                       (* block loop if *)
  else if (op =? 0) || (op =? 1) || (op =? 5) || (op =? 11) || (op =? 15) || (op =? 26) || (op =? 27) then Some KNone
  else if (op =? 12) || (op =? 13) || (op =? 16) then Some KVaruint             (* br br_if call *)
  else if op =? 14 then Some KBranchTable
  else if op =? 17 then Some KSignature                                        (* call_indirect *)
  else if (32 <=? op) && (op <=? 36) then Some KVaruint                        (* locals, globals *)
  else if (40 <=? op) && (op <=? 62) then Some KMemory                         (* loads, stores *)
  else if (op =? 65) || (op =? 66) then Some KVarint                           (* i32.const i64.const *)
  else if op =? 67 then Some KBits32
  else if op =? 68 then Some KBits64
  else if (69 <=? op) && (op <=? 166) then Some KNone
  else None.

(** Expression.hpp 38-141: Immediate::read *)
Definition read_imm (c : wcfg) (k : imm_kind) : M imm :=
  match k with
  | KNone => ret INone
  | KType => t <~ get; ret (IType t)
  | KVaruint => v <~ varuint; ret (IVaruint v)
  | KSignature => i <~ varuint; r <~ varuint; ret (ISignature (u32 i) (u8 r))
  | KBranchTable =>
      n <~ varuint; _ <~ alloc c (4 * n);
      l <~ collect (Z.to_nat n) (t <~ varuint; ret (u32 t));
      d <~ varuint; ret (IBranchTable l (u32 d))
  | KMemory => f <~ varuint; o <~ varuint; ret (IMemory f o)
  | KVarint => v <~ varint; ret (IVarint v)
  | KBits32 => v <~ read_number 4; ret (IBits v)
  | KBits64 => v <~ read_number 8; ret (IBits v)
  end.

(** ExprReader.hpp 12-23, 30-36 and OpCode.hpp.jinja 29-37: one expression; a byte that is no
    opcode ends the process (exit(-1)). *)
Definition read_expr (c : wcfg) : M expr :=
  op <~ get;
  match op_kind op with
  | None => fun _ => Trap Exit
  | Some k => i <~ read_imm c k; ret (mkExpr op i)
  end.

(** ExprReader.hpp 26-38: expressions until [size] bytes have been taken since [start]; at least
    one. *)
Fixpoint expr_loop (c : wcfg) (fuel : nat) (start size : Z) (f : expr -> M unit) : M unit :=
  match fuel with
  | O => fun _ => OutOfFuel
  | S fuel =>
      e <~ read_expr c; _ <~ f e;
      fun s => if s_offset (w_in s) - start <? size then expr_loop c fuel start size f s else Ok (tt, s)
  end.
Definition read_exprs (c : wcfg) (size : Z) (f : expr -> M unit) : M unit := fun s =>
  expr_loop c (S (length (s_rest (w_in s)))) (s_offset (w_in s)) size f s.

(** Reader.hpp 35-53: SetInitExpr *)
Definition init_op (op : Z) : bool := (op =? 35) || ((65 <=? op) && (op <=? 68)).

(** Reader.hpp 383-391: init_expr: one expression, which must be get_global or a constant, and one
    more of any kind. *)
Definition init_expr (c : wcfg) : M expr :=
  e <~ read_expr c;
  if init_op (e_op e) then _ <~ read_expr c; ret e else throw ReaderError.

(** Reader.hpp 347-381: type_section, function_type *)
Definition function_type (c : wcfg) : M unit :=
  t <~ type_code;
  if negb (t =? 96) then throw ReaderError
  else
    n <~ varuint; _ <~ alloc c n; ps <~ collect (Z.to_nat n) type_code;
    h <~ varuint;
    if truth h then r <~ type_code; emit (EvFunctionType (mkFtype ps (Some r)))
    else emit (EvFunctionType (mkFtype ps None)).
Definition type_section (c : wcfg) : M unit :=
  n <~ varuint; _ <~ emit (EvTypeSection n); for_count n (fun _ => function_type c).

(** Reader.hpp 267-303: import_section, import_entry, external_kind *)
Definition import_entry (c : wcfg) : M unit :=
  m <~ string c; f <~ string c; k <~ uint 1;
  d <~ (if k =? 0 then t <~ varuint; ret (ImFunction (u32 t))
        else if k =? 1 then table_type
        else if k =? 2 then l <~ resizable_limits; ret (ImMemory l)
        else if k =? 3 then g <~ global_type; ret (ImGlobal g)
        else throw ReaderError);
  emit (EvImport m f d).
Definition import_section (c : wcfg) : M unit :=
  n <~ varuint; _ <~ emit (EvImportSection n); for_count n (fun _ => import_entry c).

(** Reader.hpp 305-311: function_section *)
Definition function_section : M unit :=
  n <~ varuint; for_count n (fun i => t <~ varuint; emit (EvFunction i (u32 t))).

(** Reader.hpp 325-345 (global_section, global_entry) *)
Definition global_section (c : wcfg) : M unit :=
  n <~ varuint; for_count n (fun _ => g <~ global_type; e <~ init_expr c; emit (EvGlobal g e)).

(** Reader.hpp 394-407: export_section, export_entry *)
Definition export_section (c : wcfg) : M unit :=
  n <~ varuint;
  for_count n (fun _ => f <~ string c; k <~ uint 1; i <~ varuint; emit (EvExport f k (u32 i))).

(** Reader.hpp 415-433: element_section, element_entry *)
Definition element_entry (c : wcfg) : M unit :=
  i <~ varuint; e <~ init_expr c; n <~ varuint;
  _ <~ emit (EvElementEntry (u32 i) e (u32 n));
  _ <~ for_count (u32 n) (fun _ => x <~ varuint; emit (EvElement (u32 x)));
  emit EvElementEnd.
Definition element_section (c : wcfg) : M unit :=
  n <~ varuint; for_count n (fun _ => element_entry c).

(** Reader.hpp 436-464: code_section, function_body, local_entry *)
Definition local_entry : M local := n <~ varuint; t <~ type_code; ret (mkLocal (u32 n) t).
Definition function_body (c : wcfg) (index : Z) : M unit :=
  size <~ varuint; n <~ varuint; _ <~ alloc c (8 * n);
  l <~ collect (Z.to_nat n) local_entry;
  _ <~ emit (EvBody index (mkBody l (u32 size)));
  _ <~ c_body c index (mkBody l (u32 size));
  emit EvBodyEnd.
Definition code_section (c : wcfg) : M unit := n <~ varuint; for_count n (function_body c).

(** Reader.hpp 468-483: data_section, data_segment; the vector holds zeros where the stream ended *)
Definition data_segment (c : wcfg) : M unit :=
  i <~ varuint; e <~ init_expr c; n <~ varuint; _ <~ alloc c n; b <~ in_read n;
  emit (EvData (u32 i) e (b ++ repeat 0 (Z.to_nat n - length b))).
Definition data_section (c : wcfg) : M unit := n <~ varuint; for_count n (fun _ => data_segment c).

(** Reader.hpp 313-316: custom_section *)
Definition custom_section (c : wcfg) (len : Z) : M unit := seekg (c_strict c) len.

(** Reader.hpp 121-175: section; 319, 322 and 411: the table, memory and start sections are not
    read. *)
Definition section (c : wcfg) (code : Z) : M unit :=
  l <~ varuint;
  name <~ (if code =? 0 then string c else ret []);
  _ <~ emit (EvSectionStart code (u32 l) name);
  _ <~ (if code =? 0 then custom_section c (u32 l)
        else if code =? 1 then type_section c
        else if code =? 2 then import_section c
        else if code =? 3 then function_section
        else if (code =? 4) || (code =? 5) || (code =? 8) then ret tt
        else if code =? 6 then global_section c
        else if code =? 7 then export_section c
        else if code =? 9 then element_section c
        else if code =? 10 then code_section c
        else if code =? 11 then data_section c
        else throw InvalidSection);
  emit (EvSectionEnd code (u32 l)).

(** Reader.hpp 105-118: sections, sectionCode (the number is cut to the uint8_t of the enum) *)
Fixpoint sections (c : wcfg) (fuel : nat) : M unit :=
  match fuel with
  | O => fun _ => OutOfFuel
  | S fuel => fun s =>
      if w_eof s then Ok (tt, s)
      else (code <~ varuint;
            fun s => if w_eof s then Ok (tt, s)
                     else (_ <~ section c (u8 code); sections c fuel) s) s
  end.

(** Reader.hpp 80-100: header, magic, version *)
Definition header : M unit :=
  m <~ uint 4;
  if negb (m =? 1836278016) then throw InvalidHeader     (* 0x6d736100 *)
  else
    v <~ uint 4;
    if negb (v =? 1) then throw InvalidHeader else emit (EvHeader m v).

(** Reader.hpp 64-77: module, the whole of Reader::operator(). *)
Definition module (c : wcfg) : M unit :=
  _ <~ emit EvModuleStart; _ <~ header;
  _ <~ (fun s => sections c (2 + length (s_rest (w_in s))) s);
  emit EvModuleEnd.

(** Reading a whole stream, from its first byte: the calls the visitor got. *)
Definition read_module (c : wcfg) (input : bytes) : outcome (list event) :=
  do (_, s) <- module c (mkW (mkStream input false 0) false []); Ok (w_log s).

(** core/include/Ab/Wasm/NoOpVisitor.hpp 72: the body is left in the stream. *)
Definition noop_body (index : Z) (b : fbody) : M unit := ret tt.

(** disasm/src/ab-disasm-main.cpp 96-102 (types_), 146-161: function_body of ab-disasm: types_[index]
    without a check, then the expressions of [body.size] bytes; core/include/Ab/Wasm/Printing.hpp
    320-336: a block with an unknown type code is refused. *)
Definition is_function (e : event) : bool := match e with EvFunction _ _ => true | _ => false end.
Definition known_type (t : Z) : bool := existsb (Z.eqb t) [127; 126; 125; 124; 112; 96; 64].
Definition print_expr (e : expr) : M unit :=
  match e_imm e with
  | IType t => if (e_op e =? 2) && negb (known_type t) then throw StdException else emit (EvExpr e)
  | _ => emit (EvExpr e)
  end.
Definition disasm_body (lim : Z) (index : Z) (b : fbody) : M unit := fun s =>
  if Z.of_nat (length (filter is_function (w_log s))) <=? index then UB OutOfBounds
  else read_exprs (mkCfg lim false noop_body) (fb_size b) print_expr s.
Definition disasm_cfg (lim : Z) (strict : bool) : wcfg := mkCfg lim strict (disasm_body lim).
Definition noop_cfg (lim : Z) (strict : bool) : wcfg := mkCfg lim strict noop_body.
