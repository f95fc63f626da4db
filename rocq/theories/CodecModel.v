(** Model of the module writer (core/include/Ab/ModuleBuilder.hpp, ModuleWriter.hpp) and of
    the module compiler (core/src/ab-core-Loading.cpp), with the parts of
    core/include/Ab/Types.hpp, Func.hpp and Module.hpp they use. *)

From Coq Require Import ZArith List Bool.
From Verif Require Import Outcome VarIntModel.
Import ListNotations.
Local Open Scope Z_scope.

(** * Types (core/include/Ab/Types.hpp) *)

(** core/include/Ab/ModuleConstants.hpp 31-39: a ValType is any byte. *)
Definition I32 : Z := 127.
Definition I64 : Z := 126.
Definition F32 : Z := 125.
Definition F64 : Z := 124.
Definition FUNC : Z := 96.

(** core/include/Ab/Types.hpp 146-159: nreg(type) *)
Definition nreg (t : Z) : Z :=
  if t =? I32 then 1 else if t =? I64 then 2 else if t =? F32 then 1
  else if t =? F64 then 2 else 2 ^ 64 - 1.

(** core/include/Ab/Types.hpp 209, 276-280 *)
Record functype := mkFT { ft_args : list Z; ft_rets : list Z }.

(** core/include/Ab/Types.hpp 252-258, 264-270: a 32-bit sum *)
Fixpoint sum_nregs (n : Z) (ts : list Z) : Z :=
  match ts with
  | [] => n
  | t :: ts => sum_nregs ((n + nreg t) mod 2 ^ 32) ts
  end.
Definition arg_nregs (t : functype) : Z := sum_nregs 0 (ft_args t).
Definition ret_nregs (t : functype) : Z := sum_nregs 0 (ft_rets t).

(** * Describing a module (core/include/Ab/ModuleBuilder.hpp) *)

(** core/include/Ab/ModuleBuilder.hpp 29-38, 82-162: the instruction nodes; operands are
    std::uint32_t. *)
Inductive insn :=
| Unreachable | Halt | Nop
| I32Add (dst lhs rhs : Z)
| Return | X32Return (src : Z) | X64Return (src : Z).

(** core/include/Ab/ModuleBuilder.hpp 271-273 *)
Record funcnode := mkFN { fn_type_idx : Z; fn_nregs : Z; fn_insns : list insn }.
(** core/include/Ab/ModuleBuilder.hpp 304-305 *)
Record modnode := mkMN { mn_types : list functype; mn_funcs : list funcnode }.

(** * Writing (core/include/Ab/ModuleWriter.hpp)

    Appending to a ByteBuffer is appending to a byte list (ByteBufferProps, C06). *)

Fixpoint append_all {A} (f : A -> outcome bytes) (l : list A) : outcome bytes :=
  match l with
  | [] => Ok []
  | x :: l => do a <- f x; do b <- append_all f l; Ok (a ++ b)
  end.

(** The bytes of a 32-bit number in memory (buffer.append(std::uint32_t)). *)
Fixpoint le_bytes (n : nat) (v : Z) : bytes :=
  match n with
  | O => []
  | S n => v mod 256 :: le_bytes n (v / 256)
  end.

Definition size (bs : bytes) : Z := Z.of_nat (length bs).

(** core/include/Ab/ModuleWriter.hpp 19-29 *)
Definition append_type (t : functype) : outcome bytes :=
  do a <- append_varuint32 (size (ft_args t));                           (* 21 *)
  do r <- append_varuint32 (size (ft_rets t));                           (* 25 *)
  Ok ([FUNC] ++ a ++ ft_args t ++ r ++ ft_rets t).                       (* 20, 22-24, 26-28 *)

(** core/include/Ab/ModuleBuilder.hpp 230-261 (the visit) with
    core/include/Ab/ModuleWriter.hpp 43-66 (the visitor).  The visitor's parameters are
    std::uint8_t: operands are converted modulo 256.  Opcodes:
    core/include/Ab/Opcode.hpp.jinja 11-31. *)
Definition write_insn (i : insn) : bytes :=
  match i with
  | Unreachable => [0]
  | Halt => [4]
  | Nop => [1]
  | I32Add d l r => [106; d mod 256; l mod 256; r mod 256]
  | Return => [12]
  | X32Return s => [13; s mod 256]
  | X64Return s => [14; s mod 256]
  end.

(** core/include/Ab/ModuleBuilder.hpp 225-264, ModuleWriter.hpp 39-66: body_ after accept *)
Definition write_body (is : list insn) : bytes := flat_map write_insn is.

(** core/include/Ab/ModuleWriter.hpp 68-76 *)
Definition code_append_to (f : funcnode) : outcome bytes :=
  do n <- append_varuint32 (fn_nregs f);
  let content := n ++ write_body (fn_insns f) in
  do s <- append_varuint32 (size content);
  Ok (s ++ content).

(** core/include/Ab/ModuleWriter.hpp 142-157, 159-174, 176-191: the three section writers,
    which differ in the section code and the entry writer. *)
Definition append_section {A} (code : Z) (entry : A -> outcome bytes) (l : list A)
  : outcome bytes :=
  match l with
  | [] => Ok []                                                          (* 143-145 *)
  | _ =>
    do n <- append_varuint32 (Z.of_nat (length l));                      (* 149 *)
    do es <- append_all entry l;                                         (* 150-152 *)
    let content := n ++ es in
    do s <- append_varuint32 (size content);                             (* 155 *)
    Ok ([code] ++ s ++ content)                                          (* 154-156 *)
  end.

(** core/include/Ab/ModuleConstants.hpp 11, 13, 15-29 *)
Definition MODULE_MAGIC : Z := 1650549345.   (* 0x62616261 *)
Definition MODULE_VERSION : Z := 1.
Definition S_TYPE : Z := 1.
Definition S_FUNC : Z := 3.
Definition S_CODE : Z := 10.
Definition S_LAST : Z := 11.

(** core/include/Ab/ModuleBuilder.hpp 298-302 with ModuleWriter.hpp 91-95, 134-140.  The
    writer collects types, type indices and codes in order (ModuleWriter.hpp 109, 117, 131;
    ModuleBuilder.hpp 308-335). *)
Definition write (m : modnode) : outcome bytes :=
  do t <- append_section S_TYPE append_type (mn_types m);
  do f <- append_section S_FUNC append_varuint32 (map fn_type_idx (mn_funcs m));
  do c <- append_section S_CODE code_append_to (mn_funcs m);
  Ok (le_bytes 4 MODULE_MAGIC ++ le_bytes 4 MODULE_VERSION ++ t ++ f ++ c).

(** * Compiling (core/src/ab-core-Loading.cpp) *)

(** core/include/Ab/Func.hpp 36-80 (class Func).  The pointer to the type, which points into
    the vector of types, is its index together with the number of types in the vector when
    the pointer was taken: growing the vector may invalidate it.  The pointer to the body is
    an offset in the module's bytes. *)
Record func := mkFunc {
  f_type : Z; f_ntypes : Z;
  f_body : Z; f_var_nregs : Z; f_arg_nregs : Z; f_ret_nregs : Z; f_nregs : Z }.

(** core/include/Ab/Module.hpp 115-118 *)
Record module := mkModule {
  m_types : list functype; m_func_types : list Z; m_funcs : list func }.

(** Repeat a read [n] times, collecting the results. *)
Fixpoint read_n {A} (n : nat) (r : dec A) : dec (list A) :=
  match n with
  | O => dret []
  | S n => let* x := r in let* xs := read_n n r in dret (x :: xs)
  end.

Definition position : dec Z := fun _ p => Ok (p, p).

(** core/src/ab-core-Loading.cpp 26-29 (noexcept) *)
Definition reposition (q : Z) : dec unit :=
  fun bs _ => if (0 <=? q) && (q <=? Z.of_nat (length bs)) then Ok (tt, q) else Trap Assertion.

(** core/src/ab-core-Loading.cpp 119-125 *)
Definition read_section_code : dec Z :=
  let* c := read_byte in if S_LAST <? c then dthrow DecodeError else dret c.

(** core/src/ab-core-Loading.cpp 150-167: one entry of the type section *)
Definition read_type : dec functype :=
  let* v := read_byte in                                                 (* 151 *)
  if negb (v =? FUNC) then dthrow DecodeError                            (* 152-154 *)
  else
    let* nargs := read_varu32 in                                         (* 158 *)
    let* args := read_n (Z.to_nat nargs) read_byte in                    (* 159-161 *)
    let* nrets := read_varu32 in                                         (* 163 *)
    let* rets := read_n (Z.to_nat nrets) read_byte in                    (* 164-166 *)
    dret (mkFT args rets).

(** core/src/ab-core-Loading.cpp 145-173.  If an exception is thrown the module is dropped
    (compile returns nothing), so the partial update of the module is not modelled. *)
Definition decode_type_section (m : module) (sz : Z) : dec module :=
  let* start := position in
  let* n := read_varu32 in
  let* ts := read_n (Z.to_nat n) read_type in
  let* fin := position in
  if negb (fin - start =? sz) then dthrow DecodeError
  else dret (mkModule (m_types m ++ ts) (m_func_types m) (m_funcs m)).

(** core/src/ab-core-Loading.cpp 175-189.  reserve(nfuncs) at line 179 may throw
    std::bad_alloc on a machine with less than 4 * nfuncs bytes: not modelled. *)
Definition decode_func_section (m : module) (sz : Z) : dec module :=
  let* start := position in
  let* n := read_varu32 in
  let* is := read_n (Z.to_nat n) read_varu32 in
  let* fin := position in
  if negb (fin - start =? sz) then dthrow DecodeError
  else dret (mkModule (m_types m) (m_func_types m ++ is) (m_funcs m)).

(** core/include/Ab/Module.hpp 109-112: type_for is noexcept, so a failing .at() terminates *)
Definition type_for (m : module) (i : nat) : outcome (Z * functype) :=
  match nth_error (m_func_types m) i with
  | None => Trap Terminate                                               (* 110 *)
  | Some t => match nth_error (m_types m) (Z.to_nat t) with
              | None => Trap Terminate                                   (* 111 *)
              | Some ft => Ok (t, ft)
              end
  end.

(** core/include/Ab/Func.hpp 38-44: constructor of Func *)
Definition mk_func (ntypes : Z) (t : Z * functype) (body nregs : Z) : func :=
  let a := arg_nregs (snd t) in
  mkFunc (fst t) ntypes body nregs a (ret_nregs (snd t)) ((nregs + a) mod 2 ^ 32).

(** core/src/ab-core-Loading.cpp 202-209: the loop, from entry [i], [n] entries left *)
Fixpoint decode_codes (m : module) (i n : nat) : dec (list func) :=
  match n with
  | O => dret []
  | S n =>
    let* sz := read_varu32 in                                            (* 203 *)
    let* start := position in                                            (* 204 *)
    let* nregs := read_varu32 in                                         (* 205 *)
    let* body := position in                                             (* 206 *)
    let* _ := reposition (start + sz) in                                 (* 207 *)
    let* t := (fun _ p => do t <- type_for m i; Ok (t, p)) in            (* 208 *)
    let f := mk_func (Z.of_nat (length (m_types m))) t body nregs in
    let* fs := decode_codes m (S i) n in
    dret (f :: fs)
  end.

(** core/src/ab-core-Loading.cpp 191-210: the declared size is not used *)
Definition decode_code_section (m : module) (sz : Z) : dec module :=
  let* n := read_varu32 in                                               (* 194 *)
  if negb (n =? Z.of_nat (length (m_func_types m))) then dthrow DecodeError  (* 196-198 *)
  else
    let* fs := decode_codes m 0 (Z.to_nat n) in
    dret (mkModule (m_types m) (m_func_types m) (m_funcs m ++ fs)).

Definition at_end : dec bool := fun bs p => Ok (p =? Z.of_nat (length bs), p).

(** core/src/ab-core-Loading.cpp 227-245: the section loop *)
Fixpoint sections (fuel : nat) (m : module) : dec module :=
  match fuel with
  | O => fun _ _ => OutOfFuel
  | S fuel =>
    let* e := at_end in
    if (e : bool) then dret m
    else
      let* code := read_section_code in                                  (* 228 *)
      let* sz := read_varu32 in                                          (* 229 *)
      let* m :=
        (if code =? S_TYPE then decode_type_section m sz                 (* 232-234 *)
         else if code =? S_FUNC then decode_func_section m sz            (* 235-237 *)
         else if code =? S_CODE then decode_code_section m sz            (* 238-240 *)
         else dtrap Assertion) in                                        (* 241-243 *)
      sections fuel m
  end.

(** core/src/ab-core-Loading.cpp 212-248.  The fuel is enough for any input (CodecProps). *)
Definition compile (bs : bytes) : outcome module :=
  do (m, _) <-
    (let* magic := read_u32 in                                           (* 217 *)
     if negb (magic =? MODULE_MAGIC) then dthrow DecodeError             (* 218-220 *)
     else
       let* version := read_u32 in                                       (* 222 *)
       if negb (version =? MODULE_VERSION) then dthrow DecodeError       (* 223-225 *)
       else sections (S (length bs)) (mkModule [] [] [])) bs 0;
  Ok m.

(** core/include/Ab/Module.hpp 126-155, 195-200: instantiation makes one instance per
    function, in order, and func_inst checks the index. *)
Definition func_inst (m : module) (index : Z) : outcome func :=
  ab_assert (index <? Z.of_nat (length (m_funcs m))) ;;
  match nth_error (m_funcs m) (Z.to_nat index) with
  | Some f => Ok f
  | None => UB OutOfBounds
  end.

(** A complete example: two types, one adding function. *)
Example add_module : modnode :=
  mkMN [mkFT [I32; I32] [I32]; mkFT [] [I64]]
       [mkFN 0 1 [I32Add 2 0 1; X32Return 2]; mkFN 1 0 [Nop; Halt]].
Example add_bytes :
  write add_module = Ok [97; 98; 97; 98; 1; 0; 0; 0;
    1; 11; 2; 96; 2; 127; 127; 1; 127; 96; 0; 1; 126;
    3; 3; 2; 0; 1;
    10; 13; 2; 7; 1; 106; 2; 0; 1; 13; 2; 3; 0; 1; 4].
Proof. vm_compute. reflexivity. Qed.
Example add_compiles :
  compile [97; 98; 97; 98; 1; 0; 0; 0;
    1; 11; 2; 96; 2; 127; 127; 1; 127; 96; 0; 1; 126;
    3; 3; 2; 0; 1;
    10; 13; 2; 7; 1; 106; 2; 0; 1; 13; 2; 3; 0; 1; 4] =
  Ok (mkModule [mkFT [I32; I32] [I32]; mkFT [] [I64]] [0; 1]
       [mkFunc 0 2 31 1 2 1 3; mkFunc 1 2 39 0 0 2 0]).
Proof. vm_compute. reflexivity. Qed.
