(** Model of the bytecode interpreter and of native-to-interpreter calls:
    core/src/ab-core-Interpreter.cpp.jinja, core/include/Ab/Interpreter.hpp.jinja, State.hpp,
    core/src/ab-core-Entry.nasm and core/include/Ab/VirtualMachine.hpp, with the type
    machinery of core/include/Ab/Types.hpp.

    Addresses are integers, null is 0.  Two disjoint regions are accessible: the
    interpreter's stack (read and write) and the module's bytes (read only); any other access
    is undefined behaviour, and so is an access that is not aligned for its type.  Computing
    a pointer outside the regions is not itself flagged (simplification; C++ leaves most of
    these undefined too). *)

From Coq Require Import ZArith List Bool.
From Verif Require Import Outcome VarIntModel CodecModel.
Import ListNotations.
Local Open Scope Z_scope.

(** * Memory *)

Definition memory := Z -> Z.

Definition bytes_of (mem : memory) (a : Z) (n : nat) : bytes :=
  map (fun i => mem (a + Z.of_nat i)) (seq 0 n).

Definition update (mem : memory) (a : Z) (n : nat) (v : Z) : memory :=
  fun x => if (a <=? x) && (x <? a + Z.of_nat n) then v / 2 ^ (8 * (x - a)) mod 256 else mem x.

(** core/include/Ab/Func.hpp 86-180 (FuncInst), the fields used *)
Record finst := mkFI { fi_type : functype; fi_nregs : Z; fi_body : Z }.

(** core/include/Ab/State.hpp 35, 54-82; [m_fn] is an address, always null so far (line 343 of
    the interpreter); [m_func] is state.st_b.func *)
Record mach := mkMach {
  m_mem : memory; m_stack : Z; m_size : Z;          (* stack allocation *)
  m_code : bytes; m_code_base : Z;                  (* module bytes *)
  m_ip : Z; m_sp : Z; m_fn : Z;
  m_func : option finst; m_halted : bool; m_error : bool }.

Definition with_mem (m : mach) (mem : memory) : mach :=
  mkMach mem (m_stack m) (m_size m) (m_code m) (m_code_base m) (m_ip m) (m_sp m) (m_fn m)
    (m_func m) (m_halted m) (m_error m).
Definition with_regs (m : mach) (ip sp fn : Z) : mach :=
  mkMach (m_mem m) (m_stack m) (m_size m) (m_code m) (m_code_base m) ip sp fn
    (m_func m) (m_halted m) (m_error m).
Definition with_func (m : mach) (f : finst) : mach :=
  mkMach (m_mem m) (m_stack m) (m_size m) (m_code m) (m_code_base m) (m_ip m) (m_sp m) (m_fn m)
    (Some f) (m_halted m) (m_error m).
Definition with_error (m : mach) : mach :=
  mkMach (m_mem m) (m_stack m) (m_size m) (m_code m) (m_code_base m) (m_ip m) (m_sp m) (m_fn m)
    (m_func m) (m_halted m) true.

(** Access to [n] bytes of the stack at [a], for a type of size and alignment [n]. *)
Definition check_stack (m : mach) (a : Z) (n : nat) : outcome unit :=
  if negb ((m_stack m <=? a) && (a + Z.of_nat n <=? m_stack m + m_size m)) then UB OutOfBounds
  else if negb (a mod Z.of_nat n =? 0) then UB Misaligned
  else Ok tt.
Definition load_stack (m : mach) (a : Z) (n : nat) : outcome Z :=
  check_stack m a n ;; Ok (le_value (bytes_of (m_mem m) a n)).
Definition store_stack (m : mach) (a : Z) (n : nat) (v : Z) : outcome mach :=
  check_stack m a n ;; Ok (with_mem m (update (m_mem m) a n v)).

(** * Registers and operands *)

(** core/include/Ab/Types.hpp 14 *)
Definition SIZEOF_SLOT : Z := 4.

(** core/src/ab-core-Interpreter.cpp.jinja 113-132 *)
Definition reg_addr (sp index : Z) : Z := sp + index * SIZEOF_SLOT.

(** core/src/ab-core-Interpreter.cpp.jinja 138-143, 149: operands are one byte *)
Definition u8_at (m : mach) (a : Z) : outcome Z :=
  if negb ((m_code_base m <=? a) && (a <? m_code_base m + Z.of_nat (length (m_code m))))
  then UB OutOfBounds
  else match nth_error (m_code m) (Z.to_nat (a - m_code_base m)) with
       | Some b => Ok b
       | None => UB OutOfBounds
       end.
Definition i8_at (m : mach) (a : Z) : outcome Z := do b <- u8_at m a; Ok (to_signed 8 b).

(** int32_t arithmetic: overflow is undefined *)
Definition i32_result (v : Z) : outcome Z :=
  if (- 2 ^ 31 <=? v) && (v <? 2 ^ 31) then Ok (v mod 2 ^ 32) else UB SignedOverflow.

(** core/include/Ab/State.hpp 37: the actions do_interpret returns *)
Inductive action := EXIT (ret : Z) | HALT.

(** core/src/ab-core-Interpreter.cpp.jinja 260-265: COMMIT_STATE (sp and fn never change) *)
Definition commit (m : mach) (ip : Z) : mach := with_regs m ip (m_sp m) (m_fn m).

(** core/include/Ab/Interpreter.hpp.jinja 51-59, 72: FrameKind(value_) keeps the low byte *)
Definition frame_kind (tag : Z) : Z := tag mod 256.
Definition NATIVE : Z := 0.

(** core/src/ab-core-Interpreter.cpp.jinja 734-735, 758-759: the tag is read at the address
    just after the registers.  nreg_bytes is std::uint32_t (core/include/Ab/Func.hpp 140). *)
Definition read_tag (m : mach) : outcome Z :=
  match m_func m with
  | None => UB NullDeref
  | Some f => load_stack m (m_sp m + (fi_nregs f * 4) mod 2 ^ 32) 4
  end.

(** One instruction: core/src/ab-core-Interpreter.cpp.jinja 402-403 (dispatch), 406-663
    (table), 672-815 (code).  The result is the next instruction pointer or an action. *)
Definition step (m : mach) (ip : Z) : outcome (mach * (Z + action)) :=
  do opcode <- u8_at m ip;
  let sp := m_sp m in
  if opcode =? 0 then                                                    (* 676-680 *)
    Ok (with_error (commit m ip), inr (EXIT 0))
  else if opcode =? 1 then                                               (* 682-685 *)
    Ok (m, inl (ip + 1))
  else if opcode =? 4 then                                               (* 687-690 *)
    Ok (commit m ip, inr HALT)
  else if opcode =? 12 then                                              (* 731-748 *)
    do tag <- read_tag m;
    if frame_kind tag =? NATIVE then Ok (commit m ip, inr (EXIT 0)) else Trap Assertion
  else if opcode =? 13 then                                              (* 750-768 *)
    do idx <- u8_at m (ip + 1);
    do _ <- load_stack m (reg_addr sp idx) 4;            (* 754-756: the trace prints it *)
    do tag <- read_tag m;
    if frame_kind tag =? NATIVE then Ok (commit m ip, inr (EXIT (reg_addr sp idx)))
    else Trap Assertion
  else if opcode =? 22 then                                              (* 697-703 *)
    do off <- i8_at m (ip + 1);
    Ok (m, inl (ip + (off + 2)))
  else if opcode =? 23 then                                              (* 705-716 *)
    do idx <- u8_at m (ip + 1);
    do off <- i8_at m (ip + 2);
    do val <- load_stack m (reg_addr sp idx) 4;
    Ok (m, inl ((if negb (val =? 0) then ip + off else ip) + 3))
  else if opcode =? 24 then                                              (* 718-729 *)
    do idx <- u8_at m (ip + 1);
    do off <- i8_at m (ip + 2);
    do val <- load_stack m (reg_addr sp idx) 4;
    Ok (m, inl ((if val =? 0 then ip + off else ip) + 3))
  else if opcode =? 106 then                                             (* 783-798 *)
    do dst <- u8_at m (ip + 1);
    do lhs <- u8_at m (ip + 2);
    do rhs <- u8_at m (ip + 3);
    do l <- load_stack m (reg_addr sp lhs) 4;
    do r <- load_stack m (reg_addr sp rhs) 4;
    do v <- i32_result (to_signed 32 l + to_signed 32 r);
    do m <- store_stack m (reg_addr sp dst) 4 v;
    Ok (m, inl (ip + 4))
  else if opcode =? 107 then                                             (* 800-815 *)
    do dst <- u8_at m (ip + 1);
    do lhs <- u8_at m (ip + 2);
    do rhs <- u8_at m (ip + 3);
    do l <- load_stack m (reg_addr sp lhs) 4;
    do r <- load_stack m (reg_addr sp rhs) 4;
    do v <- i32_result (to_signed 32 l - to_signed 32 r);
    do m <- store_stack m (reg_addr sp dst) 4 v;
    Ok (m, inl (ip + 4))
  else Trap Assertion.                                          (* 672-674, 692-695, 770-774 *)

(** core/src/ab-core-Interpreter.cpp.jinja 405, 665-670: the loop *)
Fixpoint run (fuel : nat) (m : mach) (ip : Z) : outcome (mach * action) :=
  match fuel with
  | O => OutOfFuel
  | S fuel =>
    do (m, next) <- step m ip;
    match next with
    | inl ip => run fuel m ip
    | inr a => Ok (m, a)
    end
  end.

(** core/src/ab-core-Interpreter.cpp.jinja 367-396, for ExecAction::INTERPRET *)
Definition ab_act (fuel : nat) (m : mach) : outcome (mach * Z) :=
  do (m, a) <- run fuel m (m_ip m);
  match a with
  | EXIT ret => Ok (m, ret)                                              (* 380-382 *)
  | HALT => Ok (m, 0)                                                    (* 389-391 *)
  end.

(** core/src/ab-core-Entry.nasm 10-19: int 3 unless the condition is HALTED *)
Definition ab_interpret_func (fuel : nat) (m : mach) : outcome (mach * Z) :=
  do (m, r) <- ab_act fuel m;
  if m_halted m then Ok (m, r) else Trap Assertion.

(** core/src/ab-core-Interpreter.cpp.jinja 340-351 *)
Definition enter_interpreter (fuel : nat) (m : mach) (f : finst) : outcome (mach * Z) :=
  ab_interpret_func fuel (with_regs (with_func m f) (fi_body f) (m_sp m) 0).

(** * Frames.  [dbg] is whether AB_DEBUG is defined; the interpreter's first line defines it, so the
    program is [dbg = true] (and x32.return above reads its register for the trace). *)

(** core/src/ab-core-Interpreter.cpp.jinja 298-319, 183-188, 218-221;
    core/include/Ab/Interpreter.hpp.jinja 80-93 (NativeFrame: ip at 0, sp at 8, fn at 16,
    tag at 24, 32 bytes, aligned to 8) *)
Definition enter_native_frame (dbg : bool) (m : mach) (nregs : Z) : outcome mach :=
  let sp := m_sp m in
  do (m, stack) <-
    (if dbg then do m <- store_stack m (sp - 8) 8 3735928559; Ok (m, sp - 8)  (* 303 *)
     else Ok (m, sp));
  let frame := stack - 32 in
  (if negb (frame mod 8 =? 0) then UB Misaligned else Ok tt) ;;
  do m <- store_stack m (frame + 24) 4 NATIVE;                           (* 306 *)
  do m <- store_stack m (frame + 8) 8 sp;                                (* 308 *)
  do m <- store_stack m frame 8 (m_ip m);                                (* 309 *)
  do m <- store_stack m (frame + 16) 8 (m_fn m);                         (* 310 *)
  Ok (with_regs m (m_ip m) (frame - nregs * SIZEOF_SLOT) (m_fn m)).      (* 312-318 *)

(** core/src/ab-core-Interpreter.cpp.jinja 321-338 *)
Definition leave_native_frame (dbg : bool) (m : mach) (nregs : Z) : outcome mach :=
  let frame := m_sp m + nregs * SIZEOF_SLOT in                           (* 323-326 *)
  do sp <- load_stack m (frame + 8) 8;
  do ip <- load_stack m frame 8;
  do fn <- load_stack m (frame + 16) 8;
  let m := with_regs m ip sp fn in                                       (* 328-330 *)
  (if dbg then do e <- load_stack m (frame + 32) 8; ab_assert (e =? 3735928559)
   else Ok tt) ;;                                                        (* 333-334 *)
  Ok m.

(** * static_call *)

(** The C++ types that have a ValType (core/include/Ab/Types.hpp 27-43); a value is its bit
    pattern. *)
Inductive ctype := Uint32 | Int32 | Uint64 | Int64 | Float | Double.

(** core/include/Ab/Types.hpp 21-46 *)
Definition to_val_type (t : ctype) : Z :=
  match t with
  | Uint64 | Int64 => I64
  | Uint32 | Int32 => I32
  | Float => F32
  | Double => F64
  end.

(** core/include/Ab/Types.hpp 53-78 (slots_taken, slot_sizeof) *)
Definition slot_sizeof (t : ctype) : Z :=
  match t with Uint32 | Int32 | Float => 1 | Uint64 | Int64 | Double => 2 end.

(** sizeof on x86-64 *)
Definition sizeof (t : ctype) : nat :=
  match t with Uint32 | Int32 | Float => 4%nat | Uint64 | Int64 | Double => 8%nat end.

(** core/include/Ab/Types.hpp 82-109: nth_slot_index and nth_slot_offset, the sum of the slots
    of the first n types *)
Definition nth_slot_index (n : nat) (ts : list ctype) : Z :=
  fold_right Z.add 0 (map slot_sizeof (firstn n ts)).
Definition nth_slot_offset (n : nat) (ts : list ctype) : Z := nth_slot_index n ts * SIZEOF_SLOT.

(** core/include/Ab/Types.hpp 165-177 *)
Fixpoint types_equal (fix_types dyn_types : list Z) : bool :=            (* 171-175 *)
  match fix_types, dyn_types with
  | [], _ => true
  | f :: fs, d :: ds => if negb (f =? d) then false else types_equal fs ds
  | _ :: _, [] => false
  end.
Definition types_match (ts : list ctype) (dyn_types : list Z) : bool :=
  let fix_types := map to_val_type ts in
  if negb (Nat.eqb (length fix_types) (length dyn_types)) then false     (* 168-170 *)
  else types_equal fix_types dyn_types.

(** core/include/Ab/VirtualMachine.hpp 104-136: the elements in order, the i-th at its slot *)
Fixpoint set_elements (m : mach) (base : Z) (all : list ctype) (i : nat) (xs : list (ctype * Z))
  : outcome mach :=
  match xs with
  | [] => Ok m
  | (t, x) :: xs =>
    do m <- store_stack m (base + nth_slot_offset i all) (sizeof t) x;
    set_elements m base all (S i) xs
  end.
Definition set_stack_elements (m : mach) (base : Z) (ts : list ctype) (vs : list Z) : outcome mach :=
  set_elements m base ts 0 (combine ts vs).

Fixpoint get_elements (m : mach) (base : Z) (all : list ctype) (i : nat) (ts : list ctype)
  : outcome (list Z) :=
  match ts with
  | [] => Ok []
  | t :: ts =>
    do x <- (if base =? 0 then UB NullDeref
             else load_stack m (base + nth_slot_offset i all) (sizeof t));
    do xs <- get_elements m base all (S i) ts;
    Ok (x :: xs)
  end.
Definition get_stack_elements (m : mach) (base : Z) (ts : list ctype) : outcome (list Z) :=
  get_elements m base ts 0 ts.

(** core/include/Ab/VirtualMachine.hpp 177-192 *)
Definition static_call (fuel : nat) (dbg : bool) (m : mach) (f : finst)
    (As : list ctype) (xs : list Z) (Rs : list ctype) : outcome (list Z * mach) :=
  ab_assert (types_match As (ft_args (fi_type f))) ;;                    (* 180 *)
  ab_assert (types_match Rs (ft_rets (fi_type f))) ;;                    (* 181 *)
  do m <- enter_native_frame dbg m (fi_nregs f);                         (* 183 *)
  do m <- set_stack_elements m (m_sp m) As xs;                           (* 184 *)
  do (m, ret_ptr) <- enter_interpreter fuel m f;                         (* 186 *)
  do ret <- get_stack_elements m ret_ptr Rs;                             (* 188 *)
  do m <- leave_native_frame dbg m (fi_nregs f);                         (* 189 *)
  Ok (ret, m).

(** core/include/Ab/VirtualMachine.hpp 194-197: the overload by index does not pass Rs on *)
Definition static_call_index (fuel : nat) (dbg : bool) (m : mach) (mod_insts : list finst)
    (index : nat) (As : list ctype) (xs : list Z) : outcome (list Z * mach) :=
  match nth_error mod_insts index with
  | None => Trap Assertion                       (* core/include/Ab/Module.hpp 145-148 *)
  | Some f => static_call fuel dbg m f As xs []
  end.

(** core/src/ab-core-Interpreter.cpp.jinja 278-290: a new interpreter, its stack at [base]
    (operator new aligns it to 16); the initial contents are arbitrary ([mem]). *)
Definition new_interpreter (mem : memory) (base : Z) (code : bytes) (code_base : Z) : mach :=
  mkMach mem base 2048 code code_base 0 (base + 2048) 0 None true false.

(** The instance of function [f] of module [m] whose bytes are at [code_base]
    (core/include/Ab/Func.hpp 88-94, core/include/Ab/Module.hpp 195-200). *)
Definition instance (m : module) (code_base : Z) (f : func) : finst :=
  mkFI (nth (Z.to_nat (f_type f)) (m_types m) (mkFT [] [])) (f_nregs f) (code_base + f_body f).

(** The example module of CodecModel: function 0 adds its arguments. *)
Example add_runs :
  match compile [97; 98; 97; 98; 1; 0; 0; 0;
    1; 11; 2; 96; 2; 127; 127; 1; 127; 96; 0; 1; 126;
    3; 3; 2; 0; 1;
    10; 13; 2; 7; 1; 106; 2; 0; 1; 13; 2; 3; 0; 1; 4] with
  | Ok md =>
    match nth_error (m_funcs md) 0 with
    | Some f =>
      let m := new_interpreter (fun _ => 0) 4096 [97; 98; 97; 98; 1; 0; 0; 0;
        1; 11; 2; 96; 2; 127; 127; 1; 127; 96; 0; 1; 126;
        3; 3; 2; 0; 1;
        10; 13; 2; 7; 1; 106; 2; 0; 1; 13; 2; 3; 0; 1; 4] 65536 in
      do (r, m') <- static_call 10 true m (instance md 65536 f) [Int32; Uint32] [40; 2] [Int32];
      Ok (r, m_sp m' =? m_sp m, m_ip m')
    | None => Trap Assertion
    end
  | _ => Trap Assertion
  end = Ok ([42], true, 0).
Proof. vm_compute. reflexivity. Qed.
