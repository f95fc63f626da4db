(** What bytecode means: an abstract machine with a list of 32-bit registers, and the notions
    used to state the properties of the interpreter.  Uses only the record fields of the
    machine state, and [bytes_at] of CodecSpec. *)

From Coq Require Import ZArith List Bool.
From Verif Require Import Outcome VarIntModel CodecModel CodecSpec InterpModel.
Import ListNotations.
Local Open Scope Z_scope.

(** * Instructions *)

Inductive op :=
| ONop | OHalt | OUnreachable | OReturn
| ORet32 (src : Z)
| OGoto (off : Z) | OGotoIf (tst off : Z) | OGotoUnless (tst off : Z)
| OAdd (dst lhs rhs : Z) | OSub (dst lhs rhs : Z).

(** The bytes of an instruction; offsets are signed bytes. *)
Definition enc (o : op) : bytes :=
  match o with
  | OUnreachable => [0]
  | ONop => [1]
  | OHalt => [4]
  | OReturn => [12]
  | ORet32 s => [13; s]
  | OGoto off => [22; off mod 256]
  | OGotoIf t off => [23; t; off mod 256]
  | OGotoUnless t off => [24; t; off mod 256]
  | OAdd d l r => [106; d; l; r]
  | OSub d l r => [107; d; l; r]
  end.

(** The registers an instruction names, and its offset. *)
Definition regs_of (o : op) : list Z :=
  match o with
  | ORet32 s => [s]
  | OGotoIf t _ | OGotoUnless t _ => [t]
  | OAdd d l r | OSub d l r => [d; l; r]
  | _ => []
  end.
Definition off_of (o : op) : Z :=
  match o with OGoto off | OGotoIf _ off | OGotoUnless _ off => off | _ => 0 end.

(** Instruction [o] stands at position [p] of the code and ends at [p']. *)
Definition op_at (code : bytes) (p : Z) (o : op) (p' : Z) : Prop :=
  Forall is_byte (regs_of o) /\ -128 <= off_of o < 128 /\ bytes_at code p (enc o) p'.

(** * The abstract machine *)

(** A 32-bit word as a two's complement number. *)
Definition signed (w : Z) : Z := if w <? 2 ^ 31 then w else w - 2 ^ 32.
Definition in_i32 (v : Z) : Prop := - 2 ^ 31 <= v < 2 ^ 31.

(** [rs] with register [i] set to [v]. *)
Fixpoint put (rs : list Z) (i : nat) (v : Z) : list Z :=
  match rs, i with
  | [], _ => []
  | _ :: rs, O => v :: rs
  | r :: rs, S i => r :: put rs i v
  end.

Definition reg (rs : list Z) (i v : Z) : Prop := nth_error rs (Z.to_nat i) = Some v.

(** One instruction that goes on. *)
Inductive astep (code : bytes) : Z * list Z -> Z * list Z -> Prop :=
| a_nop p rs q : op_at code p ONop q -> astep code (p, rs) (q, rs)
| a_goto p rs q off : op_at code p (OGoto off) q -> astep code (p, rs) (q + off, rs)
| a_if p rs q t off v : op_at code p (OGotoIf t off) q -> reg rs t v -> v <> 0 ->
    astep code (p, rs) (q + off, rs)
| a_if_not p rs q t off : op_at code p (OGotoIf t off) q -> reg rs t 0 ->
    astep code (p, rs) (q, rs)
| a_unless p rs q t off : op_at code p (OGotoUnless t off) q -> reg rs t 0 ->
    astep code (p, rs) (q + off, rs)
| a_unless_not p rs q t off v : op_at code p (OGotoUnless t off) q -> reg rs t v -> v <> 0 ->
    astep code (p, rs) (q, rs)
| a_add p rs q d l r x y w : op_at code p (OAdd d l r) q -> reg rs d w ->
    reg rs l x -> reg rs r y -> in_i32 (signed x + signed y) ->
    astep code (p, rs) (q, put rs (Z.to_nat d) ((x + y) mod 2 ^ 32))
| a_sub p rs q d l r x y w : op_at code p (OSub d l r) q -> reg rs d w ->
    reg rs l x -> reg rs r y -> in_i32 (signed x - signed y) ->
    astep code (p, rs) (q, put rs (Z.to_nat d) ((x - y) mod 2 ^ 32)).

Inductive asteps (code : bytes) : Z * list Z -> Z * list Z -> Prop :=
| as_refl s : asteps code s s
| as_step s s1 s2 : astep code s s1 -> asteps code s1 s2 -> asteps code s s2.

(** Where control can go, whatever the registers contain. *)
Inductive succ (code : bytes) (p : Z) : Z -> Prop :=
| s_next o q : op_at code p o q ->
    (match o with ONop | OGotoIf _ _ | OGotoUnless _ _ | OAdd _ _ _ | OSub _ _ _ => True | _ => False end) ->
    succ code p q
| s_jump o q : op_at code p o q ->
    (match o with OGoto _ | OGotoIf _ _ | OGotoUnless _ _ => True | _ => False end) ->
    succ code p (q + off_of o).
Inductive cfg (code : bytes) (start : Z) : Z -> Prop :=
| cfg_start : cfg code start start
| cfg_next p q : cfg code start p -> succ code p q -> cfg code start q.

(** The function at [start] names only registers of its own frame of [n] registers. *)
Definition own_regs (code : bytes) (start n : Z) : Prop :=
  forall p o q, cfg code start p -> op_at code p o q -> Forall (fun i => i < n) (regs_of o).

(** Control never leaves the code or reaches something that is not an instruction. *)
Definition closed (code : bytes) (start : Z) : Prop :=
  forall p, cfg code start p -> exists o q, op_at code p o q.

(** * The concrete machine seen as words *)

Definition word (mem : memory) (a : Z) : Z := le_value (bytes_of mem a 4).
Definition frame_words (mem : memory) (sp : Z) (n : nat) : list Z :=
  map (fun k => word mem (sp + 4 * Z.of_nat k)) (seq 0 n).

(** The two machines agree except for memory, and memory agrees outside [lo, hi). *)
Definition same_but (m m' : mach) (lo hi : Z) : Prop :=
  m_stack m' = m_stack m /\ m_size m' = m_size m /\ m_code m' = m_code m /\
  m_code_base m' = m_code_base m /\ m_ip m' = m_ip m /\ m_sp m' = m_sp m /\ m_fn m' = m_fn m /\
  m_func m' = m_func m /\ m_halted m' = m_halted m /\ m_error m' = m_error m /\
  forall a, ~ (lo <= a < hi) -> m_mem m' a = m_mem m a.

(** The 32-bit words of a list of arguments, low word first. *)
Fixpoint arg_words (ts : list ctype) (xs : list Z) : list Z :=
  match ts, xs with
  | (Uint32 | Int32 | Float) :: ts, x :: xs => x :: arg_words ts xs
  | (Uint64 | Int64 | Double) :: ts, x :: xs => x mod 2 ^ 32 :: x / 2 ^ 32 :: arg_words ts xs
  | _, _ => []
  end.
Definition wide (t : ctype) : bool := match t with Uint64 | Int64 | Double => true | _ => false end.
Definition value_ok (t : ctype) (x : Z) : Prop := 0 <= x < (if wide t then 2 ^ 64 else 2 ^ 32).

(** Bytes of a native frame: the save area and tag, and the eyecatcher in debug builds. *)
Definition frame_bytes (dbg : bool) : Z := if dbg then 40 else 32.

(** A machine that can make a call with [n] registers: its addresses are 64-bit, the stack
    pointer is aligned and there is room. *)
Definition room (dbg : bool) (m : mach) (n : Z) : Prop :=
  0 < m_stack m /\ m_stack m + m_size m <= 2 ^ 64 /\ m_size m < 2 ^ 32 /\
  m_sp m mod 8 = 0 /\ m_sp m <= m_stack m + m_size m /\ m_sp m < 2 ^ 64 /\
  0 <= n /\ m_stack m <= m_sp m - frame_bytes dbg - 4 * n /\
  0 <= m_ip m < 2 ^ 64 /\ 0 <= m_fn m < 2 ^ 64.

(** Base of the new register frame. *)
Definition frame_base (dbg : bool) (m : mach) (n : Z) : Z := m_sp m - frame_bytes dbg - 4 * n.

(** A reference evaluator of straight-line code on registers: the result of the first
    x32.return.  [None] if a register does not exist, an addition overflows the signed
    range, or the list ends. *)
Fixpoint eval (is : list insn) (rs : list Z) : option Z :=
  match is with
  | [] => None
  | Nop :: is => eval is rs
  | I32Add d l r :: is =>
    match nth_error rs (Z.to_nat d), nth_error rs (Z.to_nat l), nth_error rs (Z.to_nat r) with
    | Some _, Some x, Some y =>
      let v := signed x + signed y in
      if (- 2 ^ 31 <=? v) && (v <? 2 ^ 31)
      then eval is (put rs (Z.to_nat d) ((x + y) mod 2 ^ 32)) else None
    | _, _, _ => None
    end
  | X32Return s :: _ => nth_error rs (Z.to_nat s)
  | _ :: _ => None
  end.

(** * Calls *)

(** Each 64-bit argument, the first one being stored at address [a], is stored at a multiple
    of eight. *)
Fixpoint aligned_args (a : Z) (ts : list ctype) : Prop :=
  match ts with
  | [] => True
  | t :: ts => (wide t = true -> a mod 8 = 0) /\ aligned_args (a + if wide t then 8 else 4) ts
  end.

(** Number of 32-bit words taken by values of the given types. *)
Fixpoint words_taken (ts : list ctype) : Z :=
  match ts with [] => 0 | t :: ts => (if wide t then 2 else 1) + words_taken ts end.

(** The interpreter's stack and the machine's registers are valid 64-bit values. *)
Definition machine64 (m : mach) : Prop :=
  0 <= m_ip m < 2 ^ 64 /\ 0 <= m_sp m < 2 ^ 64 /\ 0 <= m_fn m < 2 ^ 64.

(** [m'] is [m] except for the memory in [lo, hi) and the function last entered. *)
Definition restored (m m' : mach) (lo hi : Z) : Prop :=
  m_ip m' = m_ip m /\ m_sp m' = m_sp m /\ m_fn m' = m_fn m /\
  m_stack m' = m_stack m /\ m_size m' = m_size m /\ m_code m' = m_code m /\
  m_code_base m' = m_code_base m /\ m_halted m' = m_halted m /\
  forall a, ~ (lo <= a < hi) -> m_mem m' a = m_mem m a.

(** Only x32.return ends the function at [start]. *)
Definition returns_word (code : bytes) (start : Z) : Prop :=
  forall p o q, cfg code start p -> op_at code p o q ->
    match o with OHalt | OUnreachable | OReturn => False | _ => True end.

(** The registers of a callee at entry: the arguments' words, then whatever the stack
    contained. *)
Definition initial_regs (dbg : bool) (m : mach) (n : Z) (As : list ctype) (xs : list Z) : list Z :=
  arg_words As xs ++
  frame_words (m_mem m) (frame_base dbg m n + 4 * words_taken As) (Z.to_nat (n - words_taken As)).

(** No undefined behaviour other than signed overflow, and no exception. *)
Definition at_most_overflow {A} (o : outcome A) : Prop :=
  match o with Ok _ | OutOfFuel | Trap Assertion | UB SignedOverflow => True | _ => False end.

(** What a caller has to respect to call a function with signature and register count of [f]:
    the declared types, room on the stack, 64-bit arguments at aligned addresses. *)
Record can_call (dbg : bool) (m : mach) (f : finst) (As : list ctype) (xs : list Z) (Rs : list ctype)
  : Prop := {
  cc_room : room dbg m (fi_nregs f);
  cc_bytes : forall a, is_byte (m_mem m a);
  cc_values : Forall2 value_ok As xs;
  cc_regs : words_taken As <= fi_nregs f;
  cc_aligned : aligned_args (frame_base dbg m (fi_nregs f)) As;
  cc_halted : m_halted m = true;
  cc_args : map to_val_type As = ft_args (fi_type f);
  cc_rets : map to_val_type Rs = ft_rets (fi_type f) }.
