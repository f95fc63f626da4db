(** What a module file is: a declarative grammar over positions in a byte string, written
    without reference to the decoder.  [LebSpec] gives the numbers. *)

From Coq Require Import ZArith List Bool.
From Verif Require Import Outcome LebSpec CodecModel.
Import ListNotations.
Local Open Scope Z_scope.

(** The bytes [g] stand in [bs] at position [p] and end at [p']. *)
Definition bytes_at (bs : bytes) (p : Z) (g : bytes) (p' : Z) : Prop :=
  exists pre post, bs = pre ++ g ++ post /\ Z.of_nat (length pre) = p /\
    p' = p + Z.of_nat (length g).

(** A LEB128 number of at most five bytes, taken modulo 2^32. *)
Definition u32_at (bs : bytes) (p v p' : Z) : Prop :=
  exists g, bytes_at bs p g p' /\ leb_shape g /\ (length g <= 5)%nat /\
    v = uleb_value g mod 2 ^ 32.

(** Consecutive elements. *)
Inductive seq_at {A} (E : Z -> A -> Z -> Prop) : Z -> list A -> Z -> Prop :=
| seq_nil p : seq_at E p [] p
| seq_cons p x p1 xs p2 : E p x p1 -> seq_at E p1 xs p2 -> seq_at E p (x :: xs) p2.

(** A counted vector. *)
Definition vec_at {A} (bs : bytes) (E : Z -> A -> Z -> Prop) (p : Z) (xs : list A) (p' : Z) : Prop :=
  exists p1, u32_at bs p (Z.of_nat (length xs)) p1 /\ seq_at E p1 xs p'.

Definition byte_at (bs : bytes) (p b p' : Z) : Prop := bytes_at bs p [b] p'.

Definition type_at (bs : bytes) (p : Z) (t : functype) (p' : Z) : Prop :=
  exists p1 p2, byte_at bs p 96 p1 /\ vec_at bs (byte_at bs) p1 (ft_args t) p2 /\
    vec_at bs (byte_at bs) p2 (ft_rets t) p'.

(** Registers (4-byte slots) of a list of value types, modulo 2^32. *)
Definition slots (t : Z) : Z :=
  if (t =? 127) || (t =? 125) then 1 else if (t =? 126) || (t =? 124) then 2 else -1.
Definition slots_of (ts : list Z) : Z := fold_right Z.add 0 (map slots ts) mod 2 ^ 32.

(** The entry of function number [i], whose declared type index is [ti], decoded when the
    module has types [ts]: its size, then the register count; the code starts after it.
    The entry ends [sz] bytes after the size field, inside the file. *)
Definition code_at (bs : bytes) (ts : list functype) (p ti : Z) (f : func) (p' : Z) : Prop :=
  exists sz p1 t,
    u32_at bs p sz p1 /\ u32_at bs p1 (f_var_nregs f) (f_body f) /\
    p' = p1 + sz /\ p' <= Z.of_nat (length bs) /\
    nth_error ts (Z.to_nat ti) = Some t /\
    f_type f = ti /\ f_ntypes f = Z.of_nat (length ts) /\
    f_arg_nregs f = slots_of (ft_args t) /\ f_ret_nregs f = slots_of (ft_rets t) /\
    f_nregs f = (f_var_nregs f + f_arg_nregs f) mod 2 ^ 32.

Inductive codes_at (bs : bytes) (ts : list functype) : Z -> list Z -> list func -> Z -> Prop :=
| codes_nil p : codes_at bs ts p [] [] p
| codes_cons p ti f p1 tis fs p2 :
    code_at bs ts p ti f p1 -> codes_at bs ts p1 tis fs p2 ->
    codes_at bs ts p (ti :: tis) (f :: fs) p2.

(** One section: what it adds to the module.  Type and function sections have exactly the
    declared size; the declared size of a code section is not looked at. *)
Inductive section_at (bs : bytes) (p : Z) (m : module) : module -> Z -> Prop :=
| sec_type p1 p2 p3 sz ts :
    byte_at bs p 1 p1 -> u32_at bs p1 sz p2 -> vec_at bs (type_at bs) p2 ts p3 -> p3 - p2 = sz ->
    section_at bs p m (mkModule (m_types m ++ ts) (m_func_types m) (m_funcs m)) p3
| sec_func p1 p2 p3 sz is :
    byte_at bs p 3 p1 -> u32_at bs p1 sz p2 -> vec_at bs (u32_at bs) p2 is p3 -> p3 - p2 = sz ->
    section_at bs p m (mkModule (m_types m) (m_func_types m ++ is) (m_funcs m)) p3
| sec_code p1 p2 p3 p4 sz fs :
    byte_at bs p 10 p1 -> u32_at bs p1 sz p2 ->
    u32_at bs p2 (Z.of_nat (length (m_func_types m))) p3 ->
    codes_at bs (m_types m) p3 (m_func_types m) fs p4 ->
    section_at bs p m (mkModule (m_types m) (m_func_types m) (m_funcs m ++ fs)) p4.

Inductive sections_at (bs : bytes) : Z -> module -> module -> Prop :=
| secs_end m : sections_at bs (Z.of_nat (length bs)) m m
| secs_more p m m1 p1 m2 :
    section_at bs p m m1 p1 -> sections_at bs p1 m1 m2 -> sections_at bs p m m2.

(** A module file: "abab", version 1 (little endian), sections up to the end. *)
Definition module_file (bs : bytes) (m : module) : Prop :=
  bytes_at bs 0 [97; 98; 97; 98; 1; 0; 0; 0] 8 /\ sections_at bs 8 (mkModule [] [] []) m.

(** Machine code of the instructions: opcode byte and operand bytes. *)
Definition insn_code (i : insn) : bytes :=
  match i with
  | Unreachable => [0]
  | Nop => [1]
  | Halt => [4]
  | Return => [12]
  | X32Return s => [13; s]
  | X64Return s => [14; s]
  | I32Add d l r => [106; d; l; r]
  end.

(** Descriptions that fit the format. *)
Definition insn_fits (i : insn) : Prop :=
  match i with
  | I32Add d l r => is_byte d /\ is_byte l /\ is_byte r
  | X32Return s | X64Return s => is_byte s
  | _ => True
  end.
Definition func_fits (ntypes : nat) (f : funcnode) : Prop :=
  0 <= fn_type_idx f < Z.of_nat ntypes /\ 0 <= fn_nregs f < 2 ^ 32 /\
  Forall insn_fits (fn_insns f).
Definition type_fits (t : functype) : Prop := is_bytes (ft_args t) /\ is_bytes (ft_rets t).
Definition fits (m : modnode) : Prop :=
  Forall type_fits (mn_types m) /\ Forall (func_fits (length (mn_types m))) (mn_funcs m).

(** A compiled function is the described one: same type, register counts, and its code
    stands at its body address. *)
Definition same_func (bs : bytes) (ts : list functype) (d : funcnode) (f : func) : Prop :=
  exists t p', nth_error ts (Z.to_nat (fn_type_idx d)) = Some t /\
    f_type f = fn_type_idx d /\ f_ntypes f = Z.of_nat (length ts) /\ f_var_nregs f = fn_nregs d /\
    f_arg_nregs f = slots_of (ft_args t) /\ f_ret_nregs f = slots_of (ft_rets t) /\
    f_nregs f = (fn_nregs d + slots_of (ft_args t)) mod 2 ^ 32 /\
    bytes_at bs (f_body f) (flat_map insn_code (fn_insns d)) p'.

(** The entries of the described functions stand one behind the other from [p] to [p']: size,
    register count, code. *)
Inductive stand (bs : bytes) : Z -> list funcnode -> list func -> Z -> Prop :=
| stand_nil p : stand bs p [] [] p
| stand_cons p d f sz p1 p2 ds fs p' :
    u32_at bs p sz p1 -> u32_at bs p1 (fn_nregs d) (f_body f) ->
    bytes_at bs (f_body f) (flat_map insn_code (fn_insns d)) p2 -> stand bs p2 ds fs p' ->
    stand bs p (d :: ds) (f :: fs) p'.

(** Sections decoded one after the other, with their codes, from position [p] and module [m]
    up to position [p'] and module [m']. *)
Inductive layout (bs : bytes) : Z -> module -> list Z -> Z -> module -> Prop :=
| lay_nil p m : layout bs p m [] p m
| lay_cons p m c p0 p1 m1 cs p2 m2 :
    byte_at bs p c p0 -> section_at bs p m m1 p1 -> layout bs p1 m1 cs p2 m2 ->
    layout bs p m (c :: cs) p2 m2.

(** What stops the process instead of being reported, at a section starting at [p] when the
    module so far is [m]: a section of a kind that is defined but not supported; or a code
    section, the first entries of which are fine, with an entry that reaches past the end of
    the file or whose function's type index is not the index of a type. *)
Inductive fatal (bs : bytes) (p : Z) (m : module) : trap -> Prop :=
| fatal_section c p1 sz p2 :
    byte_at bs p c p1 -> c <= 11 -> ~ In c [1; 3; 10] -> u32_at bs p1 sz p2 ->
    fatal bs p m Assertion
| fatal_entry_size p1 sz p2 p3 tis ti tis' fs p4 esz p5 nr p6 :
    byte_at bs p 10 p1 -> u32_at bs p1 sz p2 ->
    u32_at bs p2 (Z.of_nat (length (m_func_types m))) p3 ->
    m_func_types m = tis ++ ti :: tis' -> codes_at bs (m_types m) p3 tis fs p4 ->
    u32_at bs p4 esz p5 -> u32_at bs p5 nr p6 -> Z.of_nat (length bs) < p5 + esz ->
    fatal bs p m Assertion
| fatal_type_index p1 sz p2 p3 tis ti tis' fs p4 esz p5 nr p6 :
    byte_at bs p 10 p1 -> u32_at bs p1 sz p2 ->
    u32_at bs p2 (Z.of_nat (length (m_func_types m))) p3 ->
    m_func_types m = tis ++ ti :: tis' -> codes_at bs (m_types m) p3 tis fs p4 ->
    u32_at bs p4 esz p5 -> u32_at bs p5 nr p6 -> p5 + esz <= Z.of_nat (length bs) ->
    nth_error (m_types m) (Z.to_nat ti) = None ->
    fatal bs p m Terminate.
