(** Model of util/include/Ab/HashUtilities.hpp, util/include/Ab/SizeP2.hpp and the equality and
    hash members of core/include/Ab/Types.hpp.

    A std::size_t is a [Z] in [0, 2^64); every unsigned operation that can leave the range is
    reduced explicitly. *)

From Coq Require Import ZArith List Bool.
From Verif Require Import Outcome CodecModel.
Import ListNotations.
Local Open Scope Z_scope.

(** 64-bit unsigned arithmetic wraps. *)
Definition u64 (x : Z) : Z := x mod 2 ^ 64.

(** util/include/Ab/HashUtilities.hpp 13 *)
Definition HASH_SEED : Z := 17.

(** util/include/Ab/HashUtilities.hpp 17 *)
Definition mix (a b : Z) : Z := u64 (u64 (a * 37) + b).

(** util/include/Ab/HashUtilities.hpp 21-24: mix(a, b, xs...) is a left fold. *)
Fixpoint mix_all (a : Z) (xs : list Z) : Z :=
  match xs with
  | [] => a
  | b :: xs => mix_all (mix a b) xs
  end.

(** util/include/Ab/HashUtilities.hpp 28-31 *)
Definition combine_hashes (xs : list Z) : Z := mix_all HASH_SEED xs.

(** util/include/Ab/HashUtilities.hpp 35-42: the overload for std::size_t *)
Definition hash_size (x : Z) : Z :=
  let x := Z.lxor x (Z.shiftr x 30) in
  let x := u64 (x * 0xbf58476d1ce4e5b9) in
  let x := Z.lxor x (Z.shiftr x 27) in
  let x := u64 (x * 0x94d049bb133111eb) in
  Z.lxor x (Z.shiftr x 31).

(** util/include/Ab/HashUtilities.hpp 53-56, on a pack of std::size_t: hash each, then
    combine. *)
Definition hash_sizes (xs : list Z) : Z := combine_hashes (map hash_size xs).

Section StdHash.
(** util/include/Ab/HashUtilities.hpp 46-49: any other type goes to std::hash, whose result the
    standard leaves open.  It is a parameter; the theorems hold for every choice of it. *)
Context (std_hash_u32 std_hash_valtype : Z -> Z).

(** util/include/Ab/HashUtilities.hpp 60-63 at a ValType *)
Definition mix_hash_valtype (h ty : Z) : Z := mix h (std_hash_valtype ty).

(** core/include/Ab/Types.hpp 215-224: FuncType::hash *)
Fixpoint mix_types (h : Z) (tys : list Z) : Z :=
  match tys with
  | [] => h
  | ty :: tys => mix_types (mix_hash_valtype h ty) tys
  end.
Definition functype_hash (t : functype) : Z :=
  let h := hash_sizes [Z.of_nat (length (ft_args t)); Z.of_nat (length (ft_rets t))] in
  mix_types (mix_types h (ft_args t)) (ft_rets t).

(** core/include/Ab/Types.hpp 204-206 *)
Record limits := mkLimits { l_min : Z; l_max : Z; l_has_max : bool }.

(** core/include/Ab/Types.hpp 181-187: Limits::hash (std::uint32_t members, so std::hash; in
    line 184 min itself is the base hash) *)
Definition limits_hash (l : limits) : Z :=
  let h := std_hash_u32 (l_min l) in
  if l_has_max l then mix (l_min l) (std_hash_u32 (l_max l)) else h.

End StdHash.

(** core/include/Ab/Types.hpp 189-200 *)
Definition limits_eq (a b : limits) : bool :=
  if negb (l_min a =? l_min b) then false
  else if negb (eqb (l_has_max a) (l_has_max b)) then false
  else if l_has_max a && negb (l_max a =? l_max b) then false
  else true.

(** core/include/Ab/Types.hpp 235-239, 240-244: the element loops; [args[i]] past the end is
    undefined. *)
Fixpoint types_loop (k : nat) (i : nat) (a b : list Z) : outcome bool :=
  match k with
  | O => Ok true
  | S k =>
      match nth_error a i, nth_error b i with
      | Some x, Some y => if negb (x =? y) then Ok false else types_loop k (S i) a b
      | _, _ => UB OutOfBounds
      end
  end.

(** core/include/Ab/Types.hpp 228-246: FuncType::operator== *)
Definition functype_eq (a b : functype) : outcome bool :=
  if negb (Nat.eqb (length (ft_args a)) (length (ft_args b))) then Ok false
  else if negb (Nat.eqb (length (ft_rets a)) (length (ft_rets b))) then Ok false
  else
    do e <- types_loop (length (ft_args a)) 0 (ft_args a) (ft_args b);
    if negb e then Ok false
    else types_loop (length (ft_rets a)) 0 (ft_rets a) (ft_rets b).

(** * util/include/Ab/SizeP2.hpp; the object is its exponent, a std::uint8_t. *)

(** Shifting a 64-bit operand: a count of 64 or more is undefined. *)
Definition shl64 (x n : Z) : outcome Z := if n <? 64 then Ok (u64 (Z.shiftl x n)) else UB BadShift.
Definition shr64 (x n : Z) : outcome Z := if n <? 64 then Ok (Z.shiftr x n) else UB BadShift.

(** SizeP2.hpp 15 *)
Definition p2_get (e : Z) : outcome Z := shl64 1 e.
(** SizeP2.hpp 17 *)
Definition p2_mod2 (e : Z) : outcome Z := do g <- p2_get e; Ok (Z.land g 1).
(** SizeP2.hpp 19 *)
Definition p2_modmask (e : Z) : outcome Z := do g <- p2_get e; Ok (u64 (g - 1)).
(** SizeP2.hpp 22 *)
Definition p2_log2 (e : Z) : Z := e.
(** SizeP2.hpp 25: the literal 1 is an int, so this is a 32-bit signed shift; 1 << 31 is
    converted to int (INT_MIN on every implementation) and then sign-extended. *)
Definition p2_pow (e n : Z) : outcome Z :=
  let k := u64 (u64 (e + n) - 1) in
  if k <? 31 then Ok (2 ^ k)
  else if k =? 31 then Ok (2 ^ 64 - 2 ^ 31)
  else UB BadShift.
(** SizeP2.hpp 33-35 *)
Definition p2_mul (a e : Z) : outcome Z := shl64 a (p2_log2 e).
(** SizeP2.hpp 37-39 *)
Definition p2_div (a e : Z) : outcome Z := shr64 a (p2_log2 e).
(** SizeP2.hpp 41-43 *)
Definition p2_rem (a e : Z) : outcome Z := do m <- p2_modmask e; Ok (Z.land a m).
