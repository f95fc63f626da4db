(** What it means for two EDN values to be the same, independently of node_eq. *)

From Coq Require Import ZArith List Bool Permutation.
From Verif Require Import IrModel.
Import ListNotations.
Local Open Scope Z_scope.

(** IEEE 754 binary64, by its bits: a sign bit, 11 bits of exponent, 52 bits of fraction.  A NaN has all
    exponent bits set and a fraction; a zero has nothing but a sign. *)
Definition exponent_bits (x : Z) : Z := x / 2 ^ 52 mod 2 ^ 11.
Definition fraction_bits (x : Z) : Z := x mod 2 ^ 52.
Definition nan (x : Z) : Prop := exponent_bits x = 2047 /\ fraction_bits x <> 0.
Definition zero (x : Z) : Prop := exponent_bits x = 0 /\ fraction_bits x = 0.
(** The same double value: both zeros are the same, a NaN is the same as nothing. *)
Definition same_real (x y : Z) : Prop := ~ nan x /\ ~ nan y /\ (x = y \/ (zero x /\ zero y)).

(** Same kind and same contents; sequences element by element, maps up to the order of entries. *)
Fixpoint same (a b : node) : Prop :=
  match a, b with
  | NNil, NNil => True
  | NBool x, NBool y => x = y
  | NInteger x, NInteger y => x = y
  | NReal x, NReal y => same_real x y
  | NSymbol x, NSymbol y => x = y
  | NKeyword x, NKeyword y => x = y
  | NCharacter x, NCharacter y => x = y
  | NString x, NString y => x = y
  | NList l, NList r => (fix go (l r : list node) := match l, r with
                         | [], [] => True
                         | x :: l, y :: r => same x y /\ go l r
                         | _, _ => False end) l r
  | NVector l, NVector r => (fix go (l r : list node) := match l, r with
                         | [], [] => True
                         | x :: l, y :: r => same x y /\ go l r
                         | _, _ => False end) l r
  | NMap l, NMap r => exists r', Permutation r r' /\
                      (fix go (l r : list (node * node)) := match l, r with
                         | [], [] => True
                         | (k, v) :: l, (k', v') :: r => (same k k' /\ same v v') /\ go l r
                         | _, _ => False end) l r'
  | _, _ => False
  end.

(** Nodes without maps, sets, characters and NaNs: what may be inside a map key here. *)
Fixpoint simple (n : node) : Prop :=
  match n with
  | NReal x => ~ nan x
  | NList l | NVector l => (fix go (l : list node) := match l with [] => True | x :: l => simple x /\ go l end) l
  | NMap _ | NSet | NCharacter _ => False
  | _ => True
  end.

(** Pairwise different keys. *)
Fixpoint distinct_keys (es : list (node * node)) : Prop :=
  match es with
  | [] => True
  | (k, _) :: es => (forall k' v', In (k', v') es -> ~ same k k') /\ distinct_keys es
  end.

(** Nodes without sets and NaNs whose maps have simple, pairwise different keys. *)
Fixpoint good (n : node) : Prop :=
  match n with
  | NReal x => ~ nan x
  | NList l | NVector l => (fix go (l : list node) := match l with [] => True | x :: l => good x /\ go l end) l
  | NMap es => distinct_keys es /\
      (fix go (es : list (node * node)) := match es with
         | [] => True | (k, v) :: es => (simple k /\ good v) /\ go es end) es
  | NSet => False
  | _ => True
  end.

(** Nodes without maps anywhere inside. *)
Fixpoint no_map (n : node) : Prop :=
  match n with
  | NList l | NVector l => (fix go (l : list node) := match l with [] => True | x :: l => no_map x /\ go l end) l
  | NMap _ => False
  | _ => True
  end.

(** The standard's requirement on std::hash<double>: equal numbers hash equal. *)
Definition hash_respects_reals (sh : std_hash) : Prop :=
  forall x y, same_real x y -> sh_double sh x = sh_double sh y.

(** [x] is the node [n] or part of it. *)
Inductive inside (x : node) : node -> Prop :=
| inside_self : inside x x
| inside_list l y : In y l -> inside x y -> inside x (NList l)
| inside_vector l y : In y l -> inside x y -> inside x (NVector l)
| inside_key es k v : In (k, v) es -> inside x k -> inside x (NMap es)
| inside_value es k v : In (k, v) es -> inside x v -> inside x (NMap es).

(** Neither a character nor a set anywhere. *)
Definition plain (n : node) : Prop := forall x, inside x n -> x <> NSet /\ forall c, x <> NCharacter c.
(** No set anywhere, and no character in the key of a map. *)
Definition plain_keys (n : node) : Prop :=
  ~ inside NSet n /\ forall es k v, inside (NMap es) n -> In (k, v) es -> plain k.
