(** Model of the EDN nodes: edn/include/Ab/Edn/Ir.hpp, node_eq and node_hash.

    A node is a value here; NodeHeapModel.v has the pointers between nodes, and C141 says that they make no
    difference (nodes are compared by their contents only, and metadata is never compared). *)

From Coq Require Import ZArith List Bool.
From Verif Require Import Outcome HashModel.
Import ListNotations.
Local Open Scope Z_scope.

(** A double is its 64-bit pattern (IEEE 754 binary64). *)
Definition is_nan (x : Z) : bool :=
  (Z.land (Z.shiftr x 52) 2047 =? 2047) && negb (Z.land x (2 ^ 52 - 1) =? 0).
Definition is_zero (x : Z) : bool := Z.land x (2 ^ 63 - 1) =? 0.
(** operator== on double: a NaN equals nothing, the two zeros are equal. *)
Definition real_eq (x y : Z) : bool :=
  if is_nan x || is_nan y then false
  else if is_zero x && is_zero y then true
  else x =? y.

(** Ir.hpp 46-59, 208-617.  The entries of a Map are listed in the order in which its
    std::unordered_map iterates over them, which the standard leaves open. *)
Inductive node :=
| NNil
| NBool (b : bool)
| NInteger (v : Z)
| NReal (x : Z)
| NSymbol (id : Z)
| NKeyword (id : Z)
| NCharacter (c : Z)
| NString (s : list Z)
| NList (l : list node)
| NVector (l : list node)
| NMap (es : list (node * node))
| NSet.

(** Ir.hpp 46-59: the enumerators count from 0. *)
Definition kind (n : node) : Z :=
  match n with
  | NNil => 0 | NBool _ => 1 | NInteger _ => 2 | NReal _ => 3 | NSymbol _ => 4 | NKeyword _ => 5
  | NCharacter _ => 6 | NString _ => 7 | NList _ => 8 | NVector _ => 9 | NMap _ => 10 | NSet => 11
  end.

(** std::hash at the types that go to it; the standard leaves the values open. *)
Record std_hash := mkStdHash {
  sh_kind : Z -> Z; sh_bool : bool -> Z; sh_long : Z -> Z; sh_double : Z -> Z; sh_string : list Z -> Z }.

Section Nodes.
Context (sh : std_hash).

(** Ab::hash(std::size_t(kind), x): util/include/Ab/HashUtilities.hpp 53-56 *)
Definition hash_tagged (k h : Z) : Z := combine_hashes [hash_size k; h].

(** A fold of mix over the hashes of a list: Ir.hpp 433-439, 504-510 *)
Definition hash_list (node_hash : node -> outcome Z) : Z -> list node -> outcome Z :=
  fix go (h : Z) (l : list node) : outcome Z :=
    match l with
    | [] => Ok h
    | n :: l => do hn <- node_hash n; go (mix h hn) l
    end.
(** Ir.hpp 593-600 *)
Definition hash_entries (node_hash : node -> outcome Z) : Z -> list (node * node) -> outcome Z :=
  fix go (h : Z) (l : list (node * node)) : outcome Z :=
    match l with
    | [] => Ok h
    | (k, v) :: l => do hk <- node_hash k; do hv <- node_hash v; go (mix (mix h hk) hv) l
    end.

(** Ir.hpp 747-772 with the hash members (220, 241, 291, 315, 341, 367, 387, 433, 504, 593) *)
Fixpoint node_hash (n : node) : outcome Z :=
  match n with
  | NNil => Ok (sh_kind sh 0)
  | NBool b => Ok (hash_tagged 1 (sh_bool sh b))
  | NInteger v => Ok (hash_tagged 2 (sh_long sh v))
  | NReal x => Ok (hash_tagged 3 (sh_double sh x))
  | NSymbol id => Ok (hash_tagged 4 (hash_size id))
  | NKeyword id => Ok (hash_tagged 5 (hash_size id))
  | NString s => Ok (hash_tagged 7 (sh_string sh s))
  | NList l => hash_list node_hash (mix HASH_SEED 8) l
  | NVector l => hash_list node_hash (mix HASH_SEED 9) l
  | NMap es => hash_entries node_hash HASH_SEED es
  | NCharacter _ | NSet => Trap Assertion
  end.

(** Ir.hpp 418-429, 489-500: compare the sizes, then element by element *)
Definition list_eq (node_eq : node -> node -> outcome bool) : list node -> list node -> outcome bool :=
  fix go (l r : list node) : outcome bool :=
    match l, r with
    | [], _ => Ok true
    | _ :: _, [] => Throw StdException      (* at() past the end; unreachable after the size check *)
    | a :: l, b :: r => do e <- node_eq a b; if e then go l r else Ok false
    end.

(** std::unordered_map::find: the first entry (in iteration order) whose stored hash is that of the
    key and whose key equals it.  Keys are not mutated while in the map. *)
Definition find_entry (eq_key : node -> outcome bool) (hk : Z) : list (node * node) -> outcome (option node) :=
  fix go (es : list (node * node)) : outcome (option node) :=
    match es with
    | [] => Ok None
    | (k, v) :: es =>
        do h <- node_hash k;
        if h =? hk then do e <- eq_key k; if e then Ok (Some v) else go es
        else go es
    end.

(** Ir.hpp 565-589: the loop over the entries of the left map *)
Definition map_eq (node_eq : node -> node -> outcome bool) (rhs : list (node * node))
  : list (node * node) -> outcome bool :=
  fix go (es : list (node * node)) : outcome bool :=
    match es with
    | [] => Ok true
    | (k, v) :: es =>
        do hk <- node_hash k;
        do s <- find_entry (node_eq k) hk rhs;
        match s with
        | None => Ok false
        | Some rv => do e <- node_eq v rv; if e then go es else Ok false
        end
    end.

(** Ir.hpp 708-740 *)
Fixpoint node_eq (l r : node) : outcome bool :=
  match l, r with
  | NNil, NNil => Ok true
  | NBool a, NBool b => Ok (eqb a b)
  | NInteger a, NInteger b => Ok (a =? b)
  | NReal a, NReal b => Ok (real_eq a b)
  | NSymbol a, NSymbol b => Ok (a =? b)
  | NKeyword a, NKeyword b => Ok (a =? b)
  | NCharacter a, NCharacter b => Ok (a =? b)
  | NString a, NString b => Ok (if list_eq_dec Z.eq_dec a b then true else false)
  | NList a, NList b => if negb (Nat.eqb (length a) (length b)) then Ok false else list_eq node_eq a b
  | NVector a, NVector b => if negb (Nat.eqb (length a) (length b)) then Ok false else list_eq node_eq a b
  | NMap a, NMap b => if negb (Nat.eqb (length a) (length b)) then Ok false else map_eq node_eq b a
  | NSet, NSet => Trap Assertion
  | _, _ => Ok false
  end.

(** Map::find (Ir.hpp 552) and Map::insert (556): nothing happens when the key is present.  A new
    entry goes anywhere in the iteration order and the others may move: [place] is what the
    implementation does (a permutation of entry and map). *)
Definition map_find (es : list (node * node)) (k : node) : outcome (option node) :=
  do hk <- node_hash k; find_entry (node_eq k) hk es.
Definition map_insert (place : node * node -> list (node * node) -> list (node * node))
    (es : list (node * node)) (k v : node) : outcome (list (node * node)) :=
  do s <- map_find es k;
  match s with Some _ => Ok es | None => Ok (place (k, v) es) end.

End Nodes.
