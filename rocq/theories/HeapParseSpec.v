(** What is said about the objects a document consists of. *)
From Coq Require Import ZArith List Bool Permutation.
From Verif Require Import Outcome IrModel NodeHeapModel NodeHeapSpec.
Import ListNotations.
Local Open Scope Z_scope.

(** The order of iteration of a std::unordered_map after an insertion depends on hashes only: [order k ks] is
    the list of the numbers of the entries in their new order, 0 being the new entry, with hash [k], and
    1, 2, ... those there were, with hashes [ks].  Nothing else is assumed of it. *)
Definition orders (order : Z -> list Z -> list nat) : Prop :=
  forall k ks, Permutation (order k ks) (seq 0 (S (length ks))).
Definition arranged {A} (order : Z -> list Z -> list nat) (hash : A -> Z) (x : A) (l : list A) : list A :=
  map (fun i => nth i (x :: l) x) (order (hash x) (map hash l)).
(** ... for the entries of a map in memory, which keep their hashes, and for a map as a value *)
Definition place_entry (order : Z -> list Z -> list nat) : entry -> list entry -> list entry := arranged order e_hash.
Definition place_value (sh : std_hash) (order : Z -> list Z -> list nat) : node * node -> list (node * node) -> list (node * node) :=
  arranged order (fun kv => match node_hash sh (fst kv) with Ok v => v | _ => 0 end).

(** No object is at two places in the nodes [ps]. *)
Definition nothing_shared (h : heap) (ps : list ptr) : Prop :=
  forall i j p q way way' a, nth_error ps i = Some p -> nth_error ps j = Some q ->
    follow h p way = Some (Some a) -> follow h q way' = Some (Some a) -> i = j /\ way = way'.
(** The nodes [ps] consist of objects made since the memory was [h0], which are none of those there were. *)
Definition all_new (h0 h : heap) (ps : list ptr) : Prop :=
  forall p way a, In p ps -> follow h p way = Some (Some a) -> (length h0 <= a < length h)%nat.
(** The objects there were are as they were. *)
Definition left_alone (h0 h : heap) : Prop := forall a, (a < length h0)%nat -> nth_error h a = nth_error h0 a.
