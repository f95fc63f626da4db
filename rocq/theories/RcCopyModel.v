From Coq Require Import List Bool Arith.
From Verif Require Import Outcome RcModel.
Import ListNotations.
Local Open Scope nat_scope.

(** Copying and assigning counted objects themselves (not the handles), util/include/Ab/Rc.hpp.
    A class derived from RefCounted gets its copy constructor and its copy assignment from the
    compiler: each copies the base RefCounted (82-90: neither function is written there, so the
    compiler copies or assigns refcounter_), then the members, the handles, in their order. *)

(** The members of the object at [a], being constructed as a copy of the one at [b], from number [k]
    on: Rc(const Rc&), 110-113 *)
Fixpoint copy_members (h : heap) (a b k n : nat) : outcome heap :=
  match n with
  | O => Ok h
  | S n =>
      do v <- get_field h b k;                                           (* 111 *)
      do h <- set_field h a k v;
      do h <- xincref h v;                                               (* 112 *)
      copy_members h a b (S k) n
  end.
(** new T( *x ): RefCounter(const RefCounter&), 17-18, sets the count to zero *)
Definition copy_obj (h : heap) (b : nat) : outcome (nat * heap) :=
  do o <- load h b;
  let (a, h) := new_obj h (length (fields o)) in
  do h <- copy_members h a b 0 (length (fields o));
  Ok (a, h).

(** The members of the object at [a], being assigned those of the one at [b]: operator=(const Rc&), 156-161 *)
Fixpoint assign_members (h : heap) (a b k n : nat) : outcome heap :=
  match n with
  | O => Ok h
  | S n =>
      do old <- get_field h a k;
      do h <- xdecref h old;                                             (* 157 *)
      do v <- get_field h b k;                                           (* 158 *)
      do h <- set_field h a k v;
      do h <- xincref h v;                                               (* 159 *)
      assign_members h a b (S k) n
  end.
(** The assignment of the object at [b] to the one at [a]: the defaulted operator= of RefCounter, 28,
    copies value_ *)
Definition assign_obj (h : heap) (a b : nat) : outcome heap :=
  do oa <- load h a;
  do ob <- load h b;
  let h := put h a (Some (mkObj (count ob) (fields oa))) in
  assign_members h a b 0 (length (fields oa)).

Inductive cop :=
| Plain (o : op)
| CCopy (i : nat) (x : path)     (* auto i = mkrc<T>( *x );   174-177, 17-18, 110-113 *)
| CAssign (x y : path).          (* *x = *y;                  28, 156-161 *)

(** operator*, PtrLike.hpp 19-22, of a null pointer *)
Definition pointee (p : prog) (x : path) : outcome nat :=
  do l <- eval p x; do v <- get p l;
  match v with None => UB NullDeref | Some a => Ok a end.

Definition do_cop (p : prog) (o : cop) : outcome prog :=
  match o with
  | Plain o => do_op p o
  | CCopy i x =>
      do b <- pointee p x;
      do (a, h) <- copy_obj (mem p) b;
      do h <- xincref h (Some a);                                        (* 107 *)
      declare p h i (Some a)
  | CAssign x y =>
      do b <- pointee p y;
      do a <- pointee p x;
      do h <- assign_obj (mem p) a b;
      Ok (in_mem p h)
  end.
Fixpoint crun (p : prog) (os : list cop) : outcome prog :=
  match os with
  | [] => Ok p
  | o :: os => do p <- do_cop p o; crun p os
  end.
