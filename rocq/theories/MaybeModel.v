From Coq Require Import List Arith Bool.
From Verif Require Import Outcome.
Import ListNotations.
Local Open Scope nat_scope.

(** util/include/Ab/Maybe.hpp and MaybeStorage.hpp, for a class type T that is not nullable
    (MaybeStorage<Type, false>, MaybeStorage.hpp 62-115).  Objects of type T are numbered in the
    order they are constructed; [None] marks a destroyed one.  A storage is [None] when isJust_ is
    false and [Some k] when it is true and the union holds object k.
    Copying makes an equal value and does not throw; moving from a value [v] leaves [moved v]. *)
Section Maybe.
Variable T : Type.
Variable moved : T -> T.

Definition storage := option nat.
Record state := mkState {
  objs : list (option T);
  vars : list (option storage) }.       (* the Maybe variables; None: not in scope *)
Definition empty_state : state := mkState [] [].

Fixpoint put {A} (l : list A) (i : nat) (x : A) : list A :=
  match l, i with
  | [], _ => []
  | _ :: l, O => x :: l
  | y :: l, S i => y :: put l i x
  end.

(** the life of a T *)
Definition construct (s : state) (v : T) : state * nat := (mkState (objs s ++ [Some v]) (vars s), length (objs s)).
Definition value_of (s : state) (k : nat) : outcome T :=
  match nth_error (objs s) k with Some (Some v) => Ok v | _ => UB UseAfterFree end.
Definition move_from (s : state) (k : nat) : outcome (T * state) :=
  do v <- value_of s k; Ok (v, mkState (put (objs s) k (Some (moved v))) (vars s)).
(** SafeDestructor.hpp 17-26 *)
Definition destroy (s : state) (k : nat) : outcome state :=
  match nth_error (objs s) k with Some (Some _) => Ok (mkState (put (objs s) k None) (vars s)) | _ => UB DoubleFree end.

Definition get_var (s : state) (i : nat) : outcome storage :=
  match nth_error (vars s) i with Some (Some m) => Ok m | _ => UB UseAfterFree end.
Definition set_var (s : state) (i : nat) (m : option storage) : state := mkState (objs s) (put (vars s) i m).
(** a new variable: either one that has gone out of scope, or the next one *)
Definition declare (s : state) (i : nat) (m : storage) : outcome state :=
  if i =? length (vars s) then Ok (mkState (objs s) (vars s ++ [Some m]))
  else match nth_error (vars s) i with Some None => Ok (set_var s i (Some m)) | _ => UB OutOfBounds end.

(** MaybeStorage.hpp 75-79 *)
Definition storage_dtor (s : state) (m : storage) : outcome state :=
  match m with Some k => destroy s k | None => Ok s end.
(** 85-90 *)
Definition set_nothing (s : state) (i : nat) : outcome state :=
  do m <- get_var s i;
  match m with
  | Some k => do s <- destroy s k; Ok (set_var s i (Some None))
  | None => Ok s
  end.

(** Where the argument of set(inPlace, arg) comes from: it is a reference, read after set(NOTHING) *)
Inductive argument := Copied (k : nat) | Moved (k : nat).
(** new (&storage_) Type(arg) *)
Definition make (s : state) (a : argument) : outcome (state * nat) :=
  match a with
  | Copied k => do v <- value_of s k; Ok (construct s v)
  | Moved k => do (v, s) <- move_from s k; Ok (construct s v)
  end.
(** 92-97 *)
Definition set_in_place (s : state) (i : nat) (a : argument) : outcome state :=
  do s <- set_nothing s i;
  do (s, k) <- make s a;
  Ok (set_var s i (Some (Some k))).

(** Maybe.hpp 67-83: copying and moving constructors; the result is the storage of the new Maybe
    (set(inPlace, ...) on a storage that holds nothing) *)
Definition copy_construct (s : state) (m : storage) : outcome (state * storage) :=
  match m with
  | Some k => do (s, k) <- make s (Copied k); Ok (s, Some k)
  | None => Ok (s, None)
  end.
Definition move_construct (s : state) (m : storage) : outcome (state * storage) :=
  match m with
  | Some k => do (s, k) <- make s (Moved k); Ok (s, Some k)
  | None => Ok (s, None)
  end.
(** 90, 98, 106: "return *this" by value: a copy, destroyed at the end of the statement *)
Definition return_this (s : state) (i : nat) : outcome state :=
  do m <- get_var s i;
  do (s, t) <- copy_construct s m;
  storage_dtor s t.
(** 85-107 *)
Definition assign (s : state) (i : nat) (a : option argument) : outcome state :=
  do s <- match a with Some a => set_in_place s i a | None => Ok s end;
  return_this s i.

Inductive op :=
| ONothing (i : nat)          (* Maybe<T> mi; *)
| OJust (i : nat) (v : T)     (* Maybe<T> mi{v}; *)
| OCopy (i j : nat)           (* Maybe<T> mi{mj}; *)
| OMove (i j : nat)           (* Maybe<T> mi{std::move(mj)}; *)
| OAssign (i j : nat)         (* mi = mj; *)
| OAssignMove (i j : nat)     (* mi = std::move(mj); *)
| OAssignTemp (i : nat) (v : option T)  (* mi = Maybe<T>{v};  mi = Maybe<T>{}; *)
| ODestroy (i : nat).         (* the end of the scope of mi *)

Definition exec (s : state) (o : op) : outcome state :=
  match o with
  | ONothing i => declare s i None
  | OJust i v => let '(s, k) := construct s v in declare s i (Some k)
  | OCopy i j => do m <- get_var s j; do (s, m) <- copy_construct s m; declare s i m
  | OMove i j => do m <- get_var s j; do (s, m) <- move_construct s m; declare s i m
  | OAssign i j => do m <- get_var s j; assign s i (option_map Copied m)
  | OAssignMove i j => do m <- get_var s j; assign s i (option_map Moved m)
  | OAssignTemp i (Some v) =>
      let '(s, k) := construct s v in
      do s <- assign s i (Some (Moved k)); destroy s k
  | OAssignTemp i None => assign s i None
  | ODestroy i => do m <- get_var s i; do s <- storage_dtor s m; Ok (set_var s i None)
  end.
Fixpoint exec_all (s : state) (os : list op) : outcome state :=
  match os with [] => Ok s | o :: os => do s <- exec s o; exec_all s os end.

(** Maybe.hpp 112-114, 141-149: what one can see of a Maybe: nothing, or its value *)
Definition observe (s : state) (i : nat) : outcome (option T) :=
  do m <- get_var s i;
  match m with Some k => do v <- value_of s k; Ok (Some v) | None => Ok None end.
End Maybe.

(** MaybeStorage<Type, true> (22-61): for pointers, the null pointer stands for nothing.  A pointer
    is [None] when null.  *)
Definition ptr := option nat.
(** Maybe.hpp 42, 46, 56-65: value constructors *)
Definition nullable_just (p : ptr) : ptr := p.
Definition nullable_nothing : ptr := None.
(** MaybeStorage.hpp 37-39 *)
Definition nullable_is_just (m : ptr) : bool := match m with Some _ => true | None => false end.
(** Maybe.hpp 67-83 and 85-107 *)
Definition nullable_copy (m : ptr) : ptr := if nullable_is_just m then m else None.
Definition nullable_assign (m other : ptr) : ptr := if nullable_is_just other then other else m.
