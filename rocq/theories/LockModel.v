From Coq Require Import ZArith List Bool.
From Verif Require Import Outcome.
Import ListNotations.
Local Open Scope Z_scope.

(** util/include/Ab/SharedLock.hpp, LockGuard.hpp, LockGuard.inl.hpp.  Every operation is one
    step; simplification: concurrent calls are interleaved (the counters are plain ints, so
    unsynchronised concurrent calls are in fact a data race). *)
Inductive access := SHARED | EXCLUSIVE.
(** SharedLock.hpp 35-36 *)
Record lock := mkLock { sharedCount : Z; exclusiveCount : Z }.
Definition new_lock : lock := mkLock 0 0.
Definition int_max := 2^31 - 1.
Definition int_min := - 2^31.
(** int += d *)
Definition add_int (n d : Z) : outcome Z :=
  if (int_min <=? n + d) && (n + d <=? int_max) then Ok (n + d) else UB SignedOverflow.
(** 45-56 *)
Definition lock_acquire (a : access) (l : lock) : outcome lock :=
  match a with
  | SHARED => do n <- add_int (sharedCount l) 1; Ok (mkLock n (exclusiveCount l))
  | EXCLUSIVE => do n <- add_int (exclusiveCount l) 1; Ok (mkLock (sharedCount l) n)
  end.
(** 57-67 *)
Definition lock_release (a : access) (l : lock) : outcome lock :=
  match a with
  | SHARED => do n <- add_int (sharedCount l) (-1); Ok (mkLock n (exclusiveCount l))
  | EXCLUSIVE => do n <- add_int (exclusiveCount l) (-1); Ok (mkLock (sharedCount l) n)
  end.
(** 69-79 *)
Definition is_locked (a : access) (l : lock) : bool := false.
(** LockGuard.inl.hpp 34-52: the guards' constructors and destructors *)
Definition guard_acquire (a : access) (l : lock) : outcome lock := Ok l.
Definition guard_release (a : access) (l : lock) : outcome lock := Ok l.
(** LockGuard.inl.hpp 20-32: the boolean says whether a guard was obtained *)
Definition try_guard (a : access) (l : lock) : outcome (bool * lock) := Ok (true, l).

(** A step by thread [t]; each returns at once. *)
Inductive event := Acquire (t : nat) (a : access) | Release (t : nat) (a : access)
| GuardAcquire (t : nat) (a : access) | GuardRelease (t : nat) (a : access).
Definition step (l : lock) (e : event) : outcome lock :=
  match e with
  | Acquire _ a => lock_acquire a l
  | Release _ a => lock_release a l
  | GuardAcquire _ a => guard_acquire a l
  | GuardRelease _ a => guard_release a l
  end.
Fixpoint run (l : lock) (es : list event) : outcome lock :=
  match es with [] => Ok l | e :: es => do l <- step l e; run l es end.
