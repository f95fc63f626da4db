(** Model of util/include/Ab/IntrusiveList.hpp over a heap of elements, and of the life cycle of
    Context (core/include/Ab/VirtualMachine.hpp), its only user. *)

From Coq Require Import ZArith List Bool.
From Verif Require Import Outcome.
Import ListNotations.
Local Open Scope Z_scope.

(** A pointer to an element is a number; NULL is 0. *)
Definition ptr := Z.
Definition NULL : ptr := 0.

(** util/include/Ab/IntrusiveList.hpp 42-43 *)
Record node := mkNode { prev : ptr; next : ptr }.

(** The nodes embedded in the live elements; [None]: there is no element at this address. *)
Definition heap := ptr -> option node.

Definition hset (h : heap) (p : ptr) (n : node) : heap := fun q => if q =? p then Some n else h q.

(** Accessor::node( *p ) (53, 56): naming the node of an element that does not exist is undefined. *)
Definition node_at (h : heap) (p : ptr) : outcome node :=
  if p =? NULL then UB NullDeref
  else match h p with Some n => Ok n | None => UB UseAfterFree end.

Definition set_prev (h : heap) (p v : ptr) : outcome heap :=
  do n <- node_at h p; Ok (hset h p (mkNode v (next n))).
Definition set_next (h : heap) (p v : ptr) : outcome heap :=
  do n <- node_at h p; Ok (hset h p (mkNode (prev n) v)).

(** IntrusiveList.hpp 217-223; the list object is its _root (256) *)
Definition il_add (h : heap) (root e : ptr) : outcome (heap * ptr) :=
  do _ <- node_at h e;
  let h := hset h e (mkNode NULL root) in
  do h <- (if negb (root =? NULL) then set_prev h root e else Ok h);
  Ok (h, e).

(** IntrusiveList.hpp 227-243; [node] is a reference, so its fields are read again after each
    write. *)
Definition il_remove (h : heap) (root e : ptr) : outcome (heap * ptr) :=
  do n <- node_at h e;
  do (h, root) <-
    (if e =? root then
       if negb (next n =? NULL) then
         do h <- set_prev h (next n) NULL;
         do n <- node_at h e;
         Ok (h, next n)
       else Ok (h, NULL)
     else
       do h <- set_next h (prev n) (next n);
       do n <- node_at h e;
       if negb (next n =? NULL) then
         do h <- set_prev h (next n) (prev n); Ok (h, root)
       else Ok (h, root));
  do _ <- node_at h e;
  Ok (hset h e (mkNode NULL NULL), root).

(** Iterating from begin() to end(): IntrusiveList.hpp 245-247, 70, 74-77, 100-102.  [fuel]
    bounds the number of elements visited. *)
Fixpoint il_walk (fuel : nat) (h : heap) (cur : ptr) : outcome (list ptr) :=
  if cur =? NULL then Ok []
  else match fuel with
       | O => OutOfFuel
       | S fuel => do n <- node_at h cur; do l <- il_walk fuel h (next n); Ok (cur :: l)
       end.

(** Walking backwards with operator-- (85-88) until there is no previous element. *)
Fixpoint il_walk_back (fuel : nat) (h : heap) (cur : ptr) : outcome (list ptr) :=
  if cur =? NULL then Ok []
  else match fuel with
       | O => OutOfFuel
       | S fuel => do n <- node_at h cur; do l <- il_walk_back fuel h (prev n); Ok (cur :: l)
       end.

(** IntrusiveList.hpp 253 *)
Definition il_empty (root : ptr) : bool := root =? NULL.

(** A history of uses of one list. *)
Inductive il_op := IAdd (e : ptr) | IRemove (e : ptr).

Definition il_step (st : heap * ptr) (o : il_op) : outcome (heap * ptr) :=
  match o with
  | IAdd e => il_add (fst st) (snd st) e
  | IRemove e => il_remove (fst st) (snd st) e
  end.

Fixpoint il_run (st : heap * ptr) (ops : list il_op) : outcome (heap * ptr) :=
  match ops with
  | [] => Ok st
  | o :: ops => do st <- il_step st o; il_run st ops
  end.

(** * Contexts *)

(** The links: core/include/Ab/VirtualMachine.hpp 66, 78, 100: a new Context (with a default node,
    IntrusiveList.hpp 26) registers itself. *)
Definition cx_create (st : heap * ptr) (c : ptr) : outcome (heap * ptr) :=
  il_add (hset (fst st) c (mkNode NULL NULL)) (snd st) c.

(** VirtualMachine.hpp 72, 80, 102: the destructor unregisters it; then the object is gone. *)
Definition hfree (h : heap) (p : ptr) : heap := fun q => if q =? p then None else h q.
Definition cx_destroy (st : heap * ptr) (c : ptr) : outcome (heap * ptr) :=
  do (h, root) <- il_remove (fst st) (snd st) c; Ok (hfree h c, root).

(** VirtualMachine.hpp 70: the default move constructor copies the node and registers nothing. *)
Definition cx_move (st : heap * ptr) (dst src : ptr) : outcome (heap * ptr) :=
  do n <- node_at (fst st) src; Ok (hset (fst st) dst n, snd st).

(** The contexts of a machine: the links; the pointer to the interpreter's stack in the context at an
    address (core/include/Ab/State.hpp 72); and the blocks that new[] has given and delete[] has not
    taken back.  The contents of the blocks are in InterpModel. *)
Record ctxs := mkCtxs { x_links : heap * ptr; x_stack : ptr -> ptr; x_blocks : list ptr }.
Definition no_ctxs : ctxs := mkCtxs (fun _ => None, NULL) (fun _ => NULL) [].
Definition set_stack (f : ptr -> ptr) (c b : ptr) : ptr -> ptr := fun q => if q =? c then b else f q.

(** VirtualMachine.hpp 66, 93 and core/src/ab-core-Interpreter.cpp.jinja 278-290: the interpreter is
    constructed first, with a block [b] from new[] (which is taken to succeed), then [enter] is called. *)
Definition ctx_create (st : ctxs) (c b : ptr) : outcome ctxs :=
  let bl := b :: x_blocks st in
  do l <- cx_create (x_links st) c;
  Ok (mkCtxs l (set_stack (x_stack st) c b) bl).

(** ab-core-Interpreter.cpp.jinja 292: delete[] *)
Definition delete_block (bl : list ptr) (b : ptr) : outcome (list ptr) :=
  if b =? NULL then Ok bl
  else if existsb (Z.eqb b) bl then Ok (List.remove Z.eq_dec b bl) else UB DoubleFree.

(** VirtualMachine.hpp 72: [leave] is called, then the interpreter is destroyed. *)
Definition ctx_destroy (st : ctxs) (c : ptr) : outcome ctxs :=
  do l <- cx_destroy (x_links st) c;
  do bl <- delete_block (x_blocks st) (x_stack st c);
  Ok (mkCtxs l (x_stack st) bl).

(** VirtualMachine.hpp 70, Interpreter.hpp.jinja 127: the default move constructors; the one of the
    interpreter copies the state, with the pointer to the stack, and leaves the source as it is. *)
Definition ctx_move (st : ctxs) (dst src : ptr) : outcome ctxs :=
  do l <- cx_move (x_links st) dst src;
  Ok (mkCtxs l (set_stack (x_stack st) dst (x_stack st src)) (x_blocks st)).

Inductive cx_op := CCreate (c b : ptr) | CDestroy (c : ptr) | CMove (dst src : ptr).

Definition cx_step (st : ctxs) (o : cx_op) : outcome ctxs :=
  match o with
  | CCreate c b => ctx_create st c b
  | CDestroy c => ctx_destroy st c
  | CMove d s => ctx_move st d s
  end.

Fixpoint cx_run (st : ctxs) (ops : list cx_op) : outcome ctxs :=
  match ops with
  | [] => Ok st
  | o :: ops => do st <- cx_step st o; cx_run st ops
  end.
