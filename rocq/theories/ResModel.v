(** Model of Result<T, E> (util/include/Ab/Result.hpp): a union of a value and an error with a kind.

    Objects of type T and E are numbered in the order they are constructed; the list [r_objs] holds
    those that are alive.  Copying makes an equal value and does not throw; moving from [v] leaves
    [moved v].  The boxes Ok<Tx> and Err<Ex> given as arguments are read, their own life is not modelled.
    [triv_t] and [triv_e] say whether T and E are trivial types.

    Not modelled because they do not compile when used: operator=(const Ok&) (131-139: Kind::ERROR),
    operator=(const Result<Tx, Ex>&) and operator=(Result<Tx, Ex>&&) (165-187: isValue); for trivial T
    and E the implicit assignment copies the bytes. *)

From Coq Require Import List Arith Bool.
From Verif Require Import Outcome.
Import ListNotations.

Section Result.
Variables T E : Type.
Variable moved_t : T -> T.
Variable moved_e : E -> E.
Variables triv_t triv_e : bool.

(** 44, 189-194: kind_ and the object in the union *)
Inductive rkind := KOk | KErr.
Record result := mkRes { r_kind : rkind; r_member : nat }.
Record rstate := mkRS { r_objs : list (nat * (T + E)); r_next : nat; r_vars : list (nat * result) }.
Definition rstate0 : rstate := mkRS [] 0 [].

Fixpoint find {A} (k : nat) (l : list (nat * A)) : option A :=
  match l with [] => None | (j, a) :: l => if j =? k then Some a else find k l end.
Fixpoint drop {A} (k : nat) (l : list (nat * A)) : list (nat * A) :=
  match l with [] => [] | (j, a) :: l => if j =? k then l else (j, a) :: drop k l end.
Fixpoint replace {A} (k : nat) (a : A) (l : list (nat * A)) : list (nat * A) :=
  match l with [] => [] | (j, b) :: l => if j =? k then (j, a) :: l else (j, b) :: replace k a l end.

Definition var (s : rstate) (i : nat) : outcome result :=
  match find i (r_vars s) with Some r => Ok r | None => UB UseAfterFree end.
(** Reading the member of the union that [kind] names. *)
Definition value_of (s : rstate) (k : nat) : outcome T :=
  match find k (r_objs s) with Some (inl v) => Ok v | _ => UB UseAfterFree end.
Definition error_of (s : rstate) (k : nat) : outcome E :=
  match find k (r_objs s) with Some (inr e) => Ok e | _ => UB UseAfterFree end.

(** A new object in the union of variable [i]. *)
Definition construct (s : rstate) (i : nat) (x : T + E) : rstate :=
  let kind := match x with inl _ => KOk | inr _ => KErr end in
  mkRS ((r_next s, x) :: r_objs s) (S (r_next s)) ((i, mkRes kind (r_next s)) :: r_vars s).
(** SafeDestructor.hpp 17-26 *)
Definition destroy (s : rstate) (k : nat) : outcome rstate :=
  match find k (r_objs s) with Some _ => Ok (mkRS (drop k (r_objs s)) (r_next s) (r_vars s)) | None => UB DoubleFree end.
Definition forget (s : rstate) (i : nat) : rstate := mkRS (r_objs s) (r_next s) (drop i (r_vars s)).

Inductive rop :=
| ROk (i : nat) (v : T)       (* Result<T, E> ri = ok(v); *)
| RErr (i : nat) (e : E)      (* Result<T, E> ri = err(e); *)
| RCopy (i j : nat)           (* Result<T, E> ri(rj); *)
| RMove (i j : nat)           (* Result<T, E> ri(std::move(rj)); *)
| RSetOk (i : nat) (v : T)    (* ri = ok(v); *)
| RSetErr (i : nat) (e : E)   (* ri = err(e); *)
| REnd (i : nat).             (* ~Result *)

Definition rexec (s : rstate) (o : rop) : outcome rstate :=
  match o with
  | ROk i v => Ok (construct s i (inl v))                                   (* 46-52 *)
  | RErr i e => Ok (construct s i (inr e))                                  (* 54-60 *)
  | RCopy i j =>                                                            (* 62-71 *)
      do r <- var s j;
      match r_kind r with
      | KOk => do v <- value_of s (r_member r); Ok (construct s i (inl v))
      | KErr => do e <- error_of s (r_member r); Ok (construct s i (inr e))
      end
  | RMove i j =>                                                            (* 73-82 *)
      do r <- var s j;
      match r_kind r with
      | KOk =>
          do v <- value_of s (r_member r);
          Ok (construct (mkRS (replace (r_member r) (inl (moved_t v)) (r_objs s)) (r_next s) (r_vars s)) i (inl v))
      | KErr =>
          do e <- error_of s (r_member r);
          Ok (construct (mkRS (replace (r_member r) (inr (moved_e e)) (r_objs s)) (r_next s) (r_vars s)) i (inr e))
      end
  | RSetOk i v =>                                                           (* 141-149 *)
      do r <- var s i;
      match r_kind r with
      | KOk =>
          do _ <- value_of s (r_member r);
          Ok (mkRS (replace (r_member r) (inl v) (r_objs s)) (r_next s) (r_vars s))
      | KErr =>
          do s <- destroy s (r_member r);
          (* value_ = ...: no T lives there; for a trivial type the assignment makes one *)
          if triv_t then Ok (construct (forget s i) i (inl v)) else UB UseAfterFree
      end
  | RSetErr i e =>                                                          (* 151-163 *)
      do r <- var s i;
      match r_kind r with
      | KErr =>
          do _ <- error_of s (r_member r);
          Ok (mkRS (replace (r_member r) (inr e) (r_objs s)) (r_next s) (r_vars s))
      | KOk =>
          (* err_ = ...: the value is not destroyed; a trivial one ends when its storage is reused *)
          if triv_e
          then (do s <- (if triv_t then destroy s (r_member r) else Ok s); Ok (construct (forget s i) i (inr e)))
          else UB UseAfterFree
      end
  | REnd i =>                                                               (* 84-93 *)
      do r <- var s i;
      match r_kind r with
      | KOk => do _ <- value_of s (r_member r); do s <- destroy s (r_member r); Ok (forget s i)
      | KErr => do _ <- error_of s (r_member r); do s <- destroy s (r_member r); Ok (forget s i)
      end
  end.
Fixpoint rexec_all (s : rstate) (os : list rop) : outcome rstate :=
  match os with [] => Ok s | o :: os => do s <- rexec s o; rexec_all s os end.

(** 95-109: operator bool, isOk *)
Definition is_ok (s : rstate) (i : nat) : outcome bool :=
  do r <- var s i; Ok (match r_kind r with KOk => true | KErr => false end).
(** 111-119: operator() *)
Definition get_ok (s : rstate) (i : nat) : outcome T :=
  do r <- var s i; match r_kind r with KOk => value_of s (r_member r) | KErr => Trap Assertion end.
(** 121-129: err() *)
Definition get_err (s : rstate) (i : nat) : outcome E :=
  do r <- var s i; match r_kind r with KErr => error_of s (r_member r) | KOk => Trap Assertion end.
End Result.
