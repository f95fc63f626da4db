(** Outcomes of C++ operations, shared by all models.

    [Ok v]        the operation returned normally with [v];
    [Throw e]     a C++ exception of class [e] left the operation;
    [Trap t]      the process was stopped: AB_ASSERT / AB_ASSERT_UNREACHABLE
                  (util/include/Ab/Assert.hpp 17, 27-50: always compiled in, ends in
                  __builtin_trap), or std::terminate because an exception left a
                  noexcept function;
    [UB u]        the C++ standard (C++17) gives the operation no meaning;
    [OutOfFuel]   the model's iteration budget was exhausted; theorems exclude or
                  characterise it, it is never a normal result. *)

From Coq Require Import ZArith List.
Import ListNotations.

Inductive exn :=
| DecodeError   (* core/src/ab-core-Loading.cpp 11-14 *)
| BadNumber     (* util/include/Ab/leb128.hpp 15-18 *)
| ReaderError   (* util/include/Ab/leb128.hpp 10-13 *)
| InvalidHeader (* core/include/Ab/Wasm/Reader.hpp 25-28 *)
| InvalidSection (* core/include/Ab/Wasm/Reader.hpp 30-33 *)
| StdException.  (* std::exception and its other subclasses *)

Inductive trap := Assertion | Terminate | Exit. (* Exit: std::exit was called *)

Inductive ub :=
| BadShift        (* shift count out of range or unrepresentable signed shift *)
| SignedOverflow
| OutOfBounds     (* access outside an object *)
| NullDeref
| UseAfterFree
| DoubleFree
| Misaligned
| MissingReturn.  (* control reaches the end of a function with a result *)

Inductive outcome (A : Type) :=
| Ok (a : A)
| Throw (e : exn)
| Trap (t : trap)
| UB (u : ub)
| OutOfFuel.
Arguments Ok {A} a.
Arguments Throw {A} e.
Arguments Trap {A} t.
Arguments UB {A} u.
Arguments OutOfFuel {A}.

Definition bind {A B} (m : outcome A) (f : A -> outcome B) : outcome B :=
  match m with
  | Ok a => f a
  | Throw e => Throw e
  | Trap t => Trap t
  | UB u => UB u
  | OutOfFuel => OutOfFuel
  end.

Notation "'do' x <- m ; f" := (bind m (fun x => f))
  (at level 200, x pattern, m at level 100, f at level 200).
Notation "m ;; f" := (bind m (fun _ => f)) (at level 199, right associativity).

(** AB_ASSERT(c), util/include/Ab/Assert.hpp 44-50 and 60-. *)
Definition ab_assert (c : bool) : outcome unit := if c then Ok tt else Trap Assertion.

Definition is_ok {A} (m : outcome A) : Prop := exists a, m = Ok a.

Lemma bind_ok {A B} (m : outcome A) (f : A -> outcome B) b :
  bind m f = Ok b -> exists a, m = Ok a /\ f a = Ok b.
Proof. destruct m; cbn; intros H; try discriminate. eauto. Qed.

Lemma ab_assert_ok c u : ab_assert c = Ok u -> c = true.
Proof. destruct c; cbn; congruence. Qed.

Ltac inv_ok :=
  repeat match goal with
  | H : bind _ _ = Ok _ |- _ =>
      let x := fresh "x" in let H1 := fresh "Hm" in let H2 := fresh "Hk" in
      apply bind_ok in H; destruct H as [x [H1 H2]]
  | H : ab_assert _ = Ok _ |- _ => apply ab_assert_ok in H
  | H : Ok _ = Ok _ |- _ => injection H; clear H; intros; subst
  | H : Throw _ = Ok _ |- _ => discriminate H
  | H : Trap _ = Ok _ |- _ => discriminate H
  | H : UB _ = Ok _ |- _ => discriminate H
  | H : OutOfFuel = Ok _ |- _ => discriminate H
  end.

(** A byte is a number below 256; byte strings are lists of them. *)
Definition is_byte (b : Z) : Prop := (0 <= b < 256)%Z.
Definition bytes := list Z.
Definition is_bytes (bs : bytes) : Prop := Forall is_byte bs.

(** Split a conjunction without unfolding definitions. *)
Ltac conjs := match goal with |- _ /\ _ => split; [|conjs] | _ => idtac end.
