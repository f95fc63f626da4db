(** Who refers to which module, without counting. *)

From Coq Require Import ZArith List.
From Verif Require Import Outcome CodecModel OwnModel.
Import ListNotations.
Local Open Scope Z_scope.

(** Each owner that exists refers to nothing or to the module made from the k-th storage. *)
Definition refs := owner -> option (option nat).
Definition no_refs : refs := fun _ => None.
Definition put (r : refs) (o : owner) (v : option (option nat)) : refs := fun o' => if owner_eqb o o' then v else r o'.

(** A storage given to compile: address, deleter, bytes. *)
Definition storage : Type := Z * Z * bytes.

Definition after (s : refs * list storage) (op : oop) : refs * list storage :=
  let (r, st) := s in
  match op with
  | OCompile x addr del bs =>
      (match compile bs with Ok _ => put r (Handle x) (Some (Some (length st))) | _ => r end, st ++ [(addr, del, bs)])
  | OCopy x y | OAssign x y => (put r (Handle x) (r (Handle y)), st)
  | OMove x y => (put (put r (Handle y) (Some None)) (Handle x) (r (Handle y)), st)
  | ODrop x => (put r (Handle x) None, st)
  | OInstantiate i y => (put r (Instance i) (r (Handle y)), st)
  | OInstantiateMove i y => (put (put r (Handle y) (Some None)) (Instance i) (r (Handle y)), st)
  | ODelete i => (put r (Instance i) None, st)
  | OVmEnd => (r, st)
  end.
Definition history (ops : list oop) : refs * list storage := fold_left after ops (no_refs, []).

(** Names are declared once and used while they exist; only modules are instantiated; the bytes are
    a module, or compile throws. *)
Definition allowed (r : refs) (op : oop) : Prop :=
  match op with
  | OCompile x _ _ bs => r (Handle x) = None /\ ((exists m, compile bs = Ok m) \/ (exists e, compile bs = Throw e))
  | OCopy x y | OMove x y => r (Handle x) = None /\ r (Handle y) <> None
  | OAssign x y => r (Handle x) <> None /\ r (Handle y) <> None
  | ODrop x => r (Handle x) <> None
  | OInstantiate i y | OInstantiateMove i y => r (Instance i) = None /\ exists k, r (Handle y) = Some (Some k)
  | ODelete i => r (Instance i) <> None
  | OVmEnd => True
  end.
Definition used_properly (ops : list oop) : Prop :=
  forall before op later, ops = before ++ op :: later -> allowed (fst (history before)) op.

(** Nothing refers to the k-th module. *)
Definition unowned (r : refs) (k : nat) : Prop := forall o, r o <> Some (Some k).

(** The call that releases a storage: none for a null address or deleter. *)
Definition releasing (s : storage) : list (Z * Z) :=
  let '(addr, del, _) := s in if Z.eq_dec addr 0 then [] else if Z.eq_dec del 0 then [] else [(del, addr)].
