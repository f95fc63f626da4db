From Coq Require Import List Arith NArith.
From Verif Require Import Outcome VecModel.
Import ListNotations.

(** What a program with persistent vector variables means: each variable is a list, appending
    makes a new list, assignment copies.  Nothing is shared.

    [LIMIT]: with more elements than this, a vector can no longer be appended to (see C73). *)
Section Spec.
Context {T : Type}.

Definition LIMIT : N := 2 ^ 30.
Definition fits (l : list T) : Prop := (N.of_nat (length l) <= LIMIT)%N.

(** The variables in scope and their contents *)
Definition env := nat -> option (list T).
Definition set_env (e : env) (i : nat) (l : option (list T)) : env := fun k => if Nat.eqb k i then l else e k.

Inductive means : env -> op (T := T) -> env -> Prop :=
| m_new e i : e i = None -> means e (ONew i) (set_env e i (Some []))
| m_cons e i j x l : e i = None -> e j = Some l -> fits l -> means e (OCons i j x) (set_env e i (Some (l ++ [x])))
| m_assign e i j li lj : i <> j -> e i = Some li -> e j = Some lj -> means e (OAssign i j) (set_env e i (Some lj))
| m_append e i j x li lj : e i = Some li -> e j = Some lj -> fits lj ->
    means e (OAppend i j x) (set_env e i (Some (lj ++ [x])))
| m_destroy e i l : e i = Some l -> means e (ODestroy i) (set_env e i None).

Inductive runs : env -> list op -> env -> Prop :=
| r_nil e : runs e [] e
| r_cons e o e1 os e2 : means e o e1 -> runs e1 os e2 -> runs e (o :: os) e2.

Definition nothing : env := fun _ => None.

(** The vector shows the list: its size, and every element. *)
Definition shows (h : heap (T := T)) (v : vec) (l : list T) : Prop :=
  size v = length l /\ forall k x, nth_error l k = Some x -> at_vec h v k = Ok x.

(** The state of a program shows an environment. *)
Definition state_shows (p : prog (T := T)) (e : env) : Prop :=
  forall i, match e i with
            | Some l => exists v, var p i = Some v /\ shows (mem p) v l
            | None => var p i = None
            end.

(** A node is in memory *)
Definition allocated (h : heap (T := T)) (a : nat) : Prop := exists c, nth_error h a = Some (Some c).

(** Its children, and the references to it: from variables and from nodes in memory. *)
Definition children_of (c : option (cell (T := T))) : list nat :=
  match c with
  | Some (mkCell _ (Branch cs)) => flat_map (fun o => match o with Some a => [a] | None => [] end) cs
  | _ => []
  end.
Definition var_roots (vs : list (option vec)) : list nat :=
  flat_map (fun o => match o with Some v => [root v] | None => [] end) vs.
Definition references (p : prog (T := T)) (a : nat) : nat :=
  count_occ Nat.eq_dec (var_roots (vars p)) a + count_occ Nat.eq_dec (flat_map children_of (mem p)) a.

Inductive reachable (p : prog (T := T)) : nat -> Prop :=
| reach_root a : In a (var_roots (vars p)) -> reachable p a
| reach_child a b c : reachable p b -> nth_error (mem p) b = Some c -> In a (children_of c) -> reachable p a.

(** Sizes of vectors that cannot be iterated over: multiples of 4 above 4 that are not powers of 4 *)
Definition aborts (n : nat) : Prop := n mod 4 = 0 /\ 4 < n /\ forall k, n <> 4 ^ k.

End Spec.
