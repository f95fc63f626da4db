From Coq Require Import ZArith List Bool Arith.
From Verif Require Import Outcome.
Import ListNotations.
Local Open Scope nat_scope.

(** The persistent vector, util/include/Ab/Vector.hpp, with the reference counts of
    util/include/Ab/Rc.hpp.

    Modelled: Vec(), ~Vec(), cons, at / operator[], operator=(const Vec&), foreach, begin/end and
    Iter, capacity, and the private functions they use.

    Not modelled, because they do not compile when used: the copy and move constructors (101-108
    pass a string as fprintf's stream), assoc (124-127 passes the constructor's arguments in the
    wrong order) and conj (138, never defined).  dump and the tracing prints are left out.

    Simplifications: an element's copy constructor, assignment and destructor do nothing but copy;
    reference counts (int) do not overflow: that takes 2^31 references to one node, that is 2^31
    vector objects; assert is compiled in (without NDEBUG). *)

Section Vec.
(** The element type and its value-initialised value (new Leaf() zeroes the array). *)
Context {T : Type} (d : T).

(** Nodes: 24-38.  An address is an index into the heap; a freed node is [None]. *)
Inductive body := Leaf (values : list T) | Branch (children : list (option nat)).
Record cell := mkCell { rc : nat; bd : body }.
Definition heap := list (option cell).

Definition RADIX : nat := 4.                                             (* 20 *)

(** Access through a pointer *)
Definition load (h : heap) (a : nat) : outcome cell :=
  match nth_error h a with
  | Some (Some c) => Ok c
  | Some None => UB UseAfterFree
  | None => UB OutOfBounds
  end.

Fixpoint put (h : heap) (a : nat) (c : option cell) : heap :=
  match h, a with
  | [], _ => []
  | _ :: h, O => c :: h
  | x :: h, S a => x :: put h a c
  end.

(** new: a node never gets the address of another one, dead or alive *)
Definition alloc (h : heap) (b : body) : nat * heap := (length h, h ++ [Some (mkCell 0 b)]).

(** delete: the destructor of RefCounted asserts that the count is zero (Rc.hpp 84) *)
Definition delete (h : heap) (a : nat) : outcome heap :=
  do c <- load h a;
  ab_assert (rc c =? 0) ;;
  Ok (put h a None).

(** RefCounter::inc, Rc.hpp 30-34 *)
Definition inc (h : heap) (a : nat) : outcome heap :=
  do c <- load h a; Ok (put h a (Some (mkCell (S (rc c)) (bd c)))).

(** RefCounter::dec, Rc.hpp 36-40 *)
Definition dec (h : heap) (a : nat) : outcome (nat * heap) :=
  do c <- load h a;
  match rc c with
  | O => Trap Assertion
  | S n => Ok (n, put h a (Some (mkCell n (bd c))))
  end.

(** static_cast<const Leaf*>, static_cast<const Branch*> and the access that follows: reading the
    other class's member is outside the object *)
Definition leaf (h : heap) (a : nat) : outcome (list T) :=
  do c <- load h a; match bd c with Leaf vs => Ok vs | Branch _ => UB OutOfBounds end.
Definition branch (h : heap) (a : nat) : outcome (list (option nat)) :=
  do c <- load h a; match bd c with Branch cs => Ok cs | Leaf _ => UB OutOfBounds end.

Fixpoint set_nth {A} (l : list A) (i : nat) (x : A) : list A :=
  match l, i with
  | [], _ => []
  | _ :: l, O => x :: l
  | y :: l, S i => y :: set_nth l i x
  end.

Definition child (cs : list (option nat)) (i : nat) : outcome (option nat) :=
  match nth_error cs i with Some c => Ok c | None => UB OutOfBounds end.

(** 194-197 (RADIX.log2() = 2; operator% of SizeP2.hpp 41-43 masks) *)
Definition subindex (level i : nat) : nat := Nat.land (Nat.shiftr i (level * 2)) 3.

(** 200-217.  [release] of a child at level - 1 is a recursive call: the level is the measure. *)
Fixpoint release (level : nat) (h : heap) (node : option nat) : outcome heap :=
  match node with
  | None => Ok h                                                         (* 201-203 *)
  | Some a =>
      do (n, h) <- dec h a;                                              (* 205 *)
      if n =? 0 then
        match level with
        | O => do _ <- leaf h a; delete h a                              (* 206-208 *)
        | S level =>
            do cs <- branch h a;                                         (* 210 *)
            do h <- (fix go (h : heap) (cs : list (option nat)) : outcome heap :=
                       match cs with
                       | [] => Ok h
                       | c :: cs => do h <- release level h c; go h cs   (* 211-213 *)
                       end) h cs;
            delete h a                                                   (* 214 *)
        end
      else Ok h
  end.

(** 236-240 *)
Fixpoint inc_all (h : heap) (cs : list (option nat)) : outcome heap :=
  match cs with
  | [] => Ok h
  | None :: cs => inc_all h cs
  | Some a :: cs => do h <- inc h a; inc_all h cs
  end.

(** 220-226 *)
Definition copy_leaf (h : heap) (src : option nat) : outcome (nat * heap) :=
  match src with
  | None => Ok (alloc h (Leaf (repeat d RADIX)))
  | Some a => do vs <- leaf h a; Ok (alloc h (Leaf vs))
  end.

(** 228-243 *)
Definition copy_branch (h : heap) (src : option nat) : outcome (nat * heap) :=
  match src with
  | None => Ok (alloc h (Branch (repeat None RADIX)))
  | Some a =>
      do cs <- branch h a;
      let (dst, h) := alloc h (Branch cs) in
      do h <- inc_all h cs;
      Ok (dst, h)
  end.

(** Assignment to an element of a node's array *)
Definition set_value (h : heap) (a i : nat) (x : T) : outcome heap :=
  do c <- load h a;
  match bd c with
  | Leaf vs => Ok (put h a (Some (mkCell (rc c) (Leaf (set_nth vs i x)))))
  | Branch _ => UB OutOfBounds
  end.
Definition set_child (h : heap) (a i : nat) (x : option nat) : outcome heap :=
  do c <- load h a;
  match bd c with
  | Branch cs => Ok (put h a (Some (mkCell (rc c) (Branch (set_nth cs i x)))))
  | Leaf _ => UB OutOfBounds
  end.

(** 245-261 *)
Fixpoint update (level : nat) (h : heap) (node : option nat) (i : nat) (x : T) : outcome (nat * heap) :=
  match level with
  | O =>
      do (l, h) <- copy_leaf h node;                                     (* 247 *)
      do h <- set_value h l (Nat.land i 3) x;                            (* 248 *)
      Ok (l, h)
  | S level' =>
      do (clone, h) <- copy_branch h node;                               (* 252 *)
      let si := subindex level i in                                      (* 253-255 *)
      do cs <- branch h clone;
      do c <- child cs si;
      do h <- release level' h c;                                        (* 257 *)
      do (n, h) <- update level' h c i x;                                (* 258 *)
      do h <- set_child h clone si (Some n);
      do h <- inc h n;                                                   (* 259 *)
      Ok (clone, h)
  end.

(** 327-329 *)
Record vec := mkVec { root : nat; size : nat; level : nat }.

(** 96-99 *)
Definition new_vec (h : heap) : outcome (vec * heap) :=
  let (r, h) := alloc h (Leaf (repeat d RADIX)) in
  do h <- inc h r;
  Ok (mkVec r 0 0, h).

(** 110-112 *)
Definition destroy_vec (h : heap) (v : vec) : outcome heap := release (level v) h (Some (root v)).

(** 286-289 *)
Definition make_vec (h : heap) (r size level : nat) : outcome (vec * heap) :=
  do h <- inc h r; Ok (mkVec r size level, h).

(** 170-172: the shifted 1 is an int *)
Definition capacity (v : vec) : outcome nat :=
  if (level v + 1) * 2 <? 32 then Ok (2 ^ ((level v + 1) * 2)) else UB BadShift.

(** 141-168 *)
Definition cons_vec (h : heap) (v : vec) (x : T) : outcome (vec * heap) :=
  let i := size v in
  let size2 := size v + 1 in
  do cap <- capacity v;
  if i <? cap then                                                       (* 146-149 *)
    do (root2, h) <- update (level v) h (Some (root v)) i x;
    make_vec h root2 size2 (level v)
  else
    let (root2, h) := alloc h (Branch (repeat None RADIX)) in            (* 155 *)
    let level2 := level v + 1 in                                         (* 156 *)
    do h <- set_child h root2 0 (Some (root v));                         (* 158 *)
    do h <- inc h (root v);                                              (* 159 *)
    let si := subindex level2 i in                                       (* 161 *)
    do cs <- branch h root2;
    do c <- child cs si;
    ab_assert (match c with None => true | Some _ => false end) ;;       (* 163 *)
    do (n, h) <- update (level2 - 1) h c i x;                            (* 165 *)
    do h <- set_child h root2 si (Some n);
    do h <- inc h n;                                                     (* 166 *)
    make_vec h root2 size2 level2.                                       (* 167 *)

(** 279-284 and the loop of leafFor, 296-303 *)
Fixpoint leaf_for (level : nat) (h : heap) (node : nat) (i : nat) : outcome nat :=
  match level with
  | O => Ok node
  | S level' =>
      do cs <- branch h node;
      do c <- child cs (subindex level i);
      match c with
      | None => Trap Assertion                                           (* 300 *)
      | Some c => leaf_for level' h c i
      end
  end.

Definition value_in (h : heap) (l i : nat) : outcome T :=
  do vs <- leaf h l;
  match nth_error vs i with Some x => Ok x | None => UB OutOfBounds end.

(** 114-121 *)
Definition at_vec (h : heap) (v : vec) (i : nat) : outcome T :=
  do l <- leaf_for (level v) h (root v) i;
  value_in h l (Nat.land i 3).

(** 264-277: the values [f] is called with, in order *)
Fixpoint foreach (level : nat) (h : heap) (node : option nat) : outcome (list T) :=
  match node with
  | None => Ok []
  | Some a =>
      match level with
      | O => leaf h a
      | S level =>
          do cs <- branch h a;
          (fix go (cs : list (option nat)) : outcome (list T) :=
             match cs with
             | [] => Ok []
             | c :: cs => do xs <- foreach level h c; do ys <- go cs; Ok (xs ++ ys)
             end) cs
      end
  end.
Definition foreach_vec (h : heap) (v : vec) : outcome (list T) := foreach (level v) h (Some (root v)).

(** Iter: 43-94 *)
Record iter := mkIter { current : nat; offset : nat; sub : nat }.
(** 82-86 *)
Definition iter_at (h : heap) (v : vec) (i : nat) : outcome iter :=
  do l <- leaf_for (level v) h (root v) i;
  Ok (mkIter l (Nat.shiftl (Nat.shiftr i 2) 2) (Nat.land i 3)).
(** 47-56 *)
Definition iter_next (h : heap) (v : vec) (it : iter) : outcome iter :=
  let s := sub it + 1 in
  if s =? 4 then
    do l <- leaf_for (level v) h (root v) (s + offset it);
    Ok (mkIter l (offset it + 4) 0)
  else Ok (mkIter (current it) (offset it) s).
(** 58-61 *)
Definition iter_get (h : heap) (v : vec) (it : iter) : outcome T :=
  ab_assert (sub it + offset it <? size v) ;;
  value_in h (current it) (sub it).
(** 63-65, 88 *)
Definition iter_eq (a b : iter) : bool := offset a + sub a =? offset b + sub b.

(** for (const T& x : vec) visit(x); the values visited, in order *)
Fixpoint iter_loop (fuel : nat) (h : heap) (v : vec) (it e : iter) : outcome (list T) :=
  match fuel with
  | O => OutOfFuel
  | S fuel =>
      if iter_eq it e then Ok []
      else
        do x <- iter_get h v it;
        do it <- iter_next h v it;
        do xs <- iter_loop fuel h v it e;
        Ok (x :: xs)
  end.
Definition iterate (fuel : nat) (h : heap) (v : vec) : outcome (list T) :=
  do b <- iter_at h v 0;                                                 (* 129-131 *)
  do e <- iter_at h v (size v);                                          (* 133-135 *)
  iter_loop fuel h v b e.

(** 180-188 (a copy assignment; [w] is the right-hand side before the call, which is the same
    object as the left-hand side in a self-assignment) *)
Definition assign_vec (h : heap) (v w : vec) : outcome (vec * heap) :=
  do h <- release (level v) h (Some (root v));
  do h <- inc h (root w);
  Ok (w, h).

(** * Histories: a program with vector variables.  Variables are numbered; a variable not in the
    list of live ones has not been constructed or has been destroyed. *)
Record prog := mkProg { mem : heap; vars : list (option vec) }.

Inductive op :=
| ONew (i : nat)                  (* Vec<T> i;                       *)
| OCons (i j : nat) (x : T)       (* auto i = j.cons(x);             *)
| OAssign (i j : nat)             (* i = j;                          *)
| OAppend (i j : nat) (x : T)     (* i = j.cons(x);                  *)
| ODestroy (i : nat).             (* i goes out of scope             *)

Definition var (p : prog) (i : nat) : option vec := match nth_error (vars p) i with Some o => o | None => None end.
Fixpoint pad (l : list (option vec)) (n : nat) : list (option vec) :=
  match n, l with O, _ => l | S n, [] => None :: pad [] n | S n, x :: l => x :: pad l n end.
Definition set_var (p : prog) (h : heap) (i : nat) (v : option vec) : prog :=
  mkProg h (set_nth (pad (vars p) (S i)) i v).

(** A step is [None] when the program is meaningless (a variable used outside its lifetime). *)
Definition do_op (p : prog) (o : op) : option (outcome prog) :=
  match o with
  | ONew i =>
      match var p i with
      | Some _ => None
      | None => Some (do (v, h) <- new_vec (mem p); Ok (set_var p h i (Some v)))
      end
  | OCons i j x =>
      match var p i, var p j with
      | None, Some w => Some (do (v, h) <- cons_vec (mem p) w x; Ok (set_var p h i (Some v)))
      | _, _ => None
      end
  | OAssign i j =>
      match var p i, var p j with
      | Some v, Some w => Some (do (v, h) <- assign_vec (mem p) v w; Ok (set_var p h i (Some v)))
      | _, _ => None
      end
  | OAppend i j x =>                    (* a temporary, assigned and destroyed *)
      match var p i, var p j with
      | Some v, Some w =>
          Some (do (t, h) <- cons_vec (mem p) w x;
                do (v, h) <- assign_vec h v t;
                do h <- destroy_vec h t;
                Ok (set_var p h i (Some v)))
      | _, _ => None
      end
  | ODestroy i =>
      match var p i with
      | Some v => Some (do h <- destroy_vec (mem p) v; Ok (set_var p h i None))
      | None => None
      end
  end.

Fixpoint run (p : prog) (os : list op) : option (outcome prog) :=
  match os with
  | [] => Some (Ok p)
  | o :: os =>
      match do_op p o with
      | None => None
      | Some (Ok p') => run p' os
      | Some m => Some m
      end
  end.

Definition start : prog := mkProg [] [].

End Vec.
