From Coq Require Import List Bool Arith.
From Verif Require Import Outcome.
Import ListNotations.
Local Open Scope nat_scope.

(** Reference-counted pointers, util/include/Ab/Rc.hpp.

    The counted objects are of any class T derived from RefCounted whose members include handles
    (Rc<T>), any number of them, and whose destructor does nothing besides destroying the members.
    Handles are local variables and members of objects.

    Not modelled: the move constructor, which does not compile when used (115-118 assigns to a
    member of a const object; 130-136 cannot be called because U is not deducible), and the
    converting constructor (120-128), which does not compile either when used (value_ of another
    class is private, 96).  Simplifications: counts (int) do not overflow; new never returns the
    address of another object, dead or alive; assert is compiled in. *)

(** A counted object: RefCounted 82-90 and the derived class's handles *)
Record obj := mkObj { count : nat; fields : list (option nat) }.
Definition heap := list (option obj).

Definition load (h : heap) (a : nat) : outcome obj :=
  match nth_error h a with
  | Some (Some o) => Ok o
  | Some None => UB UseAfterFree
  | None => UB OutOfBounds
  end.
Fixpoint put {A} (l : list A) (i : nat) (x : A) : list A :=
  match l, i with
  | [], _ => []
  | _ :: l, O => x :: l
  | y :: l, S i => y :: put l i x
  end.

Definition get_field (h : heap) (a k : nat) : outcome (option nat) :=
  do o <- load h a; match nth_error (fields o) k with Some v => Ok v | None => UB OutOfBounds end.
Definition set_field (h : heap) (a k : nat) (v : option nat) : outcome heap :=
  do o <- load h a;
  if k <? length (fields o) then Ok (put h a (Some (mkObj (count o) (put (fields o) k v)))) else UB OutOfBounds.

(** incref 50-53, xincref 55-60 *)
Definition incref (h : heap) (a : nat) : outcome heap :=
  do o <- load h a; Ok (put h a (Some (mkObj (S (count o)) (fields o)))).
Definition xincref (h : heap) (v : option nat) : outcome heap :=
  match v with None => Ok h | Some a => incref h a end.

(** decref 65-71.  Deleting an object destroys its members in the reverse order of their
    declaration, each of them with ~Rc (138) and so clear (142-147); then ~RefCounted (84) asserts
    that the object is dead.  [fuel] bounds the depth of nested deletions. *)
Fixpoint decref (fuel : nat) (h : heap) (a : nat) : outcome heap :=
  match fuel with
  | O => OutOfFuel
  | S fuel =>
      do o <- load h a;                                                  (* 67 *)
      match count o with
      | O => Trap Assertion                                              (* 38 *)
      | S n =>
          let h := put h a (Some (mkObj n (fields o))) in                (* 37 *)
          if n =? 0 then                                                 (* 68 *)
            do h <- (fix members (h : heap) (k : nat) : outcome heap :=
                       match k with
                       | O => Ok h
                       | S k =>
                           do v <- get_field h a k;
                           do h <- match v with
                                   | None => Ok h                        (* 143 *)
                                   | Some b =>
                                       do h <- decref fuel h b;          (* 144 *)
                                       set_field h a k None              (* 145 *)
                                   end;
                           members h k
                       end) h (length (fields o));
            do o <- load h a;
            ab_assert (count o =? 0) ;;                                  (* 84 *)
            Ok (put h a None)
          else Ok h
      end
  end.
(** Enough fuel: there are no more nested deletions than objects *)
Definition xdecref (h : heap) (v : option nat) : outcome heap :=         (* 75-80 *)
  match v with None => Ok h | Some a => decref (S (length h)) h a end.

(** * A program with local variables and objects *)
Record prog := mkProg { mem : heap; locals : list (option (option nat)) }.   (* None: not in scope *)

(** Where a handle is *)
Inductive place := Local (i : nat) | Member (a k : nat).

(** Reading and writing value_ of a handle *)
Definition get (p : prog) (l : place) : outcome (option nat) :=
  match l with
  | Local i => match nth_error (locals p) i with Some (Some v) => Ok v | _ => UB UseAfterFree end
  | Member a k => get_field (mem p) a k
  end.
Definition set (p : prog) (l : place) (v : option nat) : outcome prog :=
  match l with
  | Local i => match nth_error (locals p) i with
               | Some (Some _) => Ok (mkProg (mem p) (put (locals p) i (Some v)))
               | _ => UB UseAfterFree
               end
  | Member a k => do h <- set_field (mem p) a k v; Ok (mkProg h (locals p))
  end.

(** An expression that denotes a handle: x, x->f, x->f->g, ... (operator->, PtrLike.hpp 24-27) *)
Definition path := (nat * list nat)%type.
Fixpoint walk (p : prog) (l : place) (ks : list nat) : outcome place :=
  match ks with
  | [] => Ok l
  | k :: ks =>
      do v <- get p l;
      match v with None => UB NullDeref | Some a => walk p (Member a k) ks end
  end.
Definition eval (p : prog) (x : path) : outcome place := walk p (Local (fst x)) (snd x).

Inductive op :=
| ONull (i : nat)                (* Rc<T> i;                  98      *)
| ONew (i n : nat)               (* auto i = mkrc<T>();       174-177; an object with n handles *)
| OCopy (i : nat) (x : path)     (* Rc<T> i = x;              110-113 *)
| ORaw (i : nat) (x : path)      (* Rc<T> i(x.get());         105-108 *)
| OClear (x : path)              (* x.clear();                142-147 *)
| ORenew (x : path) (n : nat)    (* x = mkrc<T>();            163-168 *)
| OAssign (x y : path)           (* x = y;                    156-161 *)
| OAssignRaw (x y : path)        (* x = y.get();              149-154 *)
| OMove (x y : path)             (* x = std::move(y);         163-168 *)
| ODestroy (i : nat).            (* i goes out of scope       138     *)

(** Bringing a variable into scope; the variable's number must be the next one or that of a
    variable that has gone out of scope *)
Definition declare (p : prog) (h : heap) (i : nat) (v : option nat) : outcome prog :=
  match nth_error (locals p) i with
  | Some None => Ok (mkProg h (put (locals p) i (Some v)))
  | Some (Some _) => UB OutOfBounds
  | None => if i =? length (locals p) then Ok (mkProg h (locals p ++ [Some v])) else UB OutOfBounds
  end.
Definition in_mem (p : prog) (h : heap) : prog := mkProg h (locals p).

(** new T: the count starts at zero (15), the handles are null (98) *)
Definition new_obj (h : heap) (n : nat) : nat * heap := (length h, h ++ [Some (mkObj 0 (repeat None n))]).

(** x.clear(), 142-147 *)
Definition clear (p : prog) (l : place) : outcome prog :=
  do v <- get p l;
  match v with
  | None => Ok p
  | Some a => do h <- xdecref (mem p) (Some a); set (in_mem p h) l None
  end.

Definition do_op (p : prog) (o : op) : outcome prog :=
  match o with
  | ONull i => declare p (mem p) i None
  | ONew i n =>
      let (a, h) := new_obj (mem p) n in
      do h <- xincref h (Some a);
      declare p h i (Some a)
  | OCopy i x | ORaw i x =>
      do l <- eval p x;
      do v <- get p l;
      do h <- xincref (mem p) v;
      declare p h i v
  | OClear x => do l <- eval p x; clear p l
  | ORenew x n =>
      let (a, h) := new_obj (mem p) n in
      do h <- xincref h (Some a);
      let p := in_mem p h in
      do l <- eval p x;
      do old <- get p l;
      do h <- xdecref (mem p) old;                                       (* 164 *)
      set (in_mem p h) l (Some a)                                        (* 165-166 *)
  | OAssign x y =>
      do r <- eval p y;
      do l <- eval p x;
      do old <- get p l;
      do h <- xdecref (mem p) old;                                       (* 157 *)
      let p := in_mem p h in
      do v <- get p r;                                                   (* 158 *)
      do p <- set p l v;
      do h <- xincref (mem p) v;                                         (* 159 *)
      Ok (in_mem p h)
  | OAssignRaw x y =>
      do r <- eval p y;
      do v <- get p r;                                                   (* 140 *)
      do l <- eval p x;
      do old <- get p l;
      do h <- xdecref (mem p) old;                                       (* 150 *)
      do p <- set (in_mem p h) l v;                                      (* 151 *)
      do h <- xincref (mem p) v;                                         (* 152 *)
      Ok (in_mem p h)
  | OMove x y =>
      do r <- eval p y;
      do l <- eval p x;
      do old <- get p l;
      do h <- xdecref (mem p) old;                                       (* 164 *)
      let p := in_mem p h in
      do v <- get p r;
      do p <- set p l v;                                                 (* 165 *)
      set p r None                                                       (* 166 *)
  | ODestroy i =>
      do p <- clear p (Local i);
      Ok (mkProg (mem p) (put (locals p) i None))
  end.

Fixpoint run (p : prog) (os : list op) : outcome prog :=
  match os with
  | [] => Ok p
  | o :: os => do p <- do_op p o; run p os
  end.
Definition start : prog := mkProg [] [].
