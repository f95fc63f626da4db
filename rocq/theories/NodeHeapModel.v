(** EDN nodes as objects in memory: edn/include/Ab/Edn/Ir.hpp with its pointers.

    IrModel.v treats nodes as values.  Here a node is an object that others point to
    (Ptr<T> = std::shared_ptr<T>, 34-35), can be reached on several ways and can be changed in place.
    Not modelled: when objects are freed (std::shared_ptr does that; an object is in memory as long as
    anything points to it), casts to the wrong kind, iterators kept across changes. *)

From Coq Require Import ZArith List Bool Arith.
From Verif Require Import Outcome HashModel IrModel.
Import ListNotations.
Local Open Scope Z_scope.

(** Ptr<Node>: the address of an object, or null *)
Definition ptr := option nat.

(** An entry of a NodeMap (178).  libstdc++ keeps with each entry the hash computed when it was put in
    (NodeHash is not noexcept, so hashes are cached), and never computes it again. *)
Record entry := mkEntry { e_hash : Z; e_key : ptr; e_val : ptr }.

(** 208-617: the members of the node classes *)
Inductive cell :=
| CNil | CBool (b : bool) | CInteger (v : Z) | CReal (x : Z) | CSymbol (id : Z) | CKeyword (id : Z)
| CCharacter (c : Z) | CString (s : list Z)
| CList (l : list ptr) | CVector (l : list ptr) | CMap (es : list entry) | CSet.
(** 46-59: kind() *)
Definition ckind (c : cell) : Z :=
  match c with
  | CNil => 0 | CBool _ => 1 | CInteger _ => 2 | CReal _ => 3 | CSymbol _ => 4 | CKeyword _ => 5
  | CCharacter _ => 6 | CString _ => 7 | CList _ => 8 | CVector _ => 9 | CMap _ => 10 | CSet => 11
  end.
(** 67-89: a node, with its metadata *)
Record object := mkObj { o_meta : ptr; o_cell : cell }.
Definition heap := list object.

(** [*p] *)
Definition deref (h : heap) (p : ptr) : outcome cell :=
  match p with
  | None => UB NullDeref
  | Some a => match nth_error h a with Some o => Ok (o_cell o) | None => UB UseAfterFree end
  end.

Section Objects.
Context (sh : std_hash).

(** 433-439, 504-510: the loop over elements_ *)
Fixpoint hash_elems (f : ptr -> outcome Z) (acc : Z) (l : list ptr) : outcome Z :=
  match l with
  | [] => Ok acc
  | p :: l => do v <- f p; hash_elems f (mix acc v) l
  end.
(** 593-600 *)
Fixpoint hash_ents (f : ptr -> outcome Z) (acc : Z) (l : list entry) : outcome Z :=
  match l with
  | [] => Ok acc
  | e :: l => do k <- f (e_key e); do v <- f (e_val e); hash_ents f (mix (mix acc k) v) l
  end.

(** 747-772 with the hash members.  The recursion is bounded by [fuel] only here; running out of it for
    every amount means that the program does not come back (it exhausts its stack). *)
Fixpoint hhash (fuel : nat) (h : heap) (p : ptr) : outcome Z :=
  match fuel with
  | O => OutOfFuel
  | S fuel =>
    do c <- deref h p;
    match c with
    | CNil => Ok (sh_kind sh 0)
    | CBool b => Ok (hash_tagged 1 (sh_bool sh b))
    | CInteger v => Ok (hash_tagged 2 (sh_long sh v))
    | CReal x => Ok (hash_tagged 3 (sh_double sh x))
    | CSymbol id => Ok (hash_tagged 4 (hash_size id))
    | CKeyword id => Ok (hash_tagged 5 (hash_size id))
    | CString s => Ok (hash_tagged 7 (sh_string sh s))
    | CList l => hash_elems (hhash fuel h) (mix HASH_SEED 8) l
    | CVector l => hash_elems (hhash fuel h) (mix HASH_SEED 9) l
    | CMap es => hash_ents (hhash fuel h) HASH_SEED es
    | CCharacter _ | CSet => Trap Assertion
    end
  end.

(** 418-429, 489-500 after the comparison of sizes *)
Fixpoint eq_elems (f : ptr -> ptr -> outcome bool) (l r : list ptr) : outcome bool :=
  match l, r with
  | [], _ => Ok true
  | _ :: _, [] => Throw StdException
  | a :: l, b :: r => do e <- f a b; if (e : bool) then eq_elems f l r else Ok false
  end.
(** std::unordered_map::find for a key with hash [hk]: the first entry, in the order of iteration, with
    that hash kept and an equal key; its number from [i] on, and the entry. *)
Fixpoint find_ent (f : ptr -> outcome bool) (hk : Z) (i : nat) (es : list entry) : outcome (option (nat * entry)) :=
  match es with
  | [] => Ok None
  | e :: es =>
      if e_hash e =? hk then do b <- f (e_key e); if (b : bool) then Ok (Some (i, e)) else find_ent f hk (S i) es
      else find_ent f hk (S i) es
  end.
(** 565-589: the loop *)
Fixpoint eq_ents (hash : ptr -> outcome Z) (f : ptr -> ptr -> outcome bool) (rhs es : list entry) : outcome bool :=
  match es with
  | [] => Ok true
  | e :: es =>
      do hk <- hash (e_key e);
      do s <- find_ent (f (e_key e)) hk 0 rhs;
      match s with
      | None => Ok false
      | Some (_, e') => do b <- f (e_val e) (e_val e'); if (b : bool) then eq_ents hash f rhs es else Ok false
      end
  end.
(** 708-740 *)
Fixpoint heq (fuel : nat) (h : heap) (p q : ptr) : outcome bool :=
  match fuel with
  | O => OutOfFuel
  | S fuel =>
    do c <- deref h p;
    do d <- deref h q;
    match c, d with
    | CNil, CNil => Ok true
    | CBool a, CBool b => Ok (eqb a b)
    | CInteger a, CInteger b => Ok (a =? b)
    | CReal a, CReal b => Ok (real_eq a b)
    | CSymbol a, CSymbol b => Ok (a =? b)
    | CKeyword a, CKeyword b => Ok (a =? b)
    | CCharacter a, CCharacter b => Ok (a =? b)
    | CString a, CString b => Ok (if list_eq_dec Z.eq_dec a b then true else false)
    | CList a, CList b => if negb (Nat.eqb (length a) (length b)) then Ok false else eq_elems (heq fuel h) a b
    | CVector a, CVector b => if negb (Nat.eqb (length a) (length b)) then Ok false else eq_elems (heq fuel h) a b
    | CMap a, CMap b => if negb (Nat.eqb (length a) (length b)) then Ok false
                        else eq_ents (hhash fuel h) (heq fuel h) b a
    | CSet, CSet => Trap Assertion
    | _, _ => Ok false
    end
  end.

(** Map::find (553-555) of the entries [es].  Simplified: the hash is computed first also when the map is
    empty, which some versions of libstdc++ skip (a difference only for keys that cannot be hashed). *)
Definition hfind (fuel : nat) (h : heap) (es : list entry) (k : ptr) : outcome (option (nat * entry)) :=
  do hk <- hhash fuel h k; find_ent (heq fuel h k) hk 0 es.

(** What can be done to a node: set_value, set_id (235, 259, 285, 309, 335, 361, 381), push_back (453-455,
    524-526), [at(i) = p] and [v[i] = p] (410, 477, 481), any other change of the
    elements of a list or vector (406, 473; [v[i]] itself does not check [i]), Map::insert (557-559), [at(k) = p] (549), erasing a key
    (elements().erase(k), 545), set_metadata (73-75). *)
Inductive change :=
| SetValue (c : cell)
| PushBack (p : ptr)
| SetAt (i : nat) (p : ptr)
| Elements (l : list ptr)
| Insert (k v : ptr)
| AtKey (k v : ptr)
| EraseKey (k : ptr)
| SetMetadata (m : ptr).
Definition store (h : heap) (a : nat) (o : object) : heap := firstn a h ++ o :: skipn (S a) h.
Fixpoint set_elem {A} (l : list A) (i : nat) (x : A) : list A :=
  match l, i with
  | [], _ => []
  | _ :: l, O => x :: l
  | y :: l, S i => y :: set_elem l i x
  end.
(** The classes with a value to set *)
Definition has_value (c : cell) : bool :=
  match c with CBool _ | CInteger _ | CReal _ | CSymbol _ | CKeyword _ | CCharacter _ | CString _ => true | _ => false end.
Context (place : entry -> list entry -> list entry).   (* where insert puts a new entry in the order of iteration *)
Definition apply_change (fuel : nat) (h : heap) (a : nat) (op : change) : outcome heap :=
  match nth_error h a with
  | None => UB UseAfterFree
  | Some o =>
    let put c := Ok (store h a (mkObj (o_meta o) c)) in
    match op, o_cell o with
    | SetMetadata m, c => Ok (store h a (mkObj m c))
    | SetValue c', c => if has_value c && (ckind c =? ckind c') then put c' else Trap Assertion  (* as<T>: 635-639 *)
    | PushBack p, CList l => put (CList (l ++ [p]))
    | PushBack p, CVector l => put (CVector (l ++ [p]))
    | SetAt i p, CList l => if Nat.ltb i (length l) then put (CList (set_elem l i p)) else Throw StdException
    | SetAt i p, CVector l => if Nat.ltb i (length l) then put (CVector (set_elem l i p)) else Throw StdException
    | Elements l', CList _ => put (CList l')
    | Elements l', CVector _ => put (CVector l')
    | AtKey k v, CMap es =>
        do s <- hfind fuel h es k;
        match s with
        | Some (i, e) => put (CMap (set_elem es i (mkEntry (e_hash e) (e_key e) v)))
        | None => Throw StdException
        end
    | EraseKey k, CMap es =>
        do s <- hfind fuel h es k;
        match s with Some (i, _) => put (CMap (firstn i es ++ skipn (S i) es)) | None => Ok h end
    | Insert k v, CMap es =>
        do hk <- hhash fuel h k;
        do s <- find_ent (heq fuel h k) hk 0 es;
        match s with Some _ => Ok h | None => put (CMap (place (mkEntry hk k v) es)) end
    | _, _ => Trap Assertion
    end
  end.

(** Making a node: it is a new object.  253-255: the constructors of Character that take metadata convert
    the value to bool first; all others keep it. *)
Definition make (h : heap) (meta : ptr) (with_meta : bool) (c : cell) : heap * ptr :=
  let c := match c with
           | CCharacter v => CCharacter (if with_meta then (if v =? 0 then 0 else 1) else v)
           | c => c
           end in
  (h ++ [mkObj meta c], Some (length h)).
End Objects.
