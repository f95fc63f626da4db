(** What a pointer to a node stands for. *)

From Coq Require Import ZArith List Bool.
From Verif Require Import IrModel NodeHeapModel.
Import ListNotations.
Local Open Scope Z_scope.

(** The object a pointer points to *)
Definition object_at (h : heap) (p : ptr) : option object := match p with Some a => nth_error h a | None => None end.
Definition cell_at (h : heap) (p : ptr) : option cell := option_map o_cell (object_at h p).

(** All results, if every one is there *)
Fixpoint all {A B} (f : A -> option B) (l : list A) : option (list B) :=
  match l with
  | [] => Some []
  | x :: l => match f x, all f l with Some y, Some ys => Some (y :: ys) | _, _ => None end
  end.

(** The value under a pointer, all pointers followed (metadata aside), if that needs no more than [d]
    pointers in a row and none of them is null. *)
Fixpoint value_within (d : nat) (h : heap) (p : ptr) : option node :=
  match d with
  | O => None
  | S d =>
    match cell_at h p with
    | Some CNil => Some NNil
    | Some (CBool b) => Some (NBool b)
    | Some (CInteger v) => Some (NInteger v)
    | Some (CReal x) => Some (NReal x)
    | Some (CSymbol i) => Some (NSymbol i)
    | Some (CKeyword i) => Some (NKeyword i)
    | Some (CCharacter c) => Some (NCharacter c)
    | Some (CString s) => Some (NString s)
    | Some CSet => Some NSet
    | Some (CList l) => option_map NList (all (value_within d h) l)
    | Some (CVector l) => option_map NVector (all (value_within d h) l)
    | Some (CMap es) =>
        option_map NMap (all (fun e => match value_within d h (e_key e), value_within d h (e_val e) with
                                       | Some k, Some v => Some (k, v) | _, _ => None end) es)
    | None => None
    end
  end.
(** [p] stands for the value [n]. *)
Definition stands_for (h : heap) (p : ptr) (n : node) : Prop := exists d, value_within d h p = Some n.

(** The pointers in an object *)
Definition pointers (c : cell) : list ptr :=
  match c with
  | CList l | CVector l => l
  | CMap es => flat_map (fun e => [e_key e; e_val e]) es
  | _ => []
  end.
(** [q] is reached from [p], in any number of steps. *)
Inductive reaches (h : heap) : ptr -> ptr -> Prop :=
| reaches_self p : reaches h p p
| reaches_step p c q r : cell_at h p = Some c -> In q (pointers c) -> reaches h q r -> reaches h p r.
(** [p] is inside itself: reached from itself in one step or more. *)
Definition inside_itself (h : heap) (p : ptr) : Prop :=
  exists c q, cell_at h p = Some c /\ In q (pointers c) /\ reaches h q p.

(** The hash kept with an entry is that of its key as the key is now. *)
Definition up_to_date (sh : std_hash) (h : heap) (e : entry) : Prop :=
  exists k, stands_for h (e_key e) k /\ node_hash sh k = Outcome.Ok (e_hash e).
(** So it is with all entries of all maps reached from [p]. *)
Definition keys_up_to_date (sh : std_hash) (h : heap) (p : ptr) : Prop :=
  forall q es e, reaches h p q -> cell_at h q = Some (CMap es) -> In e es -> up_to_date sh h e.
(** ... and of all maps there are *)
Definition all_keys_up_to_date (sh : std_hash) (h : heap) : Prop :=
  forall q es e, cell_at h q = Some (CMap es) -> In e es -> up_to_date sh h e.
(** [a] is part of the key of some map. *)
Definition part_of_a_key (h : heap) (a : nat) : Prop :=
  exists q es e, cell_at h q = Some (CMap es) /\ In e es /\ reaches h (e_key e) (Some a).

(** Whatever is long enough ends with this result; whatever is shorter may run out. *)
Definition ends_with {A} (run : nat -> Outcome.outcome A) (r : Outcome.outcome A) : Prop :=
  exists n, forall fuel, (n <= fuel)%nat -> run fuel = r.

(** ** Places in a value *)
Inductive step := Elem (i : nat) | Key (i : nat) | Val (i : nat).
Definition step_from (c : cell) (s : step) : option ptr :=
  match c, s with
  | CList l, Elem i | CVector l, Elem i => nth_error l i
  | CMap es, Key i => option_map e_key (nth_error es i)
  | CMap es, Val i => option_map e_val (nth_error es i)
  | _, _ => None
  end.
(** The pointer at the end of a way from [p] *)
Fixpoint follow (h : heap) (p : ptr) (way : list step) : option ptr :=
  match way with
  | [] => Some p
  | s :: way => match cell_at h p with
                | Some c => match step_from c s with Some q => follow h q way | None => None end
                | None => None
                end
  end.
Definition part_step (n : node) (s : step) : option node :=
  match n, s with
  | NList l, Elem i | NVector l, Elem i => nth_error l i
  | NMap es, Key i => option_map fst (nth_error es i)
  | NMap es, Val i => option_map snd (nth_error es i)
  | _, _ => None
  end.
(** The part of a value at the end of a way *)
Fixpoint part (n : node) (way : list step) : option node :=
  match way with
  | [] => Some n
  | s :: way => match part_step n s with Some m => part m way | None => None end
  end.

(** The pointers a change brings into an object *)
Definition brings (op : change) : list ptr :=
  match op with
  | SetValue _ | EraseKey _ | SetMetadata _ => []
  | PushBack p | SetAt _ p | AtKey _ p => [p]
  | Elements l => l
  | Insert k v => [k; v]
  end.
(** What a cell without pointers says *)
Definition plain_value (c : cell) : option node :=
  match c with
  | CNil => Some NNil | CBool b => Some (NBool b) | CInteger v => Some (NInteger v) | CReal x => Some (NReal x)
  | CSymbol i => Some (NSymbol i) | CKeyword i => Some (NKeyword i) | CCharacter x => Some (NCharacter x)
  | CString s => Some (NString s) | CSet => Some NSet
  | CList _ | CVector _ | CMap _ => None
  end.
