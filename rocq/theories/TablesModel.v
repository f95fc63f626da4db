(** Models of small tables: core/include/Ab/Label.hpp (LabelTable), edn/include/Ab/Edn/Ir.hpp
    (SymbolTable), parse/include/Ab/Parse/LineInfo.hpp (LineInfo) and the ownership of
    core/include/Ab/Module.hpp (ModuleStorage). *)

From Coq Require Import ZArith List Bool.
From Verif Require Import Outcome HashModel.
Import ListNotations.
Local Open Scope Z_scope.

(** * LabelTable *)

(** core/include/Ab/Label.hpp 25-29 *)
Record label_record := mkLabel { lr_offset : Z; lr_id : Z; lr_placed : bool }.

(** Label.hpp 73, 75: next() is the number of records. *)
Definition label_table := list label_record.
Definition lt_next (t : label_table) : Z := Z.of_nat (length t).

(** Label.hpp 35-40 *)
Definition lt_alloc (t : label_table) : label_table * Z :=
  (t ++ [mkLabel 0 (lt_next t) false], lt_next t).

(** Replace element [i]. *)
Fixpoint replace_nth {A} (i : nat) (x : A) (l : list A) : list A :=
  match l, i with
  | [], _ => []
  | _ :: l, O => x :: l
  | y :: l, S i => y :: replace_nth i x l
  end.

(** Label.hpp 52-59; the std::int32_t argument is stored in an unsigned. *)
Definition lt_place (t : label_table) (id offset : Z) : outcome label_table :=
  ab_assert (id <? lt_next t) ;;
  match nth_error t (Z.to_nat id) with
  | None => UB OutOfBounds
  | Some r =>
      ab_assert (negb (lr_placed r)) ;;
      ab_assert (lr_id r =? id) ;;
      Ok (replace_nth (Z.to_nat id) (mkLabel (offset mod 2 ^ 32) (lr_id r) true) t)
  end.

(** Conversion of an unsigned to std::int32_t (modulo 2^32). *)
Definition to_i32 (x : Z) : Z := if x <? 2 ^ 31 then x else x - 2 ^ 32.

(** Label.hpp 44-48: the unsigned offset passes through place's std::int32_t parameter. *)
Definition lt_alloc_at (t : label_table) (offset : Z) : outcome (label_table * Z) :=
  let (t, id) := lt_alloc t in
  do t <- lt_place t id (to_i32 offset); Ok (t, id).

(** Label.hpp 63-69 *)
Definition lt_target_of (t : label_table) (id : Z) : outcome Z :=
  ab_assert (id <? lt_next t) ;;
  match nth_error t (Z.to_nat id) with
  | None => UB OutOfBounds
  | Some r => ab_assert (lr_id r =? id) ;; ab_assert (lr_placed r) ;; Ok (lr_offset r)
  end.

Inductive lt_op := LAlloc | LAllocAt (offset : Z) | LPlace (id offset : Z).

Definition lt_step (t : label_table) (o : lt_op) : outcome (label_table * Z) :=
  match o with
  | LAlloc => Ok (lt_alloc t)
  | LAllocAt off => lt_alloc_at t off
  | LPlace id off => do t <- lt_place t id off; Ok (t, id)
  end.

(** Runs a history; the results are the labels the operations concern. *)
Fixpoint lt_run (t : label_table) (ops : list lt_op) : outcome (label_table * list Z) :=
  match ops with
  | [] => Ok (t, [])
  | o :: ops => do (t, id) <- lt_step t o; do (t, ids) <- lt_run t ops; Ok (t, id :: ids)
  end.

(** * SymbolTable *)

(** Names are byte strings. *)
Definition name := list Z.
Definition name_eqb (a b : name) : bool := if list_eq_dec Z.eq_dec a b then true else false.

(** edn/include/Ab/Edn/Ir.hpp 890-898: two std::unordered_maps (as association lists; insert does
    nothing when the key is present) and the next id. *)
Record symtab := mkSym { st_next : Z; st_symbols : list (name * Z); st_strings : list (Z * name) }.
Definition empty_symtab : symtab := mkSym 0 [] [].

Definition find_name (s : name) (l : list (name * Z)) : option Z :=
  option_map snd (find (fun kv => name_eqb (fst kv) s) l).
Definition find_id (i : Z) (l : list (Z * name)) : option name :=
  option_map snd (find (fun kv => fst kv =? i) l).
Definition insert_name (s : name) (i : Z) (l : list (name * Z)) :=
  match find_name s l with Some _ => l | None => (s, i) :: l end.
Definition insert_id (i : Z) (s : name) (l : list (Z * name)) :=
  match find_id i l with Some _ => l | None => (i, s) :: l end.

(** Ir.hpp 862-876 *)
Definition intern (t : symtab) (s : name) : symtab * Z :=
  match find_name s (st_symbols t) with
  | Some i => (t, i)
  | None =>
      let id := st_next t in
      (mkSym (u64 (st_next t + 1)) (insert_name s id (st_symbols t)) (insert_id id s (st_strings t)), id)
  end.

(** Ir.hpp 881: unordered_map::at throws when the key is absent *)
Definition sym_id (t : symtab) (s : name) : outcome Z :=
  match find_name s (st_symbols t) with Some i => Ok i | None => Throw StdException end.
(** Ir.hpp 885 *)
Definition sym_interned (t : symtab) (s : name) : bool :=
  match find_name s (st_symbols t) with Some _ => true | None => false end.
(** Ir.hpp 887 *)
Definition sym_string (t : symtab) (i : Z) : outcome name :=
  match find_id i (st_strings t) with Some s => Ok s | None => Throw StdException end.

Fixpoint intern_all (t : symtab) (ss : list name) : symtab * list Z :=
  match ss with
  | [] => (t, [])
  | s :: ss => let (t, i) := intern t s in let (t, is) := intern_all t ss in (t, i :: is)
  end.

(** * LineInfo *)

(** parse/include/Ab/Parse/LineInfo.hpp 112, 15-18: a new table holds the start of line 0. *)
Definition line_info := list Z.
Definition new_line_info : line_info := [0].

(** LineInfo.hpp 101 *)
Definition record_br (li : line_info) (off : Z) : line_info := li ++ [off].

(** breaks_[n] (23, 28, 52): outside the vector is undefined. *)
Definition brk (li : line_info) (n : Z) : outcome Z :=
  if n <? 0 then UB OutOfBounds
  else match nth_error li (Z.to_nat n) with Some b => Ok b | None => UB OutOfBounds end.

(** LineInfo.hpp 61-72: the search loop; falling out of it is AB_ASSERT_UNREACHABLE. *)
Fixpoint line_search (fuel : nat) (li : line_info) (off l r : Z) : outcome Z :=
  match fuel with
  | O => OutOfFuel
  | S fuel =>
      if l <=? r then
        let m := u64 (l + r) / 2 in
        do e <- brk li (u64 (m + 1));
        if e <? u64 (off + 1) then line_search fuel li off (u64 (m + 1)) r
        else
          do s <- brk li m;
          if off <? s then line_search fuel li off l (u64 (m - 1))
          else Ok m
      else Trap Assertion
  end.

(** LineInfo.hpp 45-73 *)
Definition line (fuel : nat) (li : line_info) (off : Z) : outcome Z :=
  let n := Z.of_nat (length li) in
  do last <- brk li (u64 (n - 1));
  if last <=? off then Ok (u64 (n - 1)) else line_search fuel li off 0 (u64 (n - 1)).

(** LineInfo.hpp 78 *)
Definition column (fuel : nat) (li : line_info) (off : Z) : outcome Z :=
  do l <- line fuel li off; do s <- brk li l; Ok (u64 (off - s)).

(** LineInfo.hpp 83-87 *)
Definition location (fuel : nat) (li : line_info) (off : Z) : outcome (Z * Z) :=
  do l <- line fuel li off; do s <- brk li l; Ok (l, u64 (off - s)).

(** * ModuleStorage *)

(** core/include/Ab/Module.hpp 71-72: address (0 is null) and deleter (0 is null) *)
Record storage := mkStorage { sg_addr : Z; sg_del : Z }.

(** A program with several storage objects: the live ones by name, and the calls made so far to
    deleters, as (deleter, address). *)
Record sg_world := mkSW { sw_live : list (Z * storage); sw_calls : list (Z * Z) }.

Definition sg_get (w : sg_world) (x : Z) : option storage :=
  option_map snd (find (fun kv => fst kv =? x) (sw_live w)).
Definition sg_remove (x : Z) (l : list (Z * storage)) := filter (fun kv => negb (fst kv =? x)) l.

(** Module.hpp 38-42 *)
Definition sg_create (w : sg_world) (x addr del : Z) : sg_world :=
  mkSW ((x, mkStorage addr del) :: sw_live w) (sw_calls w).

(** Module.hpp 46-52 *)
Definition sg_move (w : sg_world) (dst src : Z) : outcome sg_world :=
  match sg_get w src with
  | None => UB UseAfterFree
  | Some s => Ok (mkSW ((dst, s) :: (src, mkStorage 0 0) :: sg_remove src (sw_live w)) (sw_calls w))
  end.

(** Module.hpp 54-58 *)
Definition sg_destroy (w : sg_world) (x : Z) : outcome sg_world :=
  match sg_get w x with
  | None => UB UseAfterFree
  | Some s =>
      let calls := if negb (sg_addr s =? 0) && negb (sg_del s =? 0)
                   then sw_calls w ++ [(sg_del s, sg_addr s)] else sw_calls w in
      Ok (mkSW (sg_remove x (sw_live w)) calls)
  end.

Inductive sg_op := SCreate (x addr del : Z) | SMove (dst src : Z) | SDestroy (x : Z).

Definition sg_step (w : sg_world) (o : sg_op) : outcome sg_world :=
  match o with
  | SCreate x a d => Ok (sg_create w x a d)
  | SMove d s => sg_move w d s
  | SDestroy x => sg_destroy w x
  end.
Fixpoint sg_run (w : sg_world) (ops : list sg_op) : outcome sg_world :=
  match ops with [] => Ok w | o :: ops => do w <- sg_step w o; sg_run w ops end.
