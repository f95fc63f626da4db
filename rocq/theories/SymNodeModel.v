(** Model of symbols and keywords made by name (edn/include/Ab/Edn/Ir.hpp 919-938, 967-971) and of
    several symbol tables with copies and moves (853-857). *)
From Coq Require Import ZArith List Bool.
From Verif Require Import Outcome HashModel TablesModel IrModel.
Import ListNotations.
Local Open Scope Z_scope.

(** * Nodes by name *)
Inductive named := Sym (s : name) | Key (s : name).
(** Ir.hpp 919-921, 929-931: node_symbol and node_keyword intern in the same table; the globals are
    one table (900-904) *)
Definition node_named (t : symtab) (r : named) : symtab * node :=
  match r with
  | Sym s => let (t, i) := intern t s in (t, NSymbol i)
  | Key s => let (t, i) := intern t s in (t, NKeyword i)
  end.
Fixpoint nodes_named (t : symtab) (rs : list named) : symtab * list node :=
  match rs with
  | [] => (t, [])
  | r :: rs => let (t, n) := node_named t r in let (t, ns) := nodes_named t rs in (t, n :: ns)
  end.
(** Ir.hpp 967-969; the parameter is a Ptr<Symbol> *)
Definition string_of (t : symtab) (id : Z) : outcome node :=
  do s <- sym_string t id; Ok (NString s).

(** * Several tables: the objects in order of construction *)
Definition tables := list symtab.
Inductive table_op :=
| TMake                          (* SymbolTable t; 853 *)
| TCopy (j : nat)                (* SymbolTable t(t_j); 855 *)
| TMove (j : nat)                (* SymbolTable t(std::move(t_j)); 857 *)
| TIntern (j : nat) (s : name).  (* t_j.intern(s) *)
(** The moved-from maps are empty (as in libstdc++ and libc++); next_ is a number and is copied.
    Assignment of tables is deleted, because a move constructor is declared. *)
Definition table_step (w : tables) (o : table_op) : outcome (tables * option (nat * name * Z)) :=
  match o with
  | TMake => Ok (w ++ [empty_symtab], None)
  | TCopy j =>
      match nth_error w j with None => UB UseAfterFree | Some t => Ok (w ++ [t], None) end
  | TMove j =>
      match nth_error w j with
      | None => UB UseAfterFree
      | Some t => Ok (replace_nth j (mkSym (st_next t) [] []) w ++ [t], None)
      end
  | TIntern j s =>
      match nth_error w j with
      | None => UB UseAfterFree
      | Some t => let (t, i) := intern t s in Ok (replace_nth j t w, Some (j, s, i))
      end
  end.
(** The results: which table was asked, the name, the symbol. *)
Fixpoint table_run (w : tables) (ops : list table_op) : outcome (tables * list (nat * name * Z)) :=
  match ops with
  | [] => Ok (w, [])
  | o :: ops =>
      do (w, r) <- table_step w o;
      do (w, rs) <- table_run w ops;
      Ok (w, match r with Some x => x :: rs | None => rs end)
  end.
