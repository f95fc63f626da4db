(** The EDN parser, edn/src/ab-edn-parser.cpp, with the nodes it makes as objects in memory.

    ParseModel.v treats the nodes as values; here each node is a new object (construct<T>, Ir.hpp 903-955,
    is std::make_shared) and lists, vectors and maps are filled in place.  Tokens, errors and symbols are
    as in ParseModel.v. *)
From Coq Require Import String ZArith List Bool SpecFloat.
From Verif Require Import Outcome TablesModel IrModel LexModel ParseModel NodeHeapModel.
Import ListNotations.
Local Open Scope Z_scope.
Local Open Scope list_scope.

Section HeapParser.
(** As in ParseModel; [place] says where a new entry of a map goes in its iteration order, [cmp] bounds the
    depth of comparisons and hashes. *)
Context (pow10 : Z -> spec_float) (sh : std_hash) (place : entry -> list entry -> list entry) (cmp : nat).

(** What a parsing function gives: the pair of a bool and a pointer ([None] when the bool is false), the
    state and the memory *)
Definition hresult : Type := option ptr * (pstate * heap).
(** Ir.hpp 911-949: a node made without metadata *)
Definition fresh (s : pstate) (h : heap) (c : cell) : hresult :=
  let (h', p) := make h None false c in (Some p, (s, h')).

(** 257-271 *)
Definition hp_string (s : pstate) (h : heap) : outcome hresult :=
  let str := cur_text s in
  do s <- consume pow10 s; Ok (fresh s h (CString str)).
(** 273-289, 291-307 *)
Definition hp_symbol (s : pstate) (h : heap) : outcome hresult :=
  let str := cur_text s in
  do s <- consume pow10 s;
  let (st, id) := intern (ps_syms s) str in
  Ok (fresh (mkP (ps_lx s) (ps_tok s) (ps_log s) st) h (CSymbol id)).
(** list->push_back(parse) if there is one: 62-64, 102-104 *)
Definition push_parsed (h : heap) (a : nat) (n : option ptr) : outcome heap :=
  match n with Some p => apply_change sh place cmp h a (PushBack p) | None => Ok h end.
(** map->elements of the map made at 164 *)
Definition entries_at (h : heap) (a : nat) : outcome (list entry) :=
  do c <- deref h (Some a);
  match c with CMap es => Ok es | _ => Trap Assertion end.

(** 208-255 parse_node; 30-68 parse_list; 70-108 parse_vector; 110-133 parse_map_k; 135-158 parse_map_v;
    160-206 parse_map.  The loops take the address of the node being filled. *)
Fixpoint hp_node (fuel : nat) (s : pstate) (h : heap) {struct fuel} : outcome hresult :=
  match fuel with
  | O => OutOfFuel
  | S fuel =>
      match tk_data (ps_tok s) with
      | TkEnd => Ok (None, (s, h))
      | TkNil => do s <- consume pow10 s; Ok (fresh s h CNil)
      | TkBool b => do s <- consume pow10 s; Ok (fresh s h (CBool b))
      | TkInteger v => do s <- consume pow10 s; Ok (fresh s h (CInteger v))
      | TkReal x => do s <- consume pow10 s; Ok (fresh s h (CReal x))
      | TkLParen => do s <- consume pow10 s; hp_list fuel s (fst (make h None false (CList []))) (length h)
      | TkLBracket => do s <- consume pow10 s; hp_vector fuel s (fst (make h None false (CVector []))) (length h)
      | TkLBrace => do s <- consume pow10 s; hp_map fuel s (fst (make h None false (CMap []))) (length h)
      | TkString => hp_string s h
      | TkSymbol => hp_symbol s h
      | TkKeyword => hp_symbol s h
      | TkRParen | TkRBrace | TkRBracket =>
          let t := ps_tok s in
          do s <- consume pow10 s;
          do s <- log_error s t "unexepected closing delimiter.";
          Ok (None, (s, h))
      end
  end
with hp_list (fuel : nat) (s : pstate) (h : heap) (a : nat) {struct fuel} : outcome hresult :=
  match fuel with
  | O => OutOfFuel
  | S fuel =>
      let t := ps_tok s in
      match tk_data t with
      | TkEnd => do s <- log_error s t "Unexpected end of file while parsing list"; Ok (Some (Some a), (s, h))
      | TkRParen => do s <- consume pow10 s; Ok (Some (Some a), (s, h))
      | TkRBrace =>
          do s <- log_error s t "Unexpected '}' terminating list"; do s <- consume pow10 s; Ok (Some (Some a), (s, h))
      | TkRBracket =>
          do s <- log_error s t "Unexpected ']' terminating list"; do s <- consume pow10 s; Ok (Some (Some a), (s, h))
      | _ =>
          do (n, (s, h)) <- hp_node fuel s h;
          do h <- push_parsed h a n;
          hp_list fuel s h a
      end
  end
with hp_vector (fuel : nat) (s : pstate) (h : heap) (a : nat) {struct fuel} : outcome hresult :=
  match fuel with
  | O => OutOfFuel
  | S fuel =>
      let t := ps_tok s in
      match tk_data t with
      | TkEnd => do s <- log_error s t "Unexpected end of file while parsing vector"; Ok (Some (Some a), (s, h))
      | TkRBracket => do s <- consume pow10 s; Ok (Some (Some a), (s, h))
      | TkRBrace =>
          do s <- log_error s t "Unexpected '}' terminating vector"; do s <- consume pow10 s; Ok (Some (Some a), (s, h))
      | TkRParen =>
          do s <- log_error s t "Unexpected ')' terminating vector"; do s <- consume pow10 s; Ok (Some (Some a), (s, h))
      | _ =>
          do (n, (s, h)) <- hp_node fuel s h;
          do h <- push_parsed h a n;
          hp_vector fuel s h a
      end
  end
with hp_map (fuel : nat) (s : pstate) (h : heap) (a : nat) {struct fuel} : outcome hresult :=
  match fuel with
  | O => OutOfFuel
  | S fuel =>
      let t := ps_tok s in
      match tk_data t with
      | TkRBrace => do s <- consume pow10 s; Ok (Some (Some a), (s, h))
      | TkRParen =>
          do s <- log_error s t "Unexpected ')' terminating map"; do s <- consume pow10 s; Ok (Some (Some a), (s, h))
      | TkRBracket =>
          do s <- log_error s t "Unexpected ']' terminating vector"; do s <- consume pow10 s; Ok (Some (Some a), (s, h))
      | _ =>
          do (k, (s, h)) <- hp_map_k fuel s h;
          match k with
          | None => do s <- log_error s (ps_tok s) "failed to parse map key"; hp_map fuel s h a
          | Some k =>
              do (v, (s, h)) <- hp_map_v fuel s h;
              match v with
              | None => do s <- log_error s (ps_tok s) "key not followed by value in map"; hp_map fuel s h a
              | Some v =>
                  do es <- entries_at h a;
                  do f <- hfind sh cmp h es k;
                  do s <- (match f with
                           | Some _ => log_error s (ps_tok s) "duplicate key discovered in map"
                           | None => Ok s end);
                  do h <- apply_change sh place cmp h a (Insert k v);
                  hp_map fuel s h a
              end
          end
      end
  end
with hp_map_k (fuel : nat) (s : pstate) (h : heap) {struct fuel} : outcome hresult :=
  match fuel with
  | O => OutOfFuel
  | S fuel =>
      let t := ps_tok s in
      match tk_data t with
      | TkEnd => do s <- log_error s t "Unexpected end of file while parsing map key"; Ok (None, (s, h))
      | TkRBrace => do s <- log_error s t "Unexpected '}' while parsing map key"; do s <- consume pow10 s; Ok (None, (s, h))
      | TkRParen => do s <- log_error s t "Unexpected ')' while parsing map key"; do s <- consume pow10 s; Ok (None, (s, h))
      | _ => hp_node fuel s h
      end
  end
with hp_map_v (fuel : nat) (s : pstate) (h : heap) {struct fuel} : outcome hresult :=
  match fuel with
  | O => OutOfFuel
  | S fuel =>
      let t := ps_tok s in
      match tk_data t with
      | TkEnd => do s <- log_error s t "Unexpected end of file while parsing map value"; Ok (None, (s, h))
      | TkRBrace => do s <- log_error s t "Unexpected '}' while parsing map value"; do s <- consume pow10 s; Ok (None, (s, h))
      | TkRParen => do s <- log_error s t "Unexpected '}' while parsing map value"; do s <- consume pow10 s; Ok (None, (s, h))
      | _ => hp_node fuel s h
      end
  end.

(** 20-26 *)
Fixpoint hp_loop (fuel : nat) (s : pstate) (h : heap) (nodes : list ptr) : outcome (list ptr * (pstate * heap)) :=
  match fuel with
  | O => OutOfFuel
  | S fuel =>
      match tk_data (ps_tok s) with
      | TkEnd => Ok (nodes, (s, h))
      | _ =>
          do (n, (s, h)) <- hp_node fuel s h;
          hp_loop fuel s h (match n with Some n => nodes ++ [n] | None => nodes end)
      end
  end.

(** 15-28: the document's nodes, the rest of the state and the memory *)
Definition hparse (fuel : nat) (syms : symtab) (text : list Z) (h : heap) : outcome (list ptr * (pstate * heap)) :=
  do (t, lx) <- next pow10 (new_lexer new_line_info text);
  hp_loop fuel (mkP lx t [] syms) h [].

End HeapParser.
