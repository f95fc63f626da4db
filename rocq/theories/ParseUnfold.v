From Coq Require Import String ZArith List Bool Permutation SpecFloat.
From Verif Require Import Outcome HashModel TablesModel IrModel LexModel ParseModel.
Import ListNotations.
Local Open Scope Z_scope.
Local Open Scope list_scope.
Local Open Scope string_scope.
(** The parser's mutual recursion unfolded one step at a time (each equation is the definition
    in ParseModel.v; cbn would leave the recursive functions unfolded). *)
Section Unfold.
Context (pow10 : Z -> spec_float) (sh : std_hash)
  (place : node * node -> list (node * node) -> list (node * node)).
Lemma parse_node_S fuel (s : pstate) : parse_node pow10 sh place (S fuel) s =
      match tk_data (ps_tok s) with
      | TkEnd => Ok (None, s)
      | TkNil => do s <- consume pow10 s; Ok (Some NNil, s)
      | TkBool b => do s <- consume pow10 s; Ok (Some (NBool b), s)
      | TkInteger v => do s <- consume pow10 s; Ok (Some (NInteger v), s)
      | TkReal x => do s <- consume pow10 s; Ok (Some (NReal x), s)
      | TkLParen => do s <- consume pow10 s; (list_loop pow10 sh place) fuel s []
      | TkLBracket => do s <- consume pow10 s; (vector_loop pow10 sh place) fuel s []
      | TkLBrace => do s <- consume pow10 s; (map_loop pow10 sh place) fuel s []
      | TkString => parse_string pow10 s
      | TkSymbol => parse_symbol pow10 s
      | TkKeyword => parse_symbol pow10 s
      | TkRParen | TkRBrace | TkRBracket =>
          let t := ps_tok s in
          do s <- consume pow10 s;
          do s <- log_error s t "unexepected closing delimiter.";
          Ok (None, s)
      end.
Proof. reflexivity. Qed.
Lemma list_loop_S fuel (s : pstate) (l : list node) : list_loop pow10 sh place (S fuel) s l =
      match tk_data (ps_tok s) with
      | TkEnd => do s <- log_error s (ps_tok s) "Unexpected end of file while parsing list"; Ok (Some (NList l), s)
      | TkRParen => do s <- consume pow10 s; Ok (Some (NList l), s)
      | TkRBrace =>
          do s <- log_error s (ps_tok s) "Unexpected '}' terminating list"; do s <- consume pow10 s; Ok (Some (NList l), s)
      | TkRBracket =>
          do s <- log_error s (ps_tok s) "Unexpected ']' terminating list"; do s <- consume pow10 s; Ok (Some (NList l), s)
      | _ =>
          do (n, s) <- (parse_node pow10 sh place) fuel s;
          (list_loop pow10 sh place) fuel s (match n with Some n => l ++ [n] | None => l end)
      end.
Proof. reflexivity. Qed.
Lemma vector_loop_S fuel (s : pstate) (l : list node) : vector_loop pow10 sh place (S fuel) s l =
      match tk_data (ps_tok s) with
      | TkEnd => do s <- log_error s (ps_tok s) "Unexpected end of file while parsing vector"; Ok (Some (NVector l), s)
      | TkRBracket => do s <- consume pow10 s; Ok (Some (NVector l), s)
      | TkRBrace =>
          do s <- log_error s (ps_tok s) "Unexpected '}' terminating vector"; do s <- consume pow10 s; Ok (Some (NVector l), s)
      | TkRParen =>
          do s <- log_error s (ps_tok s) "Unexpected ')' terminating vector"; do s <- consume pow10 s; Ok (Some (NVector l), s)
      | _ =>
          do (n, s) <- (parse_node pow10 sh place) fuel s;
          (vector_loop pow10 sh place) fuel s (match n with Some n => l ++ [n] | None => l end)
      end.
Proof. reflexivity. Qed.
Lemma map_loop_S fuel (s : pstate) (es : list (node * node)) : map_loop pow10 sh place (S fuel) s es =
      match tk_data (ps_tok s) with
      | TkRBrace => do s <- consume pow10 s; Ok (Some (NMap es), s)
      | TkRParen =>
          do s <- log_error s (ps_tok s) "Unexpected ')' terminating map"; do s <- consume pow10 s; Ok (Some (NMap es), s)
      | TkRBracket =>
          do s <- log_error s (ps_tok s) "Unexpected ']' terminating vector"; do s <- consume pow10 s; Ok (Some (NMap es), s)
      | _ =>
          do (k, s) <- (parse_map_k pow10 sh place) fuel s;
          match k with
          | None => do s <- log_error s (ps_tok s) "failed to parse map key"; (map_loop pow10 sh place) fuel s es
          | Some k =>
              do (v, s) <- (parse_map_v pow10 sh place) fuel s;
              match v with
              | None => do s <- log_error s (ps_tok s) "key not followed by value in map"; (map_loop pow10 sh place) fuel s es
              | Some v =>
                  do f <- map_find sh es k;
                  do s <- (match f with
                           | Some _ => log_error s (ps_tok s) "duplicate key discovered in map"
                           | None => Ok s end);
                  do es <- map_insert sh place es k v;
                  (map_loop pow10 sh place) fuel s es
              end
          end
      end.
Proof. reflexivity. Qed.
Lemma parse_map_k_S fuel (s : pstate) : parse_map_k pow10 sh place (S fuel) s =
      match tk_data (ps_tok s) with
      | TkEnd => do s <- log_error s (ps_tok s) "Unexpected end of file while parsing map key"; Ok (None, s)
      | TkRBrace => do s <- log_error s (ps_tok s) "Unexpected '}' while parsing map key"; do s <- consume pow10 s; Ok (None, s)
      | TkRParen => do s <- log_error s (ps_tok s) "Unexpected ')' while parsing map key"; do s <- consume pow10 s; Ok (None, s)
      | _ => (parse_node pow10 sh place) fuel s
      end.
Proof. reflexivity. Qed.
Lemma parse_map_v_S fuel (s : pstate) : parse_map_v pow10 sh place (S fuel) s =
      match tk_data (ps_tok s) with
      | TkEnd => do s <- log_error s (ps_tok s) "Unexpected end of file while parsing map value"; Ok (None, s)
      | TkRBrace => do s <- log_error s (ps_tok s) "Unexpected '}' while parsing map value"; do s <- consume pow10 s; Ok (None, s)
      | TkRParen => do s <- log_error s (ps_tok s) "Unexpected '}' while parsing map value"; do s <- consume pow10 s; Ok (None, s)
      | _ => (parse_node pow10 sh place) fuel s
      end.
Proof. reflexivity. Qed.
Lemma parse_loop_S fuel s nodes : parse_loop pow10 sh place (S fuel) s nodes =
      match tk_data (ps_tok s) with
      | TkEnd => Ok (nodes, s)
      | _ =>
          do (n, s) <- parse_node pow10 sh place fuel s;
          parse_loop pow10 sh place fuel s (match n with Some n => nodes ++ [n] | None => nodes end)
      end.
Proof. reflexivity. Qed.
End Unfold.
