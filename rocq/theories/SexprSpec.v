From Coq Require Import Ascii List Bool Arith.
From Verif Require Import SexprModel.
Import ListNotations.
Local Open Scope nat_scope.

(** The text of an s-expression: parentheses, atoms and whitespace *)
Definition white (c : ascii) : Prop := c = SP \/ c = NL.
Definition paren (c : ascii) : Prop := c = "("%char \/ c = ")"%char.
Definition plain (c : ascii) : Prop := ~ white c /\ ~ paren c.
Inductive tok := TOpen | TClose | TAtom (s : str).

(** [reads s ts]: reading [s] with longest atoms, skipping whitespace, gives [ts] *)
Inductive reads : str -> list tok -> Prop :=
| rd_end : reads [] []
| rd_white c s ts : white c -> reads s ts -> reads (c :: s) ts
| rd_open s ts : reads s ts -> reads ("("%char :: s) (TOpen :: ts)
| rd_close s ts : reads s ts -> reads (")"%char :: s) (TClose :: ts)
| rd_atom a s ts : a <> [] -> Forall plain a -> (forall c s', s = c :: s' -> ~ plain c) -> reads s ts -> reads (a ++ s) (TAtom a :: ts).

(** What was asked for, without layout *)
Fixpoint asked (rs : list request) : list tok :=
  match rs with
  | [] => []
  | Atom s :: rs => TAtom s :: asked rs
  | Start :: rs => TOpen :: asked rs
  | End :: rs => TClose :: asked rs
  | Fresh :: rs => asked rs
  end.
Definition good_request (r : request) : Prop := match r with Atom s => s <> [] /\ Forall plain s | _ => True end.

(** Nesting depth after some requests; None if a parenthesis was closed that was not open *)
Fixpoint depth_after (d : nat) (rs : list request) : option nat :=
  match rs with
  | [] => Some d
  | Start :: rs => depth_after (S d) rs
  | End :: rs => match d with O => None | S d => depth_after d rs end
  | _ :: rs => depth_after d rs
  end.
(** the nesting depth is at most [m] throughout *)
Definition never_deeper (m : nat) (rs : list request) : Prop :=
  forall pre post d, rs = pre ++ post -> depth_after 0 pre = Some d -> d <= m.
Definition at_line_start (s : str) : Prop := s = [] \/ exists s', s = s' ++ [NL].
