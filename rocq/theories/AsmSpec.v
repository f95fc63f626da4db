(** What ab-asm prints, in words. *)

From Coq Require Import String Ascii ZArith List.
From Verif Require Import Outcome CmdModel WastModel WastSpec AsmModel.
Import ListNotations.
Local Open Scope Z_scope.

(** A number in figures. *)
Inductive figures_of : Z -> str -> Prop :=
| fig_one d c : 0 <= d < 10 -> Z.of_nat (nat_of_ascii c) = 48 + d -> figures_of d [c]
| fig_more n d w c : 0 < n -> figures_of n w -> 0 <= d < 10 -> Z.of_nat (nat_of_ascii c) = 48 + d ->
    figures_of (10 * n + d) (w ++ [c]).

(** LINE:COLUMN @OFFSET *)
Definition shows_loc (l : wloc) (t : str) : Prop :=
  exists a b c, figures_of (l_line l) a /\ figures_of (l_column l) b /\ figures_of (l_offset l) c /\
    t = a ++ lit ":" ++ b ++ lit " @" ++ c.
Definition shows_range (r : wrange) (t : str) : Prop :=
  exists a b, shows_loc (r_start r) a /\ shows_loc (r_end r) b /\
    t = lit "!(token  :range " ++ a ++ lit " - " ++ b ++ lit ")" ++ [ascii_of_nat 10].
Inductive shows_all : list wrange -> str -> Prop :=
| sh_none : shows_all [] []
| sh_one r rs t u : shows_range r t -> shows_all rs u -> shows_all (r :: rs) (t ++ u).

(** The range of a token of the text: from where it begins to where it ends. *)
Definition range_of (t : wkind * list Z * list Z) : wrange :=
  let '(_, past, n) := t in mkRange (location_after past) (location_after (past ++ n)).

(** Names, descriptors, mappings and messages are the same; [t] was printed. *)
Definition same_but_printed (s s' : sys) (t : str) : Prop :=
  y_files s' = y_files s /\ y_fds s' = y_fds s /\ y_maps s' = y_maps s /\ y_err s' = y_err s /\ y_out s' = y_out s ++ t.
