From Coq Require Import List Arith.
From Verif Require Import Outcome RcModel RcSpec RcCopyModel.
Import ListNotations.

(** Programs that also copy objects.  The copy is another object, whose handles refer to the same
    objects as those of the original. *)
Inductive cmeans : world -> cop -> world -> Prop :=
| c_plain w o w' : means w o w' -> cmeans w (Plain o) w'
| c_copy w i x ps l b fs : fresh_var w i -> denotes w x ps l -> at_place w l = Some (Some b) -> nth_error (objs w) b = Some fs ->
    cmeans w (CCopy i x) (add_var (mkWorld (vars w) (objs w ++ [fs])) i (Some (length (objs w)))).
Inductive cruns : world -> list cop -> world -> Prop :=
| cr_nil w : cruns w [] w
| cr_cons w o w1 os w2 : cmeans w o w1 -> cruns w1 os w2 -> cruns w (o :: os) w2.
