(** Specification of a growable memory: a page count and two limits. *)

From Coq Require Import ZArith List Bool.
From Verif Require Import MemModel.
Import ListNotations.
Local Open Scope Z_scope.

(** One request against a count of [c] pages with at most [max]: growing by n succeeds when the
    total stays within the limit; shrinking and what the rest of the process does leave the count
    alone. *)
Definition spec_step (max c : Z) (o : lm_op) : lm_res * Z :=
  match o with
  | OGrow n MpOk => if c + n <=? max then (LMDone, c + n) else (LMLimitError, c)
  | OGrow n (MpFail _) =>
      if c + n <=? max then (if n =? 0 then (LMDone, c) else (LMPageError, c)) else (LMLimitError, c)
  | OShrink n => if c <? n then (LMLimitError, c) else (LMDone, c)
  | OEnv _ => (LMDone, c)
  end.

Fixpoint spec_run (max c : Z) (ops : list lm_op) : list lm_res * Z :=
  match ops with
  | [] => ([], c)
  | o :: ops => let (r, c1) := spec_step max c o in
                let (rs, c2) := spec_run max c1 ops in (r :: rs, c2)
  end.

(** The pages [p, p+max) are this memory's; the first [c] can be read and written, the others not. *)
Definition exactly_accessible (s : os) (p max c : Z) : Prop :=
  forall i, p <= i < p + max -> s i = Some (if i <? p + c then PReadWrite else PNone).

(** As above, but a failed system call may have left more pages accessible. *)
Definition at_least_accessible (s : os) (p max c : Z) : Prop :=
  forall i, p <= i < p + max -> (exists v, s i = Some v) /\ (i < p + c -> s i = Some PReadWrite).

Definition no_failures (ops : list lm_op) : Prop :=
  Forall (fun o => match o with OGrow _ (MpFail _) => False | _ => True end) ops.

(** Arguments are machine words. *)
Definition words (ops : list lm_op) : Prop :=
  Forall (fun o => match o with OGrow n _ => 0 <= n < 2 ^ 64 | OShrink n => 0 <= n < 2 ^ 64 | _ => True end) ops.
