(** Model of core/include/Ab/LinearMemory.hpp and util/include/Ab/Page.hpp over an abstract
    operating system.

    The operating system is a map from page numbers to their state.  What the system decides by
    itself (where a mapping goes, whether a call fails for lack of resources) is an argument of
    the operation; [mmap_contract] says which placements POSIX allows. *)

From Coq Require Import ZArith List Bool.
From Verif Require Import Outcome HashModel.
Import ListNotations.
Local Open Scope Z_scope.

(** util/include/Ab/Page.hpp 16-21; READ|WRITE is the only other permission LinearMemory asks for. *)
Inductive prot := PNone | PReadWrite.

(** [None]: the page is not mapped. *)
Definition os := Z -> option prot.

Definition zrange (a : Z) (n : Z) : list Z := map (fun k => a + Z.of_nat k) (seq 0 (Z.to_nat n)).

Definition set_pages (s : os) (a n : Z) (v : option prot) : os :=
  fun i => if (a <=? i) && (i <? a + n) then v else s i.

(** mmap's failure value: all bits set *)
Definition MAP_FAILED : Z := 2 ^ 64 - 1.

Inductive mprotect_answer :=
| MpOk
| MpFail (k : Z).  (* fails for lack of resources after changing the first k pages (POSIX allows
                      part of the range to have been changed) *)

Section Paging.
(** util/include/Ab/Page.hpp 32: the page size, determined at run time *)
Context (ps : Z).

Definition npages (size : Z) : Z := (size + ps - 1) / ps.

(** mmap(hint, size, PROT_NONE, MAP_ANON|MAP_PRIVATE): fails on size 0; otherwise the system
    answers with the first page of the new mapping, or fails. *)
Definition os_mmap (s : os) (size : Z) (ans : option Z) : os * Z :=
  if size =? 0 then (s, MAP_FAILED)
  else match ans with
       | None => (s, MAP_FAILED)
       | Some p => (set_pages s p (npages size) (Some PNone), p * ps)
       end.

(** What POSIX guarantees of a successful answer: the pages were free, are inside the address
    space and do not include the null page. *)
Definition mmap_contract (s : os) (size : Z) (ans : option Z) : Prop :=
  match ans with
  | None => True
  | Some p => 0 < p /\ (p + npages size) * ps < 2 ^ 64 /\
              forall i, p <= i < p + npages size -> s i = None
  end.

Definition is_mapped (o : option prot) : bool := match o with None => false | Some _ => true end.

(** mprotect(addr, size, READ|WRITE): EINVAL if addr is not page aligned; ENOMEM if the range
    wraps or contains a page that is not mapped (pages before the hole are changed). *)
Definition os_mprotect_rw (s : os) (addr size : Z) (ans : mprotect_answer) : bool * os :=
  if negb (addr mod ps =? 0) then (false, s)
  else if size =? 0 then (true, s)
  else if 2 ^ 64 <? addr + size then (false, s)
  else
    let p := addr / ps in let n := npages size in
    if forallb (fun i => is_mapped (s i)) (zrange p n)
    then match ans with
         | MpOk => (true, set_pages s p n (Some PReadWrite))
         | MpFail k => (false, set_pages s p (Z.max 0 (Z.min k n)) (Some PReadWrite))
         end
    else (false, s).

(** munmap(addr, size): EINVAL if addr is not page aligned or size is 0; pages that are not
    mapped are ignored. *)
Definition os_munmap (s : os) (addr size : Z) : bool * os :=
  if negb (addr mod ps =? 0) then (false, s)
  else if size =? 0 then (false, s)
  else (true, set_pages s (addr / ps) (npages size) None).

(** * LinearMemory *)

(** core/include/Ab/LinearMemory.hpp 18-21 (the address is only a hint for mmap) *)
Record lm_config := mkCfg { cf_min : Z; cf_max : Z }.
Definition default_config : lm_config := mkCfg 1 4.

(** core/include/Ab/LinearMemory.hpp 115-117 *)
Record linmem := mkLM { lm_addr : Z; lm_count : Z; lm_cfg : lm_config }.

(** How a call ends: normally, with LinearMemoryError (14-16) or with PageError (Page.hpp 23-25). *)
Inductive lm_res := LMDone | LMLimitError | LMPageError.

(** LinearMemory.hpp 98-102 and Page.hpp 58-64 *)
Definition lm_activate (s : os) (addr n : Z) (ans : mprotect_answer) : bool * os :=
  os_mprotect_rw s addr (u64 (n * ps)) ans.

(** LinearMemory.hpp 73-80 *)
Definition lm_grow (s : os) (m : linmem) (n : Z) (ans : mprotect_answer) : lm_res * os * linmem :=
  if u64 (cf_max (lm_cfg m) - lm_count m) <? n then (LMLimitError, s, m)
  else
    let (ok, s') := lm_activate s (u64 (lm_addr m + u64 (lm_count m * ps))) n ans in
    if ok then (LMDone, s', mkLM (lm_addr m) (u64 (lm_count m + n)) (lm_cfg m))
    else (LMPageError, s', m).

(** LinearMemory.hpp 84-89 *)
Definition lm_shrink (m : linmem) (n : Z) : lm_res * linmem :=
  if lm_count m <? n then (LMLimitError, m) else (LMDone, m).

(** LinearMemory.hpp 65 *)
Definition lm_size (m : linmem) : Z := u64 (lm_count m * ps).
(** LinearMemory.hpp 69 *)
Definition lm_max_size (m : linmem) : Z := cf_max (lm_cfg m).

(** LinearMemory.hpp 45-50, 23-29, 94-96 and Page.hpp 35-42 (which compares mmap's result with
    nullptr).  When grow throws, the destructor does not run. *)
Definition lm_construct (s : os) (c : lm_config) (where_ : option Z) (ans : mprotect_answer)
  : lm_res * os * linmem :=
  let m0 := mkLM 0 0 c in
  if cf_max c <? cf_min c then (LMLimitError, s, m0)
  else
    let (s1, p) := os_mmap s (u64 (cf_max c * ps)) where_ in
    if p =? 0 then (LMPageError, s1, m0)
    else lm_grow s1 (mkLM p 0 c) (cf_min c) ans.

(** LinearMemory.hpp 56, 111-113 and Page.hpp 51-56; a PageError leaving the destructor ends the
    process. *)
Definition lm_destroy (s : os) (m : linmem) : outcome os :=
  let (ok, s') := os_munmap s (lm_addr m) (u64 (lm_max_size m * ps)) in
  if ok then Ok s' else Trap Terminate.

(** * Histories *)

(** Besides the memory's own operations, the rest of the process maps, unmaps and protects other
    pages ([OEnv f]: afterwards page i is as f says, except inside this memory's reservation). *)
Inductive lm_op := OGrow (n : Z) (ans : mprotect_answer) | OShrink (n : Z) | OEnv (f : os).

Definition env_step (s : os) (m : linmem) (f : os) : os :=
  fun i => if (lm_addr m / ps <=? i) && (i <? lm_addr m / ps + cf_max (lm_cfg m)) then s i else f i.

Definition lm_step (s : os) (m : linmem) (o : lm_op) : lm_res * os * linmem :=
  match o with
  | OGrow n ans => lm_grow s m n ans
  | OShrink n => let (r, m') := lm_shrink m n in (r, s, m')
  | OEnv f => (LMDone, env_step s m f, m)
  end.

Fixpoint lm_run (s : os) (m : linmem) (ops : list lm_op) : list lm_res * os * linmem :=
  match ops with
  | [] => ([], s, m)
  | o :: ops =>
      let '(r, s1, m1) := lm_step s m o in
      let '(rs, s2, m2) := lm_run s1 m1 ops in
      (r :: rs, s2, m2)
  end.

End Paging.
