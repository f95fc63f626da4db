(** What a set of byte buffers should do: each is a plain sequence of cells.
    [a_sto]: whether the buffer holds storage (a constructed buffer does; a cleared,
    released or moved-from one does not until it is appended to). *)

From Coq Require Import ZArith List Bool.
From Verif Require Import Outcome ByteBufferModel.
Import ListNotations.
Local Open Scope Z_scope.

Record abuf := mkA { a_sto : bool; a_cells : list cell }.
Definition specs := list (option abuf).

Definition live (s : specs) (i : nat) (a : abuf) : Prop := nth_error s i = Some (Some a).

Definition upd (s : specs) (i : nat) (a : option abuf) : specs := set_nth i a s.

Definition alen (a : abuf) : Z := Z.of_nat (length (a_cells a)).

(** The effect of each operation on the sequences, and what it shows.  Operations
    that ask for new storage may instead throw, changing nothing. *)
Inductive spec_step : specs -> op -> obs -> specs -> Prop :=
| sp_new s n : spec_step s (New n) Done (s ++ [Some (mkA true [])])
| sp_new_t s n : spec_step s (New n) Threw s
| sp_copy s i a : live s i a -> spec_step s (Copy i) Done (s ++ [Some a])
| sp_move s i a : live s i a ->
    spec_step s (Move i) Done (upd s i (Some (mkA false [])) ++ [Some a])
| sp_destroy s i a : live s i a -> spec_step s (Destroy i) Done (upd s i None)
| sp_append s i a src : live s i a ->
    spec_step s (Append i src) Done
      (upd s i (Some (mkA (a_sto a || negb (length src =? 0)%nat) (a_cells a ++ map Some src))))
| sp_append_t s i a src : live s i a -> spec_step s (Append i src) Threw s
| sp_appbuf s i j a c : live s i a -> live s j c ->
    spec_step s (AppendBuf i j) Done
      (upd s i (Some (mkA (a_sto a || negb (length (a_cells c) =? 0)%nat) (a_cells a ++ a_cells c))))
| sp_appbuf_t s i j a c : live s i a -> live s j c -> spec_step s (AppendBuf i j) Threw s
| sp_write s i a pre old post src : live s i a ->
    a_cells a = pre ++ old ++ post -> length old = length src ->
    spec_step s (Write i (Z.of_nat (length pre)) src) Done
      (upd s i (Some (mkA (a_sto a) (pre ++ map Some src ++ post))))
| sp_read s i a pre mid post : live s i a -> a_cells a = pre ++ mid ++ post ->
    spec_step s (Read i (Z.of_nat (length pre)) (Z.of_nat (length mid))) (Got mid) s
| sp_clear s i a : live s i a -> spec_step s (Clear i) Done (upd s i (Some (mkA false [])))
| sp_resize_down s i a keep drop : live s i a -> a_cells a = keep ++ drop ->
    spec_step s (Resize i (Z.of_nat (length keep))) Done
      (upd s i (Some (mkA (negb (length keep =? 0)%nat) keep)))
| sp_resize_up s i a more : live s i a ->
    spec_step s (Resize i (alen a + Z.of_nat more)) Done
      (upd s i (Some (mkA (negb (length (a_cells a) + more =? 0)%nat)
                          (a_cells a ++ repeat None more))))
| sp_resize_t s i a n : live s i a -> spec_step s (Resize i n) Threw s
| sp_reserve s i a n : live s i a ->
    spec_step s (Reserve i n) Done (upd s i (Some (mkA (a_sto a || (0 <? n)) (a_cells a))))
| sp_reserve_t s i a n : live s i a -> spec_step s (Reserve i n) Threw s
| sp_shrink s i a : live s i a ->
    spec_step s (Shrink i) Done (upd s i (Some (mkA (negb (alen a =? 0)) (a_cells a))))
| sp_release s i a : live s i a ->
    spec_step s (Release i) Done (upd s i (Some (mkA false [])))
| sp_relspan s i a : live s i a ->
    spec_step s (ReleaseSpan i) (GotSpan (a_cells a)) (upd s i (Some (mkA false []))).

Inductive spec_run : specs -> prog -> list obs -> specs -> Prop :=
| sr_nil s : spec_run s Stop [] s
| sr_cons s o k x s1 xs s2 :
    spec_step s o x s1 -> spec_run s1 (k x) xs s2 -> spec_run s (Do o k) (x :: xs) s2.

(** The uses a program may make of a buffer for which the class is claimed to work:
    objects are alive, offsets are in range, and the four uses refuted separately
    (C46-C48: zero capacity, shrinking to zero, copying a storage-less buffer, appending a
    buffer to itself) are excluded. *)
Definition allowed (s : specs) (o : op) : Prop :=
  match o with
  | New n => 0 < n
  | Copy i => exists a, live s i a /\ a_sto a = true
  | Move i | Destroy i | Clear i | Release i => exists a, live s i a
  | Append i src => exists a, live s i a /\ Z.of_nat (length src) < 2 ^ 62
  | AppendBuf i j => (exists a, live s i a) /\ (exists c, live s j c) /\ i <> j
  | Write i off src =>
      exists a, live s i a /\ 0 <= off /\ off + Z.of_nat (length src) <= alen a
  | Read i off n => exists a, live s i a /\ 0 <= off /\ 0 <= n /\ off + n <= alen a
  | Resize i n => exists a, live s i a /\ 0 <= n /\ (0 < n \/ a_sto a = false)
  | Reserve i n => exists a, live s i a /\ 0 <= n
  | Shrink i | ReleaseSpan i => exists a, live s i a /\ (a_cells a <> [] \/ a_sto a = false)
  end.

(** The whole program only makes allowed uses, along every specified behaviour. *)
Inductive allowed_run : specs -> prog -> Prop :=
| ar_nil s : allowed_run s Stop
| ar_cons s o k : allowed s o ->
    (forall x s', spec_step s o x s' -> allowed_run s' (k x)) -> allowed_run s (Do o k).
