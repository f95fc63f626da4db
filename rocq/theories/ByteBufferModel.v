(** Model of util/include/Ab/ByteBuffer.hpp over an explicit heap of allocations. *)

From Coq Require Import ZArith List Bool.
From Verif Require Import Outcome.
Import ListNotations.
Local Open Scope Z_scope.

(** * The C heap (malloc / realloc / free)

    A pointer is null ([None]) or the number of an allocation.  A cell that was never
    written is [None].  Allocations are never reused, so that a dangling pointer stays
    recognisable.  [h_limit]: requests above it fail (return null); any limit is allowed,
    so every allocation-failure threshold is covered.  malloc(0) returns a non-null pointer
    to an empty allocation, as glibc does; realloc always moves. *)
Definition cell := option Z.
Definition block := list cell.
Record heap := mkHeap { h_blocks : list (option block); h_limit : Z }.
Definition ptr := option nat.

Definition get_block (h : heap) (p : ptr) : outcome block :=
  match p with
  | None => UB NullDeref
  | Some id => match nth_error (h_blocks h) id with
               | Some (Some b) => Ok b
               | Some None => UB UseAfterFree
               | None => UB OutOfBounds
               end
  end.

Fixpoint set_nth {A} (n : nat) (x : A) (l : list A) : list A :=
  match l, n with
  | [], _ => []
  | _ :: l, O => x :: l
  | y :: l, S n => y :: set_nth n x l
  end.

Definition set_block (h : heap) (id : nat) (b : option block) : heap :=
  mkHeap (set_nth id b (h_blocks h)) (h_limit h).

Definition malloc (h : heap) (n : Z) : option (nat * heap) :=
  if h_limit h <? n then None
  else Some (length (h_blocks h),
             mkHeap (h_blocks h ++ [Some (repeat None (Z.to_nat n))]) (h_limit h)).

Definition free (h : heap) (p : ptr) : outcome heap :=
  match p with
  | None => Ok h
  | Some id => match nth_error (h_blocks h) id with
               | Some (Some _) => Ok (set_block h id None)
               | Some None => UB DoubleFree
               | None => UB OutOfBounds
               end
  end.

(** realloc(p, n) with n > 0; [Ok None] is a null return (the old block stays). *)
Definition realloc (h : heap) (p : ptr) (n : Z) : outcome (option (nat * heap)) :=
  match p with
  | None => Ok (malloc h n)
  | Some id =>
      do b <- get_block h p;
      if h_limit h <? n then Ok None
      else
        let nb := firstn (Z.to_nat n) b ++ repeat None (Z.to_nat n - length b) in
        Ok (Some (length (h_blocks h),
                  mkHeap (set_nth id None (h_blocks h) ++ [Some nb]) (h_limit h)))
  end.

(** memcpy from / to an allocation.  A zero-byte copy touches nothing (the code may then
    pass a null pointer; the formal undefinedness of memcpy(null, _, 0) is not modelled). *)
Definition load_cells (h : heap) (p : ptr) (off : Z) (n : Z) : outcome (list cell) :=
  if n =? 0 then Ok []
  else do b <- get_block h p;
       if (off <? 0) || (n <? 0) || (Z.of_nat (length b) <? off + n) then UB OutOfBounds
       else Ok (firstn (Z.to_nat n) (skipn (Z.to_nat off) b)).

Definition store_cells (h : heap) (p : ptr) (off : Z) (cs : list cell) : outcome heap :=
  match cs with
  | [] => Ok h
  | _ =>
    do b <- get_block h p;
    if (off <? 0) || (Z.of_nat (length b) <? off + Z.of_nat (length cs)) then UB OutOfBounds
    else
      match p with
      | None => UB NullDeref
      | Some id =>
          let o := Z.to_nat off in
          Ok (set_block h id (Some (firstn o b ++ cs ++ skipn (o + length cs) b)))
      end
  end.

(** * ByteBuffer *)

(** util/include/Ab/ByteBuffer.hpp 244-246 *)
Record buf := mkBuf { b_data : ptr; b_size : Z; b_capa : Z }.

Definition SIZE_MOD : Z := 2 ^ 64.
(** util/include/Ab/ByteBuffer.hpp 19 *)
Definition DEFAULT_CAPACITY : Z := 64.

(** util/include/Ab/ByteBuffer.hpp 27-33: ByteBuffer(capacity) *)
Definition bb_new (h : heap) (capacity : Z) : outcome (heap * buf) :=
  match malloc h capacity with
  | None => Throw StdException
  | Some (id, h) => Ok (h, mkBuf (Some id) 0 capacity)
  end.

(** util/include/Ab/ByteBuffer.hpp 35-43: copy constructor *)
Definition bb_copy (h : heap) (o : buf) : outcome (heap * buf) :=
  match malloc h (b_capa o) with
  | None => Throw StdException
  | Some (id, h) =>
      do cs <- load_cells h (b_data o) 0 (b_size o);
      do h <- store_cells h (Some id) 0 cs;
      Ok (h, mkBuf (Some id) (b_size o) (b_capa o))
  end.

(** util/include/Ab/ByteBuffer.hpp 45-52: move constructor; returns (new, moved-from) *)
Definition bb_move (o : buf) : buf * buf :=
  (mkBuf (b_data o) (b_size o) (b_capa o), mkBuf None 0 0).

(** util/include/Ab/ByteBuffer.hpp 54-59: destructor *)
Definition bb_destroy (h : heap) (b : buf) : outcome heap := free h (b_data b).

(** util/include/Ab/ByteBuffer.hpp 227-242 *)
Definition resize_capacity (h : heap) (b : buf) (capacity : Z) : outcome (heap * buf) :=
  if capacity =? b_capa b then Ok (h, b)                                  (* 228-230 *)
  else if capacity =? 0 then                                              (* 231 *)
    do h <- free h (b_data b);                                            (* 232 *)
    Ok (h, mkBuf (b_data b) (b_size b) 0)                                 (* 233-234 *)
  else
    do r <- realloc h (b_data b) capacity;                                (* 236 *)
    match r with
    | None => Throw StdException                                          (* 237-239 *)
    | Some (id, h) => Ok (h, mkBuf (Some id) (b_size b) capacity)         (* 240-241 *)
    end.

Definition is_null (p : ptr) : bool := match p with None => true | Some _ => false end.

(** util/include/Ab/ByteBuffer.hpp 210-222 *)
Definition grow_capacity (h : heap) (b : buf) (min_capacity : Z) : outcome (heap * buf) :=
  if b_capa b =? 0 then                                                   (* 212 *)
    ab_assert (is_null (b_data b)) ;;                                     (* 213 *)
    ab_assert (b_size b =? 0) ;;                                          (* 214 *)
    resize_capacity h b (Z.max min_capacity DEFAULT_CAPACITY)             (* 215, 221 *)
  else
    ab_assert (negb (is_null (b_data b))) ;;                              (* 217 *)
    ab_assert (b_size b <=? b_capa b) ;;                                  (* 218 *)
    resize_capacity h b (Z.max min_capacity ((b_capa b * 2) mod SIZE_MOD)). (* 219, 221 *)

(** util/include/Ab/ByteBuffer.hpp 200-205 *)
Definition ensure_space (h : heap) (b : buf) (nbytes : Z) : outcome (heap * buf) :=
  let min_capacity := (b_size b + nbytes) mod SIZE_MOD in
  if b_capa b <? min_capacity then grow_capacity h b min_capacity else Ok (h, b).

(** util/include/Ab/ByteBuffer.hpp 78-82: append(src, nbytes), src outside every buffer
    (also 87-89: the bytes of a value). *)
Definition bb_append (h : heap) (b : buf) (src : list cell) : outcome (heap * buf) :=
  let n := Z.of_nat (length src) in
  do (h, b) <- ensure_space h b n;                                        (* 79 *)
  do h <- store_cells h (b_data b) (b_size b) src;                        (* 80 *)
  Ok (h, mkBuf (b_data b) ((b_size b + n) mod SIZE_MOD) (b_capa b)).      (* 81 *)

(** util/include/Ab/ByteBuffer.hpp 93: append(const ByteBuffer& other).  other.data() and
    other.size() are evaluated before ensure_space; the copy happens after it.  When other
    is the buffer itself, [src_data] may have been freed by then. *)
Definition bb_append_buf (h : heap) (b : buf) (src_data : ptr) (src_size : Z)
  : outcome (heap * buf) :=
  do (h, b) <- ensure_space h b src_size;
  do cs <- load_cells h src_data 0 src_size;
  do h <- store_cells h (b_data b) (b_size b) cs;
  Ok (h, mkBuf (b_data b) ((b_size b + src_size) mod SIZE_MOD) (b_capa b)).

(** util/include/Ab/ByteBuffer.hpp 63-66: write(offset, src, int32_t nbytes).  nbytes is
    converted to size_t in the assertion and in memcpy; [src] is the source memory. *)
Definition bb_write (h : heap) (b : buf) (offset : Z) (src : list cell) (nbytes : Z)
  : outcome (heap * buf) :=
  let n := nbytes mod SIZE_MOD in
  ab_assert ((offset + n) mod SIZE_MOD <=? b_size b) ;;                   (* 64 *)
  if Z.of_nat (length src) <? n then UB OutOfBounds                       (* 65, source side *)
  else
    do h <- store_cells h (b_data b) offset (firstn (Z.to_nat n) src);    (* 65 *)
    Ok (h, b).

(** util/include/Ab/ByteBuffer.hpp 107-128: reinterpret<T> / read<T>, sizeof(T) = [n] *)
Definition bb_read (h : heap) (b : buf) (offset : Z) (n : Z) : outcome (list cell) :=
  ab_assert ((offset + n) mod SIZE_MOD <=? b_size b) ;;                   (* 126, 110 *)
  load_cells h (b_data b) offset n.                                       (* 111 *)

(** util/include/Ab/ByteBuffer.hpp 97-102 *)
Definition bb_clear (h : heap) (b : buf) : outcome (heap * buf) :=
  do h <- free h (b_data b); Ok (h, mkBuf None 0 0).

(** util/include/Ab/ByteBuffer.hpp 179-182 *)
Definition bb_resize (h : heap) (b : buf) (size : Z) : outcome (heap * buf) :=
  do (h, b) <- resize_capacity h b size; Ok (h, mkBuf (b_data b) size (b_capa b)).

(** util/include/Ab/ByteBuffer.hpp 187-191 *)
Definition bb_reserve (h : heap) (b : buf) (capacity : Z) : outcome (heap * buf) :=
  if b_capa b <? capacity then resize_capacity h b capacity else Ok (h, b).

(** util/include/Ab/ByteBuffer.hpp 195 *)
Definition bb_shrink_to_fit (h : heap) (b : buf) : outcome (heap * buf) :=
  resize_capacity h b (b_size b).

(** util/include/Ab/ByteBuffer.hpp 133-139: returns the pointer handed to the caller *)
Definition bb_release (b : buf) : ptr * buf := (b_data b, mkBuf None 0 0).

(** util/include/Ab/ByteBuffer.hpp 141-151: returns the span handed to the caller *)
Definition bb_release_span (h : heap) (b : buf) : outcome (heap * (ptr * Z) * buf) :=
  do (h, b) <- bb_shrink_to_fit h b;
  Ok (h, (b_data b, b_size b), mkBuf None 0 0).

(** * Programs using several buffers *)

Inductive op :=
| New (n : Z) | Copy (i : nat) | Move (i : nat) | Destroy (i : nat)
| Append (i : nat) (src : bytes) | AppendBuf (i j : nat)
| Write (i : nat) (off : Z) (src : bytes)
| Read (i : nat) (off n : Z)
| Clear (i : nat) | Resize (i : nat) (n : Z) | Reserve (i : nat) (n : Z) | Shrink (i : nat)
| Release (i : nat) | ReleaseSpan (i : nat).

(** What the caller sees: nothing, an exception, the cells read, or a span handed over. *)
Inductive obs := Done | Threw | Got (cs : list cell) | GotSpan (cs : list cell).

(** The buffers by number ([None]: destroyed) and the pointers now owned by the caller. *)
Record world := mkWorld { w_heap : heap; w_bufs : list (option buf); w_out : list ptr }.

Definition get_buf (w : world) (i : nat) : outcome buf :=
  match nth_error (w_bufs w) i with
  | Some (Some b) => Ok b
  | _ => UB UseAfterFree            (* using an object before/after its lifetime *)
  end.

Definition put (w : world) (i : nat) (hb : heap * buf) : world :=
  mkWorld (fst hb) (set_nth i (Some (snd hb)) (w_bufs w)) (w_out w).

(** Contents of a span in memory. *)
Definition span_cells (h : heap) (p : ptr) (n : Z) : outcome (list cell) := load_cells h p 0 n.

Definition raw_step (w : world) (o : op) : outcome (world * obs) :=
  let h := w_heap w in
  match o with
  | New n =>
      do (h, b) <- bb_new h n; Ok (mkWorld h (w_bufs w ++ [Some b]) (w_out w), Done)
  | Copy i =>
      do b <- get_buf w i; do (h, c) <- bb_copy h b;
      Ok (mkWorld h (w_bufs w ++ [Some c]) (w_out w), Done)
  | Move i =>
      do b <- get_buf w i;
      let (c, b) := bb_move b in
      Ok (mkWorld h (set_nth i (Some b) (w_bufs w) ++ [Some c]) (w_out w), Done)
  | Destroy i =>
      do b <- get_buf w i; do h <- bb_destroy h b;
      Ok (mkWorld h (set_nth i None (w_bufs w)) (w_out w), Done)
  | Append i src =>
      do b <- get_buf w i; do r <- bb_append h b (map Some src); Ok (put w i r, Done)
  | AppendBuf i j =>
      do b <- get_buf w i; do c <- get_buf w j;
      do r <- bb_append_buf h b (b_data c) (b_size c); Ok (put w i r, Done)
  | Write i off src =>
      do b <- get_buf w i;
      do r <- bb_write h b off (map Some src) (Z.of_nat (length src)); Ok (put w i r, Done)
  | Read i off n =>
      do b <- get_buf w i; do cs <- bb_read h b off n; Ok (w, Got cs)
  | Clear i => do b <- get_buf w i; do r <- bb_clear h b; Ok (put w i r, Done)
  | Resize i n => do b <- get_buf w i; do r <- bb_resize h b n; Ok (put w i r, Done)
  | Reserve i n => do b <- get_buf w i; do r <- bb_reserve h b n; Ok (put w i r, Done)
  | Shrink i => do b <- get_buf w i; do r <- bb_shrink_to_fit h b; Ok (put w i r, Done)
  | Release i =>
      do b <- get_buf w i;
      let (p, b) := bb_release b in
      Ok (mkWorld h (set_nth i (Some b) (w_bufs w)) (p :: w_out w), Done)
  | ReleaseSpan i =>
      do b <- get_buf w i;
      do (h, (p, n), b) <- bb_release_span h b;
      do cs <- span_cells h p n;
      Ok (mkWorld h (set_nth i (Some b) (w_bufs w)) (p :: w_out w), GotSpan cs)
  end.

(** The caller catches std::bad_alloc.  Every throw (lines 30, 38, 238) happens before the
    first assignment to a live object, so the world is unchanged. *)
Definition step (w : world) (o : op) : outcome (world * obs) :=
  match raw_step w o with
  | Throw _ => Ok (w, Threw)
  | r => r
  end.

(** A client program: what it does next may depend on what it saw. *)
Inductive prog := Stop | Do (o : op) (k : obs -> prog).

Fixpoint run (w : world) (p : prog) : outcome (world * list obs) :=
  match p with
  | Stop => Ok (w, [])
  | Do o k => do (w, x) <- step w o; do (w, xs) <- run w (k x); Ok (w, x :: xs)
  end.

(** A point a program can reach: its world and what remains to do. *)
Inductive reach : world -> prog -> world -> prog -> Prop :=
| reach_here w p : reach w p w p
| reach_step w o k w1 x w2 p : step w o = Ok (w1, x) -> reach w1 (k x) w2 p ->
    reach w (Do o k) w2 p.

(** A straight-line program: stops at the first exception. *)
Fixpoint straight (ops : list op) : prog :=
  match ops with
  | [] => Stop
  | o :: ops => Do o (fun x => match x with Threw => Stop | _ => straight ops end)
  end.

Definition init (limit : Z) : world := mkWorld (mkHeap [] limit) [] [].
