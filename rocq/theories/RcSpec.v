From Coq Require Import List Arith.
From Verif Require Import Outcome RcModel.
Import ListNotations.

(** What the programs mean: pointers without counts, objects that are never destroyed (as with a
    garbage collector).  An object is known by its number in the order of creation. *)
Record world := mkWorld {
  vars : list (option (option nat));        (* None: not in scope; Some None: null *)
  objs : list (list (option nat)) }.        (* the handles in each object *)

Definition at_place (w : world) (l : place) : option (option nat) :=
  match l with
  | Local i => match nth_error (vars w) i with Some v => v | None => None end
  | Member a k => match nth_error (objs w) a with Some fs => nth_error fs k | None => None end
  end.
Definition write (w : world) (l : place) (v : option nat) : world :=
  match l with
  | Local i => mkWorld (put (vars w) i (Some v)) (objs w)
  | Member a k => match nth_error (objs w) a with
                  | Some fs => mkWorld (vars w) (put (objs w) a (put fs k v))
                  | None => w
                  end
  end.

(** [via w l ks ps l']: starting at the handle at [l] and following members [ks] one reads the
    handles at the places [ps] and arrives at the handle at [l'] *)
Inductive via (w : world) : place -> list nat -> list place -> place -> Prop :=
| via_here l v : at_place w l = Some v -> via w l [] [] l
| via_step l a k ks ps l' : at_place w l = Some (Some a) -> via w (Member a k) ks ps l' -> via w l (k :: ks) (l :: ps) l'.
Definition denotes (w : world) (x : path) (ps : list place) (l : place) : Prop := via w (Local (fst x)) (snd x) ps l.

Definition fresh_var (w : world) (i : nat) : Prop := nth_error (vars w) i = Some None \/ i = length (vars w).
Definition add_var (w : world) (i : nat) (v : option nat) : world :=
  mkWorld (if i <? length (vars w) then put (vars w) i (Some v) else vars w ++ [Some v]) (objs w).
Definition add_obj (w : world) (n : nat) : world := mkWorld (vars w) (objs w ++ [repeat None n]).

(** The programs that are covered: no variable is used out of scope, no null pointer is followed,
    and an assignment's source is not the destination and is not reached through it (a move to
    itself is covered: it clears the handle). *)
Inductive means : world -> op -> world -> Prop :=
| m_null w i : fresh_var w i -> means w (ONull i) (add_var w i None)
| m_new w i n : fresh_var w i -> means w (ONew i n) (add_var (add_obj w n) i (Some (length (objs w))))
| m_copy w i x ps l v : fresh_var w i -> denotes w x ps l -> at_place w l = Some v -> means w (OCopy i x) (add_var w i v)
| m_raw w i x ps l v : fresh_var w i -> denotes w x ps l -> at_place w l = Some v -> means w (ORaw i x) (add_var w i v)
| m_clear w x ps l : denotes w x ps l -> means w (OClear x) (write w l None)
| m_renew w x n ps l : denotes w x ps l -> means w (ORenew x n) (write (add_obj w n) l (Some (length (objs w))))
| m_assign w x y ps l qs r v : denotes w x ps l -> denotes w y qs r -> at_place w r = Some v ->
    l <> r -> ~ In l qs -> means w (OAssign x y) (write w l v)
| m_assign_raw w x y ps l qs r v : denotes w x ps l -> denotes w y qs r -> at_place w r = Some v ->
    l <> r -> ~ In l qs -> means w (OAssignRaw x y) (write w l v)
| m_move w x y ps l qs r v : denotes w x ps l -> denotes w y qs r -> at_place w r = Some v ->
    l <> r -> ~ In l qs -> means w (OMove x y) (write (write w l v) r None)
| m_move_self w x y ps l qs : denotes w x ps l -> denotes w y qs l -> means w (OMove x y) (write w l None)
| m_destroy w i v : at_place w (Local i) = Some v ->
    means w (ODestroy i) (mkWorld (put (vars w) i None) (objs w)).

Inductive runs : world -> list op -> world -> Prop :=
| r_nil w : runs w [] w
| r_cons w o w1 os w2 : means w o w1 -> runs w1 os w2 -> runs w (o :: os) w2.
Definition nothing : world := mkWorld [] [].

(** All handles there are: those in scope and those in objects in memory *)
Definition local_handles (ls : list (option (option nat))) : list nat :=
  flat_map (fun o => match o with Some (Some a) => [a] | _ => [] end) ls.
Definition obj_handles (o : option obj) : list nat :=
  match o with
  | Some o => flat_map (fun v => match v with Some a => [a] | None => [] end) (fields o)
  | None => []
  end.
Definition handles (p : prog) (a : nat) : nat :=
  count_occ Nat.eq_dec (local_handles (locals p)) a + count_occ Nat.eq_dec (flat_map obj_handles (mem p)) a.

(** The state shows the world: the same variables, and every object still in memory has the same
    handles *)
Definition state_shows (p : prog) (w : world) : Prop :=
  locals p = vars w /\ length (mem p) = length (objs w) /\
  forall a o, nth_error (mem p) a = Some (Some o) -> nth_error (objs w) a = Some (fields o).
