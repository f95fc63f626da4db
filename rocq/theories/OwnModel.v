(** Model of who owns a module: compile and instantiate (core/include/Ab/Loading.hpp,
    core/src/ab-core-Loading.cpp), ModuleStorage, Module and ModuleInst (core/include/Ab/Module.hpp),
    FuncInst (core/include/Ab/Func.hpp) and the VirtualMachine's list of instances.

    std::shared_ptr is modelled by a use count; the moves of ModuleStorage inside compile are C39. *)

From Coq Require Import ZArith List Bool.
From Verif Require Import Outcome CodecModel.
Import ListNotations.
Local Open Scope Z_scope.

(** What holds a std::shared_ptr to a module: a variable, or the member module_ of an instance
    (Module.hpp 192). *)
Inductive owner := Handle (x : Z) | Instance (i : Z).
Definition owner_eqb (a b : owner) : bool :=
  match a, b with
  | Handle x, Handle y => x =? y
  | Instance x, Instance y => x =? y
  | _, _ => false
  end.

(** A module (Module.hpp 80-119): its storage's address and deleter (70-71), what compile read from
    the bytes, and the number of shared pointers to it. *)
Record omodule := mkOM { om_addr : Z; om_del : Z; om_body : module; om_uses : Z }.

(** The shared pointers that exist, null or to the k-th module; the modules, [None] when destroyed;
    the calls of deleters so far, as (deleter, address). *)
Record oworld := mkOW {
  ow_env : list (owner * option nat); ow_mods : list (option omodule); ow_calls : list (Z * Z) }.
Definition oworld0 : oworld := mkOW [] [] [].

Fixpoint get (o : owner) (e : list (owner * option nat)) : option (option nat) :=
  match e with
  | [] => None
  | (o', r) :: e => if owner_eqb o o' then Some r else get o e
  end.
Fixpoint remove (o : owner) (e : list (owner * option nat)) : list (owner * option nat) :=
  match e with
  | [] => []
  | (o', r) :: e => if owner_eqb o o' then e else (o', r) :: remove o e
  end.
Fixpoint set_mod (k : nat) (v : option omodule) (ms : list (option omodule)) : list (option omodule) :=
  match ms, k with
  | [], _ => []
  | _ :: ms, O => v :: ms
  | m :: ms, S k => m :: set_mod k v ms
  end.

(** Reading a shared pointer: its variable must exist. *)
Definition read (o : owner) (w : oworld) : outcome (option nat) :=
  match get o (ow_env w) with Some r => Ok r | None => UB UseAfterFree end.

(** Module.hpp 54-58: ~ModuleStorage *)
Definition delete_storage (addr del : Z) : list (Z * Z) :=
  if negb (addr =? 0) && negb (del =? 0) then [(del, addr)] else [].

(** Copying and destroying a shared pointer.  ~Module (86) destroys the storage. *)
Definition retain (r : option nat) (w : oworld) : outcome oworld :=
  match r with
  | None => Ok w
  | Some k =>
      match nth_error (ow_mods w) k with
      | Some (Some m) =>
          Ok (mkOW (ow_env w) (set_mod k (Some (mkOM (om_addr m) (om_del m) (om_body m) (om_uses m + 1))) (ow_mods w)) (ow_calls w))
      | _ => UB UseAfterFree
      end
  end.
Definition release (r : option nat) (w : oworld) : outcome oworld :=
  match r with
  | None => Ok w
  | Some k =>
      match nth_error (ow_mods w) k with
      | Some (Some m) =>
          if om_uses m =? 1
          then Ok (mkOW (ow_env w) (set_mod k None (ow_mods w)) (ow_calls w ++ delete_storage (om_addr m) (om_del m)))
          else Ok (mkOW (ow_env w) (set_mod k (Some (mkOM (om_addr m) (om_del m) (om_body m) (om_uses m - 1))) (ow_mods w)) (ow_calls w))
      | _ => UB DoubleFree
      end
  end.

Definition bindv (o : owner) (r : option nat) (w : oworld) : oworld := mkOW ((o, r) :: ow_env w) (ow_mods w) (ow_calls w).
Definition unbind (o : owner) (w : oworld) : oworld := mkOW (remove o (ow_env w)) (ow_mods w) (ow_calls w).

Inductive oop :=
| OCompile (x : Z) (addr del : Z) (bs : bytes)   (* auto x = compile(cx, ModuleStorage(bytes, del)), caught *)
| OCopy (x y : Z)                                (* std::shared_ptr x(y) *)
| OMove (x y : Z)                                (* std::shared_ptr x(std::move(y)) *)
| OAssign (x y : Z)                              (* x = y *)
| ODrop (x : Z)                                  (* ~x *)
| OInstantiate (i y : Z)                         (* i = instantiate(cx, y) *)
| OInstantiateMove (i y : Z)                     (* i = instantiate(cx, std::move(y)) *)
| ODelete (i : Z)                                (* delete i *)
| OVmEnd.                                        (* ~VirtualMachine *)

(** Module.hpp 196-201: initialize reads the module's functions. *)
Definition initialize (r : option nat) : outcome unit :=
  match r with None => UB NullDeref | Some _ => Ok tt end.

Definition ostep (w : oworld) (op : oop) : outcome oworld :=
  match op with
  | OCompile x addr del bs =>
      (* Loading.cpp 212-248: make_shared, then decode; an exception destroys the module again *)
      match compile bs with
      | Ok m => Ok (mkOW ((Handle x, Some (length (ow_mods w))) :: ow_env w) (ow_mods w ++ [Some (mkOM addr del m 1)]) (ow_calls w))
      | Throw _ => Ok (mkOW (ow_env w) (ow_mods w ++ [None]) (ow_calls w ++ delete_storage addr del))
      | Trap t => Trap t
      | UB u => UB u
      | OutOfFuel => OutOfFuel
      end
  | OCopy x y => do r <- read (Handle y) w; do w <- retain r w; Ok (bindv (Handle x) r w)
  | OMove x y => do r <- read (Handle y) w; Ok (bindv (Handle x) r (bindv (Handle y) None (unbind (Handle y) w)))
  | OAssign x y =>
      do r <- read (Handle y) w; do old <- read (Handle x) w;
      do w <- retain r w; release old (bindv (Handle x) r (unbind (Handle x) w))
  | ODrop x => do r <- read (Handle x) w; release r (unbind (Handle x) w)
  | OInstantiate i y =>
      (* Loading.hpp 33-35, Module.hpp 126 *)
      do r <- read (Handle y) w; do w <- retain r w; do _ <- initialize r; Ok (bindv (Instance i) r w)
  | OInstantiateMove i y =>
      (* Loading.hpp 37-39, Module.hpp 128 *)
      do r <- read (Handle y) w; do _ <- initialize r;
      Ok (bindv (Instance i) r (bindv (Handle y) None (unbind (Handle y) w)))
  | ODelete i => do r <- read (Instance i) w; release r (unbind (Instance i) w)
  | OVmEnd =>
      (* VirtualMachine.hpp 55-60: modules_ is never added to, so there is nothing to destroy in it *)
      Ok w
  end.

Fixpoint orun (w : oworld) (ops : list oop) : outcome oworld :=
  match ops with
  | [] => Ok w
  | op :: ops => do w <- ostep w op; orun w ops
  end.

(** inst->func_inst(index) and what its FuncInst points to: the Func in the module's table and the
    bytes of the body (Module.hpp 143-153, Func.hpp 84-93). *)
Definition use_func (w : oworld) (i : Z) (index : Z) : outcome func :=
  do r <- read (Instance i) w;
  match r with
  | None => UB NullDeref
  | Some k =>
      match nth_error (ow_mods w) k with
      | Some (Some m) => func_inst (om_body m) index
      | _ => UB UseAfterFree
      end
  end.
