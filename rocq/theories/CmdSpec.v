From Coq Require Import String Ascii List Bool Arith.
From Verif Require Import Outcome CmdModel.
Import ListNotations.
Local Open Scope nat_scope.

(** A search path is a list of directories separated by colons; [path_of ds] writes one down. *)
Fixpoint path_of (ds : list str) : str :=
  match ds with
  | [] => []
  | [d] => d
  | d :: ds => d ++ ":"%char :: path_of ds
  end.
Definition no_colon (d : str) : Prop := ~ In ":"%char d.

(** Directory [d] has an entry [name] *)
Definition has (fs : dirs) (d name : str) : Prop := exists names, fs d = Some names /\ In name names.
Definition in_dir (d name : str) : str := d ++ lit "/" ++ name.

(** [r] is where [name] is found first, looking in the directories [ds] in order *)
Inductive found_first (fs : dirs) (name : str) : list str -> option str -> Prop :=
| ff_none : found_first fs name [] None
| ff_here d ds : has fs d name -> found_first fs name (d :: ds) (Some (in_dir d name))
| ff_next d ds r : ~ has fs d name -> found_first fs name ds r -> found_first fs name (d :: ds) r.

(** The directories an environment variable lists: none if it is unset or empty *)
Definition lists_dirs (e : env) (var : string) (ds : list str) : Prop :=
  (ds = [] /\ (e (lit var) = None \/ e (lit var) = Some [])) \/
  (ds <> [] /\ Forall no_colon ds /\ exists p, e (lit var) = Some p /\ p <> [] /\ p = path_of ds).
(** The directories of installed commands: AB_HOME/bin, if AB_HOME is set *)
Definition home_dirs (e : env) : list str :=
  match e (lit "AB_HOME") with Some h => [h ++ lit "/bin"] | None => [] end.
