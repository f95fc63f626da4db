(** C28 for every text: also those with numbers that are too large. *)
From Coq Require Import String ZArith List Bool Lia Permutation Arith.
From Coq Require SpecFloat.
From Verif Require Import Outcome HashModel TablesModel IrModel IrSpec IrProofs IrProps LexModel LexSpec LexProofs LexRun LexTiles ParseModel ParseSpec ParseProofs ParseProps ParseOverflow.
Import ListNotations.
Local Open Scope Z_scope.
Local Open Scope list_scope.

(** Every text at all is either tokens to its end (or to something that begins no token), and then it is
    parsed as its brackets say; or there are tokens up to a number that is too large, and then parsing
    throws if a mistake that cannot be reported comes before, and overflows a signed integer otherwise. *)
Theorem C28_every_text_partial pow10 sh place syms text :
  (forall x es, Permutation (place x es) (x :: es)) ->
  (exists ts tail, tiles pow10 0 text ts tail /\
     match brackets [] (map tk_data ts) with
     | None => forall fuel, (3 * length ts + 4 <= fuel)%nat -> parse pow10 sh place fuel syms text = Throw StdException
     | Some open =>
         if map_open open then forall fuel, parse pow10 sh place fuel syms text = OutOfFuel
         else exists doc, forall fuel, (3 * length ts + 4 <= fuel)%nat -> parse pow10 sh place fuel syms text = Ok doc
     end) \/
  (exists ts, tiles_up_to pow10 0 text ts /\
     forall fuel, (3 * length ts + 4 <= fuel)%nat -> parse pow10 sh place fuel syms text =
       match brackets [] (map tk_data ts) with None => Throw StdException | Some _ => UB SignedOverflow end).
Proof.
  intros P. destruct (tiles_or_up_to pow10 (length text) 0 text (le_n _)) as [(ts & tail & T)|(ts & T)].
  - left. exists ts, tail. split; [exact T|]. now apply (C28_how_parsing_ends_partial pow10 sh place syms text ts tail).
  - right. exists ts. split; [exact T|]. intros fuel L. now rewrite (parse_up_to pow10 sh place P syms text ts T fuel L).
Qed.
Print Assumptions C28_every_text_partial.

(** An integer too large in an open vector, and one behind a mistake: "[9223372036854775808" and
    "(} 9223372036854775808" *)
Definition large : list Z := [57;50;50;51;51;55;50;48;51;54;56;53;52;55;55;53;56;48;56].
Lemma large_is_too_large : exists li k, scan start_state 0 None [] 0 large = (k, Some (RuInteger, 19%nat), li).
Proof. eexists. eexists. vm_compute. reflexivity. Qed.
Example too_large_witness : exists ts, tiles_up_to (fun _ => f64_of_Z 1) 0 (91 :: large) ts /\ length ts = 1%nat /\
  parse (fun _ => f64_of_Z 1) gnu_hash cons 20 empty_symtab (91 :: large) = UB SignedOverflow /\
  parse (fun _ => f64_of_Z 1) gnu_hash cons 20 empty_symtab (40 :: 125 :: 32 :: large) = Throw StdException.
Proof.
  exists [mkTok TkLBracket 0 1]. split; [|split; [reflexivity|split; vm_compute; reflexivity]].
  assert (S1 : exists n li, scan start_state 0 None [] 0 (91 :: large) = (n, Some (RuLBracket, 1%nat), li)) by (eexists; eexists; vm_compute; reflexivity).
  destruct S1 as (n & li & S1). apply scan_longest in S1 as (_ & L1).
  destruct large_is_too_large as (li2 & n2 & S2). apply scan_longest in S2 as (_ & L2).
  apply (u_tok (fun _ => f64_of_Z 1) 0 [91] large RuLBracket TkLBracket); [exact L1|reflexivity|].
  apply (u_bad (fun _ => f64_of_Z 1) _ large [] RuInteger); [exact L2|]. left. split; [reflexivity|].
  exists (decimal large). split; [apply iv_plain; split; [discriminate|repeat constructor]|]. vm_compute. intros [_ H]. discriminate.
Qed.
