(** Property theorems about module files cut short (C140). *)
From Coq Require Import ZArith List Bool Lia.
From Verif Require Import Outcome LebSpec CodecModel CodecSpec CodecProofs CodecProps CutProofs.
Import ListNotations.
Local Open Scope Z_scope.

(** [part] holds nothing but the first types, type indices and functions of [whole]. *)
Definition initial_part (part whole : module) : Prop :=
  exists t i f, m_types whole = m_types part ++ t /\ m_func_types whole = m_func_types part ++ i /\ m_funcs whole = m_funcs part ++ f.

(** Any module file, cut anywhere: when the rest is accepted, the cut is between two sections, and
    what is accepted is what the sections before it say, an initial part of the module. *)
Theorem C140_accepted_cuts_partial :
  forall bs m n part, is_bytes bs -> compile bs = Ok m -> (n <= length bs)%nat -> compile (firstn n bs) = Ok part ->
    (exists before after,
       layout bs 8 (mkModule [] [] []) before (Z.of_nat n) part /\
       layout bs (Z.of_nat n) part after (Z.of_nat (length bs)) m) /\
    initial_part part m.
Proof.
  intros bs m n part Hb E Hn Ec. apply compile_spec in E; [|exact Hb]. apply file_layout in E as (Hh & cs2 & L2).
  destruct (accepted_cut bs n part Hb Hn Ec) as (cs & L).
  apply bytes_at_bound in Hh. destruct (layout_split bs 8 _ cs _ part cs2 m Hb ltac:(unfold len in *; cbn in Hh; lia) L L2) as (cs' & -> & L').
  split; [now exists cs, cs'|]. exact (layout_grow _ _ _ _ _ _ L').
Qed.
Print Assumptions C140_accepted_cuts_partial.

Lemma written_layout m bs : fits m -> write m = Ok bs -> Z.of_nat (length bs) < 2 ^ 32 -> is_bytes bs /\ exists fs n,
  layout bs 8 empty_module (some (mn_types m) [1] ++ some (mn_funcs m) [3]) n (mkModule (mn_types m) (map fn_type_idx (mn_funcs m)) []) /\
  layout bs n (mkModule (mn_types m) (map fn_type_idx (mn_funcs m)) []) (some (mn_funcs m) [10]) (len bs)
    (mkModule (mn_types m) (map fn_type_idx (mn_funcs m)) fs).
Proof.
  intros F E L. destruct (write_layout m F) as (bs' & E' & Hb & H). rewrite E in E'. injection E' as <-. auto.
Qed.
Lemma written_compiles m bs : fits m -> write m = Ok bs -> Z.of_nat (length bs) < 2 ^ 32 -> exists whole, compile bs = Ok whole.
Proof.
  intros F E L. destruct (C07_write_then_compile m F) as (bs' & E' & _ & H). rewrite E in E'. injection E' as <-.
  destruct (H L) as (w & Hw & _). eauto.
Qed.
Lemma written_cut m bs n part : fits m -> write m = Ok bs -> Z.of_nat (length bs) < 2 ^ 32 ->
  (n < length bs)%nat -> compile (firstn n bs) = Ok part ->
  exists cs, layout bs 8 empty_module cs (Z.of_nat n) part /\ ~ In 10 cs /\
    exists cs', (some (mn_types m) [1] ++ some (mn_funcs m) [3]) ++ some (mn_funcs m) [10] = cs ++ cs'.
Proof.
  intros F E L Hn Ec. destruct (written_layout m bs F E L) as (Hb & fs & k & L1 & L2).
  destruct (accepted_cut bs n part Hb ltac:(lia) Ec) as (cs & Lc).
  pose proof (layout_app_list _ _ _ _ _ _ _ _ _ L1 L2) as LL.
  destruct (written_compiles m bs F E L) as (w & Hw). apply compile_spec in Hw as (Hh & _); [|exact Hb]. apply bytes_at_bound in Hh.
  destruct (layout_split bs 8 _ cs _ part _ _ Hb ltac:(unfold len in *; cbn in Hh; lia) Lc LL) as (cs' & Ecs & L').
  exists cs. split; [exact Lc|]. split; [|now exists cs'].
  assert (N : cs' <> []).
  { intros ->. inversion L'; subst. unfold len in *. lia. }
  intros I10. destruct cs' as [|d cs']; [now apply N|].
  assert (NN : forall l, ~ In 10 l -> forall d, l ++ some (mn_funcs m) [10] = cs ++ d :: cs' -> ~ In 10 cs); [|].
  { clear. intros l Nl d H. revert l Nl H. induction cs as [|x cs IH]; intros l Nl H; [intros []|]. destruct l as [|y l].
    - destruct (mn_funcs m); cbn in H; [discriminate|]. destruct cs; discriminate.
    - cbn [app] in H. injection H as <- H. intros [->|I]; [apply Nl; now left|]. revert I. apply (IH l); [|exact H].
      intros X. apply Nl. now right. }
  revert I10. eapply NN; [|exact Ecs]. destruct (mn_types m), (mn_funcs m); cbn; intuition discriminate.
Qed.

(** A file written from a description, cut anywhere before its end: what is accepted of it has no
    function at all, so no code of an incomplete file is ever run. *)
Theorem C140_cut_files_have_no_functions_partial :
  forall m bs n part, fits m -> write m = Ok bs -> Z.of_nat (length bs) < 2 ^ 32 ->
    (n < length bs)%nat -> compile (firstn n bs) = Ok part ->
    m_funcs part = [] /\ forall index, 0 <= index -> func_inst part index = Trap Assertion.
Proof.
  intros m bs n part F E L Hn Ec. destruct (written_cut m bs n part F E L Hn Ec) as (cs & Lc & N & _).
  pose proof (layout_no_code _ _ _ _ _ _ Lc N) as Hf. cbn in Hf. split; [exact Hf|].
  intros i Hi. unfold func_inst. rewrite Hf. cbn [length Z.of_nat]. replace (i <? 0) with false by (symmetry; apply Z.ltb_ge; lia). reflexivity.
Qed.
Print Assumptions C140_cut_files_have_no_functions_partial.

(** The cuts of a written file that are accepted are exactly those between its sections: after the
    header, after the types, before the code.  Every other one is refused or stops the process. *)
Theorem C140_written_files_exactly :
  forall m bs n, fits m -> write m = Ok bs -> Z.of_nat (length bs) < 2 ^ 32 -> (n < length bs)%nat ->
    (forall part, compile (firstn n bs) = Ok part <->
       exists before, layout bs 8 (mkModule [] [] []) before (Z.of_nat n) part /\ In before [[]; [1]; [1; 3]]) /\
    ((exists part, compile (firstn n bs) = Ok part) \/ compile (firstn n bs) = Throw DecodeError \/ exists t, compile (firstn n bs) = Trap t).
Proof.
  intros m bs n F E L Hn. destruct (written_layout m bs F E L) as (Hb & _). split; [|now apply compile_tame, firstn_bytes].
  intros part. split.
  - intros Ec. destruct (written_cut m bs n part F E L Hn Ec) as (cs & Lc & N & cs' & Ecs). exists cs. split; [exact Lc|].
    assert (NT : mn_funcs m <> [] -> mn_types m <> []).
    { intros Hf Ht. destruct F as (_ & F). destruct (mn_funcs m) as [|f fl]; [now apply Hf|]. inversion F as [|? ? F1 _]; subst.
      destruct F1 as (F1 & _). rewrite Ht in F1. cbn in F1. lia. }
    destruct (mn_types m) as [|t tl], (mn_funcs m) as [|f fl]; cbn [some app] in Ecs; try (exfalso; apply NT; [discriminate|reflexivity]).
    all: repeat (destruct cs as [|? cs]; [cbn; now auto|cbn [app] in Ecs; try discriminate; injection Ecs as <- Ecs]).
    all: try (exfalso; apply N; cbn; now auto).
  - intros (cs & Lc & Hc). destruct (written_compiles m bs F E L) as (w & Hw).
    apply (cut_accepted bs n cs w part Hb ltac:(lia) Hw Lc). cbn in Hc.
    destruct Hc as [<-|[<-|[<-|[]]]]; cbn; intuition discriminate.
Qed.
Print Assumptions C140_written_files_exactly.

(** Every written file with a function can be cut short so that it is accepted: with the types and the
    type indices of the functions, and without the functions. *)
Theorem C140_cut_accepted_refuted :
  forall m bs, fits m -> write m = Ok bs -> Z.of_nat (length bs) < 2 ^ 32 -> mn_funcs m <> [] ->
    exists n, (n < length bs)%nat /\
      compile (firstn n bs) = Ok (mkModule (mn_types m) (map fn_type_idx (mn_funcs m)) []).
Proof.
  intros m bs F E L Hf. destruct (written_layout m bs F E L) as (Hb & fs & k & L1 & L2).
  destruct (written_compiles m bs F E L) as (w & Hw). pose proof (layout_mono _ _ _ _ _ _ L1) as K.
  assert (K2 : k < len bs).
  { rewrite some_cons in L2 by exact Hf. inversion L2 as [|? ? c ? p1 m1 ? ? ? B S R]; subst. apply section_mono in S. lia. }
  unfold len in K2. exists (Z.to_nat k). split; [lia|].
  assert (Kn : (Z.to_nat k <= length bs)%nat) by lia.
  apply (cut_accepted bs _ (some (mn_types m) [1] ++ some (mn_funcs m) [3]) w _ Hb Kn Hw).
  - rewrite Z2Nat.id by lia. exact L1.
  - destruct (mn_types m), (mn_funcs m); cbn; intuition discriminate.
Qed.
Print Assumptions C140_cut_accepted_refuted.

(** The module of the test (core/test): cut before its code, and one byte later *)
Example C140_instance :
  exists bs n, write add_module = Ok bs /\ fits add_module /\ (n < length bs)%nat /\
    (exists part, compile (firstn n bs) = Ok part /\ m_funcs part = [] /\ m_func_types part = [0; 1]) /\
    compile (firstn (S n) bs) = Throw DecodeError /\ compile (firstn (length bs - 1) bs) = Trap Assertion.
Proof.
  destruct (write add_module) as [bs| | | |] eqn:E; try (vm_compute in E; discriminate). exists bs.
  vm_compute in E. injection E as <-. exists 26%nat. split; [reflexivity|]. split; [exact C07_instance|].
  split; [cbn; lia|]. split; [eexists; split; [vm_compute; reflexivity|split; reflexivity]|split; vm_compute; reflexivity].
Qed.
