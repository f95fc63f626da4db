(** C88: modules that end inside the length or the count of a section.  C133: all indices of a function
    section. *)

From Coq Require Import ZArith List Bool Lia.
From Verif Require Import Outcome LebSpec VarIntModel StreamModel WasmModel WasmSpec WasmProofs WasmProps VarIntProofs StreamProofs WasmCutProps WasmCut2Props.
Import ListNotations.
Local Open Scope Z_scope.
Import ZifyBool ZifyNat.

(** The kinds of sections, and what the reader does with their contents at the end of the input *)
Definition contents_reader (c : wcfg) (x : sec) : M unit :=
  match x with
  | SType _ => type_section c | SImport _ => import_section c | SFunction _ => function_section
  | SGlobal _ => global_section c | SExport _ => export_section c | SElement _ => element_section c
  | SCode _ => code_section c | SData _ => data_section c
  end.
Lemma section_known c x s : section c (sec_code x) s =
  (l <~ varuint; _ <~ emit (EvSectionStart (sec_code x) (u32 l) []); _ <~ contents_reader c x; emit (EvSectionEnd (sec_code x) (u32 l))) s.
Proof.
  unfold section, mbind. destruct (varuint s) as [[v s1]| | | |]; cbn [bind]; try reflexivity.
  replace (sec_code x =? 0) with false by (destruct x; reflexivity). cbn [ret bind].
  destruct x; reflexivity.
Qed.
Definition head_fate (x : sec) : fate :=
  match x with
  | SType _ | SImport _ | SGlobal _ | SExport _ | SCode _ => Refused BadNumber
  | SElement _ | SData _ => Exits
  | SFunction _ => MadeUp
  end.
(** The contents, [k] entries being announced, at the end of the input *)
Lemma contents_E c x k s off lg : 1016 <= c_lim c -> 1 <= k -> (forall lg', varuint (s lg') = Ok (k, E off lg')) ->
  contents_reader c x (s lg) =
  match head_fate x with
  | Refused e => Throw e | Exits => Trap Exit
  | MadeUp => Ok (tt, E off (lg ++ map (fun j => EvFunction (Z.of_nat j) 127) (seq 0 (Z.to_nat k))))
  end.
Proof.
  intros Hlim Hk Hs. assert (Ek : Z.to_nat k = S (Z.to_nat (k - 1))) by lia.
  destruct x; cbn [contents_reader head_fate]; [unfold type_section|unfold import_section|unfold function_section|unfold global_section|unfold export_section|unfold element_section|unfold code_section|unfold data_section];
    erewrite mb_ok by apply Hs; try (erewrite mb_ok by apply emit_E); unfold for_count;
    [rewrite Ek; cbn [iter]|rewrite Ek; cbn [iter]| |rewrite Ek; cbn [iter]|rewrite Ek; cbn [iter]|rewrite Ek; cbn [iter]|rewrite Ek; cbn [iter]|rewrite Ek; cbn [iter]].
  - apply mb_throw. reflexivity.
  - apply mb_throw. unfold import_entry. erewrite mb_ok by (apply string_E; lia). erewrite mb_ok by (apply string_E; lia). reflexivity.
  - unfold E. rewrite function_entries_eof. reflexivity.
  - apply mb_throw. reflexivity.
  - apply mb_throw. erewrite mb_ok by (apply string_E; lia). reflexivity.
  - apply mb_trap. reflexivity.
  - apply mb_throw. unfold function_body. erewrite mb_ok by apply varuint_E. erewrite mb_ok by apply varuint_E.
    erewrite mb_ok by (apply alloc_ok; lia). reflexivity.
  - apply mb_trap. reflexivity.
Qed.
(** A module that ends inside the length of a section, inside its count, or between the two.  Types,
    imports, globals, exports and bodies: refused.  Elements and data: the process exits.  Functions:
    accepted; the number that is cut is read as if its next byte were 0x7f, a count that is missing
    altogether is 127, and all functions are made up. *)
Theorem C88_cut_in_a_section_head_partial : forall c bev l bs x len gl n gn,
  1016 <= c_lim c ->
  Forall2 (fun p b => enc_section (c_lim c) (fst p) (snd p) b) l bs ->
  Forall (fun p => Forall (takes_code (c_body c) bev) (bodies_of (fst p))) l ->
  enc_u32 len gl -> enc_u32 n gn ->
  let read r := read_module c (wasm_header ++ concat bs ++ [sec_code x] ++ r) in
  let ends len' k :=
    match head_fate x with
    | Refused e => Throw e | Exits => Trap Exit
    | MadeUp => Ok ([EvModuleStart; EvHeader 1836278016 1] ++ flat_map (section_events bev) l ++ [EvSectionStart 3 len' []] ++
                    map (fun j => EvFunction (Z.of_nat j) 127) (seq 0 (Z.to_nat k)) ++ [EvSectionEnd 3 len'; EvModuleEnd])
    end in
  (forall r, cut r gl -> r <> [] -> read r = ends (guess r) 127) /\
  (forall r, cut r gn -> read (gl ++ r) = ends len (uleb_value (r ++ [127]))).
Proof.
  intros c bev l bs x len gl n gn Hlim H Hb Hgl Hgn read ends. unfold read, ends.
  assert (Hlen : (length l <= length (concat bs))%nat).
  { apply (concat_length_ge _ l bs) in H; [exact H|]. intros [y ly] b (gl' & p & _ & _ & _ & ->). discriminate. }
  assert (R : forall r, r <> [] -> exists fu off, (0 < fu)%nat /\ read_module c (wasm_header ++ concat bs ++ [sec_code x] ++ r) =
    (do (_, s) <- (_ <~ section c (sec_code x); sections c fu) (W r off ([EvModuleStart; EvHeader 1836278016 1] ++ flat_map (section_events bev) l)); Ok (w_log s ++ [EvModuleEnd]))).
  { intros r Hr. rewrite module_after_header. erewrite (sections_prefix c bev l bs H Hb) by (rewrite app_length; lia).
    match goal with |- context [sections c ?f _] => destruct f as [|[|fuel]] eqn:Ef end; [exfalso; rewrite !app_length in Ef; destruct r; [congruence|]; cbn [length] in Ef; lia..|].
    remember (S fuel) as fu eqn:Efu. exists fu, (8 + Z.of_nat (length (concat bs)) + Z.of_nat (length [sec_code x])). split; [lia|].
    cbn [sections W w_eof w_in s_eof]. unfold mbind at 1.
    try match goal with |- context [mkW (mkStream ?r false ?o) false ?l] => fold (W r o l) end.
    rewrite (reads_varuint1 (sec_code x)) by (destruct x; cbn; lia). cbn [bind W w_eof w_in s_eof].
    replace (u8 (sec_code x)) with (sec_code x) by (destruct x; reflexivity). rewrite app_nil_r.
    try match goal with |- context [mkW (mkStream ?r false ?o) false ?l] => fold (W r o l) end. reflexivity. }
  split.
  - intros r Hr Hne. destruct (R r Hne) as (fu & off & Hfu & ->).
    assert (V : forall o log, exists w, varuint (W r o log) = Ok (w, E (o + Z.of_nat (length r)) log) /\ u32 w = guess r /\ w = uleb_value (r ++ [127])).
    { intros o log. destruct (varuint_cut len r gl o log Hgl Hr) as (w & Ew & Eu & Ev & _). exists w. auto. }
    destruct (V off ([EvModuleStart; EvHeader 1836278016 1] ++ flat_map (section_events bev) l)) as (w & E1 & Eu & _).
    assert (ES : section c (sec_code x) (W r off ([EvModuleStart; EvHeader 1836278016 1] ++ flat_map (section_events bev) l)) =
      match head_fate x with
      | Refused e => Throw e | Exits => Trap Exit
      | MadeUp => Ok (tt, E (off + Z.of_nat (length r)) (([EvModuleStart; EvHeader 1836278016 1] ++ flat_map (section_events bev) l) ++ [EvSectionStart 3 (guess r) []] ++ map (fun j => EvFunction (Z.of_nat j) 127) (seq 0 (Z.to_nat 127)) ++ [EvSectionEnd 3 (guess r)]))
      end).
    { rewrite section_known. erewrite mb_ok by exact E1. rewrite Eu. erewrite mb_ok by apply emit_E.
      pose proof (contents_E c x 127 (fun lg => E (off + Z.of_nat (length r)) lg) (off + Z.of_nat (length r)) (([EvModuleStart; EvHeader 1836278016 1] ++ flat_map (section_events bev) l) ++ [EvSectionStart (sec_code x) (guess r) []]) Hlim ltac:(lia) (fun lg' => varuint_E _ lg')) as EC.
      destruct x; cbn [head_fate sec_code] in *; try (apply mb_throw; exact EC); try (apply mb_trap; exact EC).
      erewrite mb_ok by exact EC. rewrite emit_E, <- !app_assoc. reflexivity. }
    destruct (head_fate x) as [e| |].
    + erewrite mb_throw by exact ES. reflexivity.
    + erewrite mb_trap by exact ES. reflexivity.
    + erewrite mb_ok by exact ES. destruct fu as [|fu]; [lia|]. cbn [sections E w_eof w_in s_eof bind w_log]. rewrite <- !app_assoc. reflexivity.
  - intros r Hr. assert (Hne : gl ++ r <> []). { destruct Hgl as (Hs & _). destruct gl; [inversion Hs|discriminate]. }
    destruct (R (gl ++ r) Hne) as (fu & off & Hfu & ->).
    set (lg := [EvModuleStart; EvHeader 1836278016 1] ++ flat_map (section_events bev) l).
    set (k := uleb_value (r ++ [127])). set (o1 := off + Z.of_nat (length gl)).
    assert (V : forall log, varuint (W r o1 log) = Ok (k, E (o1 + Z.of_nat (length r)) log)).
    { intros log. destruct (varuint_cut n r gn o1 log Hgn Hr) as (w & Ew & _ & Ev & _). subst w. exact Ew. }
    assert (Hk : 1 <= k). { destruct (varuint_cut n r gn o1 lg Hgn Hr) as (w & _ & _ & Ev & B). unfold k. lia. }
    assert (ES : section c (sec_code x) (W (gl ++ r) off lg) =
      match head_fate x with
      | Refused e => Throw e | Exits => Trap Exit
      | MadeUp => Ok (tt, E (o1 + Z.of_nat (length r)) (lg ++ [EvSectionStart 3 len []] ++ map (fun j => EvFunction (Z.of_nat j) 127) (seq 0 (Z.to_nat k)) ++ [EvSectionEnd 3 len]))
      end).
    { rewrite section_known. erewrite mb_reads0 by (apply reads_varuint; exact Hgl). rewrite (u32_nat _ _ Hgl). erewrite mb_ok by reflexivity. cbn [W w_in w_stuck w_log].
      pose proof (contents_E c x k (W r o1) (o1 + Z.of_nat (length r)) (lg ++ [EvSectionStart (sec_code x) len []]) Hlim Hk V) as EC.
      destruct x; cbn [head_fate sec_code] in *; try (apply mb_throw; exact EC); try (apply mb_trap; exact EC).
      erewrite mb_ok by exact EC. rewrite emit_E, <- !app_assoc. reflexivity. }
    destruct (head_fate x) as [e| |].
    + erewrite mb_throw by exact ES. reflexivity.
    + erewrite mb_trap by exact ES. reflexivity.
    + erewrite mb_ok by exact ES. destruct fu as [|fu]; [lia|]. cbn [sections E w_eof w_in s_eof bind w_log]. unfold lg. rewrite <- !app_assoc. reflexivity.
Qed.
Print Assumptions C88_cut_in_a_section_head_partial.
Example C88_head_instance :
  read_module (noop_cfg 2000 true) (wasm_header ++ [3; 4]) = Ok ([EvModuleStart; EvHeader 1836278016 1; EvSectionStart 3 4 []] ++
    map (fun j => EvFunction (Z.of_nat j) 127) (seq 0 127) ++ [EvSectionEnd 3 4; EvModuleEnd]) /\
  read_module (noop_cfg 2000 true) (wasm_header ++ [1; 200]) = Throw BadNumber /\
  read_module (noop_cfg 2000 true) (wasm_header ++ [9; 4]) = Trap Exit /\
  enc_u32 4 [4] /\ enc_u32 1 [1] /\ cut [] [1] /\ uleb_value ([] ++ [127]) = 127.
Proof.
  do 3 (split; [vm_compute; reflexivity|]). do 2 (split; [apply small_u32; lia|]). split; [apply cut_empty|reflexivity].
Qed.

(** * C133: every index *)
(** A number of a function section as it may be spelled: nine bytes at most, of any value *)
Definition enc_any_number (v : Z) (g : bytes) : Prop := leb_shape g /\ (length g <= 9)%nat /\ uleb_value g = v.
(** All indices are reported modulo 2^32, whatever their number, after any sections. *)
Theorem C133_all_indices_refuted : forall c bev l bs vs bvs cnt len gl,
  Forall2 (fun p b => enc_section (c_lim c) (fst p) (snd p) b) l bs ->
  Forall (fun p => Forall (takes_code (c_body c) bev) (bodies_of (fst p))) l ->
  enc_u32 len gl -> enc_u32 (Z.of_nat (length vs)) cnt -> Forall2 enc_any_number vs bvs ->
  read_module c (wasm_header ++ concat bs ++ [3] ++ gl ++ cnt ++ concat bvs) =
  Ok ([EvModuleStart; EvHeader 1836278016 1] ++ flat_map (section_events bev) l ++ [EvSectionStart 3 len []] ++
      numbered (fun i v => [EvFunction i (v mod 2 ^ 32)]) 0 vs ++ [EvSectionEnd 3 len; EvModuleEnd]).
Proof.
  intros c bev l bs vs bvs cnt len gl H Hb Hgl Hc Hv.
  destruct (reach_payload c bev l bs (SFunction []) gl len (cnt ++ concat bvs) H Hb Hgl) as (off & fu & Hfu & E1).
  change (sec_code (SFunction [])) with 3 in E1. rewrite E1. clear E1.
  assert (Rs : reads function_section tt (cnt ++ concat bvs) (numbered (fun i v => [EvFunction i (v mod 2 ^ 32)]) 0 vs)).
  { unfold function_section. apply (reads_entries _ enc_any_number); [exists cnt, bvs; auto|]. intros j a b _ (Hs & Hl & Ha).
    replace b with (b ++ []) by apply app_nil_r. eapply (reads_bindq varuint _ a); [|apply reads_emit].
    intros post o log. unfold varuint, on_stream, W. cbn [w_stuck w_in w_log]. rewrite uleb128_ok by (auto; lia). cbn [bind]. rewrite app_nil_r, Ha.
    pose proof (uleb_bound b) as B. assert (128 ^ Z.of_nat (length b) <= 128 ^ 9) by (apply Z.pow_le_mono_r; lia).
    assert (uleb_value b < 2 ^ 64) by (assert (128 ^ 9 < 2 ^ 64) by (vm_compute; reflexivity); lia).
    rewrite Z.mod_small by lia. reflexivity. }
  rewrite <- (app_nil_r (concat bvs)), (app_assoc cnt).
  erewrite mb_reads by exact Rs. erewrite mb_ok by reflexivity. cbn [W w_in w_stuck w_log].
  destruct fu as [|fu]; [lia|]. cbn [sections w_eof w_in s_eof]. unfold mbind.
  match goal with |- context [mkW (mkStream [] false ?o) false ?lg] => change (mkW (mkStream [] false o) false lg) with (W [] o lg) end.
  rewrite varuint_end. cbn [bind w_eof w_in s_eof w_log]. rewrite <- !app_assoc. reflexivity.
Qed.
Print Assumptions C133_all_indices_refuted.
(** ... so the indices are reported as they are exactly if all are below 2^32. *)
Theorem C133_small_indices_partial : forall c bev l bs vs bvs cnt len gl,
  Forall2 (fun p b => enc_section (c_lim c) (fst p) (snd p) b) l bs ->
  Forall (fun p => Forall (takes_code (c_body c) bev) (bodies_of (fst p))) l ->
  enc_u32 len gl -> enc_u32 (Z.of_nat (length vs)) cnt -> Forall2 enc_any_number vs bvs ->
  (read_module c (wasm_header ++ concat bs ++ [3] ++ gl ++ cnt ++ concat bvs) =
   Ok ([EvModuleStart; EvHeader 1836278016 1] ++ flat_map (section_events bev) l ++ [EvSectionStart 3 len []] ++
       numbered (fun i v => [EvFunction i v]) 0 vs ++ [EvSectionEnd 3 len; EvModuleEnd])
   <-> Forall (fun v => v < 2 ^ 32) vs).
Proof.
  intros c bev l bs vs bvs cnt len gl H Hb Hgl Hc Hv. rewrite (C133_all_indices_refuted c bev l bs vs bvs cnt len gl H Hb Hgl Hc Hv).
  assert (P : Forall (fun v => 0 <= v) vs).
  { clear - Hv. induction Hv as [|v b vs bvs (_ & _ & <-) Hv IH]; constructor; [apply uleb_bound|exact IH]. }
  clear - P. split.
  - intros E1. injection E1 as E1. apply app_inv_head in E1. injection E1 as E1. apply app_inv_tail in E1.
    assert (G : forall i, numbered (fun i v => [EvFunction i (v mod 2 ^ 32)]) i vs = numbered (fun i v => [EvFunction i v]) i vs -> Forall (fun v => v < 2 ^ 32) vs); [|exact (G 0 E1)].
    clear E1. induction P as [|v vs Hv P IH]; intros i E1; constructor; cbn [numbered app] in E1; injection E1 as E1 E2.
    + rewrite <- E1. apply Z.mod_pos_bound. lia.
    + eapply IH. exact E2.
  - intros F. do 5 f_equal. generalize 0. revert F P. induction 1 as [|v vs Hv F IH]; intros P i; [reflexivity|]. inversion P; subst.
    cbn [numbered]. rewrite Z.mod_small by lia. f_equal. now apply IH.
Qed.
Print Assumptions C133_small_indices_partial.
Example C133_indices_instance :
  Forall2 enc_any_number [2 ^ 32 + 7; 5] [[135; 128; 128; 128; 16]; [5]] /\
  read_module (noop_cfg 100 true) (wasm_header ++ [3] ++ [7] ++ [2] ++ concat [[135; 128; 128; 128; 16]; [5]]) =
  Ok [EvModuleStart; EvHeader 1836278016 1; EvSectionStart 3 7 []; EvFunction 0 7; EvFunction 1 5; EvSectionEnd 3 7; EvModuleEnd].
Proof.
  split; [|vm_compute; reflexivity].
  constructor; [|constructor; [|constructor]]; (split; [|split; [cbn; lia|reflexivity]]).
  - do 4 (constructor; [lia|]). constructor. lia.
  - constructor. lia.
Qed.
