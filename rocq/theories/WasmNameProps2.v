(** More property theorems about the names in WebAssembly modules (C139): imports and custom
    sections, after any sections that are well formed. *)
From Coq Require Import ZArith List Bool Lia.
From Verif Require Import Outcome LebSpec StreamModel WasmModel WasmSpec WasmProofs WasmProps WasmNameProps.
Import ListNotations.
Local Open Scope Z_scope.

(** An import in the format, its names being any bytes *)
Definition enc_any_import (lim : Z) (x : import_s) (b : bytes) : Prop :=
  exists bm bf bd, enc_any_name lim (is_module x) bm /\ enc_any_name lim (is_field x) bf /\
    enc_desc (is_desc x) bd /\ b = bm ++ bf ++ bd.
(** [y] is [x] with its names cut at the first NUL *)
Definition import_before_nul (x y : import_s) : Prop :=
  before_nul (is_module x) (is_module y) /\ before_nul (is_field x) (is_field y) /\ is_desc y = is_desc x.

Definition cut_import (x : import_s) : import_s := mkImportS (c_str (is_module x)) (c_str (is_field x)) (is_desc x).

Lemma reads_any_import c i b : enc_any_import (c_lim c) i b ->
  reads (import_entry c) tt b [EvImport (c_str (is_module i)) (c_str (is_field i)) (is_desc i)].
Proof.
  destruct i as [m f d]. cbn [is_module is_field is_desc]. intros (bm & bf & bd & Hm & Hf & Hd & ->).
  cbn [is_module is_field is_desc] in *. unfold import_entry.
  eapply reads_bindq; [apply reads_any_name, Hm|]. cbv beta. eapply reads_bindq; [apply reads_any_name, Hf|]. cbv beta.
  destruct d as [t|e l|l|g]; cbn [enc_desc] in Hd.
  - destruct Hd as (g & Hg & ->). eapply reads_bindq; [apply (reads_type 0); unfold is_byte; lia|]. cbv beta iota. cbn [Z.eqb].
    replace g with (g ++ []) by apply app_nil_r.
    eapply reads_bindq; [|rd]. eapply reads_bindr; [rd|]. cbv beta. rewrite (u32_nat _ _ Hg). rd.
  - destruct Hd as (g & He & Hg & ->). apply (reads_bindq _ _ 1 tt [1] (e :: g)); [apply (reads_type 1); unfold is_byte; lia|]. cbn [Z.eqb Pos.eqb].
    replace (e :: g) with ((e :: g) ++ []) by apply app_nil_r.
    eapply reads_bindq; [|rd]. unfold table_type. apply (reads_bindq _ _ e (ImTable e l) [e] g); [rd|].
    eapply reads_bindr; [apply reads_limits, Hg|rd].
  - destruct Hd as (g & Hg & ->). eapply reads_bindq; [apply (reads_type 2); unfold is_byte; lia|]. cbn [Z.eqb Pos.eqb].
    replace g with (g ++ []) by apply app_nil_r.
    eapply reads_bindq; [|rd]. eapply reads_bindr; [apply reads_limits, Hg|rd].
  - destruct Hd as (b & Hg & ->). eapply reads_bindq; [apply (reads_type 3); unfold is_byte; lia|]. cbn [Z.eqb Pos.eqb].
    replace b with (b ++ []) by apply app_nil_r.
    eapply reads_bindq; [|rd]. eapply reads_bindr; [apply reads_gtype, Hg|rd].
Qed.
Lemma reads_any_imports c xs p len gl :
  enc_vec (enc_any_import (c_lim c)) xs p -> enc_u32 len gl ->
  reads (section c 2) tt (gl ++ p)
     (EvSectionStart 2 len [] :: EvImportSection (Z.of_nat (length xs)) ::
      map (fun i => EvImport (is_module i) (is_field i) (is_desc i)) (map cut_import xs) ++ [EvSectionEnd 2 len]).
Proof.
  intros Hx Hl. unfold section.
  eapply reads_bindq; [rd|]. cbv beta. rewrite (u32_nat _ _ Hl). change (2 =? 0) with false. cbv iota.
  apply (reads_bind0 _ _ [] tt p []); [rd|].
  apply (reads_bind0 _ _ tt tt p [EvSectionStart 2 len []]); [apply reads_emit|].
  replace p with (p ++ []) by apply app_nil_r.
  change (EvImportSection (Z.of_nat (length xs)) ::
      map (fun i => EvImport (is_module i) (is_field i) (is_desc i)) (map cut_import xs) ++ [EvSectionEnd 2 len])
    with ((EvImportSection (Z.of_nat (length xs)) ::
      map (fun i => EvImport (is_module i) (is_field i) (is_desc i)) (map cut_import xs)) ++ [EvSectionEnd 2 len]).
  eapply reads_bind; [|rd]. cbn [Z.eqb Pos.eqb]. rewrite map_map.
  rewrite <- (numbered_map (fun i => EvImport (is_module (cut_import i)) (is_field (cut_import i)) (is_desc (cut_import i))) xs 0).
  eapply reads_entries_ev; [exact Hx|]. intros. cbn [cut_import is_module is_field is_desc]. now apply reads_any_import.
Qed.

(** A last section after sections [bs] *)
Lemma last_section c bev l bs id tail s' evs :
  Forall2 (fun p b => enc_section (c_lim c) (fst p) (snd p) b) l bs ->
  Forall (fun p => Forall (takes_code (c_body c) bev) (bodies_of (fst p))) l ->
  0 <= id < 128 ->
  (forall off log, section c id (W tail off log) = Ok (tt, W [] (s' off) (log ++ evs))) ->
  read_module c (wasm_header ++ concat bs ++ [id] ++ tail) =
    Ok ([EvModuleStart; EvHeader 1836278016 1] ++ flat_map (section_events bev) l ++ evs ++ [EvModuleEnd]).
Proof.
  intros H Hb Hid HS.
  assert (Hlen : (length l <= length (concat bs))%nat).
  { apply (concat_length_ge _ l bs) in H; [exact H|]. intros [y ly] b (gl' & p & _ & _ & _ & ->). discriminate. }
  rewrite module_after_header. erewrite (sections_prefix c bev l bs H Hb) by (rewrite app_length; cbn; lia).
  match goal with |- context [sections _ ?f _] => destruct f as [|[|fuel]] eqn:Ef end; [exfalso; rewrite !app_length in Ef; cbn [length] in Ef; lia|exfalso; rewrite !app_length in Ef; cbn [length] in Ef; lia|].
  set (o := 8 + _). set (lg := [EvModuleStart; _] ++ _).
  cbn [sections W w_eof w_in s_eof]. unfold mbind at 1.
  rewrite (reads_varuint1 id) by lia. cbn [bind W w_eof w_in s_eof]. unfold mbind at 1.
  assert (E : u8 id = id) by (unfold u8; apply Z.mod_small; lia). rewrite E.
  fold (W tail (o + Z.of_nat (length [id])) (lg ++ [])). rewrite HS.
  cbn [bind]. cbn [sections w_eof w_in s_eof W]. unfold mbind at 1, varuint, on_stream. cbn [w_stuck w_in w_log].
  unfold uleb128. cbn [bind]. unfold lg. cbn. rewrite !app_nil_r, <- !app_assoc. reflexivity.
Qed.

(** Every import is reported with what it is, and with what is before the first NUL of each of its
    two names. *)
Theorem C139_import_names_up_to_nul :
  forall c bev l bs xs p len gl,
    Forall2 (fun p b => enc_section (c_lim c) (fst p) (snd p) b) l bs ->
    Forall (fun p => Forall (takes_code (c_body c) bev) (bodies_of (fst p))) l ->
    enc_vec (enc_any_import (c_lim c)) xs p -> enc_u32 len gl ->
    exists ys, Forall2 import_before_nul xs ys /\
      read_module c (wasm_header ++ concat bs ++ [2] ++ gl ++ p) =
        Ok ([EvModuleStart; EvHeader 1836278016 1] ++ flat_map (section_events bev) l ++
            [EvSectionStart 2 len []; EvImportSection (Z.of_nat (length xs))] ++
            map (fun y => EvImport (is_module y) (is_field y) (is_desc y)) ys ++
            [EvSectionEnd 2 len; EvModuleEnd]).
Proof.
  intros c bev l bs xs p len gl H Hb Hx Hl. exists (map cut_import xs). split.
  - clear. induction xs; cbn [map]; constructor; [|assumption]. unfold import_before_nul, cut_import. cbn.
    auto using before_c_str.
  - erewrite (last_section c bev l bs 2 (gl ++ p) (fun off => off + Z.of_nat (length (gl ++ p)))); [|exact H|exact Hb|lia|].
    + do 3 f_equal. instantiate (1 := EvSectionStart 2 len [] :: EvImportSection (Z.of_nat (length xs)) :: map (fun i => EvImport (is_module i) (is_field i) (is_desc i)) (map cut_import xs) ++ [EvSectionEnd 2 len]).
      cbn [app]. rewrite <- app_assoc. reflexivity.
    + intros off log. rewrite <- (app_nil_r (gl ++ p)) at 1. rewrite (reads_any_imports c xs p len gl Hx Hl). reflexivity.
Qed.
Print Assumptions C139_import_names_up_to_nul.

(** A custom section at the end of a file is announced with what is before the first NUL of its name. *)
Theorem C139_custom_name_up_to_nul :
  forall lim vb bev l bs name bn gl payload,
    Forall2 (fun p b => enc_section lim (fst p) (snd p) b) l bs ->
    Forall (fun p => Forall (takes_code vb bev) (bodies_of (fst p))) l ->
    enc_any_name lim name bn -> enc_u32 (Z.of_nat (length bn + length payload)) gl ->
    exists pre, before_nul name pre /\
      read_module (mkCfg lim false vb) (wasm_header ++ concat bs ++ [0] ++ gl ++ bn ++ payload)
      = Ok ([EvModuleStart; EvHeader 1836278016 1] ++ flat_map (section_events bev) l ++
            [EvSectionStart 0 (Z.of_nat (length bn + length payload)) pre;
             EvSectionEnd 0 (Z.of_nat (length bn + length payload)); EvModuleEnd]).
Proof.
  intros lim vb bev l bs name bn gl payload H Hb Hn Hg. exists (c_str name). split; [apply before_c_str|].
  erewrite (last_section (mkCfg lim false vb) bev l bs 0 (gl ++ bn ++ payload)
    (fun off => off + Z.of_nat (length gl + length bn) + Z.of_nat (length bn + length payload))
    [EvSectionStart 0 (Z.of_nat (length bn + length payload)) (c_str name); EvSectionEnd 0 (Z.of_nat (length bn + length payload))]);
    [reflexivity|exact H|exact Hb|lia|].
  intros o lg. unfold section, mbind at 1.
  rewrite (reads_varuint _ _ Hg). cbn [bind Z.eqb]. unfold mbind at 1.
  rewrite (reads_any_name (mkCfg lim false vb) name bn Hn). cbn [bind]. unfold mbind at 1, emit at 1. cbn [bind]. unfold mbind, custom_section, seekg.
  rewrite (u32_nat _ _ Hg). cbn [W w_in w_stuck s_eof s_rest s_offset w_log c_strict]. unfold w_fail. cbn [w_in w_stuck s_eof orb].
  assert (Hbn : (1 <= length bn)%nat).
  { destruct Hn as ((g & b' & (Hs & _) & _ & ->) & _). rewrite app_length. inversion Hs; subst; cbn [length]; lia. }
  replace (_ <=? _) with false by lia. cbn [bind]. unfold emit, W. cbn [w_in w_stuck w_log]. rewrite !app_nil_r, <- !app_assoc. cbn [app length].
  do 4 f_equal. lia.
Qed.
Print Assumptions C139_custom_name_up_to_nul.

(** So two files whose only difference is behind a NUL in the name of a custom section are read
    alike. *)
Theorem C139_custom_names_with_nul_refuted :
  forall lim vb bev l bs pre rest rest' bn bn' gl payload,
    Forall2 (fun p b => enc_section lim (fst p) (snd p) b) l bs ->
    Forall (fun p => Forall (takes_code vb bev) (bodies_of (fst p))) l ->
    ~ In 0 pre ->
    enc_any_name lim (pre ++ 0 :: rest) bn -> enc_any_name lim (pre ++ 0 :: rest') bn' -> length bn = length bn' ->
    enc_u32 (Z.of_nat (length bn + length payload)) gl ->
    read_module (mkCfg lim false vb) (wasm_header ++ concat bs ++ [0] ++ gl ++ bn ++ payload) =
    read_module (mkCfg lim false vb) (wasm_header ++ concat bs ++ [0] ++ gl ++ bn' ++ payload).
Proof.
  intros lim vb bev l bs pre rest rest' bn bn' gl payload H Hb Hp H1 H2 E Hg.
  destruct (C139_custom_name_up_to_nul lim vb bev l bs _ bn gl payload H Hb H1 Hg) as (a & Ha & ->).
  rewrite E in Hg. rewrite E.
  destruct (C139_custom_name_up_to_nul lim vb bev l bs _ bn' gl payload H Hb H2 Hg) as (b & Hb' & ->).
  assert (P : forall r, before_nul (pre ++ 0 :: r) pre) by (intros r; split; [exact Hp|right; eauto]).
  now rewrite (before_unique _ a pre Ha (P rest)), (before_unique _ b pre Hb' (P rest')).
Qed.
Print Assumptions C139_custom_names_with_nul_refuted.

(** The import of the function "f" NUL "x" from "m"; a custom section "n" NUL "x". *)
Example C139_import_instance : forall bev : Z -> body_s -> list event,
  Forall2 (fun p b => enc_section 100 (fst p) (snd p) b) [] [] /\
  enc_vec (enc_any_import 100) [mkImportS [109] [102; 0; 120] (ImFunction 5)] ([1] ++ [1; 109] ++ [3; 102; 0; 120] ++ [0; 5]) /\
  enc_u32 9 [9] /\
  read_module (noop_cfg 100 true) (wasm_header ++ concat [] ++ [2] ++ [9] ++ [1] ++ [1; 109] ++ [3; 102; 0; 120] ++ [0; 5]) =
    Ok ([EvModuleStart; EvHeader 1836278016 1; EvSectionStart 2 9 []; EvImportSection 1;
         EvImport [109] [102] (ImFunction 5); EvSectionEnd 2 9; EvModuleEnd]) /\
  enc_any_name 100 [110; 0; 120] [3; 110; 0; 120] /\
  read_module (mkCfg 100 false (c_body (noop_cfg 100 true))) (wasm_header ++ concat [] ++ [0] ++ [5] ++ [3; 110; 0; 120] ++ [7]) =
    Ok ([EvModuleStart; EvHeader 1836278016 1; EvSectionStart 0 5 [110]; EvSectionEnd 0 5; EvModuleEnd]).
Proof.
  intros bev.
  assert (S : forall v, 0 <= v < 128 -> enc_u32 v [v]) by (intros; apply small_u32; lia).
  assert (N : forall x y, is_byte x -> is_byte y -> enc_any_name 100 [x; 0; y] [3; x; 0; y]).
  { intros x y Hx Hy. split; [|cbn; lia]. exists [3], [[x]; [0]; [y]]. split; [apply S; cbn; lia|]. split; [|reflexivity].
    repeat constructor; unfold is_byte in *; lia. }
  split; [constructor|]. split; [|split; [apply S; lia|split; [vm_compute; reflexivity|split; [apply N; unfold is_byte; lia|vm_compute; reflexivity]]]].
  exists [1], [[1; 109] ++ [3; 102; 0; 120] ++ [0; 5]]. split; [apply S; cbn; lia|]. split; [|reflexivity].
  constructor; [|constructor]. exists [1; 109], [3; 102; 0; 120], [0; 5]. split; [|split; [apply N; unfold is_byte; lia|split; [|reflexivity]]].
  - split; [|cbn; lia]. exists [1], [[109]]. split; [apply S; cbn; lia|]. split; [|reflexivity]. repeat constructor; unfold is_byte; lia.
  - exists [5]. split; [apply S; lia|reflexivity].
Qed.
