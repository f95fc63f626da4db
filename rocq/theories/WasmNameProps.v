(** Property theorems about the names in WebAssembly modules (C139). *)
From Coq Require Import ZArith List Bool Lia.
From Verif Require Import Outcome LebSpec StreamModel WasmModel WasmSpec WasmProofs WasmProps.
Import ListNotations.
Local Open Scope Z_scope.

(** A name in the format: any bytes (a NUL is a character like any other) *)
Definition enc_any_name (lim : Z) (name : bytes) (b : bytes) : Prop :=
  enc_vec enc_byte name b /\ Z.of_nat (length name) < lim.
Definition enc_any_export (lim : Z) (x : export_s) (b : bytes) : Prop :=
  exists bf bi, enc_any_name lim (es_field x) bf /\ is_byte (es_kind x) /\ enc_u32 (es_index x) bi /\
    b = bf ++ [es_kind x] ++ bi.
(** What comes before the first NUL of a name; the whole name if it has none *)
Definition before_nul (name pre : bytes) : Prop :=
  ~ In 0 pre /\ (name = pre \/ exists rest, name = pre ++ 0 :: rest).
(** A module that is one export section *)
Definition exports_module (gl p : bytes) : bytes := wasm_header ++ 7 :: gl ++ p.
Definition exports_reported (len : Z) (l : list event) : list event :=
  [EvModuleStart; EvHeader 1836278016 1; EvSectionStart 7 len []] ++ l ++ [EvSectionEnd 7 len; EvModuleEnd].

Lemma before_c_str name : before_nul name (c_str name).
Proof.
  unfold before_nul. induction name as [|x n IH]; cbn [c_str]; [auto|]. destruct (Z.eqb_spec x 0) as [->|Hx].
  - split; [intros []|]. right. now exists n.
  - destruct IH as (H1 & H2). split; [intros [H|H]; [now apply Hx|now apply H1]|].
    destruct H2 as [H2|(r & H2)]; [left; now rewrite H2 at 1|right]. exists r. cbn [app]. now rewrite <- H2.
Qed.
Lemma before_unique name a b : before_nul name a -> before_nul name b -> a = b.
Proof.
  intros (Ha & Ea) (Hb & Eb).
  assert (G : forall x y r s, ~ In 0 x -> ~ In 0 y -> x ++ 0 :: r = y ++ 0 :: s -> x = y).
  { induction x as [|c x IH]; intros [|d y] r s Hx Hy E; cbn [app] in E; [reflexivity| | |].
    - injection E as E _. exfalso. apply Hy. now left.
    - injection E as E _. exfalso. apply Hx. now left.
    - injection E as -> E. f_equal. eapply IH; eauto; intros H; [apply Hx|apply Hy]; now right. }
  destruct Ea as [Ea|(r & Ea)], Eb as [Eb|(s & Eb)]; subst.
  - reflexivity.
  - exfalso. apply Ha. apply in_app_iff. right. now left.
  - exfalso. apply Hb. apply in_app_iff. right. now left.
  - eapply G; eauto.
Qed.
Lemma reads_any_name c name b : enc_any_name (c_lim c) name b -> reads (string c) (c_str name) b [].
Proof.
  intros ((g & bs & Hg & Hbs & ->) & Hl). unfold string. eapply reads_bindq; [apply reads_varuint, Hg|].
  cbv beta. destruct Hg as (_ & _ & _ & Hr).
  replace (_ =? 2 ^ 64 - 1) with false by lia. rewrite (bytes_concat _ _ Hbs).
  apply (reads_bind0 _ _ tt (c_str name) name []); [apply reads_alloc; lia|].
  eapply reads_bindr; [apply (reads_in_read _ name); reflexivity|]. apply reads_ret.
Qed.
Lemma exports_read lim strict xs p len gl :
  enc_vec (enc_any_export lim) xs p -> enc_u32 len gl ->
  read_module (noop_cfg lim strict) (exports_module gl p) =
    Ok (exports_reported len (map (fun x => EvExport (c_str (es_field x)) (es_kind x) (es_index x)) xs)).
Proof.
  intros Hx Hl. unfold exports_module. rewrite module_after_header. set (c := noop_cfg lim strict).
  assert (R : reads (section c 7) tt (gl ++ p)
     (EvSectionStart 7 len [] :: map (fun x => EvExport (c_str (es_field x)) (es_kind x) (es_index x)) xs ++ [EvSectionEnd 7 len])).
  { unfold section. eapply reads_bindq; [apply reads_varuint, Hl|]. change (7 =? 0) with false. cbv iota.
    apply (reads_bind0 _ _ [] tt p []); [apply reads_ret|]. rewrite (u32_nat _ _ Hl).
    apply (reads_bind0 _ _ tt tt p [EvSectionStart 7 len []]); [apply reads_emit|].
    rewrite <- (app_nil_r p). apply (reads_bind _ _ tt tt p [] (map (fun x => EvExport (c_str (es_field x)) (es_kind x) (es_index x)) xs) [EvSectionEnd 7 len]); [|apply reads_emit].
    change (reads (export_section c) tt p (map (fun x => EvExport (c_str (es_field x)) (es_kind x) (es_index x)) xs)).
    unfold export_section. rewrite <- (numbered_map (fun x => EvExport (c_str (es_field x)) (es_kind x) (es_index x)) xs 0).
    eapply reads_entries; [exact Hx|]. intros j x b _ (bf & bi & Hn & Hk & Hi & ->).
    eapply reads_bindq; [apply reads_any_name, Hn|]. eapply reads_bindq; [apply reads_type, Hk|].
    rewrite <- (app_nil_r bi). eapply reads_bindq; [apply reads_varuint, Hi|]. cbv beta. rewrite (u32_nat _ _ Hi). apply reads_emit. }
  cbn [Nat.add length sections]. cbn [W w_eof w_in s_eof]. unfold mbind at 1. fold (W (7 :: gl ++ p) 8 [EvModuleStart; EvHeader 1836278016 1]).
  change (7 :: gl ++ p) with ([7] ++ (gl ++ p)). rewrite (reads_varuint1 7) by lia. cbn [bind]. cbn [W w_eof w_in s_eof].
  fold (W (gl ++ p) (8 + Z.of_nat (length [7])) ([EvModuleStart; EvHeader 1836278016 1] ++ [])).
  unfold mbind. change (u8 7) with 7. rewrite <- (app_nil_r (gl ++ p)). rewrite R. rewrite app_nil_r. cbn [bind].
  cbn. unfold exports_reported. cbn [app]. now rewrite <- app_assoc.
Qed.

(** * C139 *)
(** Every export is reported with its kind and index, and with what is before the first NUL of its name. *)
Theorem C139_names_up_to_nul :
  forall lim strict xs p len gl,
    enc_vec (enc_any_export lim) xs p -> enc_u32 len gl ->
    exists fields, Forall2 before_nul (map es_field xs) fields /\
      read_module (noop_cfg lim strict) (exports_module gl p) =
        Ok (exports_reported len (map (fun x => EvExport (fst x) (es_kind (snd x)) (es_index (snd x))) (combine fields xs))).
Proof.
  intros lim strict xs p len gl Hx Hl. exists (map (fun x => c_str (es_field x)) xs). split.
  - clear. induction xs; cbn [map]; constructor; auto using before_c_str.
  - rewrite (exports_read lim strict xs p len gl Hx Hl). do 2 f_equal. clear. induction xs; cbn [map combine fst snd]; congruence.
Qed.
Print Assumptions C139_names_up_to_nul.
(** So names without NULs are reported in full. *)
Theorem C139_names_without_nul_partial :
  forall lim strict xs p len gl,
    enc_vec (enc_any_export lim) xs p -> enc_u32 len gl -> Forall (fun x => ~ In 0 (es_field x)) xs ->
    read_module (noop_cfg lim strict) (exports_module gl p) =
      Ok (exports_reported len (map (fun x => EvExport (es_field x) (es_kind x) (es_index x)) xs)).
Proof.
  intros lim strict xs p len gl Hx Hl Hn. rewrite (exports_read lim strict xs p len gl Hx Hl). do 2 f_equal.
  clear - Hn. induction Hn; cbn [map]; [reflexivity|]. now rewrite c_str_id, IHHn.
Qed.
Print Assumptions C139_names_without_nul_partial.
(** C139 is false of the code as it stands: two names that agree up to a NUL cannot be told apart, and
    two exports with different names may be reported under the same one. *)
Theorem C139_names_with_nul_refuted :
  forall lim strict pre rest rest' k i p p' len gl,
    ~ In 0 pre ->
    enc_vec (enc_any_export lim) [mkExportS (pre ++ 0 :: rest) k i] p ->
    enc_vec (enc_any_export lim) [mkExportS (pre ++ 0 :: rest') k i] p' ->
    enc_u32 len gl ->
    read_module (noop_cfg lim strict) (exports_module gl p) =
      Ok (exports_reported len [EvExport pre k i]) /\
    read_module (noop_cfg lim strict) (exports_module gl p') = read_module (noop_cfg lim strict) (exports_module gl p).
Proof.
  intros lim strict pre rest rest' k i p p' len gl Hn H1 H2 Hl.
  assert (C : forall r, c_str (pre ++ 0 :: r) = pre).
  { intros r. apply (before_unique (pre ++ 0 :: r)); [apply before_c_str|]. split; [exact Hn|]. right. eauto. }
  rewrite (exports_read lim strict _ p len gl H1 Hl), (exports_read lim strict _ p' len gl H2 Hl). cbn [map es_field es_kind es_index].
  now rewrite !C.
Qed.
Print Assumptions C139_names_with_nul_refuted.

(** The exports "a" NUL "b" and "a" NUL "c" *)
Example C139_instance :
  enc_vec (enc_any_export 100) [mkExportS [97; 0; 98] 0 0; mkExportS [97; 0; 99] 0 1] ([2] ++ [3; 97; 0; 98; 0; 0] ++ [3; 97; 0; 99; 0; 1]) /\
  enc_u32 13 [13] /\
  read_module (noop_cfg 100 true) (exports_module [13] ([2] ++ [3; 97; 0; 98; 0; 0] ++ [3; 97; 0; 99; 0; 1])) =
    Ok (exports_reported 13 [EvExport [97] 0 0; EvExport [97] 0 1]).
Proof.
  assert (S : forall v, 0 <= v < 128 -> enc_u32 v [v]) by (intros; apply small_u32; lia).
  assert (N : forall x, is_byte x -> enc_any_name 100 [97; 0; x] [3; 97; 0; x]).
  { intros x Hx. split; [|cbn; lia]. exists [3], [[97]; [0]; [x]]. split; [apply S; cbn; lia|]. split; [|reflexivity].
    repeat constructor; unfold is_byte in *; lia. }
  split; [|split; [apply S; lia|vm_compute; reflexivity]].
  exists [2], [[3; 97; 0; 98; 0; 0]; [3; 97; 0; 99; 0; 1]]. split; [apply S; cbn; lia|]. split; [|reflexivity].
  constructor; [|constructor; [|constructor]]; (eexists; eexists; split; [apply N; unfold is_byte; lia|]; split; [unfold is_byte; cbn; lia|]; split; [apply S; cbn; lia|reflexivity]).
Qed.
