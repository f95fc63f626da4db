(** What the WebAssembly reader lets through: section ids, lengths, order and numbers out of range
    (C130-C133). *)

From Coq Require Import ZArith List Lia Bool ZifyBool ZifyNat.
From Verif Require Import Outcome LebSpec VarIntModel VarIntProofs StreamModel StreamProofs WasmModel WasmSpec WasmProofs WasmProps.
Import ListNotations.
Local Open Scope Z_scope.

(** A section whose id is the number [id] and that announces [len] bytes, which need be neither the
    id of its kind nor its length. *)
Definition enc_misdescribed (lim : Z) (x : sec) (id len : Z) (b : bytes) : Prop :=
  exists gi gl p, enc_u32 id gi /\ enc_u32 len gl /\ enc_payload lim x p /\ b = gi ++ gl ++ p.

Lemma misdescribed_ok c bev l bs :
  Forall2 (fun p b => exists id, id mod 256 = sec_code (fst p) /\ enc_misdescribed (c_lim c) (fst p) id (snd p) b) l bs ->
  Forall (fun p => Forall (takes_code (c_body c) bev) (bodies_of (fst p))) l ->
  forall fuel off log, (length (concat bs) < fuel)%nat ->
  exists s, sections c fuel (W (concat bs) off log) = Ok (tt, s) /\ w_log s = log ++ flat_map (section_events bev) l.
Proof.
  intros H. induction H as [|[x len] b l bs (id & Hid & gi & gl & p & Hgi & Hgl & Hp & ->) H IH]; intros Hb fuel off log Hf.
  - destruct fuel; [cbn in Hf; lia|]. destruct (sections_end c fuel off log) as (s & E & El). exists s. split; [exact E|].
    cbn. now rewrite app_nil_r.
  - inversion Hb as [|? ? Hbx Hb']; subst. cbn [fst snd] in *.
    pose proof (reads_section_payload c bev x len gl p Hgl Hp Hbx) as Hr.
    cbn [concat] in *. destruct fuel as [|fuel]; [cbn in Hf; lia|]. cbn [sections]. cbn [W w_eof w_in s_eof].
    unfold mbind at 1. fold (W ((gi ++ gl ++ p) ++ concat bs) off log).
    replace ((gi ++ gl ++ p) ++ concat bs) with (gi ++ ((gl ++ p) ++ concat bs)) by (now rewrite <- !app_assoc).
    rewrite (reads_varuint id gi Hgi). cbn [bind].
    cbn [W w_eof w_in s_eof]. fold (W ((gl ++ p) ++ concat bs) (off + Z.of_nat (length gi)) (log ++ [])).
    unfold mbind. replace (u8 id) with (sec_code x) by (unfold u8; symmetry; exact Hid). rewrite Hr. cbn [bind].
    assert (Hne : (0 < length gi)%nat) by (destruct Hgi as (Hs & _); inversion Hs; cbn; lia).
    edestruct (IH Hb' fuel) as (s & E & El); [rewrite !app_length in Hf; lia|].
    rewrite E. exists s. split; [reflexivity|]. rewrite El. cbn [flat_map]. now rewrite <- !app_assoc.
Qed.
Lemma misdescribed_module lim strict vb bev l bs :
  Forall2 (fun p b => exists id, id mod 256 = sec_code (fst p) /\ enc_misdescribed lim (fst p) id (snd p) b) l bs ->
  Forall (fun p => Forall (takes_code vb bev) (bodies_of (fst p))) l ->
  read_module (mkCfg lim strict vb) (wasm_header ++ concat bs) = Ok (module_events bev l).
Proof.
  intros H Hb. rewrite module_after_header.
  destruct (misdescribed_ok (mkCfg lim strict vb) bev l bs H Hb (2 + length (concat bs)) 8
              [EvModuleStart; EvHeader 1836278016 1]) as (s & E & El); [lia|].
  rewrite E. cbn [bind]. rewrite El. unfold module_events. now rewrite <- !app_assoc.
Qed.

(** * C130 *)
(** Section ids above 255 are not refused: whatever the module, with 256 (or any multiple of it)
    added to the ids of its sections it is read as the module itself. *)
Theorem C130_unknown_ids_refuted : forall lim strict vb bev l bs,
  Forall2 (fun p b => exists id payload, id mod 256 = sec_code (fst p) /\ 255 < id /\
     snd p = Z.of_nat (length payload) /\ enc_payload lim (fst p) payload /\
     exists gi gl, enc_u32 id gi /\ enc_u32 (snd p) gl /\ b = gi ++ gl ++ payload) l bs ->
  Forall (fun p => Forall (takes_code vb bev) (bodies_of (fst p))) l ->
  read_module (mkCfg lim strict vb) (wasm_header ++ concat bs) = Ok (module_events bev l).
Proof.
  intros lim strict vb bev l bs H Hb. apply misdescribed_module; [|exact Hb].
  clear Hb. induction H as [|p b l bs (id & pl & Hid & _ & _ & Hp & gi & gl & Hgi & Hgl & ->) H IH]; constructor; [|exact IH].
  exists id. split; [exact Hid|]. exists gi, gl, pl. auto.
Qed.
Print Assumptions C130_unknown_ids_refuted.
(** A function section with id 259. *)
Example C130_instance :
  read_module (mkCfg 100 true take_one) (wasm_header ++ [131; 2; 2; 1; 0]) =
  Ok [EvModuleStart; EvHeader 1836278016 1; EvSectionStart 3 2 []; EvFunction 0 0; EvSectionEnd 3 2; EvModuleEnd].
Proof. vm_compute. reflexivity. Qed.
Example C130_hypotheses : enc_u32 259 [131; 2] /\ 259 mod 256 = sec_code (SFunction [0]) /\ enc_payload 100 (SFunction [0]) [1; 0].
Proof.
  split; [|split; [reflexivity|]].
  - repeat split; try (cbn; lia). apply leb_more; [lia|]. constructor. lia.
  - exists [1], [[0]]. conjs; [apply small_u32; cbn; lia| |reflexivity]. constructor; [apply small_u32; lia|constructor].
Qed.

(** What holds: after any sections that are read, one with an id from 12 to 255 is refused. *)
Theorem C130_ids_of_one_byte_partial : forall lim strict vb bev l bs id gi len gl rest,
  Forall2 (fun p b => enc_section lim (fst p) (snd p) b) l bs ->
  Forall (fun p => Forall (takes_code vb bev) (bodies_of (fst p))) l ->
  12 <= id <= 255 -> enc_u32 id gi -> enc_u32 len gl ->
  read_module (mkCfg lim strict vb) (wasm_header ++ concat bs ++ gi ++ gl ++ rest) = Throw InvalidSection.
Proof.
  intros lim strict vb bev l bs id gi len gl rest H Hb Hid Hgi Hgl. rewrite module_after_header.
  assert (Hne : forall p b, enc_section lim (fst p) (snd p) b -> b <> []) by (intros p b (? & ? & _ & _ & _ & ->); easy).
  assert (Hll : (length l <= length (concat bs))%nat).
  { clear -H Hne. induction H as [|p b l bs Hp H IH]; [cbn; lia|]. cbn [concat length]. rewrite app_length.
    specialize (Hne p b Hp). destruct b; [easy|]. cbn [length]. lia. }
  rewrite (sections_prefix (mkCfg lim strict vb) bev l bs H Hb) by (rewrite app_length; lia).
  set (fuel := (2 + _ - _)%nat). assert (F : exists f, fuel = S f) by (exists (pred fuel); unfold fuel; rewrite app_length; lia).
  destruct F as (f & ->). cbn [sections]. cbn [W w_eof w_in s_eof].
  unfold mbind at 1.
  rewrite (reads_varuint id gi Hgi). cbn [bind]. cbn [W w_eof w_in s_eof].
  unfold mbind. replace (u8 id) with id by (unfold u8; rewrite Z.mod_small; lia). unfold section, mbind.
  rewrite (reads_varuint len gl Hgl). cbn [bind].
  destruct (Z.eqb_spec id 0); [lia|]. cbn [ret bind emit].
  repeat match goal with |- context [if id =? ?k then _ else _] => destruct (Z.eqb_spec id k); [lia|] end.
  destruct (Z.eqb_spec id 4); [lia|]. destruct (Z.eqb_spec id 5); [lia|]. destruct (Z.eqb_spec id 8); [lia|]. cbn [orb].
  repeat match goal with |- context [if id =? ?k then _ else _] => destruct (Z.eqb_spec id k); [lia|] end.
  reflexivity.
Qed.
Print Assumptions C130_ids_of_one_byte_partial.
Example C130_partial_instance :
  read_module (mkCfg 100 true take_one) (wasm_header ++ [3; 2; 1; 0] ++ [12] ++ [1] ++ [0]) = Throw InvalidSection.
Proof. vm_compute. reflexivity. Qed.

(** * C131 *)
(** The announced length of a section is reported but not compared with anything: a module in which
    every section announces any number at all is read like the right one. *)
Theorem C131_section_lengths_refuted : forall lim strict vb bev l bs,
  Forall2 (fun p b => enc_misdescribed lim (fst p) (sec_code (fst p)) (snd p) b) l bs ->
  Forall (fun p => Forall (takes_code vb bev) (bodies_of (fst p))) l ->
  read_module (mkCfg lim strict vb) (wasm_header ++ concat bs) = Ok (module_events bev l).
Proof.
  intros lim strict vb bev l bs H Hb. apply misdescribed_module; [|exact Hb].
  clear Hb. induction H as [|p b l bs Hp H IH]; constructor; [|exact IH].
  exists (sec_code (fst p)). split; [destruct (fst p); reflexivity|exact Hp].
Qed.
Print Assumptions C131_section_lengths_refuted.
Example C131_instance :
  read_module (mkCfg 100 true take_one) (wasm_header ++ [3; 99; 1; 0]) =
  Ok [EvModuleStart; EvHeader 1836278016 1; EvSectionStart 3 99 []; EvFunction 0 0; EvSectionEnd 3 99; EvModuleEnd].
Proof. vm_compute. reflexivity. Qed.

(** * C132 *)
(** Nor is the order of the sections looked at: every module is accepted backwards. *)
Theorem C132_section_order_refuted : forall lim strict vb bev l bs,
  Forall2 (fun p b => enc_section lim (fst p) (snd p) b) l bs ->
  Forall (fun p => Forall (takes_code vb bev) (bodies_of (fst p))) l ->
  read_module (mkCfg lim strict vb) (wasm_header ++ concat (rev bs)) = Ok (module_events bev (rev l)).
Proof.
  intros lim strict vb bev l bs H Hb. apply C86_modules_read_back.
  - clear Hb. induction H as [|p b l bs Hp H IH]; cbn [rev]; [constructor|]. apply Forall2_app; [exact IH|]. constructor; [exact Hp|constructor].
  - now apply Forall_rev.
Qed.
Print Assumptions C132_section_order_refuted.
(** ... nor whether there is one of a kind: every section may be repeated any number of times. *)
Theorem C132_repeated_sections_refuted : forall lim strict vb bev x len b n,
  enc_section lim x len b -> Forall (takes_code vb bev) (bodies_of x) ->
  read_module (mkCfg lim strict vb) (wasm_header ++ concat (repeat b n)) = Ok (module_events bev (repeat (x, len) n)).
Proof.
  intros lim strict vb bev x len b n Hx Hb. apply C86_modules_read_back.
  - induction n as [|n IH]; cbn [repeat]; constructor; assumption.
  - apply Forall_forall. intros p Hp. apply repeat_spec in Hp. now subst.
Qed.
Print Assumptions C132_repeated_sections_refuted.
Example C132_instance :
  read_module (mkCfg 100 true take_one) (wasm_header ++ [3; 2; 1; 0] ++ [1; 4; 1; 96; 0; 0] ++ [3; 2; 1; 0]) =
  Ok [EvModuleStart; EvHeader 1836278016 1; EvSectionStart 3 2 []; EvFunction 0 0; EvSectionEnd 3 2;
      EvSectionStart 1 4 []; EvTypeSection 1; EvFunctionType (mkFtype [] None); EvSectionEnd 1 4;
      EvSectionStart 3 2 []; EvFunction 0 0; EvSectionEnd 3 2; EvModuleEnd].
Proof. vm_compute. reflexivity. Qed.

(** * C133 *)
(** An index of 2^32 or more is not refused: it is reported modulo 2^32. *)
Theorem C133_large_indices_refuted : forall lim strict vb len gl g,
  enc_u32 len gl -> leb_shape g -> (length g <= 9)%nat ->
  read_module (mkCfg lim strict vb) (wasm_header ++ [3] ++ gl ++ [1] ++ g) =
  Ok [EvModuleStart; EvHeader 1836278016 1; EvSectionStart 3 len []; EvFunction 0 (uleb_value g mod 2 ^ 32); EvSectionEnd 3 len; EvModuleEnd].
Proof.
  intros lim strict vb len gl g Hgl Hs Hl. rewrite module_after_header.
  assert (Rv : reads varuint (uleb_value g) g []).
  { intros post off log. unfold varuint, on_stream, W. cbn [w_stuck w_in w_log].
    rewrite uleb128_ok by (auto; lia). cbn [bind]. rewrite app_nil_r.
    pose proof (uleb_bound g) as B. assert (128 ^ Z.of_nat (length g) <= 128 ^ 9) by (apply Z.pow_le_mono_r; lia).
    assert (uleb_value g < 2 ^ 64) by (assert (128 ^ 9 < 2 ^ 64) by (vm_compute; reflexivity); lia).
    rewrite Z.mod_small by lia. reflexivity. }
  assert (Rs : reads (section (mkCfg lim strict vb) 3) tt (gl ++ [1] ++ g)
    [EvSectionStart 3 len []; EvFunction 0 (uleb_value g mod 2 ^ 32); EvSectionEnd 3 len]).
  { unfold section. eapply reads_bindq; [apply reads_varuint, Hgl|]. cbv beta. rewrite (u32_nat _ _ Hgl). cbn [Z.eqb Pos.eqb orb].
    apply (reads_bind0 _ _ [] tt _ []); [apply reads_ret|].
    apply (reads_bind0 _ _ tt tt _ [_]); [apply reads_emit|].
    replace ([1] ++ g) with (([1] ++ g) ++ []) by apply app_nil_r.
    eapply (reads_bind _ _ tt tt _ _ [EvFunction 0 (uleb_value g mod 2 ^ 32)]); [|apply reads_emit].
    unfold function_section. eapply reads_bindq; [apply (reads_varuint1 1); lia|]. cbv beta.
    unfold for_count. change (Z.to_nat 1) with 1%nat. cbn [iter].
    eapply reads_bindr; [|apply reads_ret].
    replace g with (g ++ []) at 1 by apply app_nil_r. eapply reads_bindq; [exact Rv|]. cbv beta. apply reads_emit. }
  cbn [length plus]. cbn [sections]. cbn [W w_eof w_in s_eof]. unfold mbind at 1.
  match goal with |- context [varuint (W ?b ?o ?lg)] => change (W b o lg) with (W ([3] ++ (gl ++ [1] ++ g)) o lg) end.
  rewrite (reads_varuint1 3) by lia. cbn [bind]. cbn [W w_eof w_in s_eof]. unfold mbind.
  replace (gl ++ [1] ++ g) with ((gl ++ [1] ++ g) ++ []) by apply app_nil_r.
  change (u8 3) with 3. rewrite Rs. cbn [bind].
  cbn [W w_eof w_in s_eof]. rewrite varuint_end. cbn. reflexivity.
Qed.
Print Assumptions C133_large_indices_refuted.
(** 2^32 + 5 *)
Example C133_instance : leb_shape [133; 128; 128; 128; 16] /\ uleb_value [133; 128; 128; 128; 16] = 2 ^ 32 + 5 /\
  read_module (mkCfg 100 true take_one) (wasm_header ++ [3; 6; 1; 133; 128; 128; 128; 16]) =
  Ok [EvModuleStart; EvHeader 1836278016 1; EvSectionStart 3 6 []; EvFunction 0 5; EvSectionEnd 3 6; EvModuleEnd].
Proof. split; [repeat constructor; lia|]. split; vm_compute; reflexivity. Qed.
