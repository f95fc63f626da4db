(** C88 in still more detail: what the reader makes of a module that ends inside an entry. *)

From Coq Require Import ZArith List Bool Lia.
From Verif Require Import Outcome LebSpec VarIntModel StreamModel WasmModel WasmSpec WasmProofs WasmProps VarIntProofs StreamProofs WasmCutProps.
Import ListNotations.
Local Open Scope Z_scope.
Import ZifyBool ZifyNat.

(** [r] is the beginning of [b], and not all of it. *)
Definition cut (r b : bytes) : Prop := exists q, q <> [] /\ b = r ++ q.
(** What a number is read as of which only [g] is there: as if the next byte were 0x7f. *)
Definition guess (g : bytes) : Z := uleb_value (g ++ [127]) mod 2 ^ 32.
Definition refused {A} (o : outcome A) : Prop := exists e, o = Throw e.

(** * The state at the end of the input *)
Definition E (off : Z) (log : list event) : wst := mkW (mkStream [] true off) false log.

Lemma cut_leb g q : q <> [] -> leb_shape (g ++ q) -> Forall (fun b => 128 <= b < 256) g.
Proof.
  intros Hq H. revert q Hq H. induction g as [|b g IH]; intros q Hq H; [constructor|].
  cbn [app] in H. inversion H as [b' Hb E1|b' bs Hb Hs]; subst.
  - destruct g; [destruct q; [congruence|discriminate]|discriminate].
  - constructor; [exact Hb|]. eapply IH; eauto.
Qed.
Lemma uleb_app_last g : uleb_value (g ++ [127]) = uleb_value g + 127 * 128 ^ Z.of_nat (length g).
Proof.
  induction g as [|b g IH]; [reflexivity|]. cbn [app uleb_value length]. rewrite IH, Nat2Z.inj_succ, Z.pow_succ_r by lia. ring.
Qed.
(** A number of which only the beginning is there *)
Lemma varuint_cut v g b off log : enc_u32 v b -> cut g b ->
  exists w, varuint (W g off log) = Ok (w, E (off + Z.of_nat (length g)) log) /\ u32 w = guess g /\
    w = uleb_value (g ++ [127]) /\ 127 <= w < 2 ^ 35.
Proof.
  intros (Hs & Hl & _) (q & Hq & ->). pose proof (cut_leb g q Hq Hs) as Hg.
  assert (L : (length g <= 4)%nat). { rewrite app_length in Hl. destruct q; [congruence|]. cbn [length] in Hl. lia. }
  exists (uleb_value (g ++ [127])). unfold varuint, on_stream, W. cbn [w_stuck w_in w_log].
  rewrite uleb128_cut by (auto; lia). cbn [bind]. rewrite uleb_app_last.
  assert (B : 127 <= uleb_value g + 127 * 128 ^ Z.of_nat (length g) < 2 ^ 35).
  { pose proof (VarIntProofs.uleb_bound g) as B. assert (1 <= 128 ^ Z.of_nat (length g)) by (pose proof (Z.pow_pos_nonneg 128 (Z.of_nat (length g))); lia).
    assert (128 ^ Z.of_nat (length g) <= 128 ^ 4) by (apply Z.pow_le_mono_r; lia). change (128 ^ 4) with 268435456 in *. change (2 ^ 35) with 34359738368. nia. }
  rewrite Z.mod_small by (change (2 ^ 64) with (2 ^ 35 * 2 ^ 29); change (2 ^ 35) with 34359738368 in *; change (2 ^ 29) with 536870912; lia).
  split; [reflexivity|]. split; [|split; [reflexivity|exact B]]. unfold u32, guess. now rewrite uleb_app_last.
Qed.
Lemma varuint_E off log : varuint (E off log) = Ok (127, E off log).
Proof. reflexivity. Qed.
Lemma uint_E n off log : uint n (E off log) = Throw BadNumber.
Proof. reflexivity. Qed.
Lemma uint_end off log : uint 1 (W [] off log) = Ok (0, E off log).
Proof. unfold uint, W, w_fail. cbn. now rewrite Z.add_0_r. Qed.
Lemma get_E off log : get (E off log) = Ok (255, E off log).
Proof. reflexivity. Qed.
Lemma get_end off log : get (W [] off log) = Ok (255, E off log).
Proof. reflexivity. Qed.
Lemma string_E c off log : 128 <= c_lim c -> string c (E off log) = Ok ([], E off log).
Proof. intros H. unfold E. now apply string_end. Qed.
Lemma bytes_concat' name bs : Forall2 enc_byte name bs -> concat bs = name.
Proof. apply bytes_concat. Qed.
(** A name of which only the beginning is there *)
Lemma string_cut c name b r off log : enc_string (c_lim c) name b -> cut r b ->
  string c (W r off log) = Throw StdException \/ exists x off', string c (W r off log) = Ok (x, E off' log).
Proof.
  intros ((g & bs & Hg & Hbs & ->) & Hl & _) (q & Hq & Er). rewrite (bytes_concat' _ _ Hbs) in Er.
  destruct (Nat.le_gt_cases (length g) (length r)) as [Hle|Hlt].
  - assert (exists r', r = g ++ r' /\ name = r' ++ q) as (r' & -> & En).
    { clear - Er Hle. revert r Er Hle. induction g as [|x g IH]; intros r Er Hle; [now exists r|]. destruct r as [|y r]; [cbn in Hle; lia|].
      cbn [app] in Er. injection Er as -> Er. cbn [length] in Hle. destruct (IH r Er) as (r' & -> & ->); [lia|]. now exists r'. }
    right. unfold string, mbind. rewrite (reads_varuint _ _ Hg). cbn [bind]. rewrite app_nil_r. destruct Hg as (_ & _ & _ & Hr).
    replace (_ =? 2 ^ 64 - 1) with false by lia. rewrite alloc_ok by lia. cbn [bind]. unfold in_read, W, w_fail. cbn [w_in w_stuck s_eof orb s_rest w_log].
    assert (length r' < length name)%nat. { rewrite En, app_length. destruct q; [congruence|]. cbn [length]. lia. }
    replace (_ <=? _) with false by lia. cbn [bind ret]. eexists. eexists. reflexivity.
  - assert (Hc : cut r g).
    { clear - Er Hlt. revert r Er Hlt. induction g as [|x g IH]; intros r Er Hlt; [cbn in Hlt; lia|]. destruct r as [|y r].
      - exists (x :: g). split; [discriminate|reflexivity].
      - cbn [app] in Er. injection Er as -> Er. cbn [length] in Hlt. destruct (IH r Er) as (q' & Hq & ->); [lia|]. exists q'. now split. }
    destruct (varuint_cut _ _ _ off log Hg Hc) as (w & Ew & _ & _ & Hw). unfold string, mbind. rewrite Ew. cbn [bind].
    replace (w =? 2 ^ 64 - 1) with false by (change (2 ^ 35) with 34359738368 in Hw; change (2 ^ 64) with 18446744073709551616; lia).
    unfold alloc. destruct (_ <=? _); [right|now left]. cbn [ret bind in_read E w_fail w_in s_eof w_stuck orb]. eexists. eexists. reflexivity.
Qed.

(** * Cutting sequences *)
Lemma cut_app r a b : cut r (a ++ b) -> cut r a \/ exists r', r = a ++ r' /\ cut r' b.
Proof.
  revert r. induction a as [|x a IH]; intros r (q & Hq & Er).
  - right. exists r. split; [reflexivity|]. now exists q.
  - destruct r as [|y r].
    + left. exists (x :: a). split; [discriminate|reflexivity].
    + cbn [app] in Er. injection Er as -> Er. destruct (IH r) as [(q' & Hq' & ->)|(r' & -> & H)]; [now exists q| |].
      * left. exists q'. now split.
      * right. exists r'. now split.
Qed.
Lemma cut_one r x : cut r [x] -> r = [].
Proof.
  intros (q & Hq & Er). destruct r as [|y r]; [reflexivity|]. cbn [app] in Er. injection Er as _ Er.
  destruct r; [cbn in Er; congruence|discriminate].
Qed.
Lemma cut_nil r : ~ cut r [].
Proof. intros (q & Hq & Er). destruct r; [destruct q; [congruence|discriminate]|discriminate]. Qed.
Lemma cut_empty x b : cut [] (x :: b).
Proof. exists (x :: b). split; [discriminate|reflexivity]. Qed.

(** * The module up to the entry that is cut *)
Definition entry_reader (c : wcfg) (x : sec) : Z -> M unit :=
  match x with
  | SType _ => fun _ => function_type c
  | SImport _ => fun _ => import_entry c
  | SFunction _ => fun i => t <~ varuint; emit (EvFunction i (u32 t))
  | SGlobal _ => fun _ => g <~ global_type; e <~ init_expr c; emit (EvGlobal g e)
  | SExport _ => fun _ => f <~ string c; k <~ uint 1; i <~ varuint; emit (EvExport f k (u32 i))
  | SElement _ => fun _ => element_entry c
  | SCode _ => function_body c
  | SData _ => fun _ => data_segment c
  end.
(** What the visitor is told about a section that announces [n] entries and of which those of [x]
    are there *)
Definition told (bev : Z -> body_s -> list event) (x : sec) (n : Z) : list event :=
  match x with
  | SType l => EvTypeSection n :: map EvFunctionType l
  | SImport l => EvImportSection n :: map (fun i => EvImport (is_module i) (is_field i) (is_desc i)) l
  | _ => entry_events bev x
  end.
Definition before (bev : Z -> body_s -> list event) (l : list (sec * Z)) (x : sec) (len n : Z) : list event :=
  [EvModuleStart; EvHeader 1836278016 1] ++ flat_map (section_events bev) l ++ [EvSectionStart (sec_code x) len []] ++ told bev x n.

Lemma for_cut {A} (f : Z -> M unit) (enc : A -> bytes -> Prop) (ev : Z -> A -> list event) la es n r off log :
  vec_of enc la es -> (forall j a b, In a la -> enc a b -> reads (f j) tt b (ev j a)) -> Z.of_nat (length la) < n ->
  for_count n f (W (es ++ r) off log) =
  (_ <~ f (Z.of_nat (length la)); iter (Z.to_nat (n - Z.of_nat (length la) - 1)) (Z.of_nat (length la) + 1) f)
    (W r (off + Z.of_nat (length es)) (log ++ numbered ev 0 la)).
Proof.
  intros (bs & Hbs & ->) Hf Hn. unfold for_count.
  replace (Z.to_nat n) with (length la + S (Z.to_nat (n - Z.of_nat (length la) - 1)))%nat by lia.
  rewrite iter_app. unfold mbind at 1. rewrite (reads_iter f enc ev la bs 0 Hbs Hf). cbn [bind]. cbn [iter Z.add]. reflexivity.
Qed.
Lemma numbered_flat {A} (f : A -> list event) l : forall i, numbered (fun _ => f) i l = flat_map f l.
Proof. induction l as [|a l IH]; intros i; [reflexivity|]. cbn [numbered flat_map]. now rewrite IH. Qed.

Lemma reach_cut c bev l bs x gl len n gn es r :
  Forall2 (fun p b => enc_section (c_lim c) (fst p) (snd p) b) l bs ->
  Forall (fun p => Forall (takes_code (c_body c) bev) (bodies_of (fst p))) l ->
  Forall (takes_code (c_body c) bev) (bodies_of x) ->
  enc_u32 len gl -> enc_u32 n gn -> enc_entries (c_lim c) x es -> entry_count x < n ->
  exists off fu, (0 < fu)%nat /\
  read_module c (wasm_header ++ concat bs ++ [sec_code x] ++ gl ++ gn ++ es ++ r) =
  (do (_, s) <- (_ <~ (_ <~ entry_reader c x (entry_count x);
                       iter (Z.to_nat (n - entry_count x - 1)) (entry_count x + 1) (entry_reader c x));
     _ <~ emit (EvSectionEnd (sec_code x) len); sections c fu) (W r off (before bev l x len n));
   Ok (w_log s ++ [EvModuleEnd])).
Proof.
  intros H Hb Hbx Hgl Hgn Hes Hlt.
  destruct (reach_payload c bev l bs x gl len (gn ++ es ++ r) H Hb Hgl) as (off & fu & Hfu & ->).
  eexists. exists fu. split; [exact Hfu|]. unfold mbind at 1. unfold mbind at 3. f_equal. unfold before.
  set (log := [EvModuleStart; EvHeader 1836278016 1] ++ flat_map (section_events bev) l ++ [EvSectionStart (sec_code x) len []]).
  replace ([EvModuleStart; EvHeader 1836278016 1] ++ flat_map (section_events bev) l ++ [EvSectionStart (sec_code x) len []] ++ told bev x n)
    with (log ++ told bev x n) by (unfold log; rewrite <- !app_assoc; reflexivity).
  assert (HG : forall A (f : Z -> M unit) (enc : A -> bytes -> Prop) (ev : Z -> A -> list event) la,
    vec_of enc la es -> (forall j a b, In a la -> enc a b -> reads (f j) tt b (ev j a)) -> Z.of_nat (length la) < n ->
    (n <~ varuint; for_count n f) (W (gn ++ es ++ r) off log) =
    (_ <~ f (Z.of_nat (length la)); iter (Z.to_nat (n - Z.of_nat (length la) - 1)) (Z.of_nat (length la) + 1) f)
      (W r (off + Z.of_nat (length gn) + Z.of_nat (length es)) (log ++ numbered ev 0 la))).
  { intros A f enc ev la Hv Hf Hn. unfold mbind at 1. rewrite (reads_varuint n gn Hgn). cbn [bind]. rewrite app_nil_r.
    now apply (for_cut f enc ev). }
  assert (HE : forall (e : Z -> event) A (f : Z -> M unit) (enc : A -> bytes -> Prop) (ev : Z -> A -> list event) la,
    vec_of enc la es -> (forall j a b, In a la -> enc a b -> reads (f j) tt b (ev j a)) -> Z.of_nat (length la) < n ->
    (n <~ varuint; _ <~ emit (e n); for_count n f) (W (gn ++ es ++ r) off log) =
    (_ <~ f (Z.of_nat (length la)); iter (Z.to_nat (n - Z.of_nat (length la) - 1)) (Z.of_nat (length la) + 1) f)
      (W r (off + Z.of_nat (length gn) + Z.of_nat (length es)) (log ++ e n :: numbered ev 0 la))).
  { intros e A f enc ev la Hv Hf Hn. unfold mbind at 1. rewrite (reads_varuint n gn Hgn). cbn [bind]. rewrite app_nil_r.
    unfold mbind at 1. unfold emit at 1. cbn [bind]. cbn [W w_in w_stuck w_log]. fold (W (es ++ r) (off + Z.of_nat (length gn)) (log ++ [e n])).
    rewrite (for_cut f enc ev la es) by assumption. rewrite <- app_assoc. reflexivity. }
  destruct x as [la|la|la|la|la|la|la|la]; cbn [entry_reader told entry_events enc_entries bodies_of] in *; unfold entry_count in *.
  - unfold type_section. rewrite (HE EvTypeSection _ _ (enc_ftype (c_lim c)) (fun _ t => [EvFunctionType t]) la Hes); [|intros; now apply reads_function_type|exact Hlt].
    rewrite (numbered_map EvFunctionType). reflexivity.
  - unfold import_section. rewrite (HE EvImportSection _ _ (enc_import (c_lim c)) (fun _ i => [EvImport (is_module i) (is_field i) (is_desc i)]) la Hes); [|intros; now apply reads_import|exact Hlt].
    rewrite (numbered_map (fun i => EvImport (is_module i) (is_field i) (is_desc i))). reflexivity.
  - unfold function_section. rewrite (HG _ _ enc_u32 (fun i t => [EvFunction i t]) la Hes); [reflexivity| |exact Hlt].
    intros j a b' _ Hab. replace b' with (b' ++ []) by apply app_nil_r. eapply reads_bindq; [apply reads_varuint, Hab|]. cbv beta.
    rewrite (u32_nat _ _ Hab). apply reads_emit.
  - unfold global_section. rewrite (HG _ _ (enc_global (c_lim c)) (fun _ g => [EvGlobal (gs_type g) (gs_init g)]) la Hes); [|  |exact Hlt].
    + rewrite (numbered_map (fun g => EvGlobal (gs_type g) (gs_init g))). reflexivity.
    + intros j a b' _ (bt & bi & Ht & Hi & ->).
      eapply reads_bindq; [apply reads_gtype, Ht|]. cbv beta.
      replace bi with (bi ++ []) by apply app_nil_r. eapply reads_bindq; [apply reads_init, Hi|]. apply reads_emit.
  - unfold export_section. rewrite (HG _ _ (enc_export (c_lim c)) (fun _ e => [EvExport (es_field e) (es_kind e) (es_index e)]) la Hes); [| |exact Hlt].
    + rewrite (numbered_map (fun e => EvExport (es_field e) (es_kind e) (es_index e))). reflexivity.
    + intros j a b' _ (bf & bi & Hf & Hk & Hi & ->).
      eapply reads_bindq; [apply reads_string, Hf|]. cbv beta.
      eapply reads_bindq; [apply (reads_type _ Hk)|]. cbv beta.
      replace bi with (bi ++ []) by apply app_nil_r. eapply reads_bindq; [apply reads_varuint, Hi|]. cbv beta. rewrite (u32_nat _ _ Hi). apply reads_emit.
  - unfold element_section. rewrite (HG _ _ (enc_element (c_lim c)) (fun _ e => EvElementEntry (ls_table e) (ls_offset e) (Z.of_nat (length (ls_items e))) :: map EvElement (ls_items e) ++ [EvElementEnd]) la Hes); [| |exact Hlt].
    + rewrite numbered_flat. reflexivity.
    + intros j a b' _ Hab. now apply reads_element.
  - unfold code_section. rewrite (HG _ _ (enc_body (c_lim c)) (fun i b => EvBody i (mkBody (bs_locals b) (bs_size b)) :: bev i b ++ [EvBodyEnd]) la Hes); [reflexivity| |exact Hlt].
    intros j a b' Hin Hab. apply reads_body; [assumption|]. rewrite Forall_forall in Hbx. now apply Hbx.
  - unfold data_section. rewrite (HG _ _ (enc_data (c_lim c)) (fun _ d => [EvData (ds_memory d) (ds_offset d) (ds_bytes d)]) la Hes); [| |exact Hlt].
    + rewrite (numbered_map (fun d => EvData (ds_memory d) (ds_offset d) (ds_bytes d))). reflexivity.
    + intros j a b' _ Hab. now apply reads_data.
Qed.

(** * How the module ends *)
Lemma mb_ok {A B} (m : M A) (k : A -> M B) s a s' : m s = Ok (a, s') -> mbind m k s = k a s'.
Proof. intros H. unfold mbind. now rewrite H. Qed.
Lemma mb_throw {A B} (m : M A) (k : A -> M B) s e : m s = Throw e -> mbind m k s = Throw e.
Proof. intros H. unfold mbind. now rewrite H. Qed.
Lemma mb_trap {A B} (m : M A) (k : A -> M B) s t : m s = Trap t -> mbind m k s = Trap t.
Proof. intros H. unfold mbind. now rewrite H. Qed.
Lemma mb_reads {A B} (m : M A) (k : A -> M B) a b ev r off log : reads m a b ev ->
  mbind m k (W (b ++ r) off log) = k a (W r (off + Z.of_nat (length b)) (log ++ ev)).
Proof. intros H. apply mb_ok, H. Qed.
Lemma mb_reads0 {A B} (m : M A) (k : A -> M B) a b r off log : reads m a b [] ->
  mbind m k (W (b ++ r) off log) = k a (W r (off + Z.of_nat (length b)) log).
Proof. intros H. rewrite (mb_reads m k a b [] r off log H). now rewrite app_nil_r. Qed.
Lemma emit_E e off log : emit e (E off log) = Ok (tt, E off (log ++ [e])).
Proof. reflexivity. Qed.

(** All that is said about the part of the module that is there *)
Definition cut_case (c : wcfg) (bev : Z -> body_s -> list event) (l : list (sec * Z)) (bs : list bytes) (x : sec)
    (len : Z) (gl : bytes) (n : Z) (gn es : bytes) : Prop :=
  Forall2 (fun p b => enc_section (c_lim c) (fst p) (snd p) b) l bs /\
  Forall (fun p => Forall (takes_code (c_body c) bev) (bodies_of (fst p))) l /\
  Forall (takes_code (c_body c) bev) (bodies_of x) /\
  enc_u32 len gl /\ enc_u32 n gn /\ enc_entries (c_lim c) x es /\ entry_count x < n.
(** The sections [bs], then a section of the kind of [x] that announces [n] (spelled [gn]) entries, of
    which those of [x] (spelled [es]) are there, and then only [r]. *)
Definition cut_bytes (bs : list bytes) (x : sec) (gl gn es r : bytes) : bytes :=
  wasm_header ++ concat bs ++ [sec_code x] ++ gl ++ gn ++ es ++ r.

Section Ends.
Context (c : wcfg) (bev : Z -> body_s -> list event) (l : list (sec * Z)) (bs : list bytes) (x : sec)
        (len : Z) (gl : bytes) (n : Z) (gn es r : bytes).
Hypothesis H : cut_case c bev l bs x len gl n gn es.

Lemma ends_throw e : (forall off log, entry_reader c x (entry_count x) (W r off log) = Throw e) ->
  read_module c (cut_bytes bs x gl gn es r) = Throw e.
Proof.
  intros He. destruct H as (H1 & H2 & H3 & H4 & H5 & H6 & H7). unfold cut_bytes.
  destruct (reach_cut c bev l bs x gl len n gn es r H1 H2 H3 H4 H5 H6 H7) as (off & fu & _ & ->).
  erewrite mb_throw by (apply mb_throw, He). reflexivity.
Qed.
Lemma ends_refused : (forall off log, refused (entry_reader c x (entry_count x) (W r off log))) ->
  refused (read_module c (cut_bytes bs x gl gn es r)).
Proof.
  intros He. destruct H as (H1 & H2 & H3 & H4 & H5 & H6 & H7). unfold cut_bytes.
  destruct (reach_cut c bev l bs x gl len n gn es r H1 H2 H3 H4 H5 H6 H7) as (off & fu & _ & ->).
  destruct (He off (before bev l x len n)) as (e & Ee). exists e.
  erewrite mb_throw by (apply mb_throw, Ee). reflexivity.
Qed.
Lemma ends_trap t : (forall off log, entry_reader c x (entry_count x) (W r off log) = Trap t) ->
  read_module c (cut_bytes bs x gl gn es r) = Trap t.
Proof.
  intros He. destruct H as (H1 & H2 & H3 & H4 & H5 & H6 & H7). unfold cut_bytes.
  destruct (reach_cut c bev l bs x gl len n gn es r H1 H2 H3 H4 H5 H6 H7) as (off & fu & _ & ->).
  erewrite mb_trap by (apply mb_trap, He). reflexivity.
Qed.
Lemma ends_shown evs evs' :
  (forall off log, exists off', entry_reader c x (entry_count x) (W r off log) = Ok (tt, E off' (log ++ evs))) ->
  (forall off log, exists off', iter (Z.to_nat (n - entry_count x - 1)) (entry_count x + 1) (entry_reader c x) (E off log) = Ok (tt, E off' (log ++ evs'))) ->
  read_module c (cut_bytes bs x gl gn es r) =
    Ok (before bev l x len n ++ evs ++ evs' ++ [EvSectionEnd (sec_code x) len; EvModuleEnd]).
Proof.
  intros He Hi. destruct H as (H1 & H2 & H3 & H4 & H5 & H6 & H7). unfold cut_bytes.
  destruct (reach_cut c bev l bs x gl len n gn es r H1 H2 H3 H4 H5 H6 H7) as (off & fu & Hfu & ->).
  destruct (He off (before bev l x len n)) as (o1 & E1). destruct (Hi o1 (before bev l x len n ++ evs)) as (o2 & E2).
  erewrite mb_ok; [|erewrite mb_ok by exact E1; exact E2].
  erewrite mb_ok by apply emit_E. destruct fu as [|fu]; [lia|]. cbn [sections E w_eof w_in s_eof bind w_log].
  rewrite <- !app_assoc. reflexivity.
Qed.
Lemma ends_then_throw evs e : entry_count x + 1 <> n ->
  (forall off log, exists off', entry_reader c x (entry_count x) (W r off log) = Ok (tt, E off' (log ++ evs))) ->
  (forall i off log, entry_reader c x i (E off log) = Throw e) ->
  read_module c (cut_bytes bs x gl gn es r) = Throw e.
Proof.
  intros Hn He Hi. destruct H as (H1 & H2 & H3 & H4 & H5 & H6 & H7). unfold cut_bytes.
  destruct (reach_cut c bev l bs x gl len n gn es r H1 H2 H3 H4 H5 H6 H7) as (off & fu & Hfu & ->).
  destruct (He off (before bev l x len n)) as (o1 & E1).
  erewrite mb_throw; [reflexivity|]. erewrite mb_ok by exact E1.
  destruct (Z.to_nat (n - entry_count x - 1)) as [|k] eqn:Ek; [lia|]. cbn [iter]. apply mb_throw, Hi.
Qed.
Lemma ends_then_trap evs t : entry_count x + 1 <> n ->
  (forall off log, exists off', entry_reader c x (entry_count x) (W r off log) = Ok (tt, E off' (log ++ evs))) ->
  (forall i off log, entry_reader c x i (E off log) = Trap t) ->
  read_module c (cut_bytes bs x gl gn es r) = Trap t.
Proof.
  intros Hn He Hi. destruct H as (H1 & H2 & H3 & H4 & H5 & H6 & H7). unfold cut_bytes.
  destruct (reach_cut c bev l bs x gl len n gn es r H1 H2 H3 H4 H5 H6 H7) as (off & fu & Hfu & ->).
  destruct (He off (before bev l x len n)) as (o1 & E1).
  erewrite mb_trap; [reflexivity|]. erewrite mb_ok by exact E1.
  destruct (Z.to_nat (n - entry_count x - 1)) as [|k] eqn:Ek; [lia|]. cbn [iter]. apply mb_trap, Hi.
Qed.
(** What becomes of the module if the entry that is cut is read as [evs] and any further one fails *)
Lemma ends_seen_throw evs e :
  (forall off log, exists off', entry_reader c x (entry_count x) (W r off log) = Ok (tt, E off' (log ++ evs))) ->
  (forall i off log, entry_reader c x i (E off log) = Throw e) ->
  read_module c (cut_bytes bs x gl gn es r) =
  if entry_count x + 1 =? n then Ok (before bev l x len n ++ evs ++ [EvSectionEnd (sec_code x) len; EvModuleEnd]) else Throw e.
Proof.
  intros He Hi. destruct (Z.eqb_spec (entry_count x + 1) n) as [En|En]; [|now apply (ends_then_throw evs)].
  rewrite (ends_shown evs []); [reflexivity|exact He|]. intros off log. exists off.
  replace (Z.to_nat (n - entry_count x - 1)) with 0%nat by lia. cbn [iter]. unfold ret. now rewrite app_nil_r.
Qed.
Lemma ends_seen_trap evs t :
  (forall off log, exists off', entry_reader c x (entry_count x) (W r off log) = Ok (tt, E off' (log ++ evs))) ->
  (forall i off log, entry_reader c x i (E off log) = Trap t) ->
  read_module c (cut_bytes bs x gl gn es r) =
  if entry_count x + 1 =? n then Ok (before bev l x len n ++ evs ++ [EvSectionEnd (sec_code x) len; EvModuleEnd]) else Trap t.
Proof.
  intros He Hi. destruct (Z.eqb_spec (entry_count x + 1) n) as [En|En]; [|now apply (ends_then_trap evs)].
  rewrite (ends_shown evs []); [reflexivity|exact He|]. intros off log. exists off.
  replace (Z.to_nat (n - entry_count x - 1)) with 0%nat by lia. cbn [iter]. unfold ret. now rewrite app_nil_r.
Qed.
End Ends.

(** * Functions *)
(** A function section that ends inside a number: always accepted.  The number is read as if its next
    byte were 0x7f, and any further ones are 127. *)
Theorem C88_cut_in_a_function_partial : forall c bev l bs la len gl n gn es t b g,
  cut_case c bev l bs (SFunction la) len gl n gn es -> enc_u32 t b -> cut g b ->
  let i := entry_count (SFunction la) in
  read_module c (cut_bytes bs (SFunction la) gl gn es g) =
    Ok (before bev l (SFunction la) len n ++ EvFunction i (guess g) ::
        map (fun k => EvFunction (i + 1 + Z.of_nat k) 127) (seq 0 (Z.to_nat (n - i - 1))) ++ [EvSectionEnd 3 len; EvModuleEnd]).
Proof.
  intros c bev l bs la len gl n gn es t b g H Ht Hg i.
  rewrite (ends_shown c bev l bs (SFunction la) len gl n gn es g H [EvFunction i (guess g)]
    (map (fun k => EvFunction (i + 1 + Z.of_nat k) 127) (seq 0 (Z.to_nat (n - i - 1))))); [reflexivity| |].
  - intros off log. destruct (varuint_cut t g b off log Ht Hg) as (w & Ew & Eu & _). eexists. cbn [entry_reader].
    erewrite mb_ok by exact Ew. cbv beta. rewrite Eu. apply emit_E.
  - intros off log. exists off. unfold E. apply function_entries_eof.
Qed.
Print Assumptions C88_cut_in_a_function_partial.

(** * Exports *)
Theorem C88_cut_in_an_export_partial : forall c bev l bs la len gl n gn es name bf k i bi,
  cut_case c bev l bs (SExport la) len gl n gn es -> 128 <= c_lim c ->
  enc_string (c_lim c) name bf -> is_byte k -> enc_u32 i bi ->
  let read r := read_module c (cut_bytes bs (SExport la) gl gn es r) in
  let seen e := if entry_count (SExport la) + 1 =? n
                then Ok (before bev l (SExport la) len n ++ [e] ++ [EvSectionEnd 7 len; EvModuleEnd]) else Throw BadNumber in
  (forall r, cut r bf -> refused (read r)) /\
  read bf = seen (EvExport name 0 127) /\
  (forall g, cut g bi -> read (bf ++ [k] ++ g) = seen (EvExport name k (guess g))).
Proof.
  intros c bev l bs la len gl n gn es name bf k i bi H Hlim Hf Hk Hi read seen.
  assert (N : forall j off log, entry_reader c (SExport la) j (E off log) = Throw BadNumber).
  { intros j off log. cbn [entry_reader]. erewrite mb_ok by (apply string_E; exact Hlim). reflexivity. }
  unfold read, seen. split; [|split].
  - intros r Hr. eapply ends_refused; [exact H|]. intros off log. cbn [entry_reader].
    destruct (string_cut c name bf r off log Hf Hr) as [E1|(y & o & E1)].
    + exists StdException. now apply mb_throw.
    + exists BadNumber. erewrite mb_ok by exact E1. reflexivity.
  - eapply ends_seen_throw; [exact H| |exact N]. intros off log. eexists. cbn [entry_reader].
    rewrite <- (app_nil_r bf) at 1. erewrite mb_reads0 by (apply reads_string; exact Hf). cbv beta.
    erewrite mb_ok by apply uint_end. cbv beta. erewrite mb_ok by apply varuint_E. apply emit_E.
  - intros g Hg. eapply ends_seen_throw; [exact H| |exact N]. intros off log. cbn [entry_reader].
    destruct (varuint_cut i g bi (off + Z.of_nat (length bf) + Z.of_nat (length [k])) log Hi Hg) as (w & Ew & Eu & _).
    eexists. erewrite mb_reads0 by (apply reads_string; exact Hf). cbv beta.
    change (uint 1) with type_code. erewrite mb_reads0 by (apply reads_type; exact Hk). cbv beta.
    erewrite mb_ok by exact Ew. cbv beta. rewrite Eu. apply emit_E.
Qed.
Print Assumptions C88_cut_in_an_export_partial.

(** * Types *)
Lemma cut_types ps : forall bs r off log, Forall2 enc_byte ps bs -> cut r (concat bs) ->
  refused (collect (length ps) type_code (W r off log)) \/
  exists qs off', collect (length ps) type_code (W r off log) = Ok (qs, E off' log).
Proof.
  induction ps as [|p ps IH]; intros bs r off log Hb Hr; inversion Hb as [|? b ? bs' Hp Hb']; subst.
  - now apply cut_nil in Hr.
  - cbn [concat] in Hr. destruct Hp as (Hp & ->). cbn [length collect]. apply cut_app in Hr. destruct Hr as [Hr|(r' & -> & Hr)].
    + apply cut_one in Hr. subst r. destruct (length ps) as [|k].
      * right. eexists. eexists. erewrite mb_ok by apply uint_end. cbn. reflexivity.
      * left. exists BadNumber. erewrite mb_ok by apply uint_end. cbn [collect]. apply mb_throw. apply mb_throw. apply uint_E.
    + destruct (IH bs' r' (off + Z.of_nat (length [p])) log Hb' Hr) as [(e & Ee)|(qs & o & Eq)].
      * left. exists e. erewrite mb_reads0 by (apply reads_type; exact Hp). now apply mb_throw.
      * right. eexists. eexists. erewrite mb_reads0 by (apply reads_type; exact Hp). erewrite mb_ok by exact Eq. reflexivity.
Qed.
Theorem C88_cut_in_a_type_partial : forall c bev l bs la len gl n gn es ps bp,
  cut_case c bev l bs (SType la) len gl n gn es -> 127 <= c_lim c ->
  enc_vec enc_byte ps bp -> Z.of_nat (length ps) <= c_lim c ->
  let read r := read_module c (cut_bytes bs (SType la) gl gn es r) in
  (forall r, cut r ([96] ++ bp) \/ r = [96] ++ bp -> refused (read r)) /\
  read ([96] ++ bp ++ [1]) =
    (if entry_count (SType la) + 1 =? n
     then Ok (before bev l (SType la) len n ++ [EvFunctionType (mkFtype ps (Some 0))] ++ [EvSectionEnd 1 len; EvModuleEnd])
     else Throw BadNumber).
Proof.
  intros c bev l bs la len gl n gn es ps bp H Hlim (g & bs' & Hg & Hb & ->) Hl read. unfold read. clear read.
  assert (B96 : is_byte 96) by (unfold is_byte; lia).
  split.
  - intros r Hr. eapply ends_refused; [exact H|]. intros off log. cbn [entry_reader]. unfold function_type.
    destruct Hr as [Hr|Hr].
    + apply cut_app in Hr. destruct Hr as [Hr|(r' & -> & Hr)].
      * apply cut_one in Hr. subst r. exists ReaderError. erewrite mb_ok by apply uint_end. reflexivity.
      * erewrite mb_reads0 by (apply reads_type; exact B96). change (negb (96 =? 96)) with false. cbv iota.
        set (o := off + _). apply cut_app in Hr. destruct Hr as [Hr|(r2 & -> & Hr)].
        -- destruct (varuint_cut _ r' g o log Hg Hr) as (w & Ew & _ & _ & Hw). erewrite mb_ok by exact Ew. cbv beta.
           unfold alloc. destruct (w <=? c_lim c); [|exists StdException; reflexivity]. exists BadNumber.
           erewrite mb_ok by reflexivity. apply mb_throw. destruct (Z.to_nat w) as [|k] eqn:Ek; [lia|]. cbn [collect]. apply mb_throw, uint_E.
        -- erewrite mb_reads0 by (apply reads_varuint; exact Hg). erewrite mb_ok by (apply alloc_ok; exact Hl).
           rewrite Nat2Z.id. destruct (cut_types ps bs' r2 (o + Z.of_nat (length g)) log Hb Hr) as [(e & Ee)|(qs & o' & Eq)].
           ++ exists e. now apply mb_throw.
           ++ exists BadNumber. erewrite mb_ok by exact Eq. cbv beta. erewrite mb_ok by apply varuint_E. reflexivity.
    + subst r. exists BadNumber. erewrite mb_reads0 by (apply reads_type; exact B96). change (negb (96 =? 96)) with false. cbv iota.
      erewrite mb_reads0 by (apply reads_varuint; exact Hg). erewrite mb_ok by (apply alloc_ok; exact Hl). rewrite Nat2Z.id.
      rewrite <- (app_nil_r (concat bs')). erewrite mb_reads0 by (eapply (reads_collect _ enc_byte); [|exact Hb]; intros a b (Ha & ->); now apply reads_type).
      cbv beta. erewrite mb_ok by apply varuint_end. reflexivity.
  - eapply ends_seen_throw; [exact H| |intros; reflexivity]. intros off log. eexists. cbn [entry_reader]. unfold function_type.
    erewrite mb_reads0 by (apply reads_type; exact B96). change (negb (96 =? 96)) with false. cbv iota. rewrite <- app_assoc.
    erewrite mb_reads0 by (apply reads_varuint; exact Hg). erewrite mb_ok by (apply alloc_ok; exact Hl). rewrite Nat2Z.id.
    erewrite mb_reads0 by (eapply (reads_collect _ enc_byte); [|exact Hb]; intros a b (Ha & ->); now apply reads_type).
    cbv beta. change [1] with ([1] ++ []). erewrite mb_reads0 by (apply reads_varuint1; lia). change (truth 1) with true. cbv iota.
    erewrite mb_ok by apply uint_end. apply emit_E.
Qed.
Print Assumptions C88_cut_in_a_type_partial.
