(** C88 in more detail: what the reader makes of a module that has been cut. *)

From Coq Require Import ZArith List Bool Lia.
From Verif Require Import Outcome LebSpec VarIntModel StreamModel WasmModel WasmSpec WasmProofs WasmProps StreamProofs.
Import ListNotations.
Local Open Scope Z_scope.
Import ZifyBool ZifyNat.

(** * The calls made so far are never taken back *)

Definition grows {A} (m : M A) : Prop :=
  forall s a s', m s = Ok (a, s') -> exists t, w_log s' = w_log s ++ t.

Lemma grows_same {A} (m : M A) : (forall s a s', m s = Ok (a, s') -> w_log s' = w_log s) -> grows m.
Proof. intros H s a s' E. exists []. rewrite app_nil_r. eauto. Qed.
Lemma grows_ret {A} (a : A) : grows (ret a).
Proof. apply grows_same. now intros s x s' [= <- <-]. Qed.
Lemma grows_throw {A} e : grows (@throw A e).
Proof. intros s x s' E. discriminate. Qed.
Lemma grows_emit e : grows (emit e).
Proof. intros s x s' [= <- <-]. exists [e]. reflexivity. Qed.
Lemma grows_bind {A B} (m : M A) (k : A -> M B) : grows m -> (forall a, grows (k a)) -> grows (mbind m k).
Proof.
  intros Hm Hk s b s' E. unfold mbind in E. destruct (m s) as [[a s1]| | | |] eqn:E1; try discriminate. cbn [bind] in E.
  destruct (Hm _ _ _ E1) as (t1 & H1). destruct (Hk _ _ _ _ E) as (t2 & H2).
  exists (t1 ++ t2). now rewrite H2, H1, app_assoc.
Qed.
Lemma grows_get : grows get.
Proof.
  apply grows_same. intros s a s'. unfold get. destruct (w_stuck s); [congruence|].
  destruct (s_get (w_in s)). intros [= <- <-]. reflexivity.
Qed.
Lemma grows_stream {A} (f : stream -> outcome (A * stream)) : grows (on_stream f).
Proof.
  apply grows_same. intros s a s'. unfold on_stream. destruct (w_stuck s).
  - destruct (f _) as [[? ?]| | | |]; cbn [bind]; congruence.
  - destruct (f _) as [[? ?]| | | |]; cbn [bind]; try discriminate. intros [= <- <-]. reflexivity.
Qed.
Lemma grows_in_read n : grows (in_read n).
Proof.
  apply grows_same. intros s a s'. unfold in_read. destruct (w_fail s); [congruence|].
  destruct (n <=? _); intros [= <- <-]; reflexivity.
Qed.
Lemma grows_seekg b n : grows (seekg b n).
Proof.
  apply grows_same. intros s a s'. unfold seekg. destruct (w_fail s); [intros [= <- <-]; reflexivity|].
  destruct (n <=? _); [intros [= <- <-]; reflexivity|]. destruct b; intros [= <- <-]; reflexivity.
Qed.
Lemma grows_number n : grows (read_number n).
Proof.
  apply grows_same. intros s a s'. unfold read_number. destruct (w_stuck s); [discriminate|].
  destruct (readNumber _ _) as [[? ?]| | | |]; cbn [bind]; try discriminate. intros [= <- <-]. reflexivity.
Qed.
Lemma grows_uint n : grows (uint n).
Proof.
  intros s a s' E. unfold uint in E. destruct (w_fail s); [discriminate|]. revert E.
  apply (grows_bind (in_read n) (fun b => ret (le_value b))); [apply grows_in_read|intros; apply grows_ret].
Qed.
Lemma grows_alloc c n : grows (alloc c n).
Proof. unfold alloc. destruct (n <=? _); [apply grows_ret|apply grows_throw]. Qed.
Lemma grows_iter f : (forall i, grows (f i)) -> forall n i, grows (iter n i f).
Proof.
  intros Hf. induction n as [|n IH]; intros i; cbn [iter]; [apply grows_ret|].
  apply grows_bind; [apply Hf|intros; apply IH].
Qed.
Lemma grows_collect {A} (f : M A) : grows f -> forall n, grows (collect n f).
Proof.
  intros Hf. induction n as [|n IH]; cbn [collect]; [apply grows_ret|].
  apply grows_bind; [apply Hf|]. intros. apply grows_bind; [apply IH|intros; apply grows_ret].
Qed.
Lemma grows_trap {A} t : grows (fun _ : wst => @Trap (A * wst) t).
Proof. intros s x s' E. discriminate. Qed.
Lemma grows_ub {A} t : grows (fun _ : wst => @UB (A * wst) t).
Proof. intros s x s' E. discriminate. Qed.

Ltac gr := repeat first
  [ assumption | apply grows_ret | apply grows_throw | apply grows_emit | apply grows_get | apply grows_stream
  | apply grows_in_read | apply grows_seekg | apply grows_number | apply grows_uint | apply grows_alloc
  | apply grows_trap | apply grows_ub | apply grows_collect | apply grows_bind
  | match goal with
    | |- forall _, grows _ => intros ?
    | |- grows (if ?b then _ else _) => destruct b
    | |- grows (match ?b with Some _ => _ | None => _ end) => destruct b
    | |- grows (match ?b with KNone => _ | _ => _ end) => destruct b
    | |- grows (for_count _ _) => unfold for_count; apply grows_iter
    | |- grows varint => unfold varint | |- grows varuint => unfold varuint
    | |- grows (string _) => unfold string | |- grows type_code => unfold type_code
    | |- grows resizable_limits => unfold resizable_limits | |- grows global_type => unfold global_type
    | |- grows table_type => unfold table_type | |- grows (read_imm _ _) => unfold read_imm
    | |- grows (read_expr _) => unfold read_expr | |- grows (init_expr _) => unfold init_expr
    | |- grows (function_type _) => unfold function_type | |- grows (import_entry _) => unfold import_entry
    | |- grows (element_entry _) => unfold element_entry | |- grows local_entry => unfold local_entry
    | |- grows (function_body _ _) => unfold function_body | |- grows (data_segment _) => unfold data_segment
    end ].

Lemma grows_section c code : (forall i b, grows (c_body c i b)) -> grows (section c code).
Proof.
  intros Hb. unfold section, custom_section, type_section, import_section, function_section, global_section,
    export_section, element_section, code_section, data_section. gr. apply Hb.
Qed.

Lemma grows_sections c : (forall i b, grows (c_body c i b)) -> forall fuel, grows (sections c fuel).
Proof.
  intros Hb. induction fuel as [|fuel IH]; intros s a s' E; cbn [sections] in E; [discriminate|].
  destruct (w_eof s). { injection E as <- <-. exists []. now rewrite app_nil_r. }
  revert E. apply (grows_bind varuint); [unfold varuint; apply grows_stream|]. intros code s1 a1 s1' E1.
  destruct (w_eof s1). { injection E1 as <- <-. exists []. now rewrite app_nil_r. }
  revert E1. apply grows_bind; [now apply grows_section|]. intros _. apply IH.
Qed.

Lemma expr_loop_grows c f : (forall e, grows (f e)) -> forall fuel st sz, grows (expr_loop c fuel st sz f).
Proof.
  intros Hf. induction fuel as [|fuel IH]; intros st sz; cbn [expr_loop]; [intros s a s' E; discriminate|].
  apply grows_bind; [gr|]. intros e. apply grows_bind; [apply Hf|]. intros _ s a s' E.
  destruct (_ <? sz); [exact (IH st sz s a s' E)|]. injection E as <- <-. exists []. now rewrite app_nil_r.
Qed.

(** ab-disasm's visitor, and the one that does nothing, do not take calls back either. *)
Lemma disasm_grows lim i b : grows (disasm_body lim i b).
Proof.
  intros s a s' E. unfold disasm_body in E. destruct (_ <=? i); [discriminate|]. unfold read_exprs in E.
  revert E. apply expr_loop_grows. intros e. unfold print_expr. destruct (e_imm e); gr.
Qed.
Lemma noop_grows i b : grows (noop_body i b).
Proof. apply grows_ret. Qed.

(** Whatever follows the complete sections of a module, cut sections or anything else: if the
    reader accepts the input at all, the calls for the complete sections come first, just as they
    would for the module that ends there; what is made up can only come after them.  The visitor's
    own reading of bodies must not take back calls: the visitors of this code base do not. *)
Theorem C88_complete_sections_first_partial : forall lim strict vb bev l bs rest evs,
  Forall2 (fun p b => enc_section lim (fst p) (snd p) b) l bs ->
  Forall (fun p => Forall (takes_code vb bev) (bodies_of (fst p))) l ->
  (forall i b, grows (vb i b)) ->
  read_module (mkCfg lim strict vb) (wasm_header ++ concat bs ++ rest) = Ok evs ->
  exists more, evs = [EvModuleStart; EvHeader 1836278016 1] ++ flat_map (section_events bev) l ++ more.
Proof.
  intros lim strict vb bev l bs rest evs H Hb Hg E.
  assert (Hlen : (length l <= length (concat bs))%nat).
  { apply (concat_length_ge _ l bs) in H; [exact H|]. intros [y ly] b (gl & p & _ & _ & _ & ->). discriminate. }
  rewrite module_after_header in E.
  rewrite (sections_prefix (mkCfg lim strict vb) bev l bs H Hb) in E by (rewrite app_length; lia).
  destruct (sections _ _ _) as [[u s]| | | |] eqn:Es; cbn [bind] in E; try discriminate.
  apply (grows_sections (mkCfg lim strict vb) Hg) in Es as (t & Es). injection E as <-. rewrite Es. cbn [W w_log].
  exists (t ++ [EvModuleEnd]). now rewrite <- !app_assoc.
Qed.
Print Assumptions C88_complete_sections_first_partial.

(** * Cut between two entries *)

(** The entries of a section without their count, and how many there are. *)
Definition vec_of {A} (enc : A -> bytes -> Prop) (l : list A) (b : bytes) : Prop :=
  exists bs, Forall2 enc l bs /\ b = concat bs.
Definition enc_entries (lim : Z) (x : sec) (b : bytes) : Prop :=
  match x with
  | SType l => vec_of (enc_ftype lim) l b
  | SImport l => vec_of (enc_import lim) l b
  | SFunction l => vec_of enc_u32 l b
  | SGlobal l => vec_of (enc_global lim) l b
  | SExport l => vec_of (enc_export lim) l b
  | SElement l => vec_of (enc_element lim) l b
  | SCode l => vec_of (enc_body lim) l b
  | SData l => vec_of (enc_data lim) l b
  end.
Definition entry_count (x : sec) : Z :=
  Z.of_nat match x with
  | SType l => length l | SImport l => length l | SFunction l => length l | SGlobal l => length l
  | SExport l => length l | SElement l => length l | SCode l => length l | SData l => length l
  end.

Lemma entries_payload lim x p :
  enc_payload lim x p <-> exists g es, enc_u32 (entry_count x) g /\ enc_entries lim x es /\ p = g ++ es.
Proof.
  destruct x; cbn [enc_payload enc_entries entry_count]; unfold enc_vec, vec_of; split;
    try (intros (g & bs & A & B & ->); exists g, (concat bs); eauto);
    try (intros (g & es & A & (bs & B & ->) & ->); exists g, bs; auto).
Qed.

(** What becomes of a section whose first entries, fewer than its count says, are all there is. *)
Inductive fate := Refused (e : exn) | Exits | MadeUp.
Definition fate_of (x : sec) : fate :=
  match x with
  | SType _ => Refused ReaderError
  | SImport _ | SExport _ | SCode _ => Refused BadNumber
  | SGlobal _ | SElement _ | SData _ => Exits
  | SFunction _ => MadeUp
  end.

Lemma iter_cut {A} (f : Z -> M unit) (enc : A -> bytes -> Prop) (ev : Z -> A -> list event) l es n i :
  vec_of enc l es -> (forall j a b, In a l -> enc a b -> reads (f j) tt b (ev j a)) -> (length l < n)%nat ->
  reaches (iter n i f) es (numbered ev i l) (f (i + Z.of_nat (length l))).
Proof.
  intros (bs & H & ->). revert n i. induction H as [|a b l bs Hab H IH]; intros n i Hf Hn; cbn [concat numbered length].
  - rewrite Z.add_0_r. destruct n as [|n]; [cbn in Hn; lia|]. cbn [iter]. apply reaches_left, reaches_self.
  - destruct n as [|n]; [lia|]. cbn [iter]. eapply reaches_bind; [apply Hf; [now left|assumption]|].
    replace (i + Z.of_nat (S (length l))) with (i + 1 + Z.of_nat (length l)) by lia.
    apply IH; [intros; apply Hf; [now right|assumption]|cbn [length] in Hn; lia].
Qed.

(** The entry at the end of the input. *)
Lemma alloc_ok c n s : n <= c_lim c -> alloc c n s = Ok (tt, s).
Proof. intros H. unfold alloc. replace (n <=? c_lim c) with true by lia. reflexivity. Qed.
Lemma string_end c e off log : 128 <= c_lim c ->
  string c (mkW (mkStream [] e off) false log) = Ok ([], mkW (mkStream [] true off) false log).
Proof.
  intros H. unfold string, mbind.
  replace (varuint (mkW (mkStream [] e off) false log)) with (@Ok (Z * wst) (127, mkW (mkStream [] true off) false log)) by (destruct e; reflexivity).
  cbn [bind]. change (127 =? 2 ^ 64 - 1) with false. cbv beta iota. rewrite alloc_ok by lia. reflexivity.
Qed.
Lemma end_type c off log : function_type c (W [] off log) = Throw ReaderError.
Proof. reflexivity. Qed.
Lemma end_import c off log : 128 <= c_lim c -> import_entry c (W [] off log) = Throw BadNumber.
Proof.
  intros H. unfold import_entry, mbind, W. rewrite string_end by exact H. cbn [bind]. rewrite string_end by exact H. reflexivity.
Qed.
Lemma end_export c off log : 128 <= c_lim c ->
  (f <~ string c; k <~ uint 1; i <~ varuint; emit (EvExport f k (u32 i))) (W [] off log) = Throw BadNumber.
Proof. intros H. unfold mbind, W. rewrite string_end by exact H. reflexivity. Qed.
Lemma end_global c off log :
  (g <~ global_type; e <~ init_expr c; emit (EvGlobal g e)) (W [] off log) = Trap Exit.
Proof. reflexivity. Qed.
Lemma end_element c off log : element_entry c (W [] off log) = Trap Exit.
Proof. reflexivity. Qed.
Lemma end_data c off log : data_segment c (W [] off log) = Trap Exit.
Proof. reflexivity. Qed.
Lemma end_body c i off log : 1016 <= c_lim c -> function_body c i (W [] off log) = Throw BadNumber.
Proof.
  intros H. unfold function_body, mbind. rewrite varuint_end. cbn [bind]. rewrite varuint_eof. cbn [bind].
  change (8 * 127) with 1016. rewrite alloc_ok by exact H. cbn [bind].
  change (Z.to_nat 127) with (S 126). cbn [collect]. reflexivity.
Qed.

Lemma function_entries_rest n : forall i off log,
  exists s, iter n i (fun i => t <~ varuint; emit (EvFunction i (u32 t))) (W [] off log) = Ok (tt, s) /\
    w_log s = log ++ map (fun k => EvFunction (i + Z.of_nat k) 127) (seq 0 n) /\ w_stuck s = false /\ rest_of s = [].
Proof.
  destruct n as [|n]; intros i off log; cbn [iter].
  - eexists. split; [reflexivity|]. cbn. now rewrite app_nil_r.
  - unfold mbind. rewrite varuint_end. cbn [bind emit w_in w_stuck w_log]. rewrite function_entries_eof.
    eexists. split; [reflexivity|]. cbn [w_log w_stuck]. unfold rest_of. cbn [w_in s_rest]. conjs; auto.
    rewrite <- app_assoc. cbn [seq map app]. rewrite <- seq_shift, map_map. f_equal.
    f_equal; [now rewrite Z.add_0_r|]. apply map_ext. intros k. f_equal. lia.
Qed.

Lemma iter_app (f : Z -> M unit) a b : forall i s, iter (a + b) i f s = (_ <~ iter a i f; iter b (i + Z.of_nat a) f) s.
Proof.
  induction a as [|a IH]; intros i s; cbn [Nat.add iter].
  - unfold mbind, ret. cbn [bind]. now rewrite Z.add_0_r.
  - unfold mbind at 1. unfold mbind at 1. unfold mbind at 1. destruct (f i s) as [[[] s1]| | | |]; cbn [bind]; auto.
    rewrite IH. unfold mbind. replace (i + 1 + Z.of_nat a) with (i + Z.of_nat (S a)) by lia. reflexivity.
Qed.

(** * The whole module *)

(** The reader up to the contents of the cut section. *)
Lemma reach_payload c bev l bs x gl len rest :
  Forall2 (fun p b => enc_section (c_lim c) (fst p) (snd p) b) l bs ->
  Forall (fun p => Forall (takes_code (c_body c) bev) (bodies_of (fst p))) l -> enc_u32 len gl ->
  exists off fu, (0 < fu)%nat /\
  read_module c (wasm_header ++ concat bs ++ [sec_code x] ++ gl ++ rest) =
  (do (_, s) <- (_ <~ (match x with
       | SType _ => type_section c | SImport _ => import_section c | SFunction _ => function_section
       | SGlobal _ => global_section c | SExport _ => export_section c | SElement _ => element_section c
       | SCode _ => code_section c | SData _ => data_section c end);
     _ <~ emit (EvSectionEnd (sec_code x) len); sections c fu)
     (W rest off ([EvModuleStart; EvHeader 1836278016 1] ++ flat_map (section_events bev) l ++ [EvSectionStart (sec_code x) len []]));
   Ok (w_log s ++ [EvModuleEnd])).
Proof.
  intros H Hb Hgl.
  assert (Hlen : (length l <= length (concat bs))%nat).
  { apply (concat_length_ge _ l bs) in H; [exact H|]. intros [y ly] b (gl' & p & _ & _ & _ & ->). discriminate. }
  assert (1 <= length gl)%nat as Hlg.
  { destruct Hgl as (Hs & _). destruct gl; [inversion Hs|cbn; lia]. }
  rewrite module_after_header.
  erewrite (sections_prefix c bev l bs H Hb) by (rewrite app_length; lia).
  match goal with |- context [sections c ?f _] => destruct f as [|[|fuel]] eqn:Ef end; [exfalso; rewrite !app_length in Ef; cbn [length] in Ef; lia..|].
  remember (S fuel) as fu eqn:Efu. cbn [sections W w_eof w_in s_eof]. unfold mbind at 1.
  try match goal with |- context [mkW (mkStream ?r false ?o) false ?l] => fold (W r o l) end.
  rewrite (reads_varuint1 (sec_code x)) by (destruct x; cbn; lia). cbn [bind W w_eof w_in s_eof].
  replace (u8 (sec_code x)) with (sec_code x) by (destruct x; reflexivity).
  try match goal with |- context [mkW (mkStream ?r false ?o) false ?l] => fold (W r o l) end.
  unfold section. unfold mbind at 1. unfold mbind at 1. rewrite (reads_varuint len gl Hgl). cbn [bind].
  rewrite (u32_nat _ _ Hgl). replace (sec_code x =? 0) with false by (destruct x; reflexivity).
  unfold mbind at 1. cbn [ret bind]. unfold mbind at 1. cbn [emit bind W w_in w_stuck w_log].
  try match goal with |- context [mkW (mkStream ?r false ?o) false ?l] => fold (W r o l) end.
  rewrite !app_nil_r, <- !app_assoc.
  exists (8 + Z.of_nat (length (concat bs)) + Z.of_nat (length [sec_code x]) + Z.of_nat (length gl)), fu. split; [lia|]. unfold mbind.
  match goal with |- context [W rest ?o ?lg] => set (s0 := W rest o lg) end.
  destruct x; cbn [sec_code Z.eqb Pos.eqb orb];
    match goal with |- context [?f s0] => destruct (f s0) as [[u s1]| | | |]; cbn [bind emit]; reflexivity end.
Qed.

(** A module whose last section ends, at the end of the input, after fewer entries than its count
    says.  Types, imports, exports and bodies: refused with an exception.  Globals, elements and
    data: the process exits.  Functions: accepted, every missing entry made up as type 127. *)
Theorem C88_cut_between_entries_partial :
  forall lim strict vb bev l bs x len gl n gn es,
    1016 <= lim ->
    Forall2 (fun p b => enc_section lim (fst p) (snd p) b) l bs ->
    Forall (fun p => Forall (takes_code vb bev) (bodies_of (fst p))) l ->
    Forall (takes_code vb bev) (bodies_of x) ->
    enc_u32 len gl -> enc_u32 n gn -> enc_entries lim x es -> entry_count x < n ->
    read_module (mkCfg lim strict vb) (wasm_header ++ concat bs ++ [sec_code x] ++ gl ++ gn ++ es) =
    match fate_of x with
    | Refused e => Throw e
    | Exits => Trap Exit
    | MadeUp => Ok ([EvModuleStart; EvHeader 1836278016 1] ++ flat_map (section_events bev) l ++
        [EvSectionStart (sec_code x) len []] ++ entry_events bev x ++
        map (fun k => EvFunction (Z.of_nat k) 127) (seq (Z.to_nat (entry_count x)) (Z.to_nat (n - entry_count x))) ++
        [EvSectionEnd (sec_code x) len; EvModuleEnd])
    end.
Proof.
  intros lim strict vb bev l bs x len gl n gn es Hlim H Hb Hbx Hgl Hgn Hes Hlt.
  set (c := mkCfg lim strict vb).
  destruct (reach_payload c bev l bs x gl len (gn ++ es) H Hb Hgl) as (off & fu & Hfu & E). rewrite E. clear E.
  unfold mbind at 1. set (log := _ ++ flat_map _ l ++ _).
  assert (forall {A} (f : Z -> M unit) (enc : A -> bytes -> Prop) (ev : Z -> A -> list event) la,
    vec_of enc la es -> (forall j a b, In a la -> enc a b -> reads (f j) tt b (ev j a)) -> Z.of_nat (length la) < n ->
    reaches (for_count n f) es (numbered ev 0 la) (f (Z.of_nat (length la)))) as Hgen.
  { intros A f enc ev la Hv Hrd Hl. unfold for_count.
    replace (Z.of_nat (length la)) with (0 + Z.of_nat (length la)) by lia.
    eapply iter_cut; [exact Hv|exact Hrd|lia]. }
  assert (forall (f : Z -> M unit) evs (f2 : M unit) o, reaches (f n) es evs f2 ->
    (forall off log, f2 (W [] off log) = o) ->
    exists k, (n <~ varuint; f n) (W (gn ++ es) off log) = bind o k) as Hstop.
  { intros f evs f2 o Hr Ho. unfold mbind. rewrite (reads_varuint n gn Hgn). cbn [bind].
    match goal with |- exists k, f n (W es ?o ?l) = _ => destruct (Hr [] o l) as (k & Ek) end.
    rewrite app_nil_r in Ek. rewrite Ho in Ek. eauto. }
  assert (forall e (f : Z -> M unit) evs (f2 : M unit), reaches (f n) es evs f2 ->
    reaches (_ <~ emit (e n); f n) es (e n :: evs) f2) as Hem.
  { intros e f evs f2 Hr. change (reaches (_ <~ emit (e n); f n) ([] ++ es) ([e n] ++ evs) f2).
    eapply reaches_bind; [apply reads_emit|exact Hr]. }
  destruct x as [la|la|la|la|la|la|la|la]; cbn [fate_of enc_entries entry_count bodies_of] in *.
  - unfold type_section.
    edestruct (Hstop (fun n => _ <~ emit (EvTypeSection n); for_count n (fun _ => function_type c))) as (k & ->).
    { apply (Hem EvTypeSection (fun n => for_count n (fun _ => function_type c))).
      eapply (Hgen _ _ _ (fun _ t => [EvFunctionType t])); [exact Hes| |exact Hlt]. intros. now apply reads_function_type. }
    { intros. apply end_type. } reflexivity.
  - unfold import_section.
    edestruct (Hstop (fun n => _ <~ emit (EvImportSection n); for_count n (fun _ => import_entry c))) as (k & ->).
    { apply (Hem EvImportSection (fun n => for_count n (fun _ => import_entry c))).
      eapply (Hgen _ _ _ (fun _ i => [EvImport (is_module i) (is_field i) (is_desc i)])); [exact Hes| |exact Hlt]. intros. now apply reads_import. }
    { intros. apply end_import. cbn [c_lim c]. lia. } reflexivity.
  - unfold function_section. unfold mbind at 1. rewrite (reads_varuint n gn Hgn). cbn [bind]. unfold for_count.
    unfold entry_count in *. set (m := length la) in *. replace (Z.to_nat n) with (m + Z.to_nat (n - Z.of_nat m))%nat by lia.
    rewrite iter_app. unfold mbind at 1. destruct Hes as (bsl & Hes & ->).
    assert (reads (iter m 0 (fun i => t <~ varuint; emit (EvFunction i (u32 t)))) tt (concat bsl)
      (numbered (fun i t => [EvFunction i t]) 0 la)) as Hrd.
    { unfold m. eapply reads_iter; [exact Hes|]. intros j a b' _ Hab.
      replace b' with (b' ++ []) by apply app_nil_r. eapply reads_bindq; [apply reads_varuint, Hab|]. cbv beta.
      rewrite (u32_nat _ _ Hab). apply reads_emit. }
    rewrite <- (app_nil_r (concat bsl)) at 1. rewrite Hrd. cbn [bind].
    match goal with |- context [iter ?k ?i _ (W [] ?o ?lg)] => destruct (function_entries_rest k i o lg) as (s & -> & Hlog & Hst & Hr) end.
    cbn [bind]. unfold mbind at 1. cbn [emit bind].
    destruct fu as [|fu]; [lia|]. cbn [sections].
    destruct s as [[r eo o] st lg]. unfold rest_of in Hr. cbn [w_in s_rest w_stuck w_log] in *. subst r st.
    assert (lg ++ [EvSectionEnd 3 len] ++ [EvModuleEnd] =
      [EvModuleStart; EvHeader 1836278016 1] ++ flat_map (section_events bev) l ++
      [EvSectionStart 3 len []] ++ numbered (fun i t => [EvFunction i t]) 0 la ++
      map (fun k => EvFunction (Z.of_nat k) 127) (seq (Z.to_nat (Z.of_nat m)) (Z.to_nat (n - Z.of_nat m))) ++
      [EvSectionEnd 3 len; EvModuleEnd]) as Efin.
    { assert (forall k st, map (fun j => EvFunction (0 + Z.of_nat m + Z.of_nat j) 127) (seq st k) =
        map (fun j => EvFunction (Z.of_nat j) 127) (seq (st + m) k)) as Em.
      { induction k as [|k IH]; intros st; [reflexivity|]. cbn [seq map]. rewrite IH. f_equal. f_equal. lia. }
      rewrite Hlog, Em, Nat2Z.id. unfold log. rewrite app_nil_r, <- !app_assoc. reflexivity. }
    cbn [entry_events sec_code]. rewrite <- Efin. clear Efin.
    destruct eo; cbn [w_eof w_in s_eof bind w_log].
    + now rewrite <- app_assoc.
    + unfold mbind. fold (W [] o (lg ++ [EvSectionEnd 3 len])). rewrite varuint_end. cbn [bind w_eof w_in s_eof w_log].
      now rewrite <- app_assoc.
  - unfold global_section. edestruct (Hstop (fun n => for_count n (fun _ => g <~ global_type; e <~ init_expr c; emit (EvGlobal g e)))) as (k & ->).
    { eapply Hgen; [exact Hes| |exact Hlt].
      intros j a b' _ (bt & bi & Ht & Hi & ->).
      eapply reads_bindq; [apply reads_gtype, Ht|]. cbv beta.
      replace bi with (bi ++ []) by apply app_nil_r. eapply reads_bindq; [apply reads_init, Hi|]. apply reads_emit. }
    { intros. apply end_global. } reflexivity.
  - unfold export_section. edestruct (Hstop (fun n => for_count n (fun _ => f <~ string c; k <~ uint 1; i <~ varuint; emit (EvExport f k (u32 i))))) as (k & ->).
    { eapply Hgen; [exact Hes| |exact Hlt].
      intros j a b' _ (bf & bi & Hf & Hk & Hi & ->).
      eapply reads_bindq; [apply reads_string, Hf|]. cbv beta.
      eapply reads_bindq; [apply (reads_type _ Hk)|]. cbv beta.
      replace bi with (bi ++ []) by apply app_nil_r. eapply reads_bindq; [apply reads_varuint, Hi|]. cbv beta. apply reads_emit. }
    { intros. apply end_export. cbn [c_lim c]. lia. } reflexivity.
  - unfold element_section. edestruct (Hstop (fun n => for_count n (fun _ => element_entry c))) as (k & ->).
    { eapply (Hgen _ _ _ (fun _ e => EvElementEntry (ls_table e) (ls_offset e) (Z.of_nat (length (ls_items e))) :: map EvElement (ls_items e) ++ [EvElementEnd])); [exact Hes| |exact Hlt]. intros j a b' _ Hab. now apply reads_element. }
    { intros. apply end_element. } reflexivity.
  - unfold code_section. edestruct (Hstop (fun n => for_count n (function_body c))) as (k & ->).
    { eapply (Hgen _ _ _ (fun i b => EvBody i (mkBody (bs_locals b) (bs_size b)) :: bev i b ++ [EvBodyEnd])); [exact Hes| |exact Hlt]. intros j a b' Hin Hab. apply reads_body; [assumption|].
      rewrite Forall_forall in Hbx. now apply Hbx. }
    { intros. apply end_body. cbn [c_lim c]. lia. } reflexivity.
  - unfold data_section. edestruct (Hstop (fun n => for_count n (fun _ => data_segment c))) as (k & ->).
    { eapply (Hgen _ _ _ (fun _ d => [EvData (ds_memory d) (ds_offset d) (ds_bytes d)])); [exact Hes| |exact Hlt]. intros j a b' _ Hab. now apply reads_data. }
    { intros. apply end_data. } reflexivity.
Qed.
Print Assumptions C88_cut_between_entries_partial.

(** Of two exports the second is missing; of three functions the last; of two globals the second. *)
Example C88_cut_instance :
  let types := ([1; 4; 1; 96; 0; 0], (SType [mkFtype [] None], 4)) in
  enc_section 2000 (fst (snd types)) (snd (snd types)) (fst types) /\
  enc_entries 2000 (SExport [mkExportS [102] 0 0]) [1; 102; 0; 0] /\
  enc_entries 2000 (SFunction [0; 0]) [0; 0] /\
  read_module (noop_cfg 2000 true) (wasm_header ++ [1; 4; 1; 96; 0; 0] ++ [7; 9; 2; 1; 102; 0; 0]) = Throw BadNumber /\
  read_module (noop_cfg 2000 true) (wasm_header ++ [1; 4; 1; 96; 0; 0] ++ [3; 4; 3; 0; 0]) =
    Ok [EvModuleStart; EvHeader 1836278016 1; EvSectionStart 1 4 []; EvTypeSection 1; EvFunctionType (mkFtype [] None);
        EvSectionEnd 1 4; EvSectionStart 3 4 []; EvFunction 0 0; EvFunction 1 0; EvFunction 2 127; EvSectionEnd 3 4; EvModuleEnd] /\
  read_module (noop_cfg 2000 true) (wasm_header ++ [6; 10; 2; 127; 0; 65; 0; 11]) = Trap Exit.
Proof.
  cbv zeta. cbn [fst snd].
  assert (forall v, 0 <= v < 128 -> enc_u32 v [v]) as U.
  { intros v Hv. unfold enc_u32. split; [now constructor|]. split; [cbn; lia|]. cbn. split; [|lia].
    rewrite Z.mod_small by lia. lia. }
  split; [|split; [|split; [|split; [|split]]]].
  - exists [4], [1; 96; 0; 0]. split; [apply U; lia|]. split; [reflexivity|]. split; [|reflexivity].
    exists [1], [[96; 0; 0]]. split; [apply U; cbn; lia|]. split; [|reflexivity]. constructor; [|constructor].
    unfold enc_ftype. cbn. exists [0], [0]. split; [|cbn; conjs; auto; try lia; discriminate].
    exists [0], []. split; [apply U; cbn; lia|]. split; [constructor|reflexivity].
  - exists [[1; 102; 0; 0]]. split; [|reflexivity]. constructor; [|constructor].
    exists [1; 102], [0]. split; [|split; [unfold is_byte; cbn; lia|split; [apply U; cbn; lia|reflexivity]]].
    split; [|split; [cbn; lia|cbn; lia]]. exists [1], [[102]]. split; [apply U; cbn; lia|]. split; [|reflexivity].
    constructor; [|constructor]. split; [unfold is_byte; lia|reflexivity].
  - exists [[0]; [0]]. split; [|reflexivity]. repeat constructor; cbn; try lia.
  - vm_compute. reflexivity.
  - vm_compute. reflexivity.
  - vm_compute. reflexivity.
Qed.
