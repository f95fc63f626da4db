(** C88: modules that end inside the header's version or inside a custom section. *)

From Coq Require Import ZArith List Bool Lia.
From Verif Require Import Outcome LebSpec VarIntModel StreamModel WasmModel WasmSpec WasmProofs WasmProps VarIntProofs StreamProofs WasmCutProps WasmCut2Props.
Import ListNotations.
Local Open Scope Z_scope.
Import ZifyBool ZifyNat.

(** A module that ends inside the header's version is accepted: as an empty module of version 1. *)
Theorem C88_cut_in_the_version_refuted : forall c r, cut r [1; 0; 0; 0] -> r <> [] ->
  read_module c ([0; 97; 115; 109] ++ r) = Ok [EvModuleStart; EvHeader 1836278016 1; EvModuleEnd].
Proof.
  intros c r (q & Hq & E) Hr. destruct r as [|r1 r]; [congruence|]. cbn [app] in E. injection E as <- E.
  destruct r as [|r2 r]; [reflexivity|]. cbn [app] in E. injection E as <- E.
  destruct r as [|r3 r]; [reflexivity|]. cbn [app] in E. injection E as <- E.
  destruct r as [|r4 r]; [reflexivity|]. cbn [app] in E. injection E as <- E.
  destruct r; [destruct q; [congruence|discriminate]|discriminate].
Qed.
Print Assumptions C88_cut_in_the_version_refuted.

(** What the reader does at the end of the input in a custom section: the seek fails. *)
Lemma custom_E c len off log : custom_section c len (E off log) = Ok (tt, mkW (mkStream [] false off) true log).
Proof. reflexivity. Qed.
Lemma emit_any e s : emit e s = Ok (tt, mkW (w_in s) (w_stuck s) (w_log s ++ [e])).
Proof. reflexivity. Qed.

(** A module that ends inside a custom section, after any number of complete sections.  In its length
    or in its name: refused (for want of memory for the name that is made up, or as a section of no
    known kind).  In its contents: refused if the stream is a string, and if it is a file accepted as if
    the contents were there. *)
Theorem C88_cut_in_a_custom_section_partial : forall c bev l bs len gl name bn,
  1016 <= c_lim c ->
  Forall2 (fun p b => enc_section (c_lim c) (fst p) (snd p) b) l bs ->
  Forall (fun p => Forall (takes_code (c_body c) bev) (bodies_of (fst p))) l ->
  enc_u32 len gl -> enc_string (c_lim c) name bn ->
  let read r := read_module c (wasm_header ++ concat bs ++ [0] ++ r) in
  (forall r, cut r gl -> read r = Throw InvalidSection) /\
  (forall r, cut r bn -> read (gl ++ r) = Throw StdException \/ read (gl ++ r) = Throw InvalidSection) /\
  (forall r, Z.of_nat (length r) < len ->
    read (gl ++ bn ++ r) =
      if c_strict c then Throw InvalidSection
      else Ok ([EvModuleStart; EvHeader 1836278016 1] ++ flat_map (section_events bev) l ++
               [EvSectionStart 0 len name; EvSectionEnd 0 len; EvModuleEnd])).
Proof.
  intros c bev l bs len gl name bn Hlim H Hb Hgl Hn read. unfold read.
  assert (Hlen : (length l <= length (concat bs))%nat).
  { apply (concat_length_ge _ l bs) in H; [exact H|]. intros [y ly] b (gl' & p & _ & _ & _ & ->). discriminate. }
  set (lg := [EvModuleStart; EvHeader 1836278016 1] ++ flat_map (section_events bev) l).
  assert (R : forall r, exists fu off, read_module c (wasm_header ++ concat bs ++ [0] ++ r) =
    (do (_, s) <- (_ <~ section c 0; sections c (S fu)) (W r off lg); Ok (w_log s ++ [EvModuleEnd]))).
  { intros r. rewrite module_after_header. erewrite (sections_prefix c bev l bs H Hb) by (rewrite app_length; lia).
    match goal with |- context [sections c ?f _] => destruct f as [|[|fuel]] eqn:Ef end;
      [exfalso; rewrite !app_length in Ef; cbn [length] in Ef; lia..|].
    exists fuel, (8 + Z.of_nat (length (concat bs)) + Z.of_nat (length [0])).
    remember (S fuel) as fu eqn:Efu.
    cbn [sections W w_eof w_in s_eof]. unfold mbind at 1.
    try match goal with |- context [mkW (mkStream ?r false ?o) false ?l] => fold (W r o l) end.
    rewrite (reads_varuint1 0) by (cbn; lia). cbn [bind W w_eof w_in s_eof].
    change (u8 0) with 0. rewrite app_nil_r.
    try match goal with |- context [mkW (mkStream ?r false ?o) false ?l] => fold (W r o l) end. reflexivity. }
  assert (Stuck : forall fu m s i lg', m s = Ok (tt, mkW (mkStream i false 0) true lg') \/ (exists o, m s = Ok (tt, mkW (mkStream i false o) true lg')) ->
    (do (_, s) <- (_ <~ m; sections c (S fu)) s; Ok (w_log s ++ [EvModuleEnd])) = Throw InvalidSection).
  { intros fu m s i lg' [Hm|(o & Hm)]; erewrite mb_ok by exact Hm; now rewrite sections_stuck. }
  conjs.
  - intros r Hr. destruct (R r) as (fu & off & ->).
    destruct (varuint_cut len r gl off lg Hgl Hr) as (w & Ew & Eu & _).
    eapply (Stuck fu _ _ []). right. exists (off + Z.of_nat (length r)). unfold section.
    erewrite mb_ok by exact Ew. cbn [Z.eqb].
    erewrite mb_ok by (apply string_E; lia). erewrite mb_ok by apply emit_E. erewrite mb_ok by apply custom_E.
    apply emit_any.
  - intros r Hr. destruct (R (gl ++ r)) as (fu & off & ->).
    destruct (string_cut c name bn r (off + Z.of_nat (length gl)) lg Hn Hr) as [X|(x & o & X)].
    + left. erewrite mb_throw; [reflexivity|]. unfold section. erewrite mb_reads0 by (apply reads_varuint; exact Hgl).
      cbn [Z.eqb]. now apply mb_throw.
    + right. eapply (Stuck fu _ _ []). right. exists o. unfold section. erewrite mb_reads0 by (apply reads_varuint; exact Hgl).
      cbn [Z.eqb]. erewrite mb_ok by exact X. erewrite mb_ok by apply emit_E. erewrite mb_ok by apply custom_E. apply emit_any.
  - intros r Hr. destruct (R (gl ++ bn ++ r)) as (fu & off & ->).
    assert (ES : section c 0 (W (gl ++ bn ++ r) off lg) =
      Ok (tt, if c_strict c then mkW (mkStream r false (off + Z.of_nat (length gl) + Z.of_nat (length bn))) true (lg ++ [EvSectionStart 0 len name; EvSectionEnd 0 len])
              else W [] (off + Z.of_nat (length gl) + Z.of_nat (length bn) + len) (lg ++ [EvSectionStart 0 len name; EvSectionEnd 0 len]))).
    { unfold section. erewrite mb_reads0 by (apply reads_varuint; exact Hgl). cbn [Z.eqb].
      erewrite mb_reads0 by (apply reads_string; exact Hn). rewrite (u32_nat _ _ Hgl).
      erewrite mb_ok by reflexivity. cbn [W w_in w_stuck w_log]. unfold custom_section, seekg.
      unfold mbind, w_fail. cbn [w_in w_stuck s_eof s_rest orb]. replace (len <=? _) with false by lia.
      destruct (c_strict c); cbn [bind]; unfold emit, W; cbn [w_in w_stuck w_log s_offset]; rewrite <- !app_assoc; reflexivity. }
    destruct (c_strict c).
    + eapply (Stuck fu _ _ r). right. eexists. exact ES.
    + erewrite mb_ok by exact ES. cbn [sections W w_eof w_in s_eof]. unfold mbind at 1, varuint, on_stream. cbn [w_stuck w_in w_log].
      unfold uleb128. cbn [bind]. unfold lg. cbn. rewrite <- !app_assoc. reflexivity.
Qed.
Print Assumptions C88_cut_in_a_custom_section_partial.

(** Cases: a custom section "n" of length 5, cut at each of these places. *)
Example C88_custom_instance :
  enc_u32 5 [5] /\ enc_string 2000 [110] [1; 110] /\
  read_module (noop_cfg 2000 true) (wasm_header ++ [0]) = Throw InvalidSection /\
  read_module (noop_cfg 2000 true) (wasm_header ++ [0; 5; 1]) = Throw InvalidSection /\
  read_module (noop_cfg 2000 true) (wasm_header ++ [0; 5; 1; 110; 7]) = Throw InvalidSection /\
  read_module (noop_cfg 2000 false) (wasm_header ++ [0; 5; 1; 110; 7]) =
    Ok [EvModuleStart; EvHeader 1836278016 1; EvSectionStart 0 5 [110]; EvSectionEnd 0 5; EvModuleEnd].
Proof.
  conjs; try reflexivity.
  - repeat split; try (cbn; lia). repeat constructor; lia.
  - unfold enc_string, enc_vec. conjs; [|reflexivity|cbn; intuition discriminate].
    exists [1], [[110]]. conjs; [|repeat constructor; unfold is_byte; lia|reflexivity].
    repeat split; try (cbn; lia). repeat constructor; lia.
Qed.

(** * Inside the code of a body *)

(** Bytes already taken plus bytes left: no read makes it larger. *)
Definition end_of (s : wst) : Z := s_offset (w_in s) + Z.of_nat (length (s_rest (w_in s))).
Definition takes {A} (m : M A) : Prop := forall s a s', m s = Ok (a, s') -> end_of s' <= end_of s.
Definition takes_s {A} (f : stream -> outcome (A * stream)) : Prop := forall s a s', f s = Ok (a, s') ->
  s_offset s' + Z.of_nat (length (s_rest s')) <= s_offset s + Z.of_nat (length (s_rest s)).

Lemma takes_ret {A} (a : A) : takes (ret a).
Proof. intros s x s' [= _ <-]. lia. Qed.
Lemma takes_throw {A} e : takes (@throw A e).
Proof. intros s x s' E. discriminate. Qed.
Lemma takes_trap {A} t : takes (fun _ : wst => @Trap (A * wst) t).
Proof. intros s x s' E. discriminate. Qed.
Lemma takes_emit e : takes (emit e).
Proof. intros s x s' [= _ <-]. unfold end_of. cbn. lia. Qed.
Lemma takes_bind {A B} (m : M A) (k : A -> M B) : takes m -> (forall a, takes (k a)) -> takes (mbind m k).
Proof.
  intros Hm Hk s b s' E. unfold mbind in E. destruct (m s) as [[a s1]| | | |] eqn:E1; cbn [bind] in E; try discriminate.
  specialize (Hm _ _ _ E1). specialize (Hk a _ _ _ E). lia.
Qed.
Lemma takes_get : takes get.
Proof.
  intros s a s'. unfold get, end_of. destruct (w_stuck s); [intros [= _ <-]; lia|]. destruct (w_in s) as [[|b r] e o]; cbn;
    intros [= _ <-]; cbn [w_in s_offset s_rest length]; lia.
Qed.
Lemma takes_leb_loop fuel : forall sh v s b sh' v' s', leb_loop fuel sh v s = Ok (b, sh', v', s') ->
  s_offset s' + Z.of_nat (length (s_rest s')) = s_offset s + Z.of_nat (length (s_rest s)).
Proof.
  induction fuel as [|fuel IH]; intros sh v s b sh' v' s' E; cbn [leb_loop] in E; [discriminate|].
  destruct (63 <? sh); [discriminate|].
  assert (G : forall x s1, s_get s = (x, s1) -> s_offset s1 + Z.of_nat (length (s_rest s1)) = s_offset s + Z.of_nat (length (s_rest s))).
  { intros x s1. destruct s as [[|y r] e o]; cbn; intros [= _ <-]; cbn [s_offset s_rest length]; lia. }
  destruct (s_get s) as [x s1]. specialize (G x s1 eq_refl). destruct (_ && _).
  - apply IH in E. lia.
  - injection E as _ _ _ <-. exact G.
Qed.
Lemma takes_uleb : takes_s uleb128.
Proof.
  intros s a s' E. unfold uleb128 in E. destruct (leb_loop _ _ _ _) as [[[[b sh] v] s1]| | | |] eqn:E1; cbn [bind] in E; try discriminate.
  injection E as _ <-. apply takes_leb_loop in E1. lia.
Qed.
Lemma takes_leb : takes_s leb128.
Proof.
  intros s a s' E. unfold leb128 in E. destruct (leb_loop _ _ _ _) as [[[[b sh] v] s1]| | | |] eqn:E1; cbn [bind] in E; try discriminate.
  apply takes_leb_loop in E1. destruct (_ =? 0); [injection E as _ <-; lia|]. destruct (_ <=? _); [discriminate|].
  injection E as _ <-. lia.
Qed.
Lemma takes_stream {A} (f : stream -> outcome (A * stream)) : takes_s f -> takes (on_stream f).
Proof.
  intros Hf s a s'. unfold on_stream, end_of. destruct (w_stuck s).
  - destruct (f _) as [[? ?]| | | |]; cbn [bind]; try discriminate. intros [= _ <-]. lia.
  - destruct (f (w_in s)) as [[x i]| | | |] eqn:E; cbn [bind]; try discriminate. intros [= _ <-]. cbn [w_in]. exact (Hf _ _ _ E).
Qed.
Lemma takes_number n : takes (read_number n).
Proof.
  intros s a s'. unfold read_number, readNumber, s_read, end_of. destruct (w_stuck s); [discriminate|].
  destruct (_ <? _)%nat eqn:L; cbn [bind]; [discriminate|]. intros [= _ <-]. cbn [w_in s_offset s_rest]. rewrite skipn_length. lia.
Qed.
Lemma takes_alloc c n : takes (alloc c n).
Proof. unfold alloc. destruct (n <=? _); [apply takes_ret|apply takes_throw]. Qed.
Lemma takes_collect {A} (f : M A) : takes f -> forall n, takes (collect n f).
Proof.
  intros Hf. induction n as [|n IH]; cbn [collect]; [apply takes_ret|].
  apply takes_bind; [apply Hf|]. intros. apply takes_bind; [apply IH|intros; apply takes_ret].
Qed.
Lemma takes_expr c : takes (read_expr c).
Proof.
  unfold read_expr. apply takes_bind; [apply takes_get|]. intros op. destruct (op_kind op) as [k|]; [|apply takes_trap].
  apply takes_bind; [|intros; apply takes_ret].
  pose proof (takes_stream _ takes_uleb) as U. fold varuint in U. pose proof (takes_stream _ takes_leb) as V. fold varint in V.
  destruct k; cbn [read_imm]; repeat first [apply takes_ret | apply takes_get | apply takes_number | apply takes_alloc | exact U | exact V
    | apply takes_collect | apply takes_bind; [|intros ?]].
Qed.

(** Reading [size] bytes of instructions where there are fewer is never done with. *)
Lemma exprs_too_few c f : (forall e, takes (f e)) -> forall fuel start size s a s',
  end_of s < start + size -> expr_loop c fuel start size f s <> Ok (a, s').
Proof.
  intros Hf. induction fuel as [|fuel IH]; intros start size s a s' H E; cbn [expr_loop] in E; [discriminate|].
  unfold mbind in E. destruct (read_expr c s) as [[e s1]| | | |] eqn:E1; cbn [bind] in E; try discriminate.
  destruct (f e s1) as [[u s2]| | | |] eqn:E2; cbn [bind] in E; try discriminate.
  apply takes_expr in E1. apply Hf in E2.
  destruct (s_offset (w_in s2) - start <? size) eqn:L; [eapply IH; [|exact E]; lia|].
  unfold end_of in *. lia.
Qed.

(** The visitor reads the bodies with the library's ExprReader, whatever it does with the instructions
    (it does not read the stream itself). *)
Definition uses_expr_reader (c : wcfg) : Prop := forall i b s s', c_body c i b s = Ok (tt, s') ->
  exists c0 f, (forall e, takes (f e)) /\ read_exprs c0 (fb_size b) f s = Ok (tt, s').

(** If after the local variables of a body fewer bytes are left than the size of the body, the module is
    not accepted, whatever they are. *)
Theorem C88_cut_in_the_code_partial : forall c bev l bs la len gl n gn es size gs locals bl r,
  cut_case c bev l bs (SCode la) len gl n gn es -> uses_expr_reader c ->
  enc_u32 size gs -> enc_vec enc_local locals bl -> Z.of_nat (length r) < size ->
  forall evs, read_module c (cut_bytes bs (SCode la) gl gn es (gs ++ bl ++ r)) <> Ok evs.
Proof.
  intros c bev l bs la len gl n gn es size gs locals bl r H Hv Hs (gc & bs' & Hc & Hb & ->) Hr evs Er.
  destruct H as (H1 & H2 & H3 & H4 & H5 & H6 & H7). unfold cut_bytes in Er.
  destruct (reach_cut c bev l bs (SCode la) gl len n gn es (gs ++ (gc ++ concat bs') ++ r) H1 H2 H3 H4 H5 H6 H7) as (off & fu & _ & E).
  rewrite E in Er. clear E. unfold mbind at 1 2 in Er.
  assert (B : forall s', entry_reader c (SCode la) (entry_count (SCode la)) (W (gs ++ (gc ++ concat bs') ++ r) off (before bev l (SCode la) len n)) <> Ok (tt, s')).
  { intros s' E. cbn [entry_reader] in E. unfold function_body in E. rewrite <- app_assoc in E.
    erewrite mb_reads0 in E by (apply reads_varuint; exact Hs). erewrite mb_reads0 in E by (apply reads_varuint; exact Hc).
    unfold mbind at 1 in E. unfold alloc in E. destruct (_ <=? c_lim c); cbn [ret throw bind] in E; [|discriminate].
    rewrite Nat2Z.id in E.
    erewrite mb_reads0 in E.
    2:{ apply (reads_collect local_entry enc_local); [|exact Hb]. intros x b Hx. destruct Hx as (g & Hg & Ht & ->).
        unfold local_entry. eapply reads_bindq; [apply reads_varuint, Hg|]. cbv beta. rewrite (u32_nat _ _ Hg).
        rewrite <- (app_nil_r [lo_type x]). eapply reads_bindq; [apply reads_type, Ht|]. destruct x. apply reads_ret. }
    erewrite mb_ok in E by reflexivity. rewrite (u32_nat _ _ Hs) in E. cbn [W w_in w_stuck w_log] in E.
    unfold mbind in E. destruct (c_body c _ _ _) as [[[] s2]| | | |] eqn:E2; cbn [bind] in E; try discriminate.
    destruct (Hv _ _ _ _ E2) as (c0 & f & Hf & E3). unfold read_exprs in E3. cbn [fb_size] in E3.
    eapply (exprs_too_few c0 f Hf); [|exact E3]. unfold end_of. cbn [w_in s_offset s_rest]. lia. }
  destruct (entry_reader c (SCode la) _ _) as [[[] s1]| | | |]; cbn [bind] in Er; try discriminate. now apply (B s1).
Qed.
Print Assumptions C88_cut_in_the_code_partial.

(** The visitor of ab-disasm is one. *)
Lemma disasm_uses_expr_reader lim strict : uses_expr_reader (disasm_cfg lim strict).
Proof.
  intros i b s s' E. cbn [disasm_cfg c_body] in E. unfold disasm_body in E. destruct (_ <=? i); [discriminate|].
  exists (mkCfg lim false noop_body), print_expr. split; [|exact E].
  intros e. unfold print_expr. destruct (e_imm e); try apply takes_emit. destruct (_ && _); [apply takes_throw|apply takes_emit].
Qed.
Corollary C88_disasm_cut_in_the_code_partial : forall lim strict bev l bs la len gl n gn es size gs locals bl r,
  cut_case (disasm_cfg lim strict) bev l bs (SCode la) len gl n gn es ->
  enc_u32 size gs -> enc_vec enc_local locals bl -> Z.of_nat (length r) < size ->
  forall evs, read_module (disasm_cfg lim strict) (cut_bytes bs (SCode la) gl gn es (gs ++ bl ++ r)) <> Ok evs.
Proof. intros. eapply C88_cut_in_the_code_partial; eauto using disasm_uses_expr_reader. Qed.
Print Assumptions C88_disasm_cut_in_the_code_partial.

(** A case: a function, and its body without local variables that has two instructions of the four announced. *)
Example C88_code_instance :
  let c := disasm_cfg 2000 true in
  cut_case c (fun _ _ => []) [(SFunction [0], 2)] [[3; 2; 1; 0]] (SCode []) 7 [7] 1 [1] [] /\
  enc_u32 5 [5] /\ enc_vec enc_local [] [0] /\
  read_module c (cut_bytes [[3; 2; 1; 0]] (SCode []) [7] [1] [] ([5] ++ [0] ++ [1; 1])) = Trap Exit.
Proof.
  assert (forall v, 0 <= v < 128 -> enc_u32 v [v]) as S.
  { intros v Hv. repeat split; try (cbn; lia). repeat constructor; lia. }
  cbv zeta. conjs.
  - unfold cut_case. split; [|split; [|split; [|split; [|split; [|split]]]]].
    + constructor; [|constructor]. exists [2], [1; 0]. split; [apply S; lia|]. split; [reflexivity|]. split; [|reflexivity].
      cbn [enc_payload fst]. exists [1], [[0]]. split; [apply S; cbn; lia|]. split; [|reflexivity].
      constructor; [apply S; lia|constructor].
    + constructor; [constructor|constructor].
    + constructor.
    + apply S. lia.
    + apply S. lia.
    + cbn. exists []. split; [constructor|reflexivity].
    + cbn. lia.
  - apply S. lia.
  - exists [0], []. conjs; [apply S; cbn; lia|constructor|reflexivity].
  - vm_compute. reflexivity.
Qed.
