(** Property theorems about reading WebAssembly modules (C86-C97). *)

From Coq Require Import ZArith List Lia Bool ZifyBool ZifyNat.
From Verif Require Import Outcome LebSpec VarIntModel VarIntProofs StreamModel WasmModel WasmSpec WasmProofs.
Import ListNotations.
Local Open Scope Z_scope.

(** C86: a module made of type, import, function, global, export, element, code and data sections
    in any number and order, spelled in any way the format allows, is reported exactly: every
    entry, in order, with its values, and nothing else.  (For a code section the visitor must take
    the code of each body, which is its job.) *)
Theorem C86_modules_read_back :
  forall lim strict visit_body bev l bs,
    Forall2 (fun p b => enc_section lim (fst p) (snd p) b) l bs ->
    Forall (fun p => Forall (takes_code visit_body bev) (bodies_of (fst p))) l ->
    read_module (mkCfg lim strict visit_body) (wasm_header ++ concat bs) = Ok (module_events bev l).
Proof.
  intros lim strict vb bev l bs H Hb. rewrite module_after_header.
  destruct (sections_ok (mkCfg lim strict vb) bev l bs H Hb (2 + length (concat bs)) 8
              [EvModuleStart; EvHeader 1836278016 1]) as (s & E & El); [lia|].
  rewrite E. cbn [bind]. rewrite El. unfold module_events. now rewrite <- !app_assoc.
Qed.
Print Assumptions C86_modules_read_back.

(** A module: one function type (i32) -> i32, an import, the function, an export, a global, a
    segment of data, one body; a visitor that takes the one byte of code. *)
Definition take_one (i : Z) (b : fbody) : M unit := x <~ get; emit (EvExpr (mkExpr x INone)).
Example C86_instance :
  read_module (mkCfg 100 true take_one)
    (wasm_header ++
     [1; 6; 1; 96; 1; 127; 1; 127] ++
     [2; 7; 1; 1; 109; 1; 102; 0; 0] ++
     [3; 2; 1; 0] ++
     [6; 6; 1; 127; 1; 65; 127; 11] ++
     [7; 0x85; 0; 1; 1; 120; 0; 0] ++
     [10; 6; 1; 4; 1; 2; 126; 11] ++
     [11; 8; 1; 0; 65; 8; 11; 2; 7; 0])
  = Ok ([EvModuleStart; EvHeader 1836278016 1] ++
        [EvSectionStart 1 6 []; EvTypeSection 1; EvFunctionType (mkFtype [127] (Some 127)); EvSectionEnd 1 6] ++
        [EvSectionStart 2 7 []; EvImportSection 1; EvImport [109] [102] (ImFunction 0); EvSectionEnd 2 7] ++
        [EvSectionStart 3 2 []; EvFunction 0 0; EvSectionEnd 3 2] ++
        [EvSectionStart 6 6 []; EvGlobal (mkGtype 127 true) (mkExpr 65 (IVarint (-1))); EvSectionEnd 6 6] ++
        [EvSectionStart 7 5 []; EvExport [120] 0 0; EvSectionEnd 7 5] ++
        [EvSectionStart 10 6 []; EvBody 0 (mkBody [mkLocal 2 126] 4); EvExpr (mkExpr 11 INone); EvBodyEnd; EvSectionEnd 10 6] ++
        [EvSectionStart 11 8 []; EvData 0 (mkExpr 65 (IVarint 8)) [7; 0]; EvSectionEnd 11 8] ++
        [EvModuleEnd]).
Proof. vm_compute. reflexivity. Qed.
(** ... which meets the hypotheses: *)
Lemma small_u32 v : 0 <= v < 128 -> enc_u32 v [v].
Proof. intros H. repeat split; try lia; [now constructor|cbn; lia|cbn; rewrite Z.mod_small; lia]. Qed.
Example C86_hypotheses :
  Forall2 (fun p b => enc_section 100 (fst p) (snd p) b)
    [(SFunction [0], 2); (SCode [mkBodyS [mkLocal 2 126] [11] 4], 6)] [[3; 2; 1; 0]; [10; 6; 1; 4; 1; 2; 126; 11]] /\
  Forall (fun p => Forall (takes_code take_one (fun _ _ => [EvExpr (mkExpr 11 INone)])) (bodies_of (fst p)))
    [(SFunction [0], 2); (SCode [mkBodyS [mkLocal 2 126] [11] 4], 6)].
Proof.
  split.
  - constructor; [|constructor; [|constructor]]; cbn [fst snd].
    + exists [2], [1; 0]. conjs; try reflexivity; [apply small_u32; lia|].
      exists [1], [[0]]. conjs; [apply small_u32; cbn; lia| |reflexivity]. constructor; [apply small_u32; lia|constructor].
    + exists [6], [1; 4; 1; 2; 126; 11]. conjs; try reflexivity; [apply small_u32; lia|].
      exists [1], [[4; 1; 2; 126; 11]]. conjs; [apply small_u32; cbn; lia| |reflexivity]. constructor; [|constructor].
      exists [4], [1; 2; 126]. split; [apply small_u32; cbn; lia|]. split; [|split; [cbn; lia|split; reflexivity]].
      exists [1], [[2; 126]]. conjs; [apply small_u32; cbn; lia| |reflexivity]. constructor; [|constructor].
      exists [2]. split; [apply small_u32; cbn; lia|split; [unfold is_byte; cbn; lia|reflexivity]].
  - constructor; [constructor|]. constructor; [|constructor]. constructor; [|constructor].
    intros i post off log. reflexivity.
Qed.

(** C87: an input that does not start with the magic number and version is refused, before
    anything else is looked at; the four bytes of the version may however be cut short. *)
Definition header_like (input : bytes) : Prop :=
  (exists rest, input = wasm_header ++ rest) \/
  input = [0; 97; 115; 109; 1] \/ input = [0; 97; 115; 109; 1; 0] \/ input = [0; 97; 115; 109; 1; 0; 0].
Lemma uint4_at r o log :
  uint 4 (mkW (mkStream r false o) false log) =
  if 4 <=? Z.of_nat (length r)
  then Ok (le_value (firstn 4 r), mkW (mkStream (skipn 4 r) false (o + 4)) false log)
  else Ok (le_value r, mkW (mkStream [] true (o + Z.of_nat (length r))) false log).
Proof. unfold uint, mbind, in_read, w_fail. cbn [w_in w_stuck s_eof s_rest s_offset w_log orb]. destruct (_ <=? _); reflexivity. Qed.
Theorem C87_wrong_header_refused :
  forall c input, is_bytes input -> ~ header_like input -> read_module c input = Throw InvalidHeader.
Proof.
  intros c input Hb Hn. unfold read_module, module. unfold mbind at 1. cbn [emit bind w_in w_stuck w_log app].
  unfold mbind at 1.
  enough (E : header (mkW (mkStream input false 0) false [EvModuleStart]) = Throw InvalidHeader) by (rewrite E; reflexivity).
  unfold header, mbind at 1. rewrite uint4_at.
  unfold is_bytes, is_byte in Hb. unfold header_like, wasm_header in Hn.
  assert (Hfour : forall a b d e : Z, 0 <= a < 256 -> 0 <= b < 256 -> 0 <= d < 256 -> 0 <= e < 256 ->
            le_value [a; b; d; e] = 1836278016 -> a = 0 /\ b = 97 /\ d = 115 /\ e = 109) by (cbn [le_value]; intros; lia).
  assert (Hone : forall a b d e : Z, 0 <= a < 256 -> 0 <= b < 256 -> 0 <= d < 256 -> 0 <= e < 256 ->
            le_value [a; b; d; e] = 1 -> a = 1 /\ b = 0 /\ d = 0 /\ e = 0) by (cbn [le_value]; intros; lia).
  destruct (4 <=? Z.of_nat (length input)) eqn:El; cbn [bind].
  2: { replace (le_value input =? 1836278016) with false; [reflexivity|].
       destruct input as [|a [|b [|d [|e input]]]]; cbn [length] in El; try lia;
       repeat match goal with H : Forall _ (_ :: _) |- _ => inversion H; clear H; subst end; cbn [le_value]; lia. }
  destruct input as [|a [|b [|d [|e input]]]]; try discriminate El. clear El. cbn [firstn skipn].
  inversion Hb as [|? ? Ha Hb1]; subst. inversion Hb1 as [|? ? Hb' Hb2]; subst. inversion Hb2 as [|? ? Hd Hb3]; subst. inversion Hb3 as [|? ? He Hb4]; subst.
  destruct (le_value [a; b; d; e] =? 1836278016) eqn:Em; [|reflexivity]. cbn [negb].
  apply Z.eqb_eq in Em. destruct (Hfour a b d e Ha Hb' Hd He Em) as (-> & -> & -> & ->). clear Em Hfour Ha Hb' Hd He Hb1 Hb2 Hb3 Hb.
  unfold mbind at 1. rewrite uint4_at. destruct (4 <=? Z.of_nat (length input)) eqn:El; cbn [bind].
  2: { replace (le_value input =? 1) with false; [reflexivity|]. symmetry. apply Z.eqb_neq. intros C. apply Hn. right.
       destruct input as [|a [|b [|d [|e input]]]]; cbn [length] in El; try lia;
       repeat match goal with H : Forall _ (_ :: _) |- _ => inversion H; clear H; subst end; cbn [le_value] in C.
       - lia.
       - assert (a = 1) by lia. subst. tauto.
       - assert (a = 1) by lia. assert (b = 0) by lia. subst. tauto.
       - assert (a = 1) by lia. assert (b = 0) by lia. assert (d = 0) by lia. subst. tauto. }
  destruct input as [|a [|b [|d [|e input]]]]; try discriminate El. clear El. cbn [firstn skipn].
  inversion Hb4 as [|? ? Ha' Hb1']; subst. inversion Hb1' as [|? ? Hb'' Hb2']; subst. inversion Hb2' as [|? ? Hd' Hb3']; subst. inversion Hb3' as [|? ? He' Hb4']; subst.
  destruct (le_value [a; b; d; e] =? 1) eqn:Em; [|reflexivity].
  apply Z.eqb_eq in Em. destruct (Hone a b d e Ha' Hb'' Hd' He' Em) as (-> & -> & -> & ->).
  exfalso. apply Hn. left. exists input. reflexivity.
Qed.
Print Assumptions C87_wrong_header_refused.
Example C87_instance : ~ header_like [0; 97; 115; 109; 2; 0; 0; 0] /\ is_bytes [0; 97; 115; 109; 2; 0; 0; 0] /\
  read_module (noop_cfg 10 true) wasm_header = Ok [EvModuleStart; EvHeader 1836278016 1; EvModuleEnd].
Proof.
  conjs; [|repeat constructor; cbn; try lia; auto|reflexivity].
  intros [(r & H)|[H|[H|H]]]; discriminate.
Qed.

(** C88 is false of the code: what is missing from the end of the input is made up instead of
    being reported.  Five bytes of a header are a whole module, and for every n there is an input
    of at most 15 bytes, with no function entry in it at all, for which n entries are reported. *)
Theorem C88_truncated_header_accepted_refuted :
  read_module (noop_cfg 10 true) [0; 97; 115; 109; 1] = Ok [EvModuleStart; EvHeader 1836278016 1; EvModuleEnd].
Proof. vm_compute. reflexivity. Qed.
Print Assumptions C88_truncated_header_accepted_refuted.
Theorem C88_truncated_section_refuted :
  forall c n, 0 < n < 2 ^ 32 -> exists input evs,
    (length input <= 15)%nat /\ read_module c input = Ok evs /\
    filter is_function evs = map (fun k => EvFunction (Z.of_nat k) 127) (seq 0 (Z.to_nat n)).
Proof.
  intros c n Hn. destruct (append_varuint32_spec n) as (g & _ & Hs & Hv & Hl & _). rewrite Z.mod_small in Hv by lia.
  assert (Hg : enc_u32 n g) by (repeat split; auto; lia).
  exists (wasm_header ++ [3; 1] ++ g).
  rewrite module_after_header. set (f := (2 + length ([3; 1] ++ g)%Z)%nat).
  assert (Ef : exists f', f = S (S f')) by (exists (length ([3; 1] ++ g)); reflexivity). destruct Ef as (f' & ->).
  assert (E : exists s, sections c (S (S f')) (W ([3; 1] ++ g) 8 [EvModuleStart; EvHeader 1836278016 1]) = Ok (tt, s) /\
    w_log s = [EvModuleStart; EvHeader 1836278016 1; EvSectionStart 3 1 []] ++
              map (fun k => EvFunction (Z.of_nat k) 127) (seq 0 (Z.to_nat n)) ++ [EvSectionEnd 3 1]).
  { cbn [sections]. cbn [W w_eof w_in s_eof]. unfold mbind at 1.
    change ([3; 1] ++ g) with ([3] ++ ([1] ++ g)).
    fold (W ([3] ++ ([1] ++ g)) 8 [EvModuleStart; EvHeader 1836278016 1]).
    rewrite (reads_varuint1 3) by lia. cbn [bind]. cbn [W w_eof w_in s_eof].
    fold (W ([1] ++ g) (8 + Z.of_nat (length [3])) ([EvModuleStart; EvHeader 1836278016 1] ++ [])).
    unfold mbind at 1. unfold section. change (u8 3) with 3. unfold mbind at 1. rewrite (reads_varuint1 1) by lia. cbn [bind].
    unfold mbind at 1. cbn [Z.eqb Pos.eqb ret bind]. unfold mbind at 1.
    unfold emit at 1. cbn [bind W w_in w_stuck w_log].
    unfold mbind at 1. unfold function_section at 1, mbind at 1.
    match goal with |- context [varuint (mkW (mkStream g false ?o) false ?l)] =>
      replace (varuint (mkW (mkStream g false o) false l)) with (varuint (W (g ++ []) o l)) by (unfold W; now rewrite app_nil_r) end.
    rewrite (reads_varuint n g Hg). cbn [bind].
    unfold for_count. match goal with |- context [W [] ?o ?l] => destruct (function_entries_end (Z.to_nat n) o l) as (s & -> & Hlog & Hst & Hr) end.
    cbn [bind emit]. destruct s as [[r eo o] st lg]. unfold rest_of in Hr. cbn [w_in s_rest w_stuck w_log] in *. subst r st.
    destruct eo; cbn [w_eof w_in s_eof].
    - eexists. split; [reflexivity|]. cbn [w_log]. rewrite Hlog. cbn [app]. rewrite ?app_nil_r, <- ?app_assoc. reflexivity.
    - unfold mbind. fold (W [] o (lg ++ [EvSectionEnd 3 (u32 1)])). rewrite varuint_end. cbn [bind w_eof w_in s_eof].
      eexists. split; [reflexivity|]. cbn [w_log]. rewrite Hlog. cbn [app]. rewrite ?app_nil_r, <- ?app_assoc. reflexivity. }
  destruct E as (s & E & Hlog). rewrite E. cbn [bind]. eexists. split; [|split; [reflexivity|]].
  - rewrite !app_length. cbn [length wasm_header]. lia.
  - rewrite Hlog. rewrite !filter_app. cbn [filter is_function app]. rewrite !app_nil_r.
    clear. induction (seq 0 (Z.to_nat n)); cbn; congruence.
Qed.
Print Assumptions C88_truncated_section_refuted.
Example C88_instance : read_module (noop_cfg 10 true) (wasm_header ++ [3; 3; 3; 5; 6]) =
  Ok [EvModuleStart; EvHeader 1836278016 1; EvSectionStart 3 3 []; EvFunction 0 5; EvFunction 1 6; EvFunction 2 127;
      EvSectionEnd 3 3; EvModuleEnd].
Proof. vm_compute. reflexivity. Qed.

(** C89 is false of the code: table, memory and start sections are announced and then not read, so
    that their contents are taken for the next section.  Three well-formed modules: a table
    (funcref, minimum 1), a memory (minimum 1) and a start function 0; each is refused. *)
Theorem C89_table_memory_start_refuted :
  forall strict,
  read_module (noop_cfg 1000 strict) (wasm_header ++ [4; 4; 1; 112; 0; 1]) = Throw BadNumber /\
  read_module (noop_cfg 1000 strict) (wasm_header ++ [5; 3; 1; 0; 1]) = Throw ReaderError /\
  read_module (noop_cfg 1000 strict) (wasm_header ++ [8; 1; 0]) = Throw InvalidSection.
Proof. intros []; vm_compute; auto. Qed.
Print Assumptions C89_table_memory_start_refuted.

(** C90 is false of the code: after the name of a custom section has been read, the whole length of
    the section, name included, is skipped: the reader goes on that many bytes too far. *)
Theorem C90_custom_section_refuted :
  forall c name bn gl payload post off log,
    enc_string (c_lim c) name bn -> enc_u32 (Z.of_nat (length bn + length payload)) gl -> (length bn <= length post)%nat ->
    section c 0 (mkW (mkStream (gl ++ bn ++ payload ++ post) false off) false log)
    = Ok (tt, mkW (mkStream (skipn (length bn) post) false
                     (off + Z.of_nat (length gl + length bn + length payload + length bn))) false
                  (log ++ [EvSectionStart 0 (Z.of_nat (length bn + length payload)) name;
                           EvSectionEnd 0 (Z.of_nat (length bn + length payload))])).
Proof.
  intros c name bn gl payload post off log Hn Hg Hl. fold (W (gl ++ bn ++ payload ++ post) off log).
  unfold section, mbind at 1. rewrite (reads_varuint _ _ Hg). cbn [bind]. cbn [Z.eqb]. unfold mbind at 1.
  rewrite (reads_string c name bn Hn). cbn [bind]. unfold mbind at 1, emit at 1. cbn [bind]. unfold mbind, custom_section, seekg.
  rewrite (u32_nat _ _ Hg). cbn [W w_fail w_in w_stuck s_eof s_rest s_offset w_log]. unfold w_fail. cbn [w_in w_stuck s_eof orb].
  replace (_ <=? _) with true by (rewrite app_length; lia). cbn [bind emit w_in w_stuck w_log].
  rewrite Nat2Z.id. rewrite skipn_app. rewrite (skipn_all2 payload) by lia. cbn [app].
  replace (length bn + length payload - length payload)%nat with (length bn) by lia.
  rewrite <- !app_assoc. cbn [app].
  replace (off + Z.of_nat (length gl) + Z.of_nat (length bn) + Z.of_nat (length bn + length payload))
    with (off + Z.of_nat (length gl + length bn + length payload + length bn)) by lia. unfold emit. cbn [w_in w_stuck w_log]. rewrite <- app_assoc. reflexivity.
Qed.
Print Assumptions C90_custom_section_refuted.
(** A custom section "n" with no contents and then a type section: the type section is not seen. *)
Example C90_instance :
  read_module (noop_cfg 10 true) (wasm_header ++ [0; 2; 1; 110] ++ [1; 4; 1; 96; 0; 0]) <>
  Ok ([EvModuleStart; EvHeader 1836278016 1; EvSectionStart 0 2 [110]; EvSectionEnd 0 2] ++
      [EvSectionStart 1 4 []; EvTypeSection 1; EvFunctionType (mkFtype [] None); EvSectionEnd 1 4; EvModuleEnd]) /\
  (exists gl, enc_u32 2 gl) /\ enc_string 10 [110] [1; 110].
Proof.
  conjs; [vm_compute; discriminate|exists [2]; apply small_u32; lia|].
  unfold enc_string. conjs; [|cbn; lia|cbn; intuition lia]. exists [1], [[110]]. conjs; [apply small_u32; cbn; lia| |reflexivity].
  constructor; [split; [unfold is_byte; lia|reflexivity]|constructor].
Qed.

(** C91: whatever the bytes, reading them ends: normally, with an exception, or (on a byte that is
    no opcode) with the end of the process; and unless the input has nine bytes above 127 in a
    row its behaviour is defined.  Both for a visitor that ignores function bodies ... *)
Theorem C91_reading_ends :
  forall lim strict input, is_bytes input ->
    match read_module (noop_cfg lim strict) input with
    | Ok _ | Throw _ => True
    | Trap t => t = Exit
    | UB _ => ~ nine_free input
    | OutOfFuel => False
    end.
Proof.
  intros lim strict input Hb.
  pose proof (module_settled false (noop_cfg lim strict) input (fun i b => tame_ret false tt) Hb) as H.
  destruct (read_module _ input); cbn in *; auto. destruct H; [discriminate|assumption].
Qed.
Print Assumptions C91_reading_ends.
(** ... and for ab-disasm, except for what its own table of types can do (C97). *)
Theorem C91_disassembly_ends :
  forall lim strict input, is_bytes input ->
    match read_module (disasm_cfg lim strict) input with
    | OutOfFuel => False | Trap t => t = Exit | _ => True
    end.
Proof.
  intros lim strict input Hb.
  assert (Hv : forall i b, tame true (c_body (disasm_cfg lim strict) i b)).
  { intros i b s Hs Hb'. cbn [c_body disasm_cfg]. unfold disasm_body. destruct (_ <=? i); [left; reflexivity|].
    unfold read_exprs. apply tame_expr_loop; auto.
    intros e. unfold print_expr. destruct (e_imm e); try apply tame_emit. destruct (_ && _); [apply tame_throw|apply tame_emit]. }
  pose proof (module_settled true (disasm_cfg lim strict) input Hv Hb) as H.
  destruct (read_module _ input); cbn in *; auto.
Qed.
Print Assumptions C91_disassembly_ends.
Example C91_instance : nine_free (wasm_header ++ [1; 4; 1; 96; 0; 0]) /\ is_bytes (wasm_header ++ [1; 4; 1; 96; 0; 0]).
Proof.
  split; [|repeat constructor; cbn; try lia; auto].
  intros pre mid post E Hl Hf. assert (Hx : Forall (fun x => x < 128) (wasm_header ++ [1; 4; 1; 96; 0; 0])) by (repeat constructor).
  rewrite E in Hx. apply Forall_app in Hx. destruct Hx as (_ & Hx). apply Forall_app in Hx. destruct Hx as (Hx & _).
  destruct mid as [|m mid]; [discriminate|]. inversion Hx; inversion Hf; subst. lia.
Qed.

(** C92 is false of the code: a string whose length is 2^64 - 1 gets an empty buffer, and the
    terminator is then written in front of it. *)
Theorem C92_string_length_refuted :
  forall lim strict, read_module (noop_cfg lim strict) (wasm_header ++ [2; 0; 1] ++ repeat 255 9 ++ [1]) = UB OutOfBounds.
Proof. intros. vm_compute. reflexivity. Qed.
Print Assumptions C92_string_length_refuted.

(** C93 is false of the code: a byte that is no opcode, in any place where an expression is
    expected, ends the whole process instead of being reported as a ReaderError. *)
Theorem C93_unknown_opcode_refuted :
  forall lim strict op rest, is_byte op ->
    6 <= op <= 10 \/ 18 <= op <= 25 \/ 28 <= op <= 31 \/ 37 <= op <= 39 \/ 192 <= op ->
    read_module (noop_cfg lim strict) (wasm_header ++ [6; 4; 1; 127; 0; op] ++ rest) = Trap Exit.
Proof.
  intros lim strict op rest Hb Hop. rewrite module_after_header. cbn [app Nat.add length sections].
  cbn [W w_eof w_in s_eof]. unfold mbind at 1.
  change (6 :: 4 :: 1 :: 127 :: 0 :: op :: rest) with ([6] ++ [4] ++ [1] ++ [127] ++ [0] ++ [op] ++ rest).
  fold (W ([6] ++ [4] ++ [1] ++ [127] ++ [0] ++ [op] ++ rest) 8 [EvModuleStart; EvHeader 1836278016 1]).
  rewrite (reads_varuint1 6) by lia. cbn [bind W w_eof w_in s_eof]. 
  unfold mbind at 1. unfold section. change (u8 6) with 6. unfold mbind at 1.
  try match goal with |- context [varuint (mkW (mkStream ?r false ?o) false ?l)] => fold (W r o l) end.
  rewrite (reads_varuint1 4) by lia. cbn [bind]. unfold mbind at 1. cbn [Z.eqb Pos.eqb orb ret bind]. unfold mbind at 1.
  unfold emit at 1. cbn [bind W w_in w_stuck w_log]. unfold mbind at 1. unfold global_section, mbind at 1.
  try match goal with |- context [varuint (mkW (mkStream ?r false ?o) false ?l)] => fold (W r o l) end.
  rewrite (reads_varuint1 1) by lia. cbn [bind]. unfold for_count. change (Z.to_nat 1) with 1%nat. cbn [iter]. unfold mbind at 1. unfold mbind at 1.
  change ([127] ++ [0] ++ [op] ++ rest) with ([127; 0] ++ [op] ++ rest).
  rewrite (reads_gtype (mkGtype 127 false) [127; 0]) by (split; [unfold is_byte; cbn; lia|reflexivity]). cbn [bind].
  unfold mbind at 1. unfold init_expr, mbind at 1. unfold read_expr, mbind at 1. rewrite (reads_get op). cbn [bind].
  replace (op_kind op) with (@None imm_kind); [reflexivity|].
  unfold is_byte in Hb. unfold op_kind.
  repeat match goal with |- context [if ?x then _ else _] => replace x with false by lia end. reflexivity.
Qed.
Print Assumptions C93_unknown_opcode_refuted.

(** C94: a sequence of instructions, spelled in any way the format allows, is read back exactly,
    one expression each, and exactly its bytes are taken (memory.size, memory.grow and the
    conversions, and 64-bit constants in ten bytes, excepted: C95, C44). *)
Theorem C94_instructions_read_back :
  forall c es bs post off log, Forall2 (enc_instr (c_lim c)) es bs -> es <> [] ->
    read_exprs c (Z.of_nat (length (concat bs))) (fun e => emit (EvExpr e))
      (mkW (mkStream (concat bs ++ post) false off) false log)
    = Ok (tt, mkW (mkStream post false (off + Z.of_nat (length (concat bs)))) false (log ++ map EvExpr es)).
Proof.
  intros c es bs post off log H Hne. unfold read_exprs. cbn [w_in s_rest s_offset].
  pose proof (expr_loop_ok c (fun e => emit (EvExpr e)) (fun e => [EvExpr e]) off (Z.of_nat (length (concat bs))) es bs H Hne) as E.
  unfold W in E. rewrite E; [|intros; apply reads_emit|lia|rewrite app_length; lia].
  reflexivity.
Qed.
Print Assumptions C94_instructions_read_back.

(** br_if 300 with a padded number, i32.const -1, f32.const, end *)
Example C94_instance :
  Forall2 (enc_instr 100) [mkExpr 13 (IVaruint 300); mkExpr 65 (IVarint (-1)); mkExpr 67 (IBits 1065353216); mkExpr 11 INone]
    [[13; 172; 130; 0]; [65; 127]; [67; 0; 0; 128; 63]; [11]].
Proof.
  constructor; [|constructor; [|constructor; [|constructor; [|constructor]]]].
  - apply (In_index 100 13 300 [172; 130; 0]); [lia|]. unfold enc_u32. conjs; try lia; [|cbn; lia|reflexivity].
    constructor; [lia|]. constructor; [lia|]. constructor; lia.
  - apply (In_i32 100 (-1) [127]). unfold enc_s. conjs; [constructor; lia|cbn; lia|reflexivity].
  - apply (In_f32 100 1065353216). lia.
  - constructor. unfold nullary_op. lia.
Qed.

(** C95 is false of the code: memory.size, memory.grow and the conversions are instructions of the
    format but no opcodes of the reader: after any instructions it knows, the process ends. *)
Theorem C95_memory_and_conversions_refuted :
  forall c es bs b post off log size, Forall2 (enc_instr (c_lim c)) es bs -> enc_other_instr b ->
    Z.of_nat (length (concat bs)) < size ->
    read_exprs c size (fun e => emit (EvExpr e)) (mkW (mkStream (concat bs ++ b ++ post) false off) false log)
    = Trap Exit.
Proof.
  intros c es bs b post off log size H Hb Hs. unfold read_exprs. cbn [w_in s_rest s_offset].
  assert (E : exists op b', b = op :: b' /\ op_kind op = None).
  { destruct Hb as [op Ho|op Ho]; [exists op, [0]|exists op, []]; split; try reflexivity.
    - destruct Ho as [-> | ->]; reflexivity.
    - unfold op_kind. repeat match goal with |- context [if ?x then _ else _] => replace x with false by lia end. reflexivity. }
  destruct E as (op & b' & -> & Eo).
  remember (S (length (concat bs ++ (op :: b') ++ post))) as fuel eqn:Ef.
  assert (Hf : (length (concat bs) < fuel)%nat) by (rewrite app_length in Ef; lia). clear Ef.
  assert (Hs' : off - off + Z.of_nat (length (concat bs)) < size) by lia. clear Hs.
  revert fuel log Hf Hs'. generalize off at 1 4 as o.
  induction H as [|e b0 es bs He H IH]; intros o fuel log Hf Hs.
  - destruct fuel as [|fuel]; [lia|]. cbn [expr_loop concat app]. unfold mbind at 1. unfold read_expr, mbind at 1.
    pose proof (reads_get op (b' ++ post) o log) as G. unfold W in G. cbn [app] in G. rewrite G. cbn [bind]. rewrite Eo. reflexivity.
  - destruct fuel as [|fuel]; [lia|]. cbn [expr_loop concat]. unfold mbind at 1. rewrite <- app_assoc.
    fold (W (b0 ++ (concat bs ++ (op :: b') ++ post)) o log). rewrite (reads_expr c e b0 He). cbn [bind].
    unfold mbind at 1, emit at 1. cbn [bind W w_in w_stuck w_log s_offset].
    cbn [concat] in Hf, Hs. rewrite app_length in Hf, Hs.
    destruct (enc_instr_cons _ _ _ He) as (x & b1 & ->). cbn [length] in *.
    replace (o + Z.of_nat (S (length b1)) - off <? size) with true by lia.
    apply IH; lia.
Qed.
Print Assumptions C95_memory_and_conversions_refuted.
(** nop; i32.wrap_i64 *)
Example C95_instance : Forall2 (enc_instr 0) [mkExpr 1 INone] [[1]] /\ enc_other_instr [167].
Proof. split; [|constructor; lia]. constructor; [|constructor]. constructor. unfold nullary_op. lia. Qed.

(** C96 is false of the code: ab-disasm takes the size of a function body, which counts its local
    variables, for the size of its code.  A module with a function and its body, correct in every
    way, is never disassembled: the process exits at the end of the input. *)
Definition plain_block_types (e : expr) : Prop := forall t, e_imm e = IType t -> e_op e = 2 -> In t [127; 126; 125; 124; 112; 96; 64].
Theorem C96_disassembly_refuted :
  forall lim strict l bs t ts n x len b es cs,
    Forall2 (fun p b => enc_section lim (fst p) (snd p) b) l bs ->
    Forall (fun p => bodies_of (fst p) = []) l -> In (SFunction (t :: ts), n) l ->
    enc_section lim (SCode [x]) len b ->
    Forall2 (enc_instr lim) es cs -> bs_code x = concat cs -> Forall plain_block_types es ->
    read_module (disasm_cfg lim strict) (wasm_header ++ concat bs ++ b) = Trap Exit.
Proof.
  intros lim strict l bs t ts n x len b es cs H Hn Hin Hb He Ec Hp.
  destruct (module_first_body (disasm_cfg lim strict) l bs x [] len b H Hn Hb) as (t' & off & log & k & Ht & Hlog & ->).
  rewrite (Ht eq_refl), app_nil_r. cbn [c_body disasm_cfg]. unfold disasm_body. cbn [W w_log].
  replace (_ <=? 0) with false; cycle 1.
  { rewrite Hlog. symmetry. apply Z.leb_gt. 
    assert (Hi : In (EvFunction 0 t) (filter is_function (flat_map (section_events (fun _ _ => [])) l))).
    { apply filter_In. split; [|reflexivity]. apply in_flat_map. exists (SFunction (t :: ts), n). split; [exact Hin|].
      unfold section_events. cbn. auto. }
    revert Hi. generalize (filter is_function (flat_map (section_events (fun _ _ => [])) l)).
    intros [|? ?] Hi; [destruct Hi|cbn [length]; lia]. }
  assert (Hsz : Z.of_nat (length (bs_code x)) < bs_size x).
  { destruct Hb as (gl & p & _ & _ & (g & bs' & _ & Hbs & _) & _). inversion Hbs as [|? ? ? ? Hx]; subst.
    destruct Hx as (gs & bl & _ & (g' & bs2 & Hg' & _ & ->) & _ & -> & _). rewrite app_length.
    destruct Hg' as (Hs & _). inversion Hs; subst; cbn [length]; lia. }
  unfold read_exprs. cbn [fb_size W w_in s_rest s_offset]. fold (W (bs_code x) off log). rewrite Ec in *.
  rewrite (expr_loop_overrun (mkCfg lim false noop_body) print_expr (fun e => [EvExpr e]) off (bs_size x) es cs He); [reflexivity| |lia|lia].
  intros e Hie. rewrite Forall_forall in Hp. specialize (Hp e Hie). unfold print_expr, plain_block_types in *.
  destruct (e_imm e) as [|ty| | | | | |]; try apply reads_emit.
  destruct (e_op e =? 2) eqn:E2; cbn [andb]; [|apply reads_emit].
  replace (known_type ty) with true; [apply reads_emit|]. symmetry. unfold known_type. apply existsb_exists. exists ty.
  split; [apply Hp; [reflexivity|lia]|apply Z.eqb_refl].
Qed.
Print Assumptions C96_disassembly_refuted.
(** The smallest program: one type, one function, one body that is just end. *)
Example C96_instance :
  read_module (disasm_cfg 1000 true) (wasm_header ++ [1; 4; 1; 96; 0; 0] ++ [3; 2; 1; 0] ++ [10; 4; 1; 2; 0; 11]) = Trap Exit /\
  Forall2 (fun p b => enc_section 1000 (fst p) (snd p) b) [(SFunction [0], 2)] [[3; 2; 1; 0]] /\
  enc_section 1000 (SCode [mkBodyS [] [11] 2]) 4 [10; 4; 1; 2; 0; 11] /\
  Forall2 (enc_instr 1000) [mkExpr 11 INone] [[11]].
Proof.
  split; [vm_compute; reflexivity|]. split; [|split].
  - constructor; [|constructor]. exists [2], [1; 0]. split; [apply small_u32; lia|]. split; [reflexivity|]. split; [|reflexivity].
    exists [1], [[0]]. split; [apply small_u32; cbn; lia|]. split; [|reflexivity]. constructor; [apply small_u32; lia|constructor].
  - exists [4], [1; 2; 0; 11]. split; [apply small_u32; lia|]. split; [reflexivity|]. split; [|reflexivity].
    exists [1], [[2; 0; 11]]. split; [apply small_u32; cbn; lia|]. split; [|reflexivity]. constructor; [|constructor].
    exists [2], [0]. split; [apply small_u32; cbn; lia|]. split; [|split; [cbn; lia|split; reflexivity]].
    exists [0], []. split; [apply small_u32; cbn; lia|]. split; [constructor|reflexivity].
  - constructor; [|constructor]. constructor. unfold nullary_op. lia.
Qed.

(** C97 is false of the code: ab-disasm looks the type of a body up without checking that the
    function section announced it: a code section without one reads outside the table. *)
Theorem C97_bodies_without_functions_refuted :
  forall lim strict l bs x xs len b,
    Forall2 (fun p b => enc_section lim (fst p) (snd p) b) l bs ->
    Forall (fun p => bodies_of (fst p) = []) l -> (forall ts n, In (SFunction ts, n) l -> ts = []) ->
    enc_section lim (SCode (x :: xs)) len b ->
    read_module (disasm_cfg lim strict) (wasm_header ++ concat bs ++ b) = UB OutOfBounds.
Proof.
  intros lim strict l bs x xs len b H Hn Hf Hb.
  destruct (module_first_body (disasm_cfg lim strict) l bs x xs len b H Hn Hb) as (t' & off & log & k & Ht & Hlog & ->).
  cbn [c_body disasm_cfg]. unfold disasm_body. cbn [W w_log]. rewrite Hlog.
  replace (filter is_function _) with (@nil event); [reflexivity|]. symmetry. clear - Hn Hf.
  induction l as [|[y n] l IH]; [reflexivity|]. cbn [flat_map]. rewrite filter_app. inversion Hn as [|? ? Hy Hn']; subst.
  rewrite IH; [|assumption|intros; eapply Hf; right; eauto]. rewrite app_nil_r. unfold section_events. cbn [fst snd].
  cbn [filter is_function]. rewrite filter_app. cbn [filter is_function]. rewrite app_nil_r.
  assert (Hm : forall A (f : A -> event) k, (forall a, is_function (f a) = false) -> filter is_function (map f k) = []).
  { intros A f k0 E. induction k0 as [|a k0 IHk]; [reflexivity|]. cbn [map filter]. now rewrite E. }
  destruct y; cbn [entry_events filter is_function]; try (apply Hm; reflexivity).
  - rewrite (Hf l0 n (or_introl eq_refl)). reflexivity.
  - induction l0 as [|e k0 IHk]; [reflexivity|]. cbn [flat_map]. rewrite filter_app. rewrite IHk; cycle 1.
    { constructor; [reflexivity|assumption]. }
    { intros ts m [E|E]; [discriminate|]. eapply Hf. right. exact E. }
    { reflexivity. }
    rewrite app_nil_r. cbn [filter is_function]. rewrite filter_app, Hm by reflexivity. reflexivity.
  - cbn in Hy. subst l0. reflexivity.
Qed.
Print Assumptions C97_bodies_without_functions_refuted.
Example C97_instance : read_module (disasm_cfg 1000 true) (wasm_header ++ [10; 4; 1; 2; 0; 11]) = UB OutOfBounds.
Proof. vm_compute. reflexivity. Qed.
