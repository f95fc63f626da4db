(** Theorems about the disassembly of instructions, imports and exports: C125 and C126. *)

From Coq Require Import ZArith String Ascii List Bool Lia.
From Verif Require Import Outcome StreamModel SexprModel SexprSpec WasmModel WasmSpec WasmProofs WasmProps
  DisModel DisSpec DisProofs DisProps DisTextSpec.
Import ListNotations.
Local Open Scope Z_scope.

(** * C125 *)
(** What the disassembler should print for an instruction: a line with the operator's name first. *)
Definition line_names (d : nat) (name : str) (l : str) : Prop :=
  exists operands, l = NL :: repeat SP (2 * (2 + d)) ++ name ++ operands /\ (operands = [] \/ exists r, operands = SP :: r).

Definition name_ok (p : Z * String.string) : bool :=
  (fst p =? 63) || (fst p =? 64) || (167 <=? fst p) ||
  if list_eq_dec ascii_dec (lit (lookup_name op_names (fst p))) (underscored (snd p)) then true else false.
Lemma names_ok : forallb name_ok mnemonics = true.
Proof. vm_compute. reflexivity. Qed.
Lemma op_named op name : In (op, name) mnemonics -> ~ left_out op -> lit (lookup_name op_names op) = underscored name.
Proof.
  intros Hi Hl. pose proof (proj1 (forallb_forall _ _) names_ok _ Hi) as H. unfold name_ok in H. cbn [fst snd] in H. unfold left_out in Hl.
  destruct (Z.eqb_spec op 63); [lia|]. destruct (Z.eqb_spec op 64); [lia|]. destruct (Z.leb_spec 167 op); [lia|]. cbn [orb] in H.
  destruct (list_eq_dec _ _ _); [assumption|discriminate].
Qed.
Lemma line_begins d e : exists operands, line (d, e) = NL :: repeat SP (2 * (2 + d)) ++ lit (lookup_name op_names (e_op e)) ++ operands /\
  (operands = [] \/ exists r, operands = SP :: r).
Proof.
  unfold line. cbn [fst snd]. unfold p_expr, op_name, word, words. cbn [flat_map app].
  set (w := flat_map _ (p_imm (e_imm e))). clearbody w. destruct w as [|a w].
  - exists []. cbn [spaced]. rewrite app_nil_r. auto.
  - exists (SP :: spaced (a :: w)). rewrite spaced_cons2. eauto.
Qed.

(** In the text of a function every instruction has its line, which begins with the operator's name, an
    underscore for each dot. *)
Theorem C125_operators_named_partial :
  forall t b es ds, depths 0 es = Some ds -> Forall (fun q => opens (snd q) = true -> (fst q <= 7)%nat) ds ->
    exists pre lines, buffer (p_out (print_events (function_events t b es))) = pre ++ concat lines ++ lit "))" ++ [NL] /\
      Forall2 (fun q l => forall name, In (e_op (snd q), name) mnemonics -> ~ left_out (e_op (snd q)) ->
                 line_names (fst q) (underscored name) l) ds lines.
Proof.
  intros t b es ds Hd Ho. destruct (C102_indentation_partial t b es ds Hd Ho ds Hd) as (pre & E).
  exists pre, (map line ds). split; [exact E|]. clear. induction ds as [|(d, e) ds IH]; cbn [map]; constructor; [|exact IH].
  cbn [fst snd]. intros name Hi Hl. destruct (line_begins d e) as (r & -> & Hr). exists r. split; [|exact Hr]. now rewrite (op_named _ name Hi Hl).
Qed.
Print Assumptions C125_operators_named_partial.

(** Different operators have different names, and none is a beginning of a longer word there. *)
Theorem C125_names_distinct :
  forall op name op' name', In (op, name) mnemonics -> In (op', name') mnemonics -> ~ left_out op -> ~ left_out op' ->
    forall d l, line_names d (underscored name) l -> line_names d (underscored name') l -> op = op'.
Proof.
  assert (SPfree : forall p, In p mnemonics -> ~ In SP (underscored (snd p))).
  { assert (H : forallb (fun p => negb (existsb (Ascii.eqb SP) (underscored (snd p)))) mnemonics = true) by (vm_compute; reflexivity).
    intros p Hp Hs. pose proof (proj1 (forallb_forall _ _) H _ Hp) as G. apply negb_true_iff in G.
    assert (existsb (Ascii.eqb SP) (underscored (snd p)) = true); [|congruence]. apply existsb_exists. exists SP. split; [exact Hs|apply Ascii.eqb_refl]. }
  assert (Inj : forallb (fun p => forallb (fun q => (fst p =? fst q) || negb (if list_eq_dec ascii_dec (underscored (snd p)) (underscored (snd q)) then true else false)) mnemonics) mnemonics = true)
    by (vm_compute; reflexivity).
  assert (Cut : forall a b r r', ~ In SP a -> ~ In SP b -> (r = [] \/ exists x, r = SP :: x) -> (r' = [] \/ exists x, r' = SP :: x) -> a ++ r = b ++ r' -> a = b).
  { induction a as [|x a IH]; intros [|y b] r r' Ha Hb Hr Hr' E.
    - reflexivity.
    - exfalso. apply Hb. destruct Hr as [->|(z & ->)]; cbn in E; [discriminate|]. injection E as <- _. now left.
    - exfalso. apply Ha. destruct Hr' as [->|(z & ->)]; cbn in E; [discriminate|]. injection E as -> _. now left.
    - cbn in E. injection E as <- E. f_equal. eapply (IH b r r'); eauto; intros H; [apply Ha|apply Hb]; now right. }
  intros op name op' name' H H' _ _ d l (r & -> & Hr) (r' & E & Hr').
  injection E as E. apply app_inv_head in E. apply Cut in E; [|apply (SPfree _ H)|apply (SPfree _ H')|exact Hr|exact Hr'].
  pose proof (proj1 (forallb_forall _ _) Inj _ H) as G. pose proof (proj1 (forallb_forall _ _) G _ H') as G'. cbn [fst snd] in G'. rewrite E in G'.
  destruct (list_eq_dec _ _ _); [|congruence]. apply orb_true_iff in G' as [G'|G']; [now apply Z.eqb_eq|discriminate].
Qed.
Print Assumptions C125_names_distinct.

(** C125 is false of the code: where the text format's name has a dot, it is not what the line says. *)
Theorem C125_dots_refuted :
  forall d e name, In (e_op e, name) mnemonics -> ~ left_out (e_op e) -> In "."%char (lit name) ->
    ~ line_names d (lit name) (line (d, e)).
Proof.
  intros d e name Hi Hl Hdot (r & E & Hr). destruct (line_begins d e) as (r' & E' & Hr'). rewrite E' in E. apply (f_equal (@tl ascii)) in E. cbn [tl] in E. apply app_inv_head in E.
  rewrite (op_named _ name Hi Hl) in E. unfold underscored in E. apply (f_equal (firstn (length (lit name)))) in E.
  rewrite firstn_app, firstn_app in E. rewrite map_length, Nat.sub_diag in E. cbn [firstn] in E. rewrite !app_nil_r, firstn_all in E.
  rewrite firstn_all2 in E by (rewrite map_length; lia). rewrite <- E in Hdot. apply in_map_iff in Hdot as (x & Hx & _).
  destruct (Ascii.eqb_spec x "."%char); [discriminate|congruence].
Qed.
Print Assumptions C125_dots_refuted.

(** ... and a module that uses an operator that is left out ends the process: here where the first global's
    value should be, whatever the section's length, the global's type and what comes after. *)
Lemma step {A B} (m : M A) (k : A -> M B) a b post off log : reads m a b [] ->
  mbind m k (W (b ++ post) off log) = k a (W post (off + Z.of_nat (length b)) log).
Proof. intros H. unfold mbind. rewrite H. cbn [bind]. now rewrite app_nil_r. Qed.
Theorem C125_left_out_refuted :
  forall lim strict op name len g t rest, In (op, name) mnemonics -> left_out op -> enc_u32 len g -> is_byte t ->
    disassemble lim strict (wasm_header ++ [6] ++ g ++ [1; t; 0; op] ++ rest) = Trap Exit.
Proof.
  intros lim strict op name len g t rest Hi Hl Hg Ht.
  assert (K : op_kind op = None).
  { assert (H : forallb (fun p => negb ((fst p =? 63) || (fst p =? 64) || (167 <=? fst p)) || match op_kind (fst p) with None => true | _ => false end) mnemonics = true)
      by (vm_compute; reflexivity).
    pose proof (proj1 (forallb_forall _ _) H _ Hi) as G. cbn [fst] in G. destruct (op_kind op); [|reflexivity]. exfalso.
    rewrite orb_false_r in G. apply negb_true_iff in G. unfold left_out in Hl. lia. }
  unfold disassemble. rewrite module_after_header. change (2 + ?n)%nat with (S (S n)). set (fuel := S (length _)). clearbody fuel.
  cbn [sections W w_eof w_in s_eof]. fold (W ([6] ++ g ++ [1; t; 0; op] ++ rest) 8 [EvModuleStart; EvHeader 1836278016 1]).
  rewrite (step varuint _ 6 [6]) by (apply reads_varuint1; lia). cbn [W w_eof w_in s_eof]. change (u8 6) with 6.
  try match goal with |- context [mkW (mkStream ?r false ?o) false ?l] => fold (W r o l) end. unfold mbind at 1.
  match goal with |- context [section ?c 6 ?s] => assert (R : section c 6 s = Trap Exit); [|now rewrite R] end.
  unfold section. rewrite (step varuint _ len g) by now apply reads_varuint. cbn [Z.eqb Pos.eqb orb].
  unfold mbind at 1. cbn [ret bind]. unfold mbind at 1. cbn [emit bind W w_in w_stuck w_log].
  match goal with |- context [mkW (mkStream ?r false ?o) false ?l] => fold (W r o l) end. unfold mbind at 1.
  match goal with |- context [global_section ?c ?s] => assert (R : global_section c s = Trap Exit); [|now rewrite R] end.
  unfold global_section. change ([1; t; 0; op] ++ rest) with ([1] ++ [t] ++ [0] ++ [op] ++ rest).
  rewrite (step varuint _ 1 [1]) by (apply reads_varuint1; lia). unfold for_count. change (Z.to_nat 1) with 1%nat. cbn [iter].
  unfold mbind at 1. unfold mbind at 1. unfold global_type. rewrite (step type_code _ t [t]) by now apply reads_type.
  rewrite (step varuint _ 0 [0]) by (apply reads_varuint1; lia). cbn [ret bind]. unfold mbind at 1. unfold init_expr. unfold mbind at 1.
  unfold read_expr. rewrite (step get _ op [op]) by apply reads_get. rewrite K. reflexivity.
Qed.
Print Assumptions C125_left_out_refuted.

Example C125_instance :
  let es := [mkExpr 2 (IType 64); mkExpr 0x41 (IVarint 65); mkExpr 0x21 (IVaruint 66); mkExpr 0x0b INone; mkExpr 0x0b INone] in
  depths 0 es = Some [(0%nat, mkExpr 2 (IType 64)); (1%nat, mkExpr 0x41 (IVarint 65)); (1%nat, mkExpr 0x21 (IVaruint 66));
                      (0%nat, mkExpr 0x0b INone); (0%nat, mkExpr 0x0b INone)] /\
  buffer (p_out (print_events (function_events 0 (mkBody [] 7) es))) =
     lit "(module" ++ NL :: lit "  (func (typezz 0)" ++ NL :: lit "    (local 0)" ++
     NL :: lit "    block empty" ++ NL :: lit "      i32_const A" ++ NL :: lit "      set_local B" ++ NL :: lit "    end" ++
     NL :: lit "    end))" ++ [NL] /\
  In (0x41, "i32.const"%string) mnemonics /\ ~ left_out 0x41 /\ In (0xa7, "i32.wrap/i64"%string) mnemonics /\ left_out 0xa7.
Proof.
  split; [reflexivity|]. split; [vm_compute; reflexivity|].
  assert (I : forall n p, nth_error mnemonics n = Some p -> In p mnemonics) by (intros n p; apply nth_error_In).
  split; [apply (I 45%nat); reflexivity|]. split; [unfold left_out; lia|]. split; [apply (I 147%nat); reflexivity|unfold left_out; lia].
Qed.

(** * C126 *)
Definition entry_ok (l : list out) (x : str) : Prop :=
  forall b, fold_left send (Rq Fresh :: l) (mkF b 1 false true) = mkF (b ++ NL :: lit "  " ++ x) 1 false true.
Lemma type_shown c : type_name c = Rq (Atom (shown_type c)).
Proof.
  unfold type_name, shown_type, word.
  destruct (Z.eqb_spec c 127); [now subst|]. destruct (Z.eqb_spec c 126); [now subst|]. destruct (Z.eqb_spec c 125); [now subst|].
  destruct (Z.eqb_spec c 124); [now subst|]. destruct (Z.eqb_spec c 112); [now subst|]. destruct (Z.eqb_spec c 96); [now subst|].
  destruct (Z.eqb_spec c 64); [now subst|]. destruct c as [|q|q]; try reflexivity. do 7 (destruct q as [q|q|]; try reflexivity; try lia).
Qed.
Lemma kind_shown k : kind_name k = Rq (Atom (shown_kind k)).
Proof.
  unfold kind_name, shown_kind, word.
  destruct (Z.eqb_spec k 0); [now subst|]. destruct (Z.eqb_spec k 1); [now subst|]. destruct (Z.eqb_spec k 2); [now subst|].
  destruct (Z.eqb_spec k 3); [now subst|]. destruct k as [|q|q]; try reflexivity; try lia. do 2 (destruct q as [q|q|]; try reflexivity; try lia).
Qed.
Ltac layout := cbn [fold_left app send put spacing freshen fresh buffer indent needsSpacing indent_inc indent_dec indent_string Nat.ltb Nat.leb Nat.sub MAX_DEPTH];
  unfold lit; cbn [list_ascii_of_string]; rewrite <- ?app_assoc; cbn [app]; rewrite <- ?app_assoc; cbn [app].
Lemma export_shown e : entry_ok (p_export (es_field e) (es_kind e) (es_index e)) (shown_export e).
Proof.
  intros b. unfold p_export, shown_export, paren, word, num, quoted, stringify, text. rewrite kind_shown. layout. reflexivity.
Qed.
Lemma import_shown i : entry_ok (p_import (is_module i) (is_field i) (is_desc i)) (shown_import i).
Proof.
  intros b. unfold p_import, shown_import, shown_desc, p_table, p_memory, p_gtype, p_limits, shown_limits, paren, word, num, quoted, stringify, text.
  destruct (is_desc i) as [t|e [l [m|]]|[l [m|]]|[c []]]; cbn [li_initial li_max gt_mutable gt_content import_kind]; rewrite ?type_shown; layout; reflexivity.
Qed.
Lemma handle_entries {A} (ev : A -> event) (out : A -> list DisModel.out) (shown : A -> str) l :
  (forall x p, handle p (ev x) = send_all p (Rq Fresh :: out x)) -> (forall x, entry_ok (out x) (shown x)) ->
  forall b ts, fold_left handle (map ev l) (mkP (mkF b 1 false true) ts 0 []) =
    mkP (mkF (b ++ concat (map (fun x => NL :: lit "  " ++ x) (map shown l))) 1 false true) ts 0 [].
Proof.
  intros H O. induction l as [|x l IH]; intros b ts; cbn [map fold_left concat]; [now rewrite app_nil_r|].
  rewrite H. unfold send_all. cbn [p_out p_types p_depth p_stdout]. rewrite (O x b), IH. now rewrite <- app_assoc.
Qed.
Lemma handle_interface bev l : forall b ts, Forall interface l ->
  fold_left handle (flat_map (section_events bev) l) (mkP (mkF b 1 false true) ts 0 []) =
  mkP (mkF (b ++ concat (map (fun x => NL :: lit "  " ++ x) (flat_map shown_section l))) 1 false true) ts 0 [].
Proof.
  induction l as [|(s, n) l IH]; intros b ts F; cbn [flat_map fold_left map concat]; [now rewrite app_nil_r|].
  inversion F as [|? ? Hs Hl]; subst. rewrite fold_left_app, map_app, concat_app, app_assoc, <- IH by exact Hl. f_equal.
  unfold section_events. cbn [fst snd fold_left handle]. rewrite fold_left_app. cbn [fold_left handle].
  unfold interface in Hs. cbn [fst] in Hs. destruct s; try contradiction; cbn [entry_events shown_section fst].
  - cbn [fold_left handle]. apply (handle_entries _ (fun i => p_import (is_module i) (is_field i) (is_desc i))); [reflexivity|apply import_shown].
  - apply (handle_entries _ (fun e => p_export (es_field e) (es_kind e) (es_index e))); [reflexivity|apply export_shown].
Qed.
(** For a module with any number of import and export sections, spelled in any way the format allows, the
    text has exactly a line for each import and each export, in order. *)
Theorem C126_imports_and_exports :
  forall lim strict l bs,
    Forall2 (fun p b => enc_section lim (fst p) (snd p) b) l bs -> Forall interface l ->
    disassemble lim strict (wasm_header ++ concat bs) = Ok (shown_interface l, []).
Proof.
  intros lim strict l bs F Hi. unfold disassemble, disasm_cfg.
  rewrite (C86_modules_read_back lim strict _ (fun _ _ => []) l bs F).
  2: { eapply Forall_impl; [|exact Hi]. intros [s n] Hs. unfold interface in Hs. cbn [fst] in *. destruct s; try contradiction; constructor. }
  cbn [bind]. unfold module_events, print_events. rewrite fold_left_app, fold_left_app.
  change (fold_left handle [EvModuleStart; EvHeader 1836278016 1] new_printer) with (mkP (mkF (lit "(module") 1 false true) [] 0 []).
  rewrite handle_interface by exact Hi. cbn [fold_left handle send_all p_out p_stdout send put freshen buffer fresh].
  unfold shown_interface. now rewrite <- !app_assoc.
Qed.
Print Assumptions C126_imports_and_exports.
(** Kinds and types of imports can be told apart whatever the names. *)
Theorem C126_kinds_shown :
  forall i j, is_module i = is_module j -> is_field i = is_field j -> shown_import i = shown_import j ->
    import_kind (is_desc i) = import_kind (is_desc j).
Proof.
  intros [m f d] [m' f' d']. cbn [is_module is_field is_desc]. intros <- <-. unfold shown_import. cbn [is_module is_field is_desc]. intros E.
  do 4 (apply app_inv_head in E). destruct d, d'; try reflexivity; discriminate E.
Qed.
Print Assumptions C126_kinds_shown.
Example C126_instance :
  disassemble 10 true (wasm_header ++ [2; 15; 2; 1; 109; 1; 102; 0; 65; 1; 109; 1; 103; 3; 127; 1] ++ [7; 5; 1; 1; 97; 2; 66]) =
    Ok (lit "(module" ++ NL :: lit "  (import ""m"" ""f"" (; kind " ++ "000"%char :: lit " ;) (type qqq A))" ++
        NL :: lit "  (import ""m"" ""g"" (; kind " ++ "003"%char :: lit " ;) (mut i32))" ++
        NL :: lit "  (export ""a"" (memory B)))" ++ [NL], []) /\
  Forall interface [(SImport [mkImportS [109] [102] (ImFunction 65); mkImportS [109] [103] (ImGlobal (mkGtype 127 true))], 15);
                    (SExport [mkExportS [97] 2 66], 5)].
Proof. split; [vm_compute; reflexivity|repeat constructor]. Qed.
