(** Property theorems about what ab-disasm prints (C98-C107). *)

From Coq Require Import ZArith String Ascii List Bool Lia DecimalString DecimalN.
From Verif Require Import Outcome LebSpec VarIntModel VarIntProofs StreamModel SexprModel SexprSpec SexprProps
  WasmModel WasmSpec WasmProofs WasmProps DisModel DisSpec DisProofs.
Import ListNotations.
Local Open Scope Z_scope.
Notation paren := DisModel.paren.

(** * C98 *)
(** The parentheses of the text are balanced, provided no number and no character of a name or of data
    is, mod 256, the code of a parenthesis. *)
Theorem C98_balanced_partial :
  forall lim strict input evs out dbg,
    read_module (disasm_cfg lim strict) input = Ok evs ->
    Forall (fun e => Forall quiet (event_numbers e)) evs ->
    disassemble lim strict input = Ok (out, dbg) -> balanced out.
Proof.
  intros lim strict input evs out dbg E Hq D. unfold disassemble in D. rewrite E in D. cbn [bind] in D. injection D as <- _.
  unfold balanced, print_events. apply (nesting_events evs new_printer 0%nat 0%nat); [reflexivity|exact Hq|].
  apply (read_module_shape (disasm_cfg lim strict) input evs); [|exact E]. intros i b. apply even_disasm_body.
Qed.
Print Assumptions C98_balanced_partial.

(** A module with one export, of function [i] under the name "a"; [g] spells [i]. *)
Definition one_export (g : bytes) : bytes := wasm_header ++ [7; 4 + Z.of_nat (length g); 1; 1; 97; 0] ++ g.
Lemma one_export_spelled lim i g : 2 <= lim -> enc_u32 i g ->
  Forall2 (fun p b => enc_section lim (fst p) (snd p) b) [(SExport [mkExportS [97] 0 i], 4 + Z.of_nat (length g))]
    [[7; 4 + Z.of_nat (length g); 1; 1; 97; 0] ++ g].
Proof.
  intros Hl Hg. pose proof Hg as (_ & Hlen & _). constructor; [|constructor]. cbn [fst snd].
  exists [4 + Z.of_nat (length g)], ([1; 1; 97; 0] ++ g).
  split; [apply small_u32; lia|]. split; [rewrite app_length; cbn [length]; lia|]. split; [|reflexivity].
  exists [1], [[1; 97; 0] ++ g]. split; [apply small_u32; cbn; lia|]. split; [|cbn [concat app]; rewrite app_nil_r; reflexivity].
  constructor; [|constructor]. exists [1; 97], g. cbn [es_field es_kind es_index].
  split; [|split; [unfold is_byte; lia|split; [exact Hg|reflexivity]]].
  split; [|split; [cbn; lia|cbn; lia]].
  exists [1], [[97]]. split; [apply small_u32; cbn; lia|]. split; [|reflexivity]. repeat constructor; unfold is_byte; lia.
Qed.
Lemma one_export_text lim strict i g : 2 <= lim -> enc_u32 i g ->
  disassemble lim strict (one_export g) =
  Ok (lit "(module" ++ [NL] ++ lit "  (export ""a"" (func " ++ [chr i] ++ lit ")))" ++ [NL], []).
Proof.
  intros Hl Hg. unfold disassemble, one_export. pose proof (one_export_spelled lim i g Hl Hg) as F.
  replace ([7; 4 + Z.of_nat (length g); 1; 1; 97; 0] ++ g)
    with (concat [[7; 4 + Z.of_nat (length g); 1; 1; 97; 0] ++ g]) by (cbn [concat]; apply app_nil_r).
  unfold disasm_cfg. rewrite (C86_modules_read_back lim strict _ (fun _ _ => []) _ _ F) by (constructor; constructor). cbn [bind].
  unfold module_events. cbn [flat_map section_events entry_events map app fst snd es_field es_kind es_index sec_code].
  unfold print_events. cbn [fold_left handle new_printer]. unfold send_all. cbn [p_out p_types p_depth p_stdout].
  unfold p_export, num. generalize (chr i). intros c. vm_compute. reflexivity.
Qed.
Lemma some_u32 i : 0 <= i < 2 ^ 32 -> exists g, enc_u32 i g.
Proof.
  intros Hi. destruct (append_varuint32_spec i) as (g & _ & Hs & Hv & Hl & _). rewrite Z.mod_small in Hv by lia.
  exists g. repeat split; auto; lia.
Qed.
(** C98 is false of the code as it stands: for the export of function 40, 296, ... the text has an
    unclosed parenthesis, for that of function 41, 297, ... one too many is closed. *)
Theorem C98_balanced_refuted :
  forall lim strict i g, 2 <= lim -> enc_u32 i g -> ~ quiet i ->
    exists out, disassemble lim strict (one_export g) = Ok (out, []) /\ ~ balanced out.
Proof.
  intros lim strict i g Hl Hg Hq. eexists. split; [exact (one_export_text lim strict i g Hl Hg)|].
  assert (Hi : i mod 256 = 40 \/ i mod 256 = 41) by (unfold quiet in Hq; lia).
  unfold chr. destruct Hi as [-> | ->]; vm_compute; discriminate.
Qed.
Print Assumptions C98_balanced_refuted.
Example C98_instance :
  enc_u32 296 [168; 2] /\ ~ quiet 296 /\ quiet 0 /\
  (exists evs, read_module (disasm_cfg 10 true) (one_export [0]) = Ok evs /\ Forall (fun e => Forall quiet (event_numbers e)) evs).
Proof.
  split; [|split; [|split]].
  - unfold enc_u32. conjs; try lia; [constructor; [lia|constructor; lia]|cbn; lia|reflexivity].
  - unfold quiet. cbn. lia.
  - unfold quiet. cbn. lia.
  - eexists. split; [vm_compute; reflexivity|]. repeat (constructor; [cbn [event_numbers app]; repeat (constructor; [unfold quiet; cbn; lia|]); constructor|]). constructor.
Qed.

(** * C99 *)
(** C99 is false of the code: the index of an export is printed as the character with that code, for
    every index; so indices that differ by 256 cannot be told apart, and the text is never the decimal
    number. *)
Lemma one_digit i c : 0 <= i -> decimal i = [c] -> 0 <= i < 10 /\ nat_of_ascii c = (48 + Z.to_nat i)%nat.
Proof.
  intros Hi. unfold decimal. intros E.
  assert (K : exists d, N.to_uint (Z.to_N i) = d) by eauto. destruct K as (d & Ed).
  pose proof (DecimalN.Unsigned.of_to (Z.to_N i)) as O. rewrite Ed in *.
  destruct d as [|d|d|d|d|d|d|d|d|d|d]; [cbn in O; cbn in E; injection E as <-; cbn; lia|..];
    unfold NilZero.string_of_uint in E; cbn [NilEmpty.string_of_uint lit list_ascii_of_string] in E;
    unfold lit in E; cbn [list_ascii_of_string] in E;
    (destruct d; cbn [NilEmpty.string_of_uint list_ascii_of_string] in E; try discriminate E);
    injection E as <-; cbn in O; cbn; lia.
Qed.
Theorem C99_numbers_in_decimal_refuted :
  forall lim strict i g, 2 <= lim -> enc_u32 i g ->
    disassemble lim strict (one_export g) =
      Ok (lit "(module" ++ [NL] ++ lit "  (export ""a"" (func " ++ [chr i] ++ lit ")))" ++ [NL], []) /\
    [chr i] <> decimal i.
Proof.
  intros lim strict i g Hl Hg. split; [now apply one_export_text|]. intros E. symmetry in E.
  pose proof Hg as (_ & _ & _ & Hi). destruct (one_digit i (chr i) ltac:(lia) E) as [Hr Hc].
  unfold chr in Hc. rewrite nat_ascii_embedding in Hc by (pose proof (Z.mod_pos_bound i 256 ltac:(lia)); lia).
  rewrite Z.mod_small in Hc by lia. lia.
Qed.
Print Assumptions C99_numbers_in_decimal_refuted.
Theorem C99_numbers_collide_refuted :
  forall lim strict i g j h, 2 <= lim -> enc_u32 i g -> enc_u32 j h -> i mod 256 = j mod 256 ->
    disassemble lim strict (one_export g) = disassemble lim strict (one_export h).
Proof.
  intros lim strict i g j h Hl Hg Hh E. rewrite (one_export_text lim strict i g), (one_export_text lim strict j h) by assumption.
  unfold chr. now rewrite E.
Qed.
Print Assumptions C99_numbers_collide_refuted.
Example C99_instance : enc_u32 5 [5] /\ enc_u32 261 [133; 2] /\ 5 mod 256 = 261 mod 256 /\ decimal 261 = lit "261".
Proof.
  split; [apply small_u32; lia|]. split; [|split; reflexivity].
  unfold enc_u32. conjs; try lia; [constructor; [lia|constructor; lia]|cbn; lia|reflexivity].
Qed.

(** * C100 *)
Definition asked_out (o : out) : list tok := match o with Rq r => asked [r] | _ => [] end.
Definition good_out (o : out) : Prop := match o with Rq r => good_request r | _ => True end.
Lemma inv_sends l : forall f ts, Forall good_out l -> inv f ts -> inv (fold_left send l f) (ts ++ flat_map asked_out l).
Proof.
  induction l as [|o l IH]; intros f ts Hg Hi; cbn [fold_left flat_map]; [rewrite app_nil_r; exact Hi|].
  inversion Hg as [|? ? Ho Hl]; subst. rewrite app_assoc. apply IH; [exact Hl|].
  destruct o as [r| |]; cbn [send asked_out good_out] in *; [now apply put_inv|rewrite app_nil_r; exact Hi..].
Qed.
Definition plain_b (c : ascii) : bool := negb (Ascii.eqb c SP || Ascii.eqb c NL || is_paren c).
Lemma plain_dec c : plain_b c = true -> plain c.
Proof.
  unfold plain_b, is_paren, plain, white, SexprSpec.paren. intros H. apply negb_true_iff in H.
  repeat match goal with H : (_ || _) = false |- _ => apply orb_false_iff in H as [? ?] end.
  repeat match goal with H : Ascii.eqb _ _ = false |- _ => apply Ascii.eqb_neq in H end. tauto.
Qed.
Definition good_word (s : String.string) : bool := match lit s with [] => false | l => forallb plain_b l end.
Lemma good_word_ok s : good_word s = true -> good_out (word s).
Proof.
  unfold good_word, word, good_out, good_request. destruct (lit s) as [|c l] eqn:E; [discriminate|]. intros H.
  split; [discriminate|]. rewrite Forall_forall. rewrite forallb_forall in H. intros x Hx. apply plain_dec, H, Hx.
Qed.
Lemma good_type c : good_out (type_name c).
Proof.
  apply good_word_ok. repeat match goal with |- good_word (if ?b then _ else _) = true => destruct b; [reflexivity|] end. reflexivity.
Qed.
Lemma asked_type c : value_type c <> None -> asked_out (type_name c) = [valtok c].
Proof.
  intros H. assert (Hc : c = 127 \/ c = 126 \/ c = 125 \/ c = 124).
  { destruct (Z.eq_dec c 127), (Z.eq_dec c 126), (Z.eq_dec c 125), (Z.eq_dec c 124); auto. exfalso. apply H.
    unfold value_type. destruct c as [|p|p]; try reflexivity.
    repeat (destruct p as [p|p|]; try reflexivity; try congruence). }
  destruct Hc as [->|[->|[->| ->]]]; reflexivity.
Qed.
Lemma good_words l : Forall (fun s => good_word s = true) l -> Forall good_out (map word l).
Proof. intros H. induction H; cbn [map]; constructor; auto using good_word_ok. Qed.
Ltac gw := apply good_word_ok; reflexivity.
Lemma good_paren l : Forall good_out l -> Forall good_out (paren l).
Proof. intros H. unfold paren. apply Forall_app. split; [repeat constructor|]. apply Forall_app. split; [exact H|repeat constructor]. Qed.
Lemma good_ftype t : Forall good_out (p_ftype t).
Proof.
  unfold p_ftype. constructor; [exact I|]. apply good_paren. constructor; [gw|]. apply Forall_app. split.
  - destruct (ft_params t) as [|a ps]; [constructor|]. apply good_paren. constructor; [gw|].
    induction (a :: ps); cbn [map]; constructor; auto using good_type.
  - destruct (ft_return t); [|constructor]. apply good_paren. constructor; [gw|]. constructor; [apply good_type|constructor].
Qed.
Lemma asked_paren l : flat_map asked_out (paren l) = [TOpen] ++ flat_map asked_out l ++ [TClose].
Proof. unfold paren. rewrite !flat_map_app. reflexivity. Qed.
Lemma asked_types ps : Forall (fun c => value_type c <> None) ps -> flat_map asked_out (map type_name ps) = map valtok ps.
Proof. induction 1 as [|c ps Hc H IH]; cbn [map flat_map]; [reflexivity|]. rewrite asked_type by assumption. rewrite IH. reflexivity. Qed.
Lemma asked_ftype t : valid_type t -> flat_map asked_out (p_ftype t) = wat_type t.
Proof.
  intros [Hp Hr]. unfold p_ftype, wat_type. cbn [flat_map asked_out asked app]. rewrite asked_paren. cbn [flat_map app].
  change (asked_out (word "func")) with [atom "func"]. cbn [app]. f_equal. f_equal. rewrite flat_map_app, <- app_assoc. f_equal.
  - destruct (ft_params t) as [|a ps]; [reflexivity|]. rewrite asked_paren. cbn [flat_map].
    change (asked_out (word "param")) with [atom "param"]. rewrite asked_types by exact Hp. reflexivity.
  - f_equal. destruct (ft_return t) as [r|]; [|reflexivity]. rewrite asked_paren. cbn [flat_map].
    change (asked_out (word "result")) with [atom "result"]. rewrite (asked_type r) by auto. reflexivity.
Qed.
Lemma handle_functions l : forall i p, p_out (fold_left handle (numbered (fun i t => [EvFunction i t]) i l) p) = p_out p /\
  p_stdout (fold_left handle (numbered (fun i t => [EvFunction i t]) i l) p) = p_stdout p.
Proof. induction l as [|t l IH]; intros i p; cbn [numbered fold_left app]; [auto|]. destruct (IH (i + 1) (handle p (EvFunction i t))) as [-> ->]. auto. Qed.
Lemma handle_types l : forall p ts, Forall valid_type l -> inv (p_out p) ts ->
  inv (p_out (fold_left handle (map EvFunctionType l) p)) (ts ++ flat_map wat_type l) /\
  p_stdout (fold_left handle (map EvFunctionType l) p) = p_stdout p.
Proof.
  induction l as [|t l IH]; intros p ts Hv Hi; cbn [map fold_left flat_map]; [rewrite app_nil_r; auto|].
  inversion Hv; subst. rewrite app_assoc. destruct (IH (handle p (EvFunctionType t)) (ts ++ wat_type t)) as [A B]; [assumption| |split; [exact A|exact B]].
  cbn [handle send_all p_out]. rewrite <- (asked_ftype t) by assumption.
  apply (inv_sends (Rq Fresh :: p_ftype t) (p_out p) ts); [|exact Hi]. constructor; [exact I|apply good_ftype].
Qed.
Lemma handle_sections bev l : forall p ts, Forall only_types l -> inv (p_out p) ts ->
  inv (p_out (fold_left handle (flat_map (section_events bev) l) p)) (ts ++ flat_map wat_type (flat_map types_of l)) /\
  p_stdout (fold_left handle (flat_map (section_events bev) l) p) = p_stdout p.
Proof.
  induction l as [|[s n] l IH]; intros p ts Hv Hi; cbn [flat_map]; [cbn [fold_left flat_map]; rewrite app_nil_r; auto|].
  inversion Hv as [|? ? Hs Hl]; subst. rewrite fold_left_app, flat_map_app, app_assoc.
  assert (E : inv (p_out (fold_left handle (section_events bev (s, n)) p)) (ts ++ flat_map wat_type (types_of (s, n))) /\
              p_stdout (fold_left handle (section_events bev (s, n)) p) = p_stdout p).
  { unfold section_events. cbn [fst snd fold_left handle]. rewrite fold_left_app. cbn [fold_left handle].
    destruct s; cbn [only_types fst] in Hs; try contradiction; cbn [entry_events types_of fst].
    - cbn [fold_left handle]. now apply handle_types.
    - cbn [flat_map]. rewrite app_nil_r. destruct (handle_functions l0 0 p) as [-> ->]. auto. }
  destruct E as [E1 E2]. rewrite <- E2. now apply IH.
Qed.
(** For a module with any number of type and function sections, spelled in any way the format allows,
    the text is exactly (module (func (param ...) (result ...)) ...), up to whitespace. *)
Theorem C100_function_types_printed :
  forall lim strict l bs,
    Forall2 (fun p b => enc_section lim (fst p) (snd p) b) l bs -> Forall only_types l ->
    exists out, disassemble lim strict (wasm_header ++ concat bs) = Ok (out, []) /\
      forall ts, SexprSpec.reads out ts <-> ts = wat_module (flat_map types_of l).
Proof.
  intros lim strict l bs F Ho. unfold disassemble, disasm_cfg.
  rewrite (C86_modules_read_back lim strict _ (fun _ _ => []) l bs F); cycle 1.
  { eapply Forall_impl; [|exact Ho]. intros [s n] Hs. unfold only_types in Hs. cbn [fst] in *. destruct s; try contradiction; constructor. }
  cbn [bind]. unfold module_events, print_events. cbn [app fold_left]. rewrite fold_left_app.
  set (p0 := handle (handle new_printer EvModuleStart) (EvHeader 1836278016 1)).
  assert (I0 : inv (p_out p0) ([] ++ flat_map asked_out [Rq Start; word "module"])).
  { apply inv_sends; [|apply inv_new]. constructor; [exact I|]. constructor; [gw|constructor]. }
  destruct (handle_sections (fun _ _ => []) l p0 _ Ho I0) as [I1 Eo].
  assert (I2 := inv_sends [Rq End; Rq Fresh] _ _ ltac:(repeat constructor) I1). cbn [fold_left] in I2.
  change (p_stdout p0) with (@nil ascii) in Eo. set (q := fold_left handle _ p0) in *.
  exists (buffer (p_out (handle q EvModuleEnd))). split; [change (p_stdout (fold_left handle [EvModuleEnd] q)) with (p_stdout q); rewrite Eo; reflexivity|].
  destruct I2 as (R & _). change (buffer (put (put (p_out q) End) Fresh)) with (buffer (p_out (handle q EvModuleEnd))) in R.
  match type of R with SexprSpec.reads _ ?x => assert (E : x = wat_module (flat_map types_of l)) end.
  { unfold wat_module. cbn [flat_map asked_out asked app]. now rewrite <- ?app_assoc. }
  rewrite E in R. intros ts. split; [intros R'; eapply reads_unique; eauto|intros ->; exact R].
Qed.
Print Assumptions C100_function_types_printed.
(** ... and that text determines the types. *)
Lemma valtok_inj a b : value_type a <> None -> value_type b <> None -> valtok a = valtok b -> a = b.
Proof.
  assert (K : forall c, value_type c <> None -> c = 127 \/ c = 126 \/ c = 125 \/ c = 124).
  { intros c H. destruct (Z.eq_dec c 127), (Z.eq_dec c 126), (Z.eq_dec c 125), (Z.eq_dec c 124); auto. exfalso. apply H.
    unfold value_type. destruct c as [|p|p]; try reflexivity.
    repeat (destruct p as [p|p|]; try reflexivity; try congruence). }
  intros Ha Hb. destruct (K a Ha) as [->|[->|[->| ->]]]; destruct (K b Hb) as [->|[->|[->| ->]]]; intros E; try reflexivity; discriminate E.
Qed.
Lemma valtoks_inj a : forall b x y, Forall (fun c => value_type c <> None) a -> Forall (fun c => value_type c <> None) b ->
  map valtok a ++ TClose :: x = map valtok b ++ TClose :: y -> a = b /\ x = y.
Proof.
  induction a as [|c a IH]; intros [|d b] x y Ha Hb; cbn [map app]; intros E.
  - injection E. auto.
  - discriminate E.
  - discriminate E.
  - inversion Ha; inversion Hb; subst. assert (E' : valtok c = valtok d) by congruence. apply valtok_inj in E'; [|assumption..]. subst d.
    assert (E2 : map valtok a ++ TClose :: x = map valtok b ++ TClose :: y) by congruence.
    destruct (IH b x y) as [-> ->]; auto.
Qed.
Lemma wat_type_inj a b x y : valid_type a -> valid_type b -> wat_type a ++ x = wat_type b ++ y -> a = b /\ x = y.
Proof.
  destruct a as [pa ra], b as [pb rb]. intros [Ha Ra] [Hb Rb]. cbn [ft_params ft_return] in *. unfold wat_type. cbn [ft_params ft_return].
  intros E. rewrite <- !app_assoc in E. cbn [app] in E. injection E as E.
  assert (K : forall x y, match ra with None => [] | Some r => [TOpen; atom "result"; valtok r; TClose] end ++ TClose :: x =
                    match rb with None => [] | Some r => [TOpen; atom "result"; valtok r; TClose] end ++ TClose :: y -> ra = rb /\ x = y).
  { intros u v. destruct ra as [r|], rb as [s|]; cbn [app]; intros E'; try discriminate E'.
    - assert (V : valtok r = valtok s) by congruence. apply valtok_inj in V; [|now apply Ra|now apply Rb]. subst s. split; [reflexivity|congruence].
    - split; [reflexivity|congruence]. }
  assert (N : forall (r : option Z) z w, match r with None => [] | Some r => [TOpen; atom "result"; valtok r; TClose] end ++ TClose :: z = TOpen :: atom "param" :: w -> False).
  { intros [r|] z w; cbn [app]; intros E'; [|discriminate E']. injection E' as E' _. discriminate E'. }
  destruct pa as [|p pa], pb as [|q pb]; cbn [app] in E.
  - apply K in E as [-> ->]. auto.
  - exfalso. eapply N. exact E.
  - exfalso. symmetry in E. eapply N. exact E.
  - assert (E' : map valtok (p :: pa) ++ TClose :: (match ra with None => [] | Some r => [TOpen; atom "result"; valtok r; TClose] end ++ TClose :: x) =
                 map valtok (q :: pb) ++ TClose :: (match rb with None => [] | Some r => [TOpen; atom "result"; valtok r; TClose] end ++ TClose :: y)).
    { apply (f_equal (skipn 2)) in E. cbn [map app skipn] in *. repeat (rewrite <- app_assoc in E; cbn [app] in E). exact E. }
    apply valtoks_inj in E' as [-> E']; [|assumption..]. apply K in E' as [-> ->]. auto.
Qed.
Theorem C100_text_determines_types :
  forall lim strict l bs l' bs' r,
    Forall2 (fun p b => enc_section lim (fst p) (snd p) b) l bs -> Forall only_types l ->
    Forall2 (fun p b => enc_section lim (fst p) (snd p) b) l' bs' -> Forall only_types l' ->
    disassemble lim strict (wasm_header ++ concat bs) = r -> disassemble lim strict (wasm_header ++ concat bs') = r ->
    flat_map types_of l = flat_map types_of l'.
Proof.
  intros lim strict l bs l' bs' r F Ho F' Ho' E E'.
  destruct (C100_function_types_printed lim strict l bs F Ho) as (o & D & R).
  destruct (C100_function_types_printed lim strict l' bs' F' Ho') as (o' & D' & R').
  assert (o' = o) by congruence. subst o'.
  assert (W : wat_module (flat_map types_of l) = wat_module (flat_map types_of l')).
  { apply (proj1 (R' _)), (proj2 (R _)). reflexivity. }
  unfold wat_module in W. injection W as W.
  assert (V : forall l, Forall only_types l -> Forall valid_type (flat_map types_of l)).
  { clear. intros l H. induction H as [|[s n] l Hs H IH]; cbn [flat_map]; [constructor|]. apply Forall_app. split; [|exact IH].
    unfold only_types, types_of in *. cbn [fst] in *. destruct s; try contradiction; [exact Hs|constructor]. }
  pose proof (V l Ho) as V1. pose proof (V l' Ho') as V2. clear - W V1 V2. revert W V2. generalize (flat_map types_of l').
  induction V1 as [|t ts Ht V1 IH]; intros [|u us]; cbn [flat_map]; intros W V2.
  - reflexivity.
  - discriminate W.
  - discriminate W.
  - inversion V2; subst. rewrite <- !app_assoc in W. apply wat_type_inj in W as [-> W]; [|assumption..]. f_equal. auto.
Qed.
Print Assumptions C100_text_determines_types.
(** (i32, f64) -> i64 and () -> () and a function *)
Example C100_instance :
  disassemble 10 true (wasm_header ++ [1; 9; 2; 96; 2; 127; 124; 1; 126; 96; 0; 0] ++ [3; 2; 1; 1]) =
    Ok (lit "(module" ++ [NL] ++ lit "  (func (param i32 f64) (result i64))" ++ [NL] ++ lit "  (func))" ++ [NL], []) /\
  Forall only_types [(SType [mkFtype [127; 124] (Some 126); mkFtype [] None], 9); (SFunction [1], 2)].
Proof.
  split; [vm_compute; reflexivity|]. constructor; [|constructor; [exact I|constructor]]. cbn [only_types fst].
  constructor; [|constructor; [|constructor]].
  - split; cbn [ft_params ft_return]; [constructor; [discriminate|constructor; [discriminate|constructor]]|]. intros r E. injection E as <-. discriminate.
  - split; [constructor|discriminate].
Qed.

(** * C101 *)
(** C101 is false of the code: of the targets of a br_table only the first is printed (and the default):
    whatever comes before and after, modules whose br_tables differ only in later targets are printed alike. *)
Theorem C101_branch_tables_refuted :
  forall pre post t ts ts' d,
    print_events (pre ++ [EvExpr (mkExpr 14 (IBranchTable (t :: ts) d))] ++ post) =
    print_events (pre ++ [EvExpr (mkExpr 14 (IBranchTable (t :: ts') d))] ++ post).
Proof. intros. unfold print_events. rewrite !fold_left_app. reflexivity. Qed.
Print Assumptions C101_branch_tables_refuted.
(** from bytes: the tables 0 1 and 0 5, default 2 (the size of the body is one less than it should be, C96) *)
Example C101_instance :
  exists out, disassemble 100 true (wasm_header ++ [3; 2; 1; 0] ++ [10; 9; 1; 6; 0; 14; 2; 0; 1; 2; 11]) = Ok out /\
              disassemble 100 true (wasm_header ++ [3; 2; 1; 0] ++ [10; 9; 1; 6; 0; 14; 2; 0; 5; 2; 11]) = Ok out.
Proof. eexists. split; vm_compute; reflexivity. Qed.

(** * C102 *)
Definition words (l : list out) : list str := flat_map (fun o => match o with Rq (Atom s) => [s] | _ => [] end) l.
(** The text of one function with the instructions [es]. *)
Definition function_events (t : Z) (b : fbody) (es : list expr) : list event :=
  [EvModuleStart; EvFunction 0 t; EvBody 0 b] ++ map EvExpr es ++ [EvBodyEnd; EvModuleEnd].
Definition line (p : nat * expr) : str := NL :: repeat SP (2 * (2 + fst p)) ++ spaced (words (p_expr (snd p))).
(** C102: every instruction of a function is on a line of its own, two spaces further in for each block
    around it; [else] and [end] are aligned with their block. *)
Definition laid_out (t : Z) (b : fbody) (es : list expr) : Prop :=
  forall ds, depths 0 es = Some ds ->
    exists pre, buffer (p_out (print_events (function_events t b es))) = pre ++ concat (map line ds) ++ lit "))" ++ [NL].

Lemma spaced_cons2 a b l : spaced (a :: b :: l) = a ++ SP :: spaced (b :: l).
Proof. reflexivity. Qed.
Lemma atoms_send n l : Forall (fun o => exists s, o = Rq (Atom s)) l -> forall b w,
  fold_left send l (mkF (b ++ w) n false true) = mkF (b ++ spaced (w :: words l)) n false true.
Proof.
  intros H. induction H as [|o l (s & ->) H IH]; intros b w; cbn [fold_left]; [reflexivity|].
  cbn [send put]. unfold spacing. cbn [fresh needsSpacing buffer indent].
  change (words (Rq (Atom s) :: l)) with (s :: words l). rewrite spaced_cons2.
  rewrite (IH ((b ++ w) ++ [SP]) s). rewrite <- !app_assoc. reflexivity.
Qed.
Lemma p_expr_atoms e : Forall (fun o => exists s, o = Rq (Atom s)) (p_expr e).
Proof.
  unfold p_expr. constructor; [eexists; reflexivity|]. destruct (e_imm e); cbn [p_imm]; repeat constructor; try (eexists; reflexivity).
  destruct targets; repeat constructor; eexists; reflexivity.
Qed.
(** an instruction on a fresh line *)
Lemma send_line e f : fresh f = false ->
  fold_left send (Rq Fresh :: p_expr e) f =
  mkF (buffer f ++ NL :: indent_string (indent f) ++ spaced (words (p_expr e))) (indent f) false true.
Proof.
  intros Hf. cbn [fold_left send put]. unfold freshen. rewrite Hf. pose proof (p_expr_atoms e) as A. unfold p_expr in *.
  inversion A as [|? ? (s & E) Hl]; subst. rewrite E in *. cbn [fold_left send put]. unfold spacing. cbn [fresh buffer indent].
  rewrite (atoms_send (indent f) (p_imm (e_imm e)) Hl). rewrite <- !app_assoc. reflexivity.
Qed.
Lemma print_body es : forall d ds p, depths d es = Some ds -> p_depth p = d -> indent (p_out p) = (2 + d)%nat -> fresh (p_out p) = false ->
  (d <= 8)%nat -> Forall (fun q => opens (snd q) = true -> (fst q <= 7)%nat) ds ->
  buffer (p_out (fold_left handle (map EvExpr es) p)) = buffer (p_out p) ++ concat (map line ds) /\
  fresh (p_out (fold_left handle (map EvExpr es) p)) = false.
Proof.
  induction es as [|e es IH]; intros d ds p Hd Hp Hi Hf Hb Ho; cbn [map fold_left depths] in *.
  { injection Hd as <-. cbn. rewrite app_nil_r. auto. }
  assert (Hline : forall k, indent_string k = repeat SP (2 * k)) by apply indent_repeat.
  cbn [handle]. unfold p_body_expr. unfold opens, is_end, is_else in *. rewrite Hp.
  destruct ((e_op e =? 2) || (e_op e =? 3) || (e_op e =? 4)) eqn:E1; [|destruct (e_op e =? 11) eqn:E2; [|destruct (e_op e =? 5) eqn:E3]].
  - destruct (depths (S d) es) as [ds'|] eqn:E; [|discriminate]. injection Hd as <-.
    inversion Ho as [|? ? Ho1 Ho2]; subst. cbn [fst snd] in Ho1. specialize (Ho1 E1).
    match goal with |- context [fold_left handle _ ?q] => set (p' := q) end.
    assert (Q : p_out p' = mkF (buffer (p_out p) ++ line (p_depth p, e)) (3 + p_depth p) false true).
    { subst p'. cbn [p_out send_all]. rewrite app_comm_cons, fold_left_app, (send_line e (p_out p) Hf). cbn [fold_left send buffer indent fresh needsSpacing].
      rewrite Hi. unfold line. cbn [fst snd]. rewrite <- Hline. unfold indent_inc, MAX_DEPTH.
      replace (2 + p_depth p <? 10)%nat with true by (symmetry; apply Nat.ltb_lt; lia). reflexivity. }
    destruct (IH (S (p_depth p)) ds' p' E eq_refl) as [-> F]; try (rewrite Q; cbn [indent fresh]); auto; try lia.
    split; [|exact F]. try rewrite Q. cbn [buffer map concat]. now rewrite <- app_assoc.
  - destruct (depths (Nat.pred d) es) as [ds'|] eqn:E; [|discriminate]. injection Hd as <-. inversion Ho as [|? ? Ho1 Ho2]; subst.
    destruct (p_depth p) as [|k] eqn:Ep; cbn [Nat.pred] in *.
    + match goal with |- context [fold_left handle _ ?q] => set (p' := q) end.
      assert (Q : p_out p' = mkF (buffer (p_out p) ++ line (0%nat, e)) 2 false true).
      { subst p'. cbn [p_out send_all]. rewrite (send_line e (p_out p) Hf), Hi. unfold line. cbn [fst snd]. now rewrite <- Hline. }
      destruct (IH 0%nat ds' p' E eq_refl) as [-> F]; try (rewrite Q; cbn [indent fresh]); auto; try lia.
      split; [|exact F]. try rewrite Q. cbn [buffer map concat]. now rewrite <- app_assoc.
    + match goal with |- context [fold_left handle _ ?q] => set (p' := q) end.
      assert (Q : p_out p' = mkF (buffer (p_out p) ++ line (k, e)) (2 + k) false true).
      { subst p'. cbn [p_out send_all].
        change (fold_left send (Dec :: Rq Fresh :: p_expr e) (p_out p)) with (fold_left send (Rq Fresh :: p_expr e) (send (p_out p) Dec)).
        rewrite (send_line e) by exact Hf. cbn [send indent buffer]. rewrite Hi. unfold line. cbn [fst snd]. rewrite <- Hline.
        unfold indent_dec. replace (0 <? 2 + S k)%nat with true by reflexivity. replace (2 + S k - 1)%nat with (2 + k)%nat by lia. reflexivity. }
      destruct (IH k ds' p' E eq_refl) as [-> F]; try (rewrite Q; cbn [indent fresh]); auto; try lia.
      split; [|exact F]. try rewrite Q. cbn [buffer map concat]. now rewrite <- app_assoc.
  - destruct d as [|k]; [discriminate|]. destruct (depths (S k) es) as [ds'|] eqn:E; [|discriminate]. injection Hd as <-. inversion Ho as [|? ? Ho1 Ho2]; subst.
    match goal with |- context [fold_left handle _ ?q] => set (p' := q) end.
    assert (Q : p_out p' = mkF (buffer (p_out p) ++ line (k, e)) (3 + k) false true).
    { subst p'. cbn [p_out send_all].
      change (Dec :: Rq Fresh :: p_expr e ++ [Inc]) with ([Dec] ++ (Rq Fresh :: p_expr e) ++ [Inc]). rewrite !fold_left_app.
      change (fold_left send [Dec] (p_out p)) with (send (p_out p) Dec). rewrite (send_line e) by exact Hf. cbn [send indent buffer fold_left fresh needsSpacing]. rewrite Hi. unfold line. cbn [fst snd]. rewrite <- Hline.
      unfold indent_dec. replace (0 <? 2 + S k)%nat with true by reflexivity. replace (2 + S k - 1)%nat with (2 + k)%nat by lia.
      unfold indent_inc, MAX_DEPTH. replace (2 + k <? 10)%nat with true by (symmetry; apply Nat.ltb_lt; lia). reflexivity. }
    destruct (IH (S k) ds' p' E) as [-> F]; try (rewrite Q; cbn [indent fresh]); auto; try lia.
    split; [|exact F]. try rewrite Q. cbn [buffer map concat]. now rewrite <- app_assoc.
  - destruct (depths d es) as [ds'|] eqn:E; [|discriminate]. injection Hd as <-. inversion Ho as [|? ? Ho1 Ho2]; subst.
    match goal with |- context [fold_left handle _ ?q] => set (p' := q) end.
    assert (Q : p_out p' = mkF (buffer (p_out p) ++ line (p_depth p, e)) (2 + p_depth p) false true).
    { subst p'. cbn [p_out send_all]. rewrite (send_line e (p_out p) Hf), Hi. unfold line. cbn [fst snd]. now rewrite <- Hline. }
    destruct (IH (p_depth p) ds' p' E eq_refl) as [-> F]; try (rewrite Q; cbn [indent fresh]); auto; try lia.
    split; [|exact F]. try rewrite Q. cbn [buffer map concat]. now rewrite <- app_assoc.
Qed.

Lemma body_start t b : exists s,
  p_out (fold_left handle [EvModuleStart; EvFunction 0 t; EvBody 0 b] new_printer) = mkF s 2 false true /\
  p_depth (fold_left handle [EvModuleStart; EvFunction 0 t; EvBody 0 b] new_printer) = 0%nat.
Proof.
  set (l := flat_map (fun l => word "tttt" :: p_local l) (fb_locals b)).
  assert (A : Forall (fun o => exists s, o = Rq (Atom s)) l).
  { subst l. induction (fb_locals b) as [|x ls IH]; cbn [flat_map]; [constructor|]. apply (Forall_app _ [word "tttt"]). split; [repeat constructor; eexists; reflexivity|].
    apply Forall_app. split; [|exact IH]. unfold p_local. induction (repeat tt _) as [|? ? IH2]; cbn [flat_map]; [constructor|].
    apply (Forall_app _ [word "test"; type_name (lo_type x)]). split; [repeat constructor; eexists; reflexivity|exact IH2]. }
  set (ln := decimal (Z.of_nat (length (fb_locals b)))). set (tn := decimal t).
  match goal with |- exists s, p_out ?q = _ /\ _ =>
    assert (E : p_out q = fold_left send [Rq End] (fold_left send l (fold_left send ([Rq Start; word "module"] ++
              ([Rq Fresh; Rq Start; word "func"] ++ [Rq Start; word "typezz"; Rq (Atom tn); Rq End; Rq Fresh; Rq Start; word "local"]) ++
              [Rq (Atom ln)]) new_formatter))) end.
  { rewrite <- !fold_left_app. reflexivity. }
  rewrite E. clear E. clearbody l ln tn.
  match goal with |- context [fold_left send l ?x] => set (f1 := x) end.
  assert (F1 : exists b1 w1, f1 = mkF (b1 ++ w1) 3 false true).
  { subst f1. cbn [app]. cbn [fold_left send word put]. eexists _, _. reflexivity. }
  destruct F1 as (b1 & w1 & ->). rewrite (atoms_send 3 l A). cbn [fold_left send put buffer indent]. eexists. split; reflexivity.
Qed.
Theorem C102_indentation_partial :
  forall t b es ds, depths 0 es = Some ds -> Forall (fun q => opens (snd q) = true -> (fst q <= 7)%nat) ds ->
    laid_out t b es.
Proof.
  intros t b es ds Hd Ho ds' Hd'. assert (ds' = ds) by congruence. subst ds'. clear Hd'.
  unfold print_events, function_events. rewrite !fold_left_app.
  destruct (body_start t b) as (s & E & Ed). set (p := fold_left handle _ new_printer) in *.
  destruct (print_body es 0 ds p Hd Ed) as [B F]; try (rewrite E; reflexivity); [lia|exact Ho|].
  exists s. set (q := fold_left handle (map EvExpr es) p) in *.
  cbn [fold_left handle send_all p_out send put]. unfold freshen. cbn [buffer fresh]. rewrite B, E. cbn [buffer].
  rewrite <- !app_assoc. reflexivity.
Qed.
Print Assumptions C102_indentation_partial.
(** An if with an else, in a block: depths 0 1 1 1 2 0 (block, if, nop, else, nop, end, end, and the function's end) *)
Example C102_instance : exists ds,
  depths 0 [mkExpr 2 (IType 64); mkExpr 4 (IType 64); mkExpr 1 INone; mkExpr 5 INone; mkExpr 1 INone; mkExpr 11 INone; mkExpr 11 INone; mkExpr 11 INone] = Some ds /\
  map fst ds = [0; 1; 2; 1; 2; 1; 0; 0]%nat /\ Forall (fun q => opens (snd q) = true -> (fst q <= 7)%nat) ds.
Proof. eexists. split; [reflexivity|]. split; [reflexivity|]. repeat (constructor; [cbn; intros; try discriminate; lia|]). constructor. Qed.

(** C102 is false of the code for nine or more nested blocks: the indentation stops growing at ten but is
    taken back once per block, and is never restored. *)
Definition nested (n : nat) : list expr := repeat (mkExpr 2 (IType 64)) n ++ repeat (mkExpr 11 INone) n ++ [mkExpr 11 INone].
Lemma open_blocks n : forall d p, p_depth p = d -> fresh (p_out p) = false ->
  let q := fold_left handle (map EvExpr (repeat (mkExpr 2 (IType 64)) n)) p in
  p_depth q = (n + d)%nat /\ fresh (p_out q) = false /\ (indent (p_out p) <= 10 -> indent (p_out q) = Nat.min 10 (n + indent (p_out p)))%nat.
Proof.
  induction n as [|n IH]; intros d p Hd Hf; cbn [repeat map fold_left].
  { cbv zeta. split; [exact Hd|]. split; [exact Hf|]. intros. lia. }
  set (p' := handle p (EvExpr (mkExpr 2 (IType 64)))).
  assert (Q : p_depth p' = S d /\ fresh (p_out p') = false /\ indent (p_out p') = indent_inc (indent (p_out p))).
  { subst p'. cbn [handle]. unfold p_body_expr. cbn [e_op Z.eqb Pos.eqb orb]. cbn [p_depth p_out send_all].
    rewrite app_comm_cons, fold_left_app, send_line by exact Hf. cbn [fold_left send indent fresh]. rewrite Hd. auto. }
  destruct Q as (Q1 & Q2 & Q3). destruct (IH (S d) p' Q1 Q2) as (R1 & R2 & R3). cbv zeta. rewrite R1, R2.
  split; [lia|]. split; [reflexivity|]. intros Hi. unfold indent_inc, MAX_DEPTH in Q3.
  destruct (Nat.ltb_spec (indent (p_out p)) 10); rewrite R3, Q3; lia.
Qed.
Lemma close_blocks n : forall p, p_depth p = n -> fresh (p_out p) = false ->
  let q := fold_left handle (map EvExpr (repeat (mkExpr 11 INone) n)) p in
  p_depth q = 0%nat /\ fresh (p_out q) = false /\ indent (p_out q) = (indent (p_out p) - n)%nat.
Proof.
  induction n as [|n IH]; intros p Hd Hf; cbn [repeat map fold_left].
  { cbv zeta. split; [exact Hd|]. split; [exact Hf|]. lia. }
  set (p' := handle p (EvExpr (mkExpr 11 INone))).
  assert (Q : p_depth p' = n /\ fresh (p_out p') = false /\ indent (p_out p') = indent_dec (indent (p_out p))).
  { subst p'. cbn [handle]. unfold p_body_expr. cbn [e_op Z.eqb Pos.eqb orb]. rewrite Hd. cbn [p_depth p_out send_all].
    change (fold_left send (Dec :: Rq Fresh :: p_expr (mkExpr 11 INone)) (p_out p)) with (fold_left send (Rq Fresh :: p_expr (mkExpr 11 INone)) (send (p_out p) Dec)).
    rewrite send_line by exact Hf. cbn [send indent fresh]. auto. }
  destruct Q as (Q1 & Q2 & Q3). destruct (IH p' Q1 Q2) as (R1 & R2 & R3). cbv zeta. rewrite R1, R2, R3, Q3.
  split; [reflexivity|]. split; [reflexivity|]. unfold indent_dec. destruct (Nat.ltb_spec 0 (indent (p_out p))); lia.
Qed.
Lemma nested_depths n : exists ds, depths 0 (nested n) = Some (ds ++ [(0%nat, mkExpr 11 INone)]).
Proof.
  unfold nested.
  assert (C : forall k, exists ds, depths k (repeat (mkExpr 11 INone) k ++ [mkExpr 11 INone]) = Some (ds ++ [(0%nat, mkExpr 11 INone)])).
  { induction k as [|k (ds & IH)]; [exists []; reflexivity|]. cbn [repeat app depths].
    change (opens (mkExpr 11 INone)) with false. change (is_end (mkExpr 11 INone)) with true. cbv iota. cbn [Nat.pred]. rewrite IH.
    exists ((k, mkExpr 11 INone) :: ds). reflexivity. }
  assert (O : forall k d l, exists pre, depths d (repeat (mkExpr 2 (IType 64)) k ++ l) = option_map (app pre) (depths (k + d) l)).
  { induction k as [|k IH]; intros d l; [exists []; cbn; destruct (depths d l); reflexivity|]. cbn [repeat app depths].
    change (opens (mkExpr 2 (IType 64))) with true. cbv iota. destruct (IH (S d) l) as (pre & E). rewrite E.
    exists ((d, mkExpr 2 (IType 64)) :: pre). replace (S k + d)%nat with (k + S d)%nat by lia. destruct (depths _ l); reflexivity. }
  destruct (O n 0%nat (repeat (mkExpr 11 INone) n ++ [mkExpr 11 INone])) as (pre & ->).
  replace (n + 0)%nat with n by lia. destruct (C n) as (ds & ->). exists (pre ++ ds). cbn [option_map]. now rewrite app_assoc.
Qed.
Theorem C102_indentation_refuted : forall n t b, (9 <= n)%nat -> ~ laid_out t b (nested n).
Proof.
  intros n t b Hn L. destruct (nested_depths n) as (ds & Hd). destruct (L _ Hd) as (pre & E). clear L Hd.
  unfold print_events, function_events, nested in E. rewrite !fold_left_app in E. rewrite !map_app, !fold_left_app in E.
  destruct (body_start t b) as (s & S1 & S2). set (p := fold_left handle [_; _; _] new_printer) in *.
  destruct (open_blocks n 0 p S2) as (A1 & A2 & A3); [now rewrite S1|]. cbv zeta in *. set (p1 := fold_left handle (map EvExpr (repeat (mkExpr 2 (IType 64)) n)) p) in *.
  specialize (A3 ltac:(rewrite S1; cbn [indent]; lia)). rewrite S1 in A3. cbn [indent] in A3.
  destruct (close_blocks n p1) as (B1 & B2 & B3); [lia|exact A2|]. cbv zeta in *. set (p2 := fold_left handle (map EvExpr (repeat (mkExpr 11 INone) n)) p1) in *.
  cbn [map fold_left] in E. set (p3 := handle p2 (EvExpr (mkExpr 11 INone))) in *.
  assert (Q : p_out p3 = mkF (buffer (p_out p2) ++ NL :: indent_string (10 - n) ++ lit "end") (10 - n) false true).
  { subst p3. cbn [handle]. unfold p_body_expr. cbn [e_op Z.eqb Pos.eqb orb]. rewrite B1. cbn [p_out send_all].
    rewrite send_line by exact B2. rewrite B3, A3. replace (Nat.min 10 (n + 2) - n)%nat with (10 - n)%nat by lia. reflexivity. }
  cbn [handle send_all p_out fold_left send put] in E. unfold freshen in E. cbn [buffer fresh] in E. rewrite Q in E. cbn [buffer] in E.
  rewrite concat_app in E. cbn [map concat] in E. change (line (0%nat, mkExpr 11 INone)) with (NL :: repeat SP 4 ++ lit "end") in E. rewrite app_nil_r in E.
  rewrite indent_repeat in E.
  assert (K : forall (x y : str) k, (k <= 2)%nat -> x ++ NL :: repeat SP k ++ (lit "end" ++ lit "))" ++ [NL]) = y ++ NL :: repeat SP 4 ++ (lit "end" ++ lit "))" ++ [NL]) -> False).
  { clear. intros x y k Hk E. rewrite !app_comm_cons, !app_assoc in E. rewrite <- !app_assoc in E.
    assert (E' : (x ++ NL :: repeat SP k) ++ (lit "end" ++ lit "))" ++ [NL]) = (y ++ NL :: repeat SP 4) ++ (lit "end" ++ lit "))" ++ [NL])).
    { rewrite <- !app_assoc. exact E. }
    apply app_inv_tail in E'. apply (f_equal (@rev ascii)) in E'. rewrite !rev_app_distr in E'. cbn [rev] in E'.
    destruct k as [|[|[|]]]; try lia; cbn in E'; discriminate E'. }
  apply (K (buffer (p_out p2)) (pre ++ concat (map line ds)) (2 * (10 - n))%nat ltac:(lia)).
  cbn [lit list_ascii_of_string app]. repeat (rewrite <- app_assoc in E; cbn [app] in E). rewrite <- ?app_assoc. cbn [app].
  unfold lit in E. cbn [list_ascii_of_string app] in E. exact E.
Qed.
Print Assumptions C102_indentation_refuted.

(** * C103 and C104 *)
Lemma spaced_snoc l w : l <> [] -> spaced (l ++ [w]) = spaced l ++ SP :: w.
Proof.
  induction l as [|a l IH]; [congruence|]. intros _. destruct l as [|b l]; [reflexivity|].
  change ((a :: b :: l) ++ [w]) with (a :: b :: (l ++ [w])). rewrite !spaced_cons2.
  change (b :: l ++ [w]) with ((b :: l) ++ [w]). rewrite IH by discriminate. rewrite <- app_assoc. reflexivity.
Qed.
(** What is printed before the string of a module's only data segment, which starts at [o]. *)
Definition before_data (o : expr) : str :=
  lit "(module" ++ [NL] ++ lit "  (data " ++ spaced (words (p_expr o)) ++ [SP].
Lemma one_data_text lim strict x len b : enc_section lim (SData [x]) len b ->
  disassemble lim strict (wasm_header ++ b) = Ok (before_data (ds_offset x) ++ data_text (ds_bytes x) ++ lit "))" ++ [NL], []).
Proof.
  intros H. unfold disassemble, disasm_cfg.
  rewrite <- (app_nil_r b). change (b ++ []) with (concat [b]).
  rewrite (C86_modules_read_back lim strict _ (fun _ _ => []) [(SData [x], len)] [b]) by (repeat constructor; exact H).
  cbn [bind]. unfold module_events. cbn [flat_map section_events entry_events map app fst snd sec_code].
  unfold print_events. cbn [fold_left]. set (p0 := handle (handle (handle new_printer EvModuleStart) (EvHeader _ _)) _).
  change p0 with (mkP (mkF (lit "(module") 1 false true) [] 0 []). clear p0.
  set (dt := data_text (ds_bytes x)). set (o := ds_offset x).
  assert (E : p_out (handle (mkP (mkF (lit "(module") 1 false true) [] 0 []) (EvData (ds_memory x) o (ds_bytes x))) =
    fold_left send [Rq End] (fold_left send (p_expr o ++ [Rq (Atom dt)]) (mkF ((lit "(module" ++ [NL] ++ lit "  (") ++ lit "data") 2 false true))).
  { rewrite <- fold_left_app. reflexivity. }
  set (p1 := handle _ (EvData _ _ _)) in *. change (p_stdout p1) with (@nil ascii).
  assert (A : Forall (fun o => exists s, o = Rq (Atom s)) (p_expr o ++ [Rq (Atom dt)])).
  { apply Forall_app. split; [apply p_expr_atoms|]. repeat constructor. eexists. reflexivity. }
  rewrite (atoms_send 2 _ A) in E. unfold words in E. rewrite flat_map_app in E. fold (words (p_expr o)) in E. cbn [flat_map] in E.
  rewrite app_nil_r in E. rewrite app_comm_cons, spaced_snoc in E by discriminate. cbn [fold_left send put] in E.
  assert (Hne : exists w l, words (p_expr o) = w :: l) by (eexists _, _; reflexivity). destruct Hne as (w & l & Hw).
  unfold before_data. rewrite Hw in *. rewrite spaced_cons2 in E.
  cbn [handle send_all p_out p_stdout fold_left send put]. rewrite E. unfold freshen. cbn [buffer fresh].
  do 2 f_equal. unfold before_data, lit. cbn [list_ascii_of_string app]. rewrite <- !app_assoc. cbn [app]. rewrite <- ?app_assoc. reflexivity.
Qed.
Definition printable (b : Z) : bool := (32 <? signed_char b) && (signed_char b <? 127).
Lemma printable_range b : is_byte b -> printable b = true <-> 33 <= b <= 126.
Proof. unfold is_byte, printable, signed_char. destruct (Z.ltb_spec b 128); rewrite andb_true_iff, !Z.ltb_lt; lia. Qed.
Lemma data_char_eq b : data_char b = if printable b then [chr b] else ["\"%char; chr b].
Proof. reflexivity. Qed.
Lemma chr_bs b : is_byte b -> chr b = "\"%char -> b = 92.
Proof. intros Hb E. change "\"%char with (chr 92) in E. apply chr_inj in E; unfold is_byte in *; lia. Qed.
Lemma data_inj a : forall b, is_bytes a -> is_bytes b -> flat_map data_char a = flat_map data_char b -> a = b.
Proof.
  assert (P92 : printable 92 = true) by reflexivity.
  assert (Mix : forall b d c r, is_byte c -> is_bytes d -> printable c = false -> chr b = "\"%char -> flat_map data_char d = chr c :: r -> False).
  { intros b d c r Hc Hd Pc _ E. destruct d as [|e d]; [discriminate|]. inversion Hd; subst. cbn [flat_map] in E.
    rewrite data_char_eq in E. destruct (printable e) eqn:Pe; cbn [app] in E; injection E as E _.
    - apply chr_inj in E; [congruence|assumption|assumption].
    - symmetry in E. apply chr_bs in E; [|assumption]. congruence. }
  induction a as [|x a IH]; intros [|y b] Ha Hb; cbn [flat_map]; rewrite ?data_char_eq; intros E.
  - reflexivity.
  - destruct (printable y); discriminate.
  - destruct (printable x); discriminate.
  - inversion Ha; inversion Hb; subst. destruct (printable x) eqn:Px, (printable y) eqn:Py; cbn [app] in E.
    + injection E as E1 E2. apply chr_inj in E1; [|assumption..]. subst. f_equal. auto.
    + exfalso. injection E as E1 E2. eapply (Mix x a y); eauto.
    + exfalso. injection E as E1 E2. symmetry in E1, E2. eapply (Mix y b x); eauto.
    + injection E as E1 E2. apply chr_inj in E1; [|assumption..]. subst. f_equal. auto.
Qed.
(** C103: modules that differ only in the contents of their data segment are printed differently. *)
Theorem C103_data_determined :
  forall lim strict x len b x' len' b' r,
    enc_section lim (SData [x]) len b -> enc_section lim (SData [x']) len' b' -> ds_offset x = ds_offset x' ->
    disassemble lim strict (wasm_header ++ b) = r -> disassemble lim strict (wasm_header ++ b') = r ->
    ds_bytes x = ds_bytes x'.
Proof.
  intros lim strict x len b x' len' b' r H H' Eo E E'.
  assert (B : forall x len b, enc_section lim (SData [x]) len b -> is_bytes (ds_bytes x)).
  { clear. intros x len b (gl & p & _ & _ & (g & bs & _ & F & _) & _). inversion F as [|? ? ? ? Hx]; subst.
    destruct Hx as (bm & bo & bd & _ & _ & (g' & bs' & _ & F' & _) & _). clear - F'. unfold is_bytes.
    induction F' as [|? ? ? ? [Hb _] ? IH]; constructor; auto. }
  rewrite (one_data_text lim strict x len b H) in E. rewrite (one_data_text lim strict x' len' b' H') in E'. rewrite <- E', <- Eo in E.
  assert (E1 : before_data (ds_offset x) ++ data_text (ds_bytes x) ++ lit "))" ++ [NL] =
               before_data (ds_offset x) ++ data_text (ds_bytes x') ++ lit "))" ++ [NL]) by congruence.
  apply app_inv_head in E1. apply app_inv_tail in E1. unfold data_text in E1. injection E1 as E1. apply app_inv_tail in E1.
  apply data_inj in E1; eauto.
Qed.
Print Assumptions C103_data_determined.
Example C103_instance :
  enc_section 10 (SData [mkDataS 0 (mkExpr 65 (IVarint 8)) [104; 10; 92]]) 9 [11; 9; 1; 0; 65; 8; 11; 3; 104; 10; 92] /\
  data_text [104; 10; 92] = """"%char :: "h"%char :: "\"%char :: NL :: "\"%char :: """"%char :: [].
Proof.
  split; [|reflexivity].
  exists [9], [1; 0; 65; 8; 11; 3; 104; 10; 92]. split; [apply small_u32; lia|]. split; [reflexivity|]. split; [|reflexivity].
  exists [1], [[0; 65; 8; 11; 3; 104; 10; 92]]. split; [apply small_u32; cbn; lia|]. split; [|reflexivity]. constructor; [|constructor].
  exists [0], [65; 8; 11], [3; 104; 10; 92]. split; [apply small_u32; cbn; lia|]. split.
  - split; [unfold const_op; cbn; lia|]. exists [65; 8]. split; [|reflexivity]. apply (In_i32 10 8 [8]).
    unfold enc_s. conjs; [constructor; lia|cbn; lia|reflexivity].
  - split; [|split; [cbn; lia|reflexivity]]. exists [3], [[104]; [10]; [92]]. split; [apply small_u32; cbn; lia|]. split; [|reflexivity].
    repeat constructor; lia.
Qed.

(** C104: the printed string reads back as the data.  It does when every byte is a character that stands
    for itself. *)
Lemma code_chr b : 0 <= b < 256 -> Z.of_nat (nat_of_ascii (chr b)) = b.
Proof. intros H. unfold chr. rewrite Z.mod_small by lia. rewrite nat_ascii_embedding by lia. lia. Qed.
Lemma wat_clean a : forall fuel s, Forall clean a ->
  wat_string (length a + fuel) (map chr a ++ s) = match wat_string fuel s with Some (b, r) => Some (a ++ b, r) | None => None end.
Proof.
  induction a as [|x a IH]; intros fuel s Ha.
  { cbn [map app length Nat.add]. destruct (wat_string fuel s) as [[]|]; reflexivity. }
  inversion Ha as [|? ? Hx Ha']; subst. unfold clean in Hx. cbn [map app length Nat.add wat_string]. rewrite code_chr by lia.
  replace (x =? 34) with false by lia. replace (x =? 92) with false by lia. replace ((x <? 32) || (x =? 127)) with false by lia.
  rewrite IH by assumption. destruct (wat_string fuel s) as [[]|]; reflexivity.
Qed.
Lemma data_clean a : Forall clean a -> flat_map data_char a = map chr a.
Proof.
  induction 1 as [|x a Hx Ha IH]; [reflexivity|]. cbn [flat_map map]. rewrite data_char_eq, IH. unfold clean in Hx.
  replace (printable x) with true; [reflexivity|]. symmetry. apply printable_range; unfold is_byte; lia.
Qed.
Theorem C104_data_readable_partial :
  forall lim strict x len b, enc_section lim (SData [x]) len b -> Forall clean (ds_bytes x) ->
    exists s, disassemble lim strict (wasm_header ++ b) = Ok (before_data (ds_offset x) ++ """"%char :: s, []) /\
      read_string s = Some (ds_bytes x, lit "))" ++ [NL]).
Proof.
  intros lim strict x len b H Hc. rewrite (one_data_text lim strict x len b H). unfold data_text. rewrite data_clean by exact Hc.
  eexists. split; [rewrite <- app_comm_cons, <- app_assoc; reflexivity|]. unfold read_string.
  rewrite app_length, map_length. cbn [app length]. rewrite <- Nat.add_succ_r. rewrite wat_clean by exact Hc.
  change (wat_string _ _) with (Some (@nil Z, lit "))" ++ [NL])). cbv beta iota. rewrite app_nil_r. reflexivity.
Qed.
Print Assumptions C104_data_readable_partial.
(** C104 is false of the code: with a quote, a space, or any byte that is not a printable character (after
    bytes that are), the text is not a string that stands for the data. *)
Theorem C104_data_readable_refuted :
  forall lim strict x len b good c more, enc_section lim (SData [x]) len b ->
    ds_bytes x = good ++ c :: more -> Forall clean good -> c = 34 \/ c <= 32 \/ 127 <= c ->
    exists s, disassemble lim strict (wasm_header ++ b) = Ok (before_data (ds_offset x) ++ """"%char :: s, []) /\
      forall rest, read_string s <> Some (ds_bytes x, rest).
Proof.
  intros lim strict x len b good c more H Ed Hg Hc. rewrite (one_data_text lim strict x len b H). unfold data_text.
  eexists. split; [rewrite <- app_comm_cons, <- app_assoc; reflexivity|]. intros rest. rewrite Ed.
  assert (Hb : is_byte c).
  { destruct H as (gl & p & _ & _ & (g & bs & _ & F & _) & _). inversion F as [|? ? ? ? Hx]; subst.
    destruct Hx as (bm & bo & bd & _ & _ & (g' & bs' & _ & F' & _) & _). rewrite Ed in F'. clear - F'.
    apply Forall2_app_inv_l in F' as (l1 & l2 & _ & F' & _). inversion F' as [|? ? ? ? [Hb _]]; subst. exact Hb. }
  rewrite flat_map_app, data_clean by exact Hg. cbn [flat_map]. rewrite <- !app_assoc.
  set (tl := flat_map data_char more ++ _). unfold read_string. rewrite app_length, map_length, <- Nat.add_succ_r, wat_clean by exact Hg.
  rewrite data_char_eq. destruct (printable c) eqn:Pc.
  - apply printable_range in Pc; [|exact Hb]. assert (c = 34) by lia. subst c.
    change (wat_string (S (length ([chr 34] ++ tl))) ([chr 34] ++ tl)) with (Some (@nil Z, tl)). intros E. injection E as E _.
    apply app_inv_head in E. discriminate E.
  - assert (Pr : ~ 33 <= c <= 126) by (rewrite <- printable_range by exact Hb; rewrite Pc; discriminate).
    change (wat_string (S (length (["\"%char; chr c] ++ tl))) (["\"%char; chr c] ++ tl))
      with (match escape (chr c :: tl) with Some (v, s) => match wat_string (length (["\"%char; chr c] ++ tl)) s with Some (b, r) => Some (v :: b, r) | None => None end | None => None end).
    replace (escape (chr c :: tl)) with (@None (Z * str)); [discriminate|]. symmetry. unfold escape.
    assert (L : letter_escape (chr c) = None).
    { unfold is_byte in Hb. pose proof (code_chr c Hb) as Ec. unfold letter_escape.
      destruct (chr c) as [[] [] [] [] [] [] [] []]; try reflexivity; exfalso; cbn in Ec; lia. }
    rewrite L. destruct tl as [|d tl']; [reflexivity|].
    assert (Hx : hex_digit (chr c) = None).
    { unfold hex_digit. unfold is_byte in Hb. rewrite code_chr by exact Hb.
      replace ((48 <=? c) && (c <=? 57)) with false by lia. replace ((65 <=? c) && (c <=? 70)) with false by lia.
      replace ((97 <=? c) && (c <=? 102)) with false by lia. reflexivity. }
    rewrite Hx. reflexivity.
Qed.
Print Assumptions C104_data_readable_refuted.
Example C104_instance : Forall clean [104; 105] /\ [104; 10; 92] = [104] ++ 10 :: [92] /\ Forall clean [104].
Proof. split; [|split]; [repeat constructor; lia|reflexivity|repeat constructor; lia]. Qed.

(** * C105 *)
(** what was written to standard output by function bodies *)
Definition body_lines (evs : list event) : str :=
  concat (map (fun e => match e with EvBody _ b => debug_line (length (fb_locals b)) | _ => [] end) evs).
Lemma stdout_events evs : forall p, p_stdout (fold_left handle evs p) = p_stdout p ++ body_lines evs.
Proof.
  induction evs as [|e evs IH]; intros p; cbn [fold_left]; [cbn; now rewrite app_nil_r|]. rewrite IH. unfold body_lines. cbn [map concat].
  rewrite app_assoc. f_equal. destruct e; try (cbn [handle send_all p_stdout]; now rewrite app_nil_r).
  - reflexivity.
  - cbn [handle]. destruct (p_body_expr (p_depth p) e). cbn [send_all p_stdout]. now rewrite app_nil_r.
Qed.
(** C105: with -o the file gets the text, and standard output gets the text otherwise; when there are no
    function bodies, standard output gets nothing else. *)
Theorem C105_output_partial :
  forall lim strict input evs c, read_module (disasm_cfg lim strict) input = Ok evs ->
    exists out, disassemble lim strict input = Ok (out, body_lines evs) /\
      ((forall f, cf_out c = Some f -> snd (outputs c (out, body_lines evs)) = Some out) /\
       ((forall i b, ~ In (EvBody i b) evs) ->
        fst (outputs c (out, body_lines evs)) = match cf_out c with None => out | Some _ => [] end)).
Proof.
  intros lim strict input evs c E. unfold disassemble. rewrite E. cbn [bind]. unfold print_events. rewrite (stdout_events evs new_printer).
  cbn [new_printer p_stdout app]. eexists. split; [reflexivity|]. unfold outputs. split.
  - intros f ->. reflexivity.
  - intros N. assert (B : body_lines evs = []).
    { clear - N. unfold body_lines. induction evs as [|e evs IH]; [reflexivity|]. cbn [map concat]. rewrite IH by (intros i b Hi; eapply N; right; exact Hi).
      destruct e; try reflexivity. exfalso. eapply N. left. reflexivity. }
    rewrite B. destruct (cf_out c); reflexivity.
Qed.
Print Assumptions C105_output_partial.
(** C105 is false of the code: for every function body a line that is not part of the text goes to standard
    output. *)
Theorem C105_output_refuted :
  forall lim strict input evs i b c, read_module (disasm_cfg lim strict) input = Ok evs -> In (EvBody i b) evs ->
    exists out, disassemble lim strict input = Ok (out, body_lines evs) /\
      fst (outputs c (out, body_lines evs)) <> match cf_out c with None => out | Some _ => [] end.
Proof.
  intros lim strict input evs i b c E Hi. unfold disassemble. rewrite E. cbn [bind]. unfold print_events. rewrite (stdout_events evs new_printer).
  cbn [new_printer p_stdout app]. eexists. split; [reflexivity|]. unfold outputs.
  assert (N : body_lines evs <> []).
  { clear - Hi. unfold body_lines. induction evs as [|e evs IH]; [destruct Hi|]. cbn [map concat]. destruct Hi as [->|Hi].
    - discriminate.
    - intros C. apply app_eq_nil in C as [_ C]. now apply IH. }
  destruct (cf_out c); cbn [fst snd]; [exact N|]. intros C. apply N.
  apply (f_equal (@length ascii)) in C. rewrite app_length in C. destruct (body_lines evs); [reflexivity|cbn [length] in C; lia].
Qed.
Print Assumptions C105_output_refuted.
Example C105_instance : exists evs i b, read_module (disasm_cfg 100 true) (wasm_header ++ [3; 2; 1; 0] ++ [10; 4; 1; 1; 0; 11]) = Ok evs /\
  In (EvBody i b) evs /\ body_lines evs = lit "!!! locals = 0 !!!" ++ [NL].
Proof. eexists _, _, _. split; [vm_compute; reflexivity|]. split; [|vm_compute; reflexivity]. cbn. do 6 right. left. reflexivity. Qed.

(** * C106 and C107 *)
Definition conf0 : config := mkConf None None false false.
Lemma is_lit a b : is (lit a) b = if list_eq_dec ascii_dec (lit a) (lit b) then true else false.
Proof. reflexivity. Qed.
Lemma not_dash f s : ~ starts_dash f -> is f (String "-" s) = false.
Proof.
  intros H. unfold is, seq_eqb. destruct (list_eq_dec ascii_dec f _) as [E|]; [|reflexivity]. exfalso. apply H.
  rewrite E. eexists. reflexivity.
Qed.
Lemma scan_operand c fuel args f : operand args f -> (length args < fuel)%nat ->
  scan_args fuel c args = Ok (Go (mkConf (match f with Some f => Some f | None => cf_in c end) (cf_out c) (cf_debug c) (cf_verbose c))).
Proof.
  intros Ho Hf. destruct fuel as [|fuel]; [lia|]. destruct Ho as [|g more Hg| |g more].
  - destruct c. reflexivity.
  - cbn [scan_args]. repeat rewrite not_dash by exact Hg. reflexivity.
  - destruct c. reflexivity.
  - reflexivity.
Qed.
Lemma scan_options os ss args : Forall2 spelled os ss -> forall out dbg vrb fuel, (length (concat ss ++ args) < fuel)%nat ->
  exists fuel', (length args < fuel')%nat /\
    scan_args fuel (mkConf None out dbg vrb) (concat ss ++ args) =
    scan_args fuel' (mkConf None (fold_left (fun r o => match o with OOut f => Some f | _ => r end) os out)
                       (dbg || has_debug os) (vrb || has_verbose os)) args.
Proof.
  intros Hs. induction Hs as [|o s os ss Hsp Hs IH]; intros out dbg vrb fuel Hf.
  - cbn [concat app] in *. exists fuel. split; [exact Hf|]. cbn. now rewrite !orb_false_r.
  - cbn [concat] in *. rewrite <- app_assoc in *.
    destruct Hsp as [g| | | |]; cbn [app length] in Hf |- *; (destruct fuel as [|fuel]; [lia|]); cbn [scan_args];
      rewrite !is_lit; cbn [lit list_ascii_of_string];
      repeat (match goal with |- context [list_eq_dec ascii_dec ?a ?b] => destruct (list_eq_dec ascii_dec a b) as [?|?]; [try discriminate|try congruence] end);
      cbn [orb cf_in cf_out cf_debug cf_verbose fold_left has_debug has_verbose existsb];
      match goal with |- context [scan_args fuel (mkConf None ?o ?d ?v) _] => destruct (IH o d v fuel ltac:(lia)) as (fuel' & Hf' & E) end;
      exists fuel'; (split; [exact Hf'|]); rewrite E; rewrite ?orb_true_r; reflexivity.
Qed.
(** C106: any number of options in any order, then the input file (after -- it may start with a dash):
    the last -o, the flags and the file are what is used. *)
Theorem C106_command_line :
  forall name os ss args f, Forall2 spelled os ss -> operand args f ->
    parse_arguments (name :: concat ss ++ args) = Ok (Go (mkConf f (last_out os) (has_debug os) (has_verbose os))).
Proof.
  intros name os ss args f Hs Ho. unfold parse_arguments. cbn [tl].
  destruct (scan_options os ss args Hs None false false (S (length (name :: concat ss ++ args)))) as (fuel & Hf & E); [cbn [length]; lia|].
  rewrite E, (scan_operand _ fuel args f Ho Hf). cbn. destruct f; reflexivity.
Qed.
Print Assumptions C106_command_line.
(** --help and --version win over whatever follows. *)
Theorem C106_help_and_version :
  forall name os ss more, Forall2 spelled os ss ->
    (forall h, h = lit "-h" \/ h = lit "--help" -> parse_arguments (name :: concat ss ++ h :: more) = Ok Usage) /\
    parse_arguments (name :: concat ss ++ lit "--version" :: more) = Ok Version.
Proof.
  intros name os ss more Hs. unfold parse_arguments. cbn [tl]. split.
  - intros h Hh.
    destruct (scan_options os ss (h :: more) Hs None false false (S (length (name :: concat ss ++ h :: more)))) as (fuel & Hf & E); [cbn [length]; lia|].
    rewrite E. destruct fuel as [|fuel]; [cbn in Hf; lia|]. destruct Hh as [-> | ->]; reflexivity.
  - destruct (scan_options os ss (lit "--version" :: more) Hs None false false (S (length (name :: concat ss ++ lit "--version" :: more)))) as (fuel & Hf & E); [cbn [length]; lia|].
    rewrite E. destruct fuel as [|fuel]; [cbn in Hf; lia|]. reflexivity.
Qed.
Print Assumptions C106_help_and_version.
(** ab-disasm -o out -d -o out2 -- -in *)
Example C106_instance :
  Forall2 spelled [OOut (lit "out"); ODebug; OOut (lit "out2")] [[lit "-o"; lit "out"]; [lit "-d"]; [lit "-o"; lit "out2"]] /\
  operand [lit "--"; lit "-in"] (Some (lit "-in")) /\
  parse_arguments [lit "ab-disasm"; lit "-o"; lit "out"; lit "-d"; lit "-o"; lit "out2"; lit "--"; lit "-in"] =
    Ok (Go (mkConf (Some (lit "-in")) (Some (lit "out2")) true false)).
Proof. split; [repeat constructor|]. split; [constructor|]. vm_compute. reflexivity. Qed.

(** C107 is false of the code: a final -o without a file name is not reported, a string is made of the null
    pointer at the end of argv. *)
Theorem C107_missing_argument_refuted :
  forall name os ss, Forall2 spelled os ss -> parse_arguments (name :: concat ss ++ [lit "-o"]) = UB NullDeref.
Proof.
  intros name os ss Hs. unfold parse_arguments. cbn [tl].
  destruct (scan_options os ss [lit "-o"] Hs None false false (S (length (name :: concat ss ++ [lit "-o"])))) as (fuel & Hf & E); [cbn [length]; lia|].
  rewrite E. destruct fuel as [|fuel]; [cbn in Hf; lia|]. reflexivity.
Qed.
Print Assumptions C107_missing_argument_refuted.
(** ... and so is an option it does not know: it is taken for the input file. *)
Theorem C107_unknown_option_refuted :
  forall name os ss more, Forall2 spelled os ss ->
    parse_arguments (name :: concat ss ++ lit "--output" :: more) =
    Ok (Go (mkConf (Some (lit "--output")) (last_out os) (has_debug os) (has_verbose os))).
Proof.
  intros name os ss more Hs. unfold parse_arguments. cbn [tl].
  destruct (scan_options os ss (lit "--output" :: more) Hs None false false (S (length (name :: concat ss ++ lit "--output" :: more)))) as (fuel & Hf & E); [cbn [length]; lia|].
  rewrite E. destruct fuel as [|fuel]; [cbn in Hf; lia|]. reflexivity.
Qed.
Print Assumptions C107_unknown_option_refuted.
