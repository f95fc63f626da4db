(** What does hold where the wishes about the WebAssembly reader are not met: parts of C88, C89,
    C90, C92, C93, C95, C96 and C97. *)

From Coq Require Import ZArith List Bool Lia.
From Verif Require Import Outcome LebSpec VarIntModel StreamModel WasmModel WasmSpec WasmProofs WasmProps StreamProofs.
Import ListNotations.
Local Open Scope Z_scope.
Import ZifyBool.

(** C88: an input that ends before the version number is refused. *)
Theorem C88_without_version_partial : forall c input, is_bytes input -> (length input <= 4)%nat ->
  read_module c input = Throw InvalidHeader.
Proof.
  intros c input Hb Hl. apply C87_wrong_header_refused; [exact Hb|].
  intros [(rest & ->)|[->|[->| ->]]]; cbn in Hl; lia.
Qed.
Print Assumptions C88_without_version_partial.
Example C88_no_version : read_module (noop_cfg 1000 true) [0; 97; 115] = Throw InvalidHeader.
Proof. vm_compute. reflexivity. Qed.

(** C89: a table, memory or start section is announced with its length, but none of its contents is
    taken from the stream. *)
Theorem C89_announced_only_partial : forall c code len gl post off log,
  In code [4; 5; 8] -> enc_u32 len gl ->
  section c code (mkW (mkStream (gl ++ post) false off) false log)
  = Ok (tt, mkW (mkStream post false (off + Z.of_nat (length gl))) false
              (log ++ [EvSectionStart code len []; EvSectionEnd code len])).
Proof.
  intros c code len gl post off log Hc Hg. fold (W (gl ++ post) off log).
  unfold section, mbind at 1. rewrite (reads_varuint _ _ Hg). cbn [bind]. rewrite (u32_nat _ _ Hg).
  destruct Hc as [<-|[<-|[<-|[]]]]; cbn; rewrite app_nil_r; unfold emit; cbn [w_in w_stuck w_log]; rewrite <- ?app_assoc; reflexivity.
Qed.
Print Assumptions C89_announced_only_partial.
(** A module with one table: the section is announced and its contents are taken for the next sections. *)
Example C89_case : enc_u32 5 [133; 0] /\
  section (noop_cfg 1000 true) 4 (mkW (mkStream ([133; 0] ++ [1; 112; 0; 10]) false 9) false []) =
    Ok (tt, mkW (mkStream [1; 112; 0; 10] false 11) false [EvSectionStart 4 5 []; EvSectionEnd 4 5]).
Proof. split; [|vm_compute; reflexivity]. split; [repeat constructor; lia|]. split; [cbn; lia|]. split; [reflexivity|lia]. Qed.

(** C90: a custom section at the end of a module that is read from a file is skipped: the visitor
    is told of it, and that the module ends, after everything before it. *)
Theorem C90_last_section_partial : forall lim vb bev l bs name bn gl payload,
  Forall2 (fun p b => enc_section lim (fst p) (snd p) b) l bs ->
  Forall (fun p => Forall (takes_code vb bev) (bodies_of (fst p))) l ->
  enc_string lim name bn -> enc_u32 (Z.of_nat (length bn + length payload)) gl ->
  read_module (mkCfg lim false vb) (wasm_header ++ concat bs ++ [0] ++ gl ++ bn ++ payload)
  = Ok ([EvModuleStart; EvHeader 1836278016 1] ++ flat_map (section_events bev) l ++
        [EvSectionStart 0 (Z.of_nat (length bn + length payload)) name;
         EvSectionEnd 0 (Z.of_nat (length bn + length payload)); EvModuleEnd]).
Proof.
  intros lim vb bev l bs name bn gl payload H Hb Hn Hg.
  assert (Hlen : (length l <= length (concat bs))%nat).
  { apply (concat_length_ge _ l bs) in H; [exact H|]. intros [y ly] b (gl' & p & _ & _ & _ & ->). discriminate. }
  rewrite module_after_header. erewrite (sections_prefix (mkCfg lim false vb) bev l bs H Hb) by (rewrite app_length; cbn; lia).
  match goal with |- context [sections _ ?f _] => destruct f as [|[|fuel]] eqn:Ef end; [exfalso; rewrite !app_length in Ef; cbn [length] in Ef; lia|exfalso; rewrite !app_length in Ef; cbn [length] in Ef; lia|].
  set (o := 8 + _). set (lg := [EvModuleStart; _] ++ _).
  cbn [sections W w_eof w_in s_eof]. unfold mbind at 1.
  rewrite (reads_varuint1 0) by lia. cbn [bind W w_eof w_in s_eof]. unfold mbind at 1. change (u8 0) with 0.
  match goal with |- context [section ?c 0 ?s] => replace (section c 0 s) with
    (Ok (tt, mkW (mkStream [] false (o + 1 + Z.of_nat (length gl + length bn) + Z.of_nat (length bn + length payload))) false
       (lg ++ [EvSectionStart 0 (Z.of_nat (length bn + length payload)) name; EvSectionEnd 0 (Z.of_nat (length bn + length payload))]))) end.
  - cbn [bind]. cbn [sections w_eof w_in s_eof]. unfold mbind at 1, varuint, on_stream. cbn [w_stuck w_in w_log].
    unfold uleb128. cbn [bind]. unfold lg. cbn. rewrite <- !app_assoc. reflexivity.
  - symmetry. unfold section, mbind at 1.
    rewrite (reads_varuint _ _ Hg). cbn [bind Z.eqb]. unfold mbind at 1.
    rewrite (reads_string (mkCfg lim false vb) name bn Hn). cbn [bind]. unfold mbind at 1, emit at 1. cbn [bind]. unfold mbind, custom_section, seekg.
    rewrite (u32_nat _ _ Hg). cbn [W w_in w_stuck s_eof s_rest s_offset w_log c_strict]. unfold w_fail. cbn [w_in w_stuck s_eof orb].
    assert (Hbn : (1 <= length bn)%nat).
    { destruct Hn as ((g & b' & (Hs & _) & _ & ->) & _). rewrite app_length. inversion Hs; subst; cbn [length]; lia. }
    replace (_ <=? _) with false by lia. cbn [bind]. unfold emit. cbn [w_in w_stuck w_log]. rewrite !app_nil_r, <- !app_assoc. cbn [app length].
    do 4 f_equal. lia.
Qed.
Print Assumptions C90_last_section_partial.
Example C90_last_instance : forall vb,
  read_module (mkCfg 10 false vb) (wasm_header ++ [0; 3; 1; 110; 7]) =
  Ok [EvModuleStart; EvHeader 1836278016 1; EvSectionStart 0 3 [110]; EvSectionEnd 0 3; EvModuleEnd].
Proof. intros vb. reflexivity. Qed.

(** C92: for every announced length but 2^64 - 1 reading a string is safe: it throws if so much
    memory cannot be had, and otherwise takes that many bytes or, if there are fewer, all. *)
Theorem C92_all_other_lengths_partial : forall c g post off log,
  leb_shape g -> (length g <= 10)%nat -> uleb_value g mod 2 ^ 64 <> 2 ^ 64 - 1 ->
  let n := uleb_value g mod 2 ^ 64 in
  string c (mkW (mkStream (g ++ post) false off) false log) =
  if n <? c_lim c
  then Ok (c_str (firstn (Z.to_nat n) post),
           let k := off + Z.of_nat (length g) in
           mkW (if n <=? Z.of_nat (length post) then mkStream (skipn (Z.to_nat n) post) false (k + n)
                else mkStream [] true (k + Z.of_nat (length post))) false log)
  else Throw StdException.
Proof.
  intros c g post off log Hs Hl Hn n. unfold string, mbind at 1, varuint, on_stream. cbn [w_stuck w_in w_log].
  rewrite uleb128_ok by assumption. cbn [bind]. fold n.
  assert (0 <= n < 2 ^ 64) by (apply Z.mod_pos_bound; lia).
  destruct (Z.eqb_spec n (2 ^ 64 - 1)) as [E|_]; [contradiction|]. unfold mbind, alloc.
  destruct (Z.leb_spec (n + 1) (c_lim c)), (Z.ltb_spec n (c_lim c)); try lia; [|reflexivity].
  cbn [ret bind]. unfold in_read, w_fail. cbn [w_in w_stuck s_eof s_rest s_offset w_log orb].
  destruct (Z.leb_spec n (Z.of_nat (length post))); cbn [bind ret]; [reflexivity|].
  rewrite firstn_all2 by lia. reflexivity.
Qed.
Print Assumptions C92_all_other_lengths_partial.
Example C92_other_instance : leb_shape [0x80; 0x80; 1] /\ uleb_value [0x80; 0x80; 1] mod 2 ^ 64 = 16384 /\
  string (noop_cfg 20000 true) (mkW (mkStream [0x80; 0x80; 1; 65; 66] false 0) false []) =
  Ok ([65; 66], mkW (mkStream [] true 5) false []).
Proof. split; [repeat constructor; lia|]. split; vm_compute; reflexivity. Qed.

(** C93: an instruction that is no instruction is never reported: the opcode of every expression
    that is read is in the list, and its immediate is of the kind the format gives that opcode. *)
Definition kind_of_opcode (op : Z) (i : imm) : Prop :=
  match i with
  | INone => nullary_op op
  | IType _ => op = 2 \/ op = 3 \/ op = 4
  | IVaruint _ => op = 12 \/ op = 13 \/ op = 16 \/ 32 <= op <= 36
  | IBranchTable _ _ => op = 14
  | ISignature _ _ => op = 17
  | IMemory _ _ => 40 <= op <= 62
  | IVarint _ => op = 65 \/ op = 66
  | IBits v => op = 67 /\ 0 <= v < 2 ^ 32 \/ op = 68 /\ 0 <= v < 2 ^ 64
  end.
Lemma le_value_range b : is_bytes b -> 0 <= le_value b < 2 ^ (8 * Z.of_nat (length b)).
Proof.
  induction 1 as [|x b Hx H IH]; cbn [le_value length]; [cbn; lia|].
  unfold is_byte in Hx. replace (8 * Z.of_nat (S (length b))) with (8 + 8 * Z.of_nat (length b)) by lia.
  rewrite Z.pow_add_r by lia. change (2 ^ 8) with 256. nia.
Qed.
Lemma read_number_range n s v s' : is_bytes (rest_of s) -> read_number n s = Ok (v, s') -> 0 <= v < 2 ^ (8 * Z.of_nat n).
Proof.
  unfold read_number, readNumber, rest_of. intros Hb. destruct (w_stuck s); [discriminate|]. unfold s_read.
  destruct (_ <? _)%nat eqn:El; [discriminate|]. cbn [bind]. intros [= <- _].
  assert (R : is_bytes (firstn n (s_rest (w_in s)))); [|apply le_value_range in R; rewrite firstn_length, Nat.min_l in R by lia; exact R].
  apply Forall_forall. intros x Hx. eapply Forall_forall in Hb; [exact Hb|]. 
  rewrite <- (firstn_skipn n). apply in_or_app. left. exact Hx.
Qed.
Theorem C93_only_instructions_partial : forall c s e s', w_stuck s = false -> is_bytes (s_rest (w_in s)) ->
  read_expr c s = Ok (e, s') -> kind_of_opcode (e_op e) (e_imm e).
Proof.
  intros c s e s' Hs Hb. unfold read_expr, mbind at 1.
  destruct (get s) as [[op s1]| | | |] eqn:Eg; cbn [bind]; try discriminate.
  assert (Hb1 : is_bytes (rest_of s1)).
  { pose proof (tame_get true s Hs Hb) as T. rewrite Eg in T. destruct T as (_ & T). eapply suffix_bytes; eauto. }
  assert (Ho : 0 <= op).
  { unfold get, s_get in Eg. rewrite Hs in Eg. unfold rest_of in Hb. destruct (s_rest (w_in s)) as [|x r]; injection Eg as <- _; [lia|].
    inversion Hb as [|? ? Hx]; subst. unfold is_byte in Hx. lia. }
  destruct (op_kind op) as [k|] eqn:Ek; [|discriminate]. unfold mbind at 1.
  destruct (read_imm c k s1) as [[i s2]| | | |] eqn:Ei; cbn [bind ret]; try discriminate. intros [= <- _]. cbn [e_op e_imm].
  revert Ek. unfold op_kind.
  repeat match goal with |- context [if ?x then _ else _] => destruct x eqn:? end; intros [= <-]; cbn [read_imm] in Ei;
    unfold mbind, ret in Ei;
    repeat match type of Ei with bind ?m _ = _ => let E := fresh "E" in destruct m as [[? ?]| | | |] eqn:E; cbn [bind] in Ei; try discriminate end;
    injection Ei as <- _; cbn [kind_of_opcode]; unfold nullary_op; try lia.
  - left. split; [lia|]. change (2 ^ 32) with (2 ^ (8 * Z.of_nat 4)). eapply read_number_range; eauto.
  - right. split; [lia|]. change (2 ^ 64) with (2 ^ (8 * Z.of_nat 8)). eapply read_number_range; eauto.
Qed.
Print Assumptions C93_only_instructions_partial.
Example C93_case : exists s', read_expr (noop_cfg 1000 true) (mkW (mkStream [32; 129; 1; 11] false 0) false []) = Ok (mkExpr 32 (IVaruint 129), s') /\
  kind_of_opcode 32 (IVaruint 129).
Proof. eexists. split; [vm_compute; reflexivity|]. cbn. lia. Qed.

(** C95: every other instruction of the format is read and reported: a sequence of instructions,
    wherever it stands, is reported instruction by instruction exactly when none of them is
    memory.size, memory.grow or a conversion. *)
Inductive format_instr (lim : Z) : bytes -> Prop :=
| Fi_read : forall e b, enc_instr lim e b -> format_instr lim b
| Fi_other : forall b, enc_other_instr b -> format_instr lim b.
Theorem C95_exactly_when_partial : forall c bs post off log, Forall (format_instr (c_lim c)) bs -> bs <> [] ->
  let r := read_exprs c (Z.of_nat (length (concat bs))) (fun e => emit (EvExpr e))
             (mkW (mkStream (concat bs ++ post) false off) false log) in
  (Forall (fun b => ~ enc_other_instr b) bs <->
   exists es, Forall2 (enc_instr (c_lim c)) es bs /\
     r = Ok (tt, mkW (mkStream post false (off + Z.of_nat (length (concat bs)))) false (log ++ map EvExpr es))) /\
  (~ Forall (fun b => ~ enc_other_instr b) bs -> r = Trap Exit).
Proof.
  intros c bs post off log F Hne r.
  assert (D : forall b, {enc_other_instr b} + {~ enc_other_instr b}).
  { intros b. destruct b as [|op [|z [|y b]]]; try (right; intros X; inversion X; fail).
    - destruct (Z_le_dec 167 op); [|right; intros X; inversion X; lia].
      destruct (Z_le_dec op 191); [left; constructor; lia|right; intros X; inversion X; lia].
    - destruct (Z.eq_dec z 0) as [->|]; [|right; intros X; inversion X; lia].
      destruct (Z.eq_dec op 63); [left; constructor; lia|]. destruct (Z.eq_dec op 64); [left; constructor; lia|].
      right; intros X; inversion X; lia. }
  assert (S : (Forall (fun b => ~ enc_other_instr b) bs /\ exists es, Forall2 (enc_instr (c_lim c)) es bs) \/
              exists es bs1 b bs2, bs = bs1 ++ b :: bs2 /\ Forall2 (enc_instr (c_lim c)) es bs1 /\ enc_other_instr b).
  { clear r Hne. induction F as [|b bs Hb F IH]; [left; split; [constructor|exists []; constructor]|].
    destruct (D b) as [Ho|Hn].
    - right. exists [], [], b, bs. split; [reflexivity|]. split; [constructor|exact Ho].
    - destruct Hb as [e b He|b Ho]; [|contradiction]. destruct IH as [(G & es & H)|(es & bs1 & b' & bs2 & -> & H & Ho)].
      + left. split; [constructor; auto|]. exists (e :: es). constructor; auto.
      + right. exists (e :: es), (b :: bs1), b', bs2. split; [reflexivity|]. split; [constructor; auto|exact Ho]. }
  assert (Bad : forall es bs1 b bs2, bs = bs1 ++ b :: bs2 -> Forall2 (enc_instr (c_lim c)) es bs1 -> enc_other_instr b -> r = Trap Exit).
  { intros es bs1 b bs2 E H Ho. unfold r. rewrite E. rewrite concat_app. cbn [concat]. rewrite <- !app_assoc.
    eapply C95_memory_and_conversions_refuted; eauto. rewrite !app_length. inversion Ho; subst; cbn [length]; lia. }
  split.
  - split.
    + intros G. destruct S as [(_ & es & H)|(es & bs1 & b' & bs2 & E & H & Ho)].
      * exists es. split; [exact H|]. apply C94_instructions_read_back; auto. intros ->. inversion H; subst; congruence.
      * exfalso. rewrite E in G. apply Forall_app in G. destruct G as (_ & G). inversion G; contradiction.
    + intros (es & H & E). destruct S as [(G & _)|(es' & bs1 & b' & bs2 & E' & H' & Ho)]; [exact G|].
      rewrite (Bad _ _ _ _ E' H' Ho) in E. discriminate.
  - intros G. destruct S as [(G' & _)|(es & bs1 & b' & bs2 & E & H & Ho)]; [contradiction|]. eapply Bad; eauto.
Qed.
Print Assumptions C95_exactly_when_partial.

(** C96: a module without function bodies is disassembled to its end. *)
Theorem C96_without_bodies_partial : forall lim strict l bs,
  Forall2 (fun p b => enc_section lim (fst p) (snd p) b) l bs -> Forall (fun p => bodies_of (fst p) = []) l ->
  read_module (disasm_cfg lim strict) (wasm_header ++ concat bs) = Ok (module_events (fun _ _ => []) l).
Proof.
  intros lim strict l bs H Hn. apply C86_modules_read_back; [exact H|].
  eapply Forall_impl; [|exact Hn]. cbv beta. intros a ->. constructor.
Qed.
Print Assumptions C96_without_bodies_partial.

(** C97: with at least as many functions announced before as a body's number says, nothing
    undefined happens in ab-disasm's handling of the body; otherwise it always does. *)
Theorem C97_announced_bodies_partial : forall lim index b rest off log, is_bytes rest -> nine_free rest ->
  let functions := Z.of_nat (length (filter is_function log)) in
  match disasm_body lim index b (mkW (mkStream rest false off) false log) with
  | UB u => u = OutOfBounds /\ functions <= index
  | OutOfFuel => False
  | _ => index < functions
  end.
Proof.
  intros lim index b rest off log Hb Hn functions. unfold disasm_body. cbn [w_log]. fold functions.
  destruct (Z.leb_spec functions index) as [L|L]; [auto|].
  assert (T : tame_at false (mkW (mkStream rest false off) false log)
                (read_exprs (mkCfg lim false noop_body) (fb_size b) print_expr (mkW (mkStream rest false off) false log))).
  { unfold read_exprs. cbn [w_in s_rest]. apply tame_expr_loop; cbn; auto.
    intros e. unfold print_expr. destruct (e_imm e); try apply tame_emit. destruct (_ && _); [apply tame_throw|apply tame_emit]. }
  destruct (read_exprs _ _ _ _) as [[? ?]| | | |]; cbn [tame_at] in T; auto. exfalso. destruct T as [T|T]; [discriminate|]. now apply T.
Qed.
Print Assumptions C97_announced_bodies_partial.
(** The first body of two functions is read; the third would use the type of a function that there is not. *)
Example C97_case : let s := mkW (mkStream [1; 11] false 0) false [EvFunction 0 0; EvFunction 1 0] in
  nine_free [1; 11] /\
  (exists s', disasm_body 1000 0 (mkBody [] 2) s = Ok (tt, s')) /\ disasm_body 1000 2 (mkBody [] 2) s = UB OutOfBounds.
Proof.
  cbv zeta. split; [|split; [eexists; vm_compute; reflexivity|reflexivity]].
  intros pre mid post E Hl _. apply (f_equal (@length Z)) in E. rewrite !app_length, Hl in E. cbn in E. lia.
Qed.
