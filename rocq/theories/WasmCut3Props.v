(** C88: modules that end inside a global, an element segment, a data segment, an import or the head of
    a function body. *)

From Coq Require Import ZArith List Bool Lia.
From Verif Require Import Outcome LebSpec VarIntModel StreamModel WasmModel WasmSpec WasmProofs WasmProps VarIntProofs StreamProofs WasmCutProps WasmCut2Props.
Import ListNotations.
Local Open Scope Z_scope.
Import ZifyBool ZifyNat.

(** * Initializers *)
Lemma varint_cut g b k off log : enc_s k g b -> forall r, cut r b -> (k <= 9)%nat ->
  exists w, varint (W r off log) = Ok (w, E (off + Z.of_nat (length r)) log).
Proof.
  intros (Hs & Hl & _) r (q & Hq & ->) Hk. pose proof (cut_leb r q Hq Hs) as Hg.
  assert (L : (length r <= 8)%nat). { rewrite app_length in Hl. destruct q; [congruence|]. cbn [length] in Hl. lia. }
  unfold varint, on_stream, W. cbn [w_stuck w_in w_log]. unfold leb128.
  destruct (leb_loop_more r 12 0 0 [] off Hg) as [E1 B]; try lia. rewrite app_nil_r in E1. rewrite E1. clear E1.
  destruct (12 - length r)%nat as [|f] eqn:Ef; [lia|]. cbn [leb_loop]. replace (63 <? _) with false by lia.
  cbn [s_get s_rest s_eof s_offset]. change (negb (Z.land 255 128 =? 0)) with true. cbn [andb negb]. rewrite andb_false_r. cbn [bind].
  change (Z.land 255 64 =? 0) with false. cbv iota. replace (64 <=? _) with false by lia. cbn [bind]. eexists. reflexivity.
Qed.
Lemma expr_E c off log : read_expr c (E off log) = Trap Exit.
Proof. reflexivity. Qed.
Lemma expr_end c off log : read_expr c (W [] off log) = Trap Exit.
Proof. reflexivity. Qed.
Definition is_float (e : expr) : bool := (e_op e =? 67) || (e_op e =? 68).
Lemma le_length n v : length (enc_le n v) = n.
Proof. revert v. induction n as [|n IH]; intros v; cbn [enc_le length]; [reflexivity|]. now rewrite IH. Qed.
Lemma number_short k r off log : (length r < k)%nat -> read_number k (W r off log) = Throw ReaderError.
Proof.
  intros Hk. unfold read_number, W, readNumber, s_read. cbn [w_stuck w_in s_rest].
  replace (_ <? _)%nat with true by (symmetry; apply Nat.ltb_lt; exact Hk). reflexivity.
Qed.
(** What an initializer that is cut does: the process exits, unless the cut is in the bytes of a
    floating-point constant. *)
Definition init_fate {A} (e : expr) (be r : bytes) : outcome A :=
  if is_float e && (0 <? Z.of_nat (length r)) && (Z.of_nat (length r) <? Z.of_nat (length be)) then Throw ReaderError else Trap Exit.
Lemma init_cut c e be r off log : const_op (e_op e) -> enc_instr (c_lim c) e be -> cut r (be ++ [11]) ->
  init_expr c (W r off log) = init_fate e be r.
Proof.
  intros Hop Hb Hr. unfold init_expr. apply cut_app in Hr. destruct Hr as [Hr|(r' & -> & Hr)].
  - destruct r as [|op r].
    + unfold init_fate. replace (is_float e && _ && _) with false by (cbn [length]; lia). apply mb_trap, expr_end.
    + assert (G : forall e' o, init_op (e_op e') = true -> read_expr c (W (op :: r) off log) = Ok (e', E o log) ->
        (e0 <~ read_expr c; (if init_op (e_op e0) then _ <~ read_expr c; ret e0 else throw ReaderError)) (W (op :: r) off log) = Trap Exit).
      { intros e' o Hi E1. erewrite mb_ok by exact E1. cbv beta. rewrite Hi. apply mb_trap, expr_E. }
      assert (R : forall k g m, op_kind op = Some k -> read_imm c k = m -> forall w o, m (W r (off + Z.of_nat (length [op])) log) = Ok (w, E o log) ->
         g = mkExpr op w -> read_expr c (W (op :: r) off log) = Ok (g, E o log)).
      { intros k g m Ek Em w o E1 ->. unfold read_expr. change (op :: r) with ([op] ++ r). erewrite mb_reads0 by apply reads_get. cbv beta.
        rewrite Ek. rewrite Em. erewrite mb_ok by exact E1. reflexivity. }
      assert (T : forall k m, op_kind op = Some k -> read_imm c k = m -> m (W r (off + Z.of_nat (length [op])) log) = Throw ReaderError ->
         read_expr c (W (op :: r) off log) = Throw ReaderError).
      { intros k m Ek Em E1. unfold read_expr. change (op :: r) with ([op] ++ r). erewrite mb_reads0 by apply reads_get. cbv beta.
        rewrite Ek. rewrite Em. now apply mb_throw. }
      destruct Hr as (q & Hq & Er). cbn [app] in Er.
      unfold const_op in Hop. unfold init_fate, is_float. revert Er.
      inversion Hb as [op' Hn|op' t Hn|op' v g Hn Hg|ts d gt gd|v g|op' f o' gf go Hn|v g Hg|v g Hg|v Hv|v Hv]; subst; cbn [e_op] in *;
        intros Er; injection Er as <- Er; unfold nullary_op in *; try (exfalso; lia).
      * replace ((_ =? 67) || _) with false by lia. cbn [andb].
        destruct (varuint_cut v r g (off + Z.of_nat (length [op'])) log Hg) as (w & Ew & _); [exists q; now split|].
        eapply (G (mkExpr op' (IVaruint w))); [cbn [e_op]; unfold init_op; lia|].
        assert (Eop : op' = 35) by lia. subst op'.
        eapply (R KVaruint); [reflexivity|reflexivity| |reflexivity]. cbn [read_imm]. erewrite mb_ok by exact Ew. reflexivity.
      * change ((65 =? 67) || (65 =? 68)) with false. cbn [andb].
        destruct (varint_cut v g 5 (off + Z.of_nat (length [65])) log Hg r) as (w & Ew); [exists q; now split|lia|].
        eapply (G (mkExpr 65 (IVarint w))); [reflexivity|].
        eapply (R KVarint); [reflexivity|reflexivity| |reflexivity]. cbn [read_imm]. erewrite mb_ok by exact Ew. reflexivity.
      * change ((66 =? 67) || (66 =? 68)) with false. cbn [andb].
        destruct (varint_cut v g 9 (off + Z.of_nat (length [66])) log Hg r) as (w & Ew); [exists q; now split|lia|].
        eapply (G (mkExpr 66 (IVarint w))); [reflexivity|].
        eapply (R KVarint); [reflexivity|reflexivity| |reflexivity]. cbn [read_imm]. erewrite mb_ok by exact Ew. reflexivity.
      * assert (L : (length r < 4)%nat). { apply (f_equal (@length Z)) in Er. rewrite app_length in Er. destruct q; [congruence|]. cbn in Er. lia. }
        cbn [Z.eqb Pos.eqb orb andb length]. rewrite le_length. replace ((0 <? _) && _) with true by lia. apply mb_throw.
        eapply (T KBits32); [reflexivity|reflexivity|]. cbn [read_imm]. apply mb_throw, number_short, L.
      * assert (L : (length r < 8)%nat). { apply (f_equal (@length Z)) in Er. rewrite app_length in Er. destruct q; [congruence|]. cbn in Er. lia. }
        cbn [Z.eqb Pos.eqb orb andb length]. rewrite le_length. replace ((0 <? _) && _) with true by lia. apply mb_throw.
        eapply (T KBits64); [reflexivity|reflexivity|]. cbn [read_imm]. apply mb_throw, number_short, L.
  - apply cut_one in Hr. subst r'. unfold init_fate. rewrite app_nil_r. replace (is_float e && _ && _) with false by lia.
    rewrite <- (app_nil_r be) at 1. erewrite mb_reads0 by (apply reads_expr; exact Hb). cbv beta.
    replace (init_op (e_op e)) with true; [apply mb_trap, expr_end|].
    unfold init_op. destruct Hop as [->|[->|[->|[->| ->]]]]; reflexivity.
Qed.
Lemma init_E c off log : init_expr c (E off log) = Trap Exit.
Proof. reflexivity. Qed.

(** * Globals *)
(** A global section that ends inside a global: the process exits, or (inside a floating-point
    constant) the module is refused. *)
Theorem C88_cut_in_a_global_partial : forall c bev l bs la len gl n gn es t m e be,
  cut_case c bev l bs (SGlobal la) len gl n gn es ->
  is_byte t -> const_op (e_op e) -> enc_instr (c_lim c) e be ->
  let read r := read_module c (cut_bytes bs (SGlobal la) gl gn es r) in
  let bm := if (m : bool) then 1 else 0 in
  read [] = Trap Exit /\ read [t] = Trap Exit /\
  (forall r, cut r (be ++ [11]) -> read ([t; bm] ++ r) = init_fate e be r).
Proof.
  intros c bev l bs la len gl n gn es t m e be H Ht Hop Hb read bm. unfold read.
  split; [|split].
  - eapply ends_trap; [exact H|]. reflexivity.
  - eapply ends_trap; [exact H|]. intros off log. cbn [entry_reader]. 
    erewrite mb_ok; [|unfold global_type; rewrite <- (app_nil_r [t]); erewrite mb_reads0 by (apply reads_type; exact Ht); erewrite mb_ok by apply varuint_end; reflexivity].
    apply mb_trap, init_E.
  - intros r Hr.
    assert (G : forall off log, entry_reader c (SGlobal la) (entry_count (SGlobal la)) (W ([t; bm] ++ r) off log) = init_fate e be r).
    { intros off log. cbn [entry_reader].
      erewrite mb_reads0 by (apply (reads_gtype (mkGtype t m)); split; [exact Ht|reflexivity]). cbv beta.
      pose proof (init_cut c e be r (off + Z.of_nat (length [t; bm])) log Hop Hb Hr) as Ei. unfold init_fate in *.
      destruct (_ && _); [apply mb_throw, Ei|apply mb_trap, Ei]. }
    revert G. unfold init_fate. destruct (_ && _); intros G; [eapply ends_throw|eapply ends_trap]; eauto.
Qed.
Print Assumptions C88_cut_in_a_global_partial.

(** * Data segments *)
Theorem C88_cut_in_a_data_segment_partial : forall c bev l bs la len gl n gn es m bm e be data bd,
  cut_case c bev l bs (SData la) len gl n gn es ->
  enc_u32 m bm -> const_op (e_op e) -> enc_instr (c_lim c) e be ->
  enc_u32 (Z.of_nat (length data)) bd -> Z.of_nat (length data) <= c_lim c ->
  let read r := read_module c (cut_bytes bs (SData la) gl gn es r) in
  let seen d := if entry_count (SData la) + 1 =? n
                then Ok (before bev l (SData la) len n ++ [EvData m e d] ++ [EvSectionEnd 11 len; EvModuleEnd]) else Trap Exit in
  let bo := be ++ [11] in
  (forall r, cut r bm -> read r = Trap Exit) /\
  (forall r, cut r bo -> read (bm ++ r) = init_fate e be r) /\
  (forall r, cut r bd -> let k := uleb_value (r ++ [127]) in
     read (bm ++ bo ++ r) = if k <=? c_lim c then seen (repeat 0 (Z.to_nat k)) else Throw StdException) /\
  (forall r, cut r data -> read (bm ++ bo ++ bd ++ r) = seen (r ++ repeat 0 (length data - length r))).
Proof.
  intros c bev l bs la len gl n gn es m bm e be data bd H Hm Hop Hb Hd Hl read seen bo. unfold read, seen.
  assert (N : forall j off log, entry_reader c (SData la) j (E off log) = Trap Exit) by reflexivity.
  assert (Hbo : enc_init (c_lim c) e bo) by (split; [exact Hop|]; exists be; now split).
  split; [|split; [|split]].
  - intros r Hr. eapply ends_trap; [exact H|]. intros off log. cbn [entry_reader]. unfold data_segment.
    destruct (varuint_cut m r bm off log Hm Hr) as (w & Ew & _). erewrite mb_ok by exact Ew. reflexivity.
  - intros r Hr.
    assert (G : forall off log, entry_reader c (SData la) (entry_count (SData la)) (W (bm ++ r) off log) = init_fate e be r).
    { intros off log. cbn [entry_reader]. unfold data_segment.
      erewrite mb_reads0 by (apply reads_varuint; exact Hm). cbv beta.
      pose proof (init_cut c e be r (off + Z.of_nat (length bm)) log Hop Hb Hr) as Ei. unfold init_fate in *.
      destruct (_ && _); [apply mb_throw, Ei|apply mb_trap, Ei]. }
    revert G. unfold init_fate. destruct (_ && _); intros G; [eapply ends_throw|eapply ends_trap]; eauto.
  - intros r Hr. set (k := uleb_value (r ++ [127])).
    assert (G : forall off log, exists off', (forall B (f : Z -> M B), (i <~ varuint; x <~ init_expr c; n <~ varuint; f n) (W (bm ++ bo ++ r) off log) = f k (E off' log)) /\ 
       entry_reader c (SData la) (entry_count (SData la)) (W (bm ++ bo ++ r) off log) = (_ <~ alloc c k; b <~ in_read k; emit (EvData (u32 m) e (b ++ repeat 0 (Z.to_nat k - length b)))) (E off' log)).
    { intros off log. destruct (varuint_cut _ r bd (off + Z.of_nat (length bm) + Z.of_nat (length bo)) log Hd Hr) as (w & Ew & _ & Ek & _).
      eexists. split.
      - intros B f. erewrite mb_reads0 by (apply reads_varuint; exact Hm). erewrite mb_reads0 by (apply reads_init; exact Hbo).
        erewrite mb_ok by exact Ew. rewrite Ek. reflexivity.
      - cbn [entry_reader]. unfold data_segment. erewrite mb_reads0 by (apply reads_varuint; exact Hm). erewrite mb_reads0 by (apply reads_init; exact Hbo).
        erewrite mb_ok by exact Ew. rewrite Ek. reflexivity. }
    destruct (k <=? c_lim c) eqn:Ekl.
    + eapply ends_seen_trap; [exact H| |exact N]. intros off log. destruct (G off log) as (o & _ & ->). exists o.
      erewrite mb_ok by (apply alloc_ok; lia). erewrite mb_ok by reflexivity. rewrite (u32_nat _ _ Hm). cbn [app length]. rewrite Nat.sub_0_r. apply emit_E.
    + eapply ends_throw; [exact H|]. intros off log. destruct (G off log) as (o & _ & ->). apply mb_throw. unfold alloc. rewrite Ekl. reflexivity.
  - intros r Hr. eapply ends_seen_trap; [exact H| |exact N]. intros off log. eexists. cbn [entry_reader]. unfold data_segment.
    erewrite mb_reads0 by (apply reads_varuint; exact Hm). erewrite mb_reads0 by (apply reads_init; exact Hbo).
    erewrite mb_reads0 by (apply reads_varuint; exact Hd). erewrite mb_ok by (apply alloc_ok; lia).
    assert (L : (length r < length data)%nat). { destruct Hr as (q & Hq & ->). rewrite app_length. destruct q; [congruence|]. cbn [length]. lia. }
    erewrite mb_ok.
    2:{ unfold in_read, W, w_fail. cbn [w_in w_stuck s_eof s_rest orb]. replace (_ <=? _) with false by lia. reflexivity. }
    rewrite Nat2Z.id, (u32_nat _ _ Hm). apply emit_E.
Qed.
Print Assumptions C88_cut_in_a_data_segment_partial.
