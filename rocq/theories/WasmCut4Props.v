(** C88: modules that end inside an element segment, an import or the head of a function body. *)

From Coq Require Import ZArith List Bool Lia.
From Verif Require Import Outcome LebSpec VarIntModel StreamModel WasmModel WasmSpec WasmProofs WasmProps VarIntProofs StreamProofs WasmCutProps WasmCut2Props WasmCut3Props.
Import ListNotations.
Local Open Scope Z_scope.
Import ZifyBool ZifyNat.

(** * Element segments *)
Lemma elements_E k : forall i off log,
  iter k i (fun _ => x <~ varuint; emit (EvElement (u32 x))) (E off log) = Ok (tt, E off (log ++ repeat (EvElement 127) k)).
Proof.
  induction k as [|k IH]; intros i off log; cbn [iter repeat]; [unfold ret; now rewrite app_nil_r|].
  erewrite mb_ok; [|erewrite mb_ok by apply varuint_E; apply emit_E]. rewrite IH, <- app_assoc. reflexivity.
Qed.
(** An element section that ends inside a segment: before the end of the offset the process exits (or,
    in a floating-point constant, the module is refused); after it the missing indices are made up. *)
Theorem C88_cut_in_an_element_partial : forall c bev l bs la len gl n gn es t bt e be items gc done v rest bd bv,
  cut_case c bev l bs (SElement la) len gl n gn es ->
  enc_u32 t bt -> const_op (e_op e) -> enc_instr (c_lim c) e be ->
  enc_u32 (Z.of_nat (length items)) gc -> items = done ++ v :: rest -> vec_of enc_u32 done bd -> enc_u32 v bv ->
  let read r := read_module c (cut_bytes bs (SElement la) gl gn es r) in
  let seen evs := if entry_count (SElement la) + 1 =? n
                  then Ok (before bev l (SElement la) len n ++ evs ++ [EvSectionEnd 9 len; EvModuleEnd]) else Trap Exit in
  let bo := be ++ [11] in
  (forall r, cut r bt -> read r = Trap Exit) /\
  (forall r, cut r bo -> read (bt ++ r) = init_fate e be r) /\
  (forall r, cut r gc -> read (bt ++ bo ++ r) =
     seen (EvElementEntry t e (guess r) :: repeat (EvElement 127) (Z.to_nat (guess r)) ++ [EvElementEnd])) /\
  (forall r, cut r bv -> read (bt ++ bo ++ gc ++ bd ++ r) =
     seen (EvElementEntry t e (Z.of_nat (length items)) :: map EvElement done ++ EvElement (guess r) ::
           repeat (EvElement 127) (length rest) ++ [EvElementEnd])).
Proof.
  intros c bev l bs la len gl n gn es t bt e be items gc done v rest bd bv H Ht Hop Hb Hc Hit Hd Hv read seen bo. unfold read, seen.
  assert (N : forall j off log, entry_reader c (SElement la) j (E off log) = Trap Exit) by reflexivity.
  assert (Hbo : enc_init (c_lim c) e bo) by (split; [exact Hop|]; exists be; now split).
  split; [|split; [|split]].
  - intros r Hr. eapply ends_trap; [exact H|]. intros off log. cbn [entry_reader]. unfold element_entry.
    destruct (varuint_cut t r bt off log Ht Hr) as (w & Ew & _). erewrite mb_ok by exact Ew. reflexivity.
  - intros r Hr.
    assert (G : forall off log, entry_reader c (SElement la) (entry_count (SElement la)) (W (bt ++ r) off log) = init_fate e be r).
    { intros off log. cbn [entry_reader]. unfold element_entry.
      erewrite mb_reads0 by (apply reads_varuint; exact Ht). cbv beta.
      pose proof (init_cut c e be r (off + Z.of_nat (length bt)) log Hop Hb Hr) as Ei. unfold init_fate in *.
      destruct (_ && _); [apply mb_throw, Ei|apply mb_trap, Ei]. }
    revert G. unfold init_fate. destruct (_ && _); intros G; [eapply ends_throw|eapply ends_trap]; eauto.
  - intros r Hr. eapply ends_seen_trap; [exact H| |exact N]. intros off log. cbn [entry_reader]. unfold element_entry.
    destruct (varuint_cut _ r gc (off + Z.of_nat (length bt) + Z.of_nat (length bo)) log Hc Hr) as (w & Ew & Eu & _). eexists.
    erewrite mb_reads0 by (apply reads_varuint; exact Ht). erewrite mb_reads0 by (apply reads_init; exact Hbo).
    erewrite mb_ok by exact Ew. rewrite Eu, (u32_nat _ _ Ht). erewrite mb_ok by apply emit_E. unfold for_count. erewrite mb_ok by apply elements_E.
    rewrite emit_E, <- !app_assoc. reflexivity.
  - intros r Hr. eapply ends_seen_trap; [exact H| |exact N]. intros off log. cbn [entry_reader]. unfold element_entry.
    assert (L : Z.of_nat (length done) < Z.of_nat (length items)) by (rewrite Hit, app_length; cbn [length]; lia).
    set (o := off + Z.of_nat (length bt) + Z.of_nat (length bo) + Z.of_nat (length gc)).
    set (lg := log ++ [EvElementEntry t e (Z.of_nat (length items))]).
    destruct (varuint_cut v r bv (o + Z.of_nat (length bd)) (lg ++ numbered (fun _ x => [EvElement x]) 0 done) Hv Hr) as (w & Ew & Eu & _). eexists.
    erewrite mb_reads0 by (apply reads_varuint; exact Ht). erewrite mb_reads0 by (apply reads_init; exact Hbo).
    erewrite mb_reads0 by (apply reads_varuint; exact Hc). rewrite (u32_nat _ _ Ht), (u32_nat _ _ Hc).
    erewrite mb_ok by reflexivity. cbn [W w_in w_stuck w_log].
    erewrite mb_ok.
    2:{ match goal with |- for_count _ _ ?s = _ => change s with (W (bd ++ r) o lg) end. rewrite (for_cut (fun _ => x <~ varuint; emit (EvElement (u32 x))) enc_u32 (fun _ x => [EvElement x]) done bd); [|exact Hd| |exact L].
        - erewrite mb_ok; [|erewrite mb_ok by exact Ew; rewrite Eu; apply emit_E]. apply elements_E.
        - intros j a b _ Hab. replace b with (b ++ []) by apply app_nil_r. eapply reads_bindq; [apply reads_varuint, Hab|]. cbv beta.
          rewrite (u32_nat _ _ Hab). apply reads_emit. }
    rewrite emit_E. unfold lg. rewrite (numbered_map EvElement).
    replace (Z.to_nat (Z.of_nat (length items) - Z.of_nat (length done) - 1)) with (length rest).
    2:{ rewrite Hit, app_length. cbn [length]. lia. }
    rewrite <- !app_assoc. reflexivity.
Qed.
Print Assumptions C88_cut_in_an_element_partial.

(** * Imports *)
(** What the limits of a table or memory are read as when only [r] is there *)
Inductive made_up_limits : bytes -> limits -> Prop :=
| mul_none : made_up_limits [] (mkLimits 127 (Some 127))
| mul_initial : forall i b g, enc_u32 i b -> cut g b -> made_up_limits (0 :: g) (mkLimits (guess g) None)
| mul_initial_max : forall i b g, enc_u32 i b -> cut g b -> made_up_limits (1 :: g) (mkLimits (guess g) (Some 127))
| mul_max : forall i b m bm g, enc_u32 i b -> enc_u32 m bm -> cut g bm -> made_up_limits (1 :: b ++ g) (mkLimits i (Some (guess g))).
(** What the description of an import is read as when only [r] is there *)
Inductive made_up_desc : bytes -> import_desc -> Prop :=
| mud_none : made_up_desc [] (ImFunction 127)
| mud_function : forall t b g, enc_u32 t b -> cut g b -> made_up_desc (0 :: g) (ImFunction (guess g))
| mud_table_type : made_up_desc [1] (ImTable 0 (mkLimits 127 (Some 127)))
| mud_table : forall e r l, is_byte e -> made_up_limits r l -> made_up_desc (1 :: e :: r) (ImTable e l)
| mud_memory : forall r l, made_up_limits r l -> made_up_desc (2 :: r) (ImMemory l)
| mud_global_type : made_up_desc [3] (ImGlobal (mkGtype 0 true))
| mud_global : forall t, is_byte t -> made_up_desc [3; t] (ImGlobal (mkGtype t true)).

Lemma cut_limits l b r : enc_limits l b -> cut r b -> exists l', made_up_limits r l'.
Proof.
  destruct l as [i m]. intros (bi & Hi & Hm) Hr. cbn [li_initial li_max] in *. destruct r as [|h r]; [eexists; constructor|].
  destruct m as [m|].
  - destruct Hm as (bm & Hm & ->). destruct Hr as (q & Hq & Er). cbn [app] in Er. injection Er as <- Er.
    assert (Hr : cut r (bi ++ bm)) by (now exists q). apply cut_app in Hr. destruct Hr as [Hr|(r' & -> & Hr)].
    + eexists. exact (mul_initial_max i bi r Hi Hr).
    + eexists. exact (mul_max i bi m bm r' Hi Hm Hr).
  - subst b. destruct Hr as (q & Hq & Er). cbn [app] in Er. injection Er as <- Er. eexists. eapply mul_initial; [exact Hi|now exists q].
Qed.
(** Every beginning of a description is one of these. *)
Lemma cut_desc d b r : enc_desc d b -> cut r b -> exists d', made_up_desc r d'.
Proof.
  intros Hd Hr. destruct r as [|k r]; [eexists; constructor|]. destruct d as [t|e l|l|g]; cbn [enc_desc] in Hd.
  - destruct Hd as (g & Hg & ->). destruct Hr as (q & Hq & Er). cbn [app] in Er. injection Er as <- Er.
    eexists. eapply mud_function; [exact Hg|now exists q].
  - destruct Hd as (g & He & Hg & ->). destruct Hr as (q & Hq & Er). cbn [app] in Er. injection Er as <- Er.
    destruct r as [|e' r]; [eexists; constructor|]. cbn [app] in Er. injection Er as <- Er.
    destruct (cut_limits l g r Hg) as (l' & Hl'); [now exists q|]. eexists. constructor; eauto.
  - destruct Hd as (g & Hg & ->). destruct Hr as (q & Hq & Er). cbn [app] in Er. injection Er as <- Er.
    destruct (cut_limits l g r Hg) as (l' & Hl'); [now exists q|]. eexists. constructor; eauto.
  - destruct Hd as (b' & (Ht & ->) & ->). destruct Hr as (q & Hq & Er). cbn [app] in Er. injection Er as <- Er.
    destruct r as [|t r]; [eexists; constructor|]. cbn [app] in Er. injection Er as <- Er.
    assert (r = []) as ->. { apply (cut_one r (if gt_mutable g then 1 else 0)). now exists q. }
    eexists. constructor. exact Ht.
Qed.

Lemma limits_cut r l off log : made_up_limits r l -> exists off', resizable_limits (W r off log) = Ok (l, E off' log).
Proof.
  intros H. unfold resizable_limits. destruct H as [|i b g Hi Hg|i b g Hi Hg|i b m bm g Hi Hm Hg].
  - eexists. erewrite mb_ok by apply varuint_end. erewrite mb_ok by apply varuint_E. change (truth 127) with true. cbv iota.
    erewrite mb_ok by apply varuint_E. reflexivity.
  - destruct (varuint_cut i g b (off + Z.of_nat (length [0])) log Hi Hg) as (w & Ew & Eu & _). eexists.
    change (0 :: g) with ([0] ++ g). erewrite mb_reads0 by (apply reads_varuint1; lia). erewrite mb_ok by exact Ew. change (truth 0) with false. cbv iota. rewrite Eu. reflexivity.
  - destruct (varuint_cut i g b (off + Z.of_nat (length [1])) log Hi Hg) as (w & Ew & Eu & _). eexists.
    change (1 :: g) with ([1] ++ g). erewrite mb_reads0 by (apply reads_varuint1; lia). erewrite mb_ok by exact Ew. change (truth 1) with true. cbv iota. rewrite Eu.
    erewrite mb_ok by apply varuint_E. reflexivity.
  - destruct (varuint_cut m g bm (off + Z.of_nat (length [1]) + Z.of_nat (length b)) log Hm Hg) as (w & Ew & Eu & _). eexists.
    change (1 :: b ++ g) with ([1] ++ b ++ g). erewrite mb_reads0 by (apply reads_varuint1; lia). erewrite mb_reads0 by (apply reads_varuint; exact Hi).
    change (truth 1) with true. cbv iota. rewrite (u32_nat _ _ Hi). erewrite mb_ok by exact Ew. rewrite Eu. reflexivity.
Qed.
(** An import section that ends inside an import: inside one of the names, or before the second, it is
    refused; after the names the rest is made up. *)
Theorem C88_cut_in_an_import_partial : forall c bev l bs la len gl n gn es m bm f bf,
  cut_case c bev l bs (SImport la) len gl n gn es -> 128 <= c_lim c ->
  enc_string (c_lim c) m bm -> enc_string (c_lim c) f bf ->
  let read r := read_module c (cut_bytes bs (SImport la) gl gn es r) in
  (forall r, cut r (bm ++ bf) -> refused (read r)) /\
  (forall d bd r, enc_desc d bd -> cut r bd -> exists d', made_up_desc r d') /\
  (forall r d', made_up_desc r d' -> read (bm ++ bf ++ r) =
     if entry_count (SImport la) + 1 =? n
     then Ok (before bev l (SImport la) len n ++ [EvImport m f d'] ++ [EvSectionEnd 2 len; EvModuleEnd]) else Throw BadNumber).
Proof.
  intros c bev l bs la len gl n gn es m bm f bf H Hlim Hm Hf read. unfold read.
  assert (N : forall j off log, entry_reader c (SImport la) j (E off log) = Throw BadNumber).
  { intros j off log. cbn [entry_reader]. unfold import_entry. erewrite mb_ok by (apply string_E; exact Hlim). erewrite mb_ok by (apply string_E; exact Hlim). reflexivity. }
  split; [|split].
  - intros r Hr. eapply ends_refused; [exact H|]. intros off log. cbn [entry_reader]. unfold import_entry.
    apply cut_app in Hr. destruct Hr as [Hr|(r' & -> & Hr)].
    + destruct (string_cut c m bm r off log Hm Hr) as [E1|(y & o & E1)].
      * exists StdException. now apply mb_throw.
      * exists BadNumber. erewrite mb_ok by exact E1. erewrite mb_ok by (apply string_E; exact Hlim). reflexivity.
    + destruct (string_cut c f bf r' (off + Z.of_nat (length bm)) log Hf Hr) as [E1|(y & o & E1)].
      * exists StdException. erewrite mb_reads0 by (apply reads_string; exact Hm). now apply mb_throw.
      * exists BadNumber. erewrite mb_reads0 by (apply reads_string; exact Hm). erewrite mb_ok by exact E1. reflexivity.
  - intros d bd r. apply cut_desc.
  - intros r d' Hd. eapply ends_seen_throw; [exact H| |exact N]. intros off log. cbn [entry_reader]. unfold import_entry.
    set (o := off + Z.of_nat (length bm) + Z.of_nat (length bf)).
    assert (G : exists o', (k <~ uint 1;
       d <~ (if k =? 0 then t <~ varuint; ret (ImFunction (u32 t))
        else if k =? 1 then table_type
        else if k =? 2 then l <~ resizable_limits; ret (ImMemory l)
        else if k =? 3 then g <~ global_type; ret (ImGlobal g)
        else throw ReaderError); ret d) (W r o log) = Ok (d', E o' log)).
    { change (uint 1) with type_code. destruct Hd as [|t b g Ht Hg| |e r l' He Hl|r l' Hl| |t Ht].
      - eexists. erewrite mb_ok by apply uint_end. erewrite mb_ok; [reflexivity|]. reflexivity.
      - destruct (varuint_cut t g b (o + Z.of_nat (length [0])) log Ht Hg) as (w & Ew & Eu & _). eexists.
        change (0 :: g) with ([0] ++ g). erewrite mb_reads0 by (apply reads_type; unfold is_byte; lia). cbn [Z.eqb].
        erewrite mb_ok; [|erewrite mb_ok by exact Ew; rewrite Eu; reflexivity]. reflexivity.
      - eexists. change [1] with ([1] ++ []). erewrite mb_reads0 by (apply reads_type; unfold is_byte; lia). cbn [Z.eqb Pos.eqb].
        erewrite mb_ok; [reflexivity|]. unfold table_type. erewrite mb_ok by apply uint_end. reflexivity.
      - destruct (limits_cut r l' (o + Z.of_nat (length [1]) + Z.of_nat (length [e])) log Hl) as (o' & El). eexists.
        change (1 :: e :: r) with ([1] ++ [e] ++ r). erewrite mb_reads0 by (apply reads_type; unfold is_byte; lia). cbn [Z.eqb Pos.eqb].
        erewrite mb_ok; [reflexivity|]. unfold table_type. erewrite mb_reads0 by (apply reads_type; exact He). erewrite mb_ok by exact El. reflexivity.
      - destruct (limits_cut r l' (o + Z.of_nat (length [2])) log Hl) as (o' & El). eexists.
        change (2 :: r) with ([2] ++ r). erewrite mb_reads0 by (apply reads_type; unfold is_byte; lia). cbn [Z.eqb Pos.eqb].
        erewrite mb_ok; [reflexivity|]. erewrite mb_ok by exact El. reflexivity.
      - eexists. change [3] with ([3] ++ []). erewrite mb_reads0 by (apply reads_type; unfold is_byte; lia). cbn [Z.eqb Pos.eqb].
        erewrite mb_ok; [reflexivity|]. unfold global_type. erewrite mb_ok; [reflexivity|]. erewrite mb_ok by apply uint_end. reflexivity.
      - eexists. change [3; t] with ([3] ++ [t] ++ []). erewrite mb_reads0 by (apply reads_type; unfold is_byte; lia). cbn [Z.eqb Pos.eqb].
        erewrite mb_ok; [reflexivity|]. unfold global_type. erewrite mb_ok; [reflexivity|]. erewrite mb_reads0 by (apply reads_type; exact Ht). reflexivity. }
    destruct G as (o' & G). exists o'. erewrite mb_reads0 by (apply reads_string; exact Hm). erewrite mb_reads0 by (apply reads_string; exact Hf). fold o.
    revert G. unfold mbind, ret. destruct (uint 1 (W r o log)) as [[k s]| | | |]; cbn [bind]; try discriminate.
    match goal with |- bind ?x _ = _ -> bind ?y _ = _ => change y with x; destruct x as [[d s']| | | |]; cbn [bind]; try discriminate end.
    intros G. injection G as -> ->. apply emit_E.
Qed.
Print Assumptions C88_cut_in_an_import_partial.

(** * The head of a function body *)
Lemma cut_locals locals : forall bs r, Forall2 enc_local locals bs -> cut r (concat bs) ->
  (forall off log, refused (collect (length locals) local_entry (W r off log))) \/
  exists done x, locals = done ++ [x] /\ concat bs = r ++ [lo_type x] /\
    forall off log, exists off', collect (length locals) local_entry (W r off log) = Ok (done ++ [mkLocal (lo_count x) 0], E off' log).
Proof.
  induction locals as [|x ls IH]; intros bs r Hb Hr; inversion Hb as [|? b ? bs' Hx Hb']; subst.
  - now apply cut_nil in Hr.
  - cbn [concat] in Hr. destruct Hx as (g & Hg & Ht & ->). cbn [length collect]. apply cut_app in Hr. destruct Hr as [Hr|(r' & -> & Hr)].
    + apply cut_app in Hr. destruct Hr as [Hr|(r' & -> & Hr)].
      * left. intros off log. exists BadNumber. destruct (varuint_cut _ r g off log Hg Hr) as (w & Ew & _). apply mb_throw. unfold local_entry. erewrite mb_ok by exact Ew. reflexivity.
      * apply cut_one in Hr. subst r'. assert (E1 : forall off log, local_entry (W (g ++ []) off log) = Ok (mkLocal (lo_count x) 0, E (off + Z.of_nat (length g)) log)).
        { intros off log. unfold local_entry. erewrite mb_reads0 by (apply reads_varuint; exact Hg). erewrite mb_ok by apply uint_end. now rewrite (u32_nat _ _ Hg). }
        destruct ls as [|y ls].
        -- right. exists [], x. split; [reflexivity|]. inversion Hb'; subst. split; [cbn [concat]; now rewrite !app_nil_r|].
           intros off log. eexists. erewrite mb_ok by apply E1. reflexivity.
        -- left. intros off log. exists BadNumber. erewrite mb_ok by apply E1. cbn [length collect]. reflexivity.
    + assert (E1 : forall {B} (k : local -> M B) off log, mbind local_entry k (W ((g ++ [lo_type x]) ++ r') off log) = k x (W r' (off + Z.of_nat (length (g ++ [lo_type x]))) log)).
      { intros B k off log. apply mb_reads0. unfold local_entry. eapply reads_bindq; [apply reads_varuint, Hg|]. cbv beta. rewrite (u32_nat _ _ Hg).
        rewrite <- (app_nil_r [lo_type x]). eapply reads_bindq; [apply reads_type, Ht|]. destruct x. apply reads_ret. }
      destruct (IH bs' r' Hb' Hr) as [He|(done & y & -> & Ec & Eq)].
      * left. intros off log. rewrite E1. destruct (He (off + Z.of_nat (length (g ++ [lo_type x]))) log) as (e & Ee). exists e. now apply mb_throw.
      * right. exists (x :: done), y. split; [reflexivity|]. split; [cbn [concat]; rewrite Ec; now rewrite <- !app_assoc|].
        intros off log. rewrite E1. destruct (Eq (off + Z.of_nat (length (g ++ [lo_type x]))) log) as (o & Eo). exists o. erewrite mb_ok by exact Eo. reflexivity.
Qed.
(** A code section that ends inside the size or the local variables of a body is refused, unless all that
    is missing of them is the type of the last one, which is then made up. *)
Theorem C88_cut_in_a_body_head_partial : forall lim strict bev l bs la len gl n gn es size gs locals bl r,
  let c := noop_cfg lim strict in
  cut_case c bev l bs (SCode la) len gl n gn es -> 1016 <= lim ->
  enc_u32 size gs -> enc_vec enc_local locals bl -> 8 * Z.of_nat (length locals) <= lim ->
  cut r (gs ++ bl) ->
  let read := read_module c (cut_bytes bs (SCode la) gl gn es r) in
  refused read \/
  exists done x, locals = done ++ [x] /\ gs ++ bl = r ++ [lo_type x] /\
    read = if entry_count (SCode la) + 1 =? n
           then Ok (before bev l (SCode la) len n ++
                    [EvBody (entry_count (SCode la)) (mkBody (done ++ [mkLocal (lo_count x) 0]) size); EvBodyEnd] ++
                    [EvSectionEnd 10 len; EvModuleEnd])
           else Throw BadNumber.
Proof.
  intros lim strict bev l bs la len gl n gn es size gs locals bl r c H Hlim Hs (gc & bs' & Hc & Hb & ->) Hl Hr read. unfold read.
  assert (N : forall j off log, entry_reader c (SCode la) j (E off log) = Throw BadNumber).
  { intros j off log. cbn [entry_reader]. unfold function_body. erewrite mb_ok by apply varuint_E. erewrite mb_ok by apply varuint_E.
    erewrite mb_ok by (apply alloc_ok; cbn [c_lim c noop_cfg]; lia). reflexivity. }
  apply cut_app in Hr. destruct Hr as [Hr|(r1 & -> & Hr)].
  { left. eapply ends_refused; [exact H|]. intros off log. cbn [entry_reader]. unfold function_body. exists BadNumber.
    destruct (varuint_cut _ r gs off log Hs Hr) as (w & Ew & _). erewrite mb_ok by exact Ew. erewrite mb_ok by apply varuint_E.
    erewrite mb_ok by (apply alloc_ok; cbn [c_lim c noop_cfg]; lia). reflexivity. }
  apply cut_app in Hr. destruct Hr as [Hr|(r2 & -> & Hr)].
  { left. eapply ends_refused; [exact H|]. intros off log. cbn [entry_reader]. unfold function_body.
    destruct (varuint_cut _ r1 gc (off + Z.of_nat (length gs)) log Hc Hr) as (w & Ew & _ & _ & Hw).
    erewrite mb_reads0 by (apply reads_varuint; exact Hs). erewrite mb_ok by exact Ew. unfold alloc.
    destruct (8 * w <=? c_lim c); [|exists StdException; reflexivity]. exists BadNumber. erewrite mb_ok by reflexivity.
    destruct (Z.to_nat w) as [|k] eqn:Ek; [lia|]. cbn [collect]. reflexivity. }
  assert (P : forall off log, entry_reader c (SCode la) (entry_count (SCode la)) (W (gs ++ gc ++ r2) off log) =
     (l <~ collect (length locals) local_entry;
      _ <~ emit (EvBody (entry_count (SCode la)) (mkBody l size)); _ <~ ret tt; emit EvBodyEnd)
     (W r2 (off + Z.of_nat (length gs) + Z.of_nat (length gc)) log)).
  { intros off log. cbn [entry_reader]. unfold function_body. erewrite mb_reads0 by (apply reads_varuint; exact Hs).
    erewrite mb_reads0 by (apply reads_varuint; exact Hc). erewrite mb_ok by (apply alloc_ok; exact Hl). rewrite Nat2Z.id, (u32_nat _ _ Hs). reflexivity. }
  destruct (cut_locals locals bs' r2 Hb Hr) as [He|(done & x & El & Ec & Eq)].
  - left. eapply ends_refused; [exact H|]. intros off log. rewrite P.
    destruct (He (off + Z.of_nat (length gs) + Z.of_nat (length gc)) log) as (e & Ee). exists e. now apply mb_throw.
  - right. exists done, x. split; [exact El|]. split; [rewrite Ec, <- !app_assoc; reflexivity|].
    eapply ends_seen_throw; [exact H| |exact N]. intros off log. rewrite P.
    destruct (Eq (off + Z.of_nat (length gs) + Z.of_nat (length gc)) log) as (o & Eo). exists o.
    erewrite mb_ok by exact Eo. erewrite mb_ok by apply emit_E. erewrite mb_ok by reflexivity. rewrite emit_E, <- app_assoc. reflexivity.
Qed.
Print Assumptions C88_cut_in_a_body_head_partial.

(** Concrete cases: the index of the only export is cut (it has two bytes), so is its kind; a data segment
    of two bytes has one; of three element indices there is one and a half; an import ends after its
    names, a type before its return type, a body before the type of its only local; a global is cut. *)
Example C88_cut_entry_instance :
  let c := noop_cfg 2000 true in
  let bev := fun (_ : Z) (_ : body_s) => @nil event in
  cut_case c bev [] [] (SExport []) 6 [6] 1 [1] [] /\ cut_case c bev [] [] (SExport [mkExportS [102] 0 0]) 6 [6] 3 [3] [1; 102; 0; 0] /\
  enc_string 2000 [102] [1; 102] /\ enc_u32 200 [200; 1] /\ cut [200] [200; 1] /\ guess [200] = 16328 /\
  read_module c (cut_bytes [] (SExport []) [6] [1] [] ([1; 102] ++ [0] ++ [200])) =
    Ok [EvModuleStart; EvHeader 1836278016 1; EvSectionStart 7 6 []; EvExport [102] 0 16328; EvSectionEnd 7 6; EvModuleEnd] /\
  read_module c (cut_bytes [] (SExport [mkExportS [102] 0 0]) [6] [3] [1; 102; 0; 0] ([1; 102] ++ [0] ++ [200])) = Throw BadNumber /\
  read_module c (cut_bytes [] (SExport []) [6] [1] [] [1; 102]) =
    Ok [EvModuleStart; EvHeader 1836278016 1; EvSectionStart 7 6 []; EvExport [102] 0 127; EvSectionEnd 7 6; EvModuleEnd] /\
  read_module c (cut_bytes [] (SExport []) [6] [1] [] [2; 102]) = Throw BadNumber /\
  read_module c (cut_bytes [] (SData []) [8] [1] [] [0; 65; 0; 11; 2; 7]) =
    Ok [EvModuleStart; EvHeader 1836278016 1; EvSectionStart 11 8 []; EvData 0 (mkExpr 65 (IVarint 0)) [7; 0]; EvSectionEnd 11 8; EvModuleEnd] /\
  read_module c (cut_bytes [] (SElement []) [9] [1] [] [0; 65; 0; 11; 3; 5; 200]) =
    Ok [EvModuleStart; EvHeader 1836278016 1; EvSectionStart 9 9 []; EvElementEntry 0 (mkExpr 65 (IVarint 0)) 3;
        EvElement 5; EvElement 16328; EvElement 127; EvElementEnd; EvSectionEnd 9 9; EvModuleEnd] /\
  read_module c (cut_bytes [] (SImport []) [7] [1] [] [1; 109; 1; 102]) =
    Ok [EvModuleStart; EvHeader 1836278016 1; EvSectionStart 2 7 []; EvImportSection 1; EvImport [109] [102] (ImFunction 127); EvSectionEnd 2 7; EvModuleEnd] /\
  read_module c (cut_bytes [] (SType []) [6] [1] [] [96; 1; 127; 1]) =
    Ok [EvModuleStart; EvHeader 1836278016 1; EvSectionStart 1 6 []; EvTypeSection 1; EvFunctionType (mkFtype [127] (Some 0)); EvSectionEnd 1 6; EvModuleEnd] /\
  read_module c (cut_bytes [] (SCode []) [6] [1] [] [4; 1; 2]) =
    Ok [EvModuleStart; EvHeader 1836278016 1; EvSectionStart 10 6 []; EvBody 0 (mkBody [mkLocal 2 0] 4); EvBodyEnd; EvSectionEnd 10 6; EvModuleEnd] /\
  read_module c (cut_bytes [] (SGlobal []) [6] [1] [] [127; 0; 65]) = Trap Exit /\
  read_module c (cut_bytes [] (SGlobal []) [6] [1] [] [125; 0; 67; 0]) = Throw ReaderError /\
  read_module c (cut_bytes [] (SFunction [5]) [6] [3] [5] [200]) =
    Ok [EvModuleStart; EvHeader 1836278016 1; EvSectionStart 3 6 []; EvFunction 0 5; EvFunction 1 16328; EvFunction 2 127; EvSectionEnd 3 6; EvModuleEnd].
Proof.
  assert (S : forall v, 0 <= v < 128 -> enc_u32 v [v]) by (intros; apply small_u32; lia).
  assert (F : enc_string 2000 [102] [1; 102]).
  { unfold enc_string. split; [|cbn; split; [lia|intuition lia]]. exists [1], [[102]]. split; [apply S; cbn; lia|]. split; [|reflexivity].
    repeat constructor; unfold is_byte; lia. }
  cbv zeta. unfold cut_case. cbn [bodies_of enc_entries entry_count c_lim noop_cfg length].
  split; [|split; [|split; [exact F|split; [|split; [|split; [reflexivity|]]]]]].
  - do 3 (split; [constructor|]). do 2 (split; [apply S; lia|]). split; [|vm_compute; reflexivity]. exists []. split; [constructor|reflexivity].
  - do 3 (split; [constructor|]). do 2 (split; [apply S; lia|]). split; [|vm_compute; reflexivity]. exists [[1; 102; 0; 0]]. split; [|reflexivity].
    constructor; [|constructor]. exists [1; 102], [0]. split; [exact F|]. split; [unfold is_byte; cbn; lia|]. split; [apply S; cbn; lia|reflexivity].
  - unfold enc_u32. split; [|split; [cbn; lia|split; [reflexivity|lia]]]. constructor; [lia|]. constructor. lia.
  - exists [1]. split; [discriminate|reflexivity].
  - repeat split; vm_compute; reflexivity.
Qed.
