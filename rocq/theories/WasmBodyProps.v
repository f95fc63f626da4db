(** C96 in more detail: what ab-disasm shows of a function body is never its code. *)

From Coq Require Import ZArith List Bool Lia.
From Verif Require Import Outcome LebSpec VarIntModel StreamModel WasmModel WasmSpec WasmProofs WasmProps StreamProofs WasmCutProps.
Import ListNotations.
Local Open Scope Z_scope.
Import ZifyBool ZifyNat.


Definition quiet {A} (m : M A) : Prop := forall s a s', m s = Ok (a, s') -> w_log s' = w_log s.
Lemma quiet_ret {A} (a : A) : quiet (ret a).
Proof. now intros s x s' [= <- <-]. Qed.
Lemma quiet_bind {A B} (m : M A) (k : A -> M B) : quiet m -> (forall a, quiet (k a)) -> quiet (mbind m k).
Proof.
  intros Hm Hk s b s' E. unfold mbind in E. destruct (m s) as [[a s1]| | | |] eqn:E1; try discriminate. cbn [bind] in E.
  rewrite (Hk _ _ _ _ E). eauto.
Qed.
Lemma quiet_get : quiet get.
Proof.
  intros s a s'. unfold get. destruct (w_stuck s); [congruence|].
  destruct (s_get (w_in s)). intros [= <- <-]. reflexivity.
Qed.
Lemma quiet_stream {A} (f : stream -> outcome (A * stream)) : quiet (on_stream f).
Proof.
  intros s a s'. unfold on_stream. destruct (w_stuck s).
  - destruct (f _) as [[? ?]| | | |]; cbn [bind]; congruence.
  - destruct (f _) as [[? ?]| | | |]; cbn [bind]; try discriminate. intros [= <- <-]. reflexivity.
Qed.
Lemma quiet_number n : quiet (read_number n).
Proof.
  intros s a s'. unfold read_number. destruct (w_stuck s); [discriminate|].
  destruct (readNumber _ _) as [[? ?]| | | |]; cbn [bind]; try discriminate. intros [= <- <-]. reflexivity.
Qed.
Lemma quiet_alloc c n : quiet (alloc c n).
Proof. unfold alloc. destruct (n <=? _); [apply quiet_ret|]. intros s a s' E. discriminate. Qed.
Lemma quiet_collect {A} (f : M A) : quiet f -> forall n, quiet (collect n f).
Proof.
  intros Hf. induction n as [|n IH]; cbn [collect]; [apply quiet_ret|].
  apply quiet_bind; [apply Hf|]. intros. apply quiet_bind; [apply IH|intros; apply quiet_ret].
Qed.
Lemma quiet_expr c : quiet (read_expr c).
Proof.
  unfold read_expr. apply quiet_bind; [apply quiet_get|]. intros op. destruct (op_kind op) as [k|]; [|intros s a s' E; discriminate].
  apply quiet_bind; [|intros; apply quiet_ret].
  destruct k; cbn [read_imm]; unfold varuint, varint;
    repeat first [apply quiet_ret | apply quiet_get | apply quiet_stream | apply quiet_number | apply quiet_alloc
                 | apply quiet_collect | apply quiet_bind; [|intros ?]].
Qed.

Lemma print_expr_log e s a s' : print_expr e s = Ok (a, s') -> w_log s' = w_log s ++ [EvExpr e].
Proof.
  unfold print_expr. destruct (e_imm e); try (intros [= <- <-]; reflexivity).
  destruct (_ && _); [discriminate|intros [= <- <-]; reflexivity].
Qed.

(** Reading on behind the instructions of a body. *)
Lemma expr_loop_past c start size : forall es cs, Forall2 (enc_instr (c_lim c)) es cs ->
  forall fuel post off log a s', off - start + Z.of_nat (length (concat cs)) < size ->
  expr_loop c fuel start size print_expr (W (concat cs ++ post) off log) = Ok (a, s') ->
  exists e t, w_log s' = log ++ map EvExpr es ++ EvExpr e :: t.
Proof.
  intros es cs H. induction H as [|e b es cs He H IH]; intros fuel post off log a s' Hs E.
  - destruct fuel as [|fuel]; [discriminate|]. cbn [expr_loop concat app] in E. unfold mbind in E.
    destruct (read_expr c (W post off log)) as [[e s1]| | | |] eqn:E1; cbn [bind] in E; try discriminate.
    destruct (print_expr e s1) as [[u s2]| | | |] eqn:E2; cbn [bind] in E; try discriminate.
    apply quiet_expr in E1. apply print_expr_log in E2. rewrite E1 in E2. cbn [W w_log] in E2.
    exists e. cbn [map app]. destruct (_ <? size).
    + apply expr_loop_grows in E as (t & E).
      * exists t. rewrite E, E2, <- app_assoc. reflexivity.
      * intros e' s x s0 Ex. apply print_expr_log in Ex. eauto.
    + injection E as <- <-. exists []. exact E2.
  - destruct fuel as [|fuel]; [discriminate|]. cbn [expr_loop concat] in E. unfold mbind in E. rewrite <- app_assoc in E.
    rewrite (reads_expr c e b He) in E. cbn [bind] in E.
    destruct (print_expr e _) as [[u s2]| | | |] eqn:E2; cbn [bind] in E; try discriminate.
    assert (s2 = W (concat cs ++ post) (off + Z.of_nat (length b)) (log ++ [EvExpr e])) as ->.
    { unfold print_expr in E2. rewrite app_nil_r in E2. destruct (e_imm e); try (injection E2 as <- <-; reflexivity).
      destruct (_ && _); [discriminate|injection E2 as <- <-; reflexivity]. }
    cbn [concat] in Hs. rewrite app_length in Hs. cbn [W w_in s_offset] in E.
    replace (off + Z.of_nat (length b) - start <? size) with true in E by lia.
    apply IH in E as (e' & t & E); [|lia]. exists e', t. rewrite E, <- app_assoc. reflexivity.
Qed.

(** Every module with at least one body: if ab-disasm accepts it at all,
    what it shows of the first body are the instructions of the body followed by at least one more
    instruction, taken from bytes behind the body. *)
Theorem C96_first_body_overrun_refuted :
  forall lim strict l bs x xs len b es cs rest evs,
    Forall2 (fun p b => enc_section lim (fst p) (snd p) b) l bs ->
    Forall (fun p => bodies_of (fst p) = []) l ->
    enc_section lim (SCode (x :: xs)) len b ->
    Forall2 (enc_instr lim) es cs -> bs_code x = concat cs ->
    read_module (disasm_cfg lim strict) (wasm_header ++ concat bs ++ b ++ rest) = Ok evs ->
    exists e more,
      evs = [EvModuleStart; EvHeader 1836278016 1] ++ flat_map (section_events (fun _ _ => [])) l ++
            [EvSectionStart 10 len []; EvBody 0 (mkBody (bs_locals x) (bs_size x))] ++
            map EvExpr es ++ EvExpr e :: more.
Proof.
  intros lim strict l bs x xs len b es cs rest evs H Hn Hb He Ec E.
  set (c := disasm_cfg lim strict) in *.
  destruct Hb as (gl & p & Hgl & Hlen & (g & bs' & Hg & Hbs & ->) & ->). inversion Hbs as [|? bx ? bs2 Hx Hxs]; subst x0 l0 bs'.
  destruct Hx as (gs & bl & Hs & (g' & bs3 & Hg' & Hls & ->) & Hl & Hsz & ->).
  cbn [sec_code concat] in E. rewrite <- !app_assoc in E.
  destruct (reach_payload c (fun _ _ => []) l bs (SCode (x :: xs)) gl len
    (g ++ gs ++ g' ++ concat bs3 ++ bs_code x ++ concat bs2 ++ rest)) as (off & fu & Hfu & E1).
  { exact H. } { eapply Forall_impl; [|exact Hn]. cbv beta. intros a ->. constructor. } { exact Hgl. }
  cbn [sec_code app] in E, E1. rewrite E1 in E. clear E1.
  match type of E with context [W _ off ?lg] => set (log := lg) in E end.
  unfold mbind at 1 in E. unfold code_section, mbind at 1 in E. rewrite (reads_varuint _ _ Hg) in E. cbn [bind] in E.
  unfold for_count in E. rewrite Nat2Z.id in E. cbn [length iter] in E.
  unfold mbind at 1 in E. unfold function_body at 1, mbind at 1 in E. rewrite (reads_varuint _ _ Hs) in E. cbn [bind] in E.
  unfold mbind at 1 in E. rewrite (reads_varuint _ _ Hg') in E. cbn [bind] in E.
  unfold mbind at 1 in E. rewrite (alloc_ok c) in E by exact Hl. cbn [bind] in E.
  assert (reads (collect (length (bs_locals x)) local_entry) (bs_locals x) (concat bs3) []) as Hc.
  { eapply (reads_collect _ enc_local); [|exact Hls]. intros [m ty] b (g2 & Hg2 & Hb & ->). cbn [lo_count lo_type] in *.
    unfold local_entry. eapply reads_bindq; [apply reads_varuint, Hg2|]. cbv beta.
    eapply reads_bindr; [apply (reads_type _ Hb)|]. cbv beta. rewrite (u32_nat _ _ Hg2). apply reads_ret. }
  rewrite Nat2Z.id in E. unfold mbind at 1 in E. rewrite Hc in E. cbn [bind] in E. rewrite (u32_nat _ _ Hs) in E.
  unfold mbind at 1 in E. cbn [emit bind W w_in w_stuck w_log] in E. unfold mbind at 1 in E.
  match type of E with context [mkW (mkStream ?r false ?o) false ?l] => fold (W r o l) in E; set (off' := o) in E; set (log' := l) in E end.
  destruct (c_body c 0 _ _) as [[u s1]| | | |] eqn:Eb; cbn [bind emit] in E; try discriminate.
  assert (exists e t, w_log s1 = log' ++ map EvExpr es ++ EvExpr e :: t) as (e & t1 & Hlog1).
  { cbn [c c_body disasm_cfg] in Eb. unfold disasm_body in Eb. destruct (_ <=? 0); [discriminate|].
    unfold read_exprs in Eb. cbn [fb_size W w_in s_rest s_offset] in Eb. fold (W (bs_code x ++ concat bs2 ++ rest) off' log') in Eb.
    rewrite Ec in Eb. eapply expr_loop_past in Eb; [exact Eb|exact He|]. rewrite <- Ec.
    rewrite Hsz, app_length. destruct Hg' as (Hsh & _). inversion Hsh; subst; cbn [length]; lia. }
  assert (exists t2, evs = w_log s1 ++ t2) as (t2 & ->).
  { set (s2 := mkW (w_in s1) (w_stuck s1) (w_log s1 ++ [EvBodyEnd])) in E.
    destruct (iter (length xs) (0 + 1) (function_body c) s2) as [[u2 s3]| | | |] eqn:E3; cbn [bind] in E; try discriminate.
    apply grows_iter in E3 as (t3 & E3); [|intros i; gr; apply disasm_grows].
    unfold mbind in E. cbn [emit bind] in E.
    destruct (sections c fu _) as [[u4 s4]| | | |] eqn:E4; cbn [bind] in E; try discriminate.
    apply grows_sections in E4 as (t4 & E4); [|intros; apply disasm_grows]. injection E as <-.
    rewrite E4. cbn [w_log]. rewrite E3. unfold s2. cbn [w_log]. eexists. rewrite <- !app_assoc. reflexivity. }
  exists e, (t1 ++ t2). rewrite Hlog1. unfold log', log. cbn [app]. rewrite <- ?app_assoc. cbn [app]. rewrite <- ?app_assoc. reflexivity.
Qed.
Print Assumptions C96_first_body_overrun_refuted.

(** Such a module: two functions with an empty parameter list; the first has a local variable and
    does nothing, the second is nop nop unreachable end.  ab-disasm accepts it and shows the first
    as end else unreachable nop and the second as end. *)
Example C96_misread :
  let x := mkBodyS [mkLocal 1 127] [11] 4 in
  let y := mkBodyS [] [1; 1; 0; 11] 5 in
  enc_section 1000 (SFunction [0; 0]) 3 [3; 3; 2; 0; 0] /\
  enc_section 1000 (SCode [x; y]) 12 [10; 12; 2; 4; 1; 1; 127; 11; 5; 0; 1; 1; 0; 11] /\
  Forall2 (enc_instr 1000) [mkExpr 11 INone] [[11]] /\
  read_module (disasm_cfg 1000 true) (wasm_header ++ [3; 3; 2; 0; 0] ++ [10; 12; 2; 4; 1; 1; 127; 11; 5; 0; 1; 1; 0; 11]) =
    Ok [EvModuleStart; EvHeader 1836278016 1; EvSectionStart 3 3 []; EvFunction 0 0; EvFunction 1 0; EvSectionEnd 3 3;
        EvSectionStart 10 12 []; EvBody 0 (mkBody [mkLocal 1 127] 4);
        EvExpr (mkExpr 11 INone); EvExpr (mkExpr 5 INone); EvExpr (mkExpr 0 INone); EvExpr (mkExpr 1 INone); EvBodyEnd;
        EvBody 1 (mkBody [] 1); EvExpr (mkExpr 11 INone); EvBodyEnd; EvSectionEnd 10 12; EvModuleEnd].
Proof.
  cbv zeta. assert (forall v, 0 <= v < 128 -> enc_u32 v [v]) as U by (intros; apply small_u32; lia).
  split; [|split; [|split]].
  - exists [3], [2; 0; 0]. split; [apply U; lia|]. split; [reflexivity|]. split; [|reflexivity].
    exists [2], [[0]; [0]]. split; [apply U; cbn; lia|]. split; [|reflexivity]. repeat constructor; cbn; lia.
  - exists [12], [2; 4; 1; 1; 127; 11; 5; 0; 1; 1; 0; 11]. split; [apply U; lia|]. split; [reflexivity|]. split; [|reflexivity].
    exists [2], [[4; 1; 1; 127; 11]; [5; 0; 1; 1; 0; 11]]. split; [apply U; cbn; lia|]. split; [|reflexivity].
    constructor; [|constructor; [|constructor]].
    + exists [4], [1; 1; 127]. split; [apply U; cbn; lia|]. split; [|split; [cbn; lia|split; reflexivity]].
      exists [1], [[1; 127]]. split; [apply U; cbn; lia|]. split; [|reflexivity]. constructor; [|constructor].
      exists [1]. split; [apply U; cbn; lia|]. split; [unfold is_byte; cbn; lia|reflexivity].
    + exists [5], [0]. split; [apply U; cbn; lia|]. split; [|split; [cbn; lia|split; reflexivity]].
      exists [0], []. split; [apply U; cbn; lia|]. split; [constructor|reflexivity].
  - constructor; [|constructor]. constructor. unfold nullary_op. lia.
  - vm_compute. reflexivity.
Qed.
