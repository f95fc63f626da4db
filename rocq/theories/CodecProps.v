(** Property theorems about the module writer and compiler (C07, C08, C09, C49, C50, C51) and
    the instruction list reader (C40, C52). *)

From Coq Require Import ZArith List Lia.
From Verif Require Import Outcome VarIntModel VarIntProps CodecModel CodecSpec CodecProofs InsnListModel.
Import ListNotations.
Local Open Scope Z_scope.

(** C07: writing a description that fits always succeeds, and compiling the bytes (fewer than
    2^32) gives the same types in the same order, the same type indices, and for each function
    in order its type, register counts and code. *)
Theorem C07_write_then_compile :
  forall m, fits m ->
    exists bs, write m = Ok bs /\ is_bytes bs /\
      (Z.of_nat (length bs) < 2 ^ 32 ->
       exists m', compile bs = Ok m' /\
         m_types m' = mn_types m /\
         m_func_types m' = map fn_type_idx (mn_funcs m) /\
         Forall2 (same_func bs (mn_types m)) (mn_funcs m) (m_funcs m')).
Proof.
  intros m F. destruct (write_spec m F) as (bs & E & Hb & H). exists bs. split; [auto|]. split; [auto|].
  intros L. destruct (H L) as (fs & Hm & HS & _).
  exists (mkModule (mn_types m) (map fn_type_idx (mn_funcs m)) fs).
  split; [now apply compile_spec|]. auto.
Qed.
Print Assumptions C07_write_then_compile.

(** C07: the i-th function of the description is the i-th function handed out. *)
Theorem C07_func_inst :
  forall m bs m' i d, fits m -> write m = Ok bs -> Z.of_nat (length bs) < 2 ^ 32 -> compile bs = Ok m' ->
    nth_error (mn_funcs m) i = Some d ->
    exists f, func_inst m' (Z.of_nat i) = Ok f /\ same_func bs (mn_types m) d f.
Proof.
  intros m bs m' i d F E L C Hi. destruct (C07_write_then_compile m F) as (bs' & E' & _ & H).
  rewrite E in E'. injection E' as <-. destruct (H L) as (m2 & C2 & _ & _ & S).
  rewrite C in C2. injection C2 as <-. clear H C F E.
  unfold func_inst. assert (X : exists f, nth_error (m_funcs m') i = Some f /\ same_func bs (mn_types m) d f).
  { revert i Hi. induction S as [|a b l l' Hab S IH]; intros [|i] Hi; cbn in *; try discriminate.
    - injection Hi as <-. eauto.
    - eauto. }
  destruct X as (f & Ef & Sf). exists f. split; [|auto].
  assert (i < length (m_funcs m'))%nat by (apply nth_error_Some; congruence).
  replace (Z.of_nat i <? Z.of_nat (length (m_funcs m'))) with true by (symmetry; apply Z.ltb_lt; lia).
  cbn. now rewrite Nat2Z.id, Ef.
Qed.
Print Assumptions C07_func_inst.

Example C07_instance : fits add_module.
Proof.
  split.
  - repeat constructor; unfold is_byte, I32, I64; lia.
  - repeat constructor; cbn; unfold is_byte; try lia.
Qed.

(** C08: for every byte string compile terminates (no exhausted budget), reads only inside
    the bytes (no undefined behaviour), and returns a module, throws DecodeError or stops
    the process. *)
Theorem C08_compile_total :
  forall bs, is_bytes bs ->
    (exists m, compile bs = Ok m) \/ compile bs = Throw DecodeError \/ exists t, compile bs = Trap t.
Proof. exact compile_tame. Qed.
Print Assumptions C08_compile_total.

Example C08_instance :
  is_bytes [97; 98; 97; 98; 1; 0; 0] /\ compile [97; 98; 97; 98; 1; 0; 0] = Throw DecodeError /\
  compile [97; 98; 97; 98; 1; 0; 0; 0; 1; 255; 255; 255; 255; 255] = Throw DecodeError.
Proof.
  split; [repeat constructor; unfold is_byte; lia|]. split; vm_compute; reflexivity.
Qed.

(** C09: compile accepts exactly the module files of CodecSpec, with exactly that meaning. *)
Theorem C09_accepts_exactly_module_files :
  forall bs m, is_bytes bs -> (compile bs = Ok m <-> module_file bs m).
Proof. intros. now apply compile_spec. Qed.
Print Assumptions C09_accepts_exactly_module_files.

(** C09: an accepted module is consistent: each function refers to a type of the module, its
    code starts inside the bytes, after the header, and its register counts are those of its
    type and of its declared locals. *)
Theorem C09_consistent :
  forall bs m f, is_bytes bs -> compile bs = Ok m -> In f (m_funcs m) ->
    8 < f_body f <= Z.of_nat (length bs) /\
    exists t, 0 <= f_type f < Z.of_nat (length (m_types m)) /\
      nth_error (m_types m) (Z.to_nat (f_type f)) = Some t /\
      f_arg_nregs f = slots_of (ft_args t) /\ f_ret_nregs f = slots_of (ft_rets t) /\
      0 <= f_var_nregs f < 2 ^ 32 /\ f_nregs f = (f_var_nregs f + f_arg_nregs f) mod 2 ^ 32.
Proof.
  intros bs m f Hb E Hf. apply compile_spec in E; auto. destruct E as (Hh & S).
  apply sections_layout in S as (cs & L).
  pose proof (bytes_at_bound _ _ _ _ Hh). unfold len in H at 1.
  apply layout_ok in L; [|unfold len in *; lia|constructor|constructor].
  destruct L as (_ & L). rewrite Forall_forall in L. destruct (L f Hf) as (H1 & H2 & H3 & t & H4).
  split; [exact H3|]. exists t. split; [lia|]. tauto.
Qed.
Print Assumptions C09_consistent.

Example C09_instance :
  exists m f, compile [97; 98; 97; 98; 1; 0; 0; 0; 1; 5; 1; 96; 1; 126; 0; 3; 2; 1; 0; 10; 4; 1; 2; 3; 4] = Ok m
    /\ In f (m_funcs m) /\ f_nregs f = 5 /\ f_body f = 24.
Proof.
  eexists. eexists. split; [vm_compute; reflexivity|]. split; [left; reflexivity|]. split; reflexivity.
Qed.

(** C49 (wish: malformed modules are reported by an error the caller can catch).  False:
    three short files that stop the process. *)
Theorem C49_reported_refuted :
  compile [97; 98; 97; 98; 1; 0; 0; 0; 0; 0] = Trap Assertion /\              (* custom section *)
  compile [97; 98; 97; 98; 1; 0; 0; 0; 1; 4; 1; 96; 0; 0; 3; 2; 1; 0; 10; 3; 1; 9; 0]
    = Trap Assertion /\                                     (* code entry past the end *)
  compile [97; 98; 97; 98; 1; 0; 0; 0; 1; 4; 1; 96; 0; 0; 3; 2; 1; 1; 10; 3; 1; 1; 0]
    = Trap Terminate.                                             (* type index too large *)
Proof. vm_compute. auto. Qed.
Print Assumptions C49_reported_refuted.

(** C49, the true part: the process is stopped exactly in the [fatal] situations; every other
    file that is not a module file is reported by DecodeError. *)
Theorem C49_trap_iff_partial :
  forall bs t, is_bytes bs ->
    (compile bs = Trap t <->
     bytes_at bs 0 [97; 98; 97; 98; 1; 0; 0; 0] 8 /\
     exists cs p m, layout bs 8 (mkModule [] [] []) cs p m /\ p < Z.of_nat (length bs) /\ fatal bs p m t).
Proof. intros. now apply compile_trap. Qed.
Print Assumptions C49_trap_iff_partial.

Theorem C49_otherwise_reported_partial :
  forall bs, is_bytes bs -> (forall m, ~ module_file bs m) ->
    (forall cs p m t, layout bs 8 (mkModule [] [] []) cs p m -> ~ fatal bs p m t) ->
    compile bs = Throw DecodeError.
Proof.
  intros bs Hb N F. destruct (compile_tame bs Hb) as [(m & E)|[E|(t & E)]]; auto.
  - apply compile_spec in E; auto. now apply N in E.
  - apply compile_trap in E; auto. destruct E as (_ & cs & p & m & L & _ & X). exfalso. eapply F; eauto.
Qed.
Print Assumptions C49_otherwise_reported_partial.

(** C49: in particular a file that does not start with the header is reported. *)
Theorem C49_header_partial :
  forall bs, is_bytes bs -> ~ bytes_at bs 0 [97; 98; 97; 98; 1; 0; 0; 0] 8 ->
    compile bs = Throw DecodeError.
Proof.
  intros bs Hb N. destruct (compile_tame bs Hb) as [(m & E)|[E|(t & E)]]; auto.
  - apply compile_spec in E; auto. now destruct E.
  - apply compile_trap in E; auto. now destruct E.
Qed.
Print Assumptions C49_header_partial.
(** The hypotheses of the three theorems are met: a file whose code entry reaches past the end stops the
    process; an unfinished type section and a wrong version are reported. *)
Example C49_case :
  compile [97; 98; 97; 98; 1; 0; 0; 0; 1; 4; 1; 96; 0] = Throw DecodeError /\
  compile [97; 98; 97; 98; 2; 0; 0; 0] = Throw DecodeError /\ ~ bytes_at [97; 98; 97; 98; 2; 0; 0; 0] 0 [97; 98; 97; 98; 1; 0; 0; 0] 8.
Proof.
  split; [vm_compute; reflexivity|]. split; [vm_compute; reflexivity|]. intros (pre & post & E & Hl & _).
  destruct pre; [|cbn in Hl; lia]. discriminate.
Qed.

(** C50 (wish: a register operand that does not fit in its byte is refused).  False: any such
    operand is reduced modulo 256, so different descriptions give the same file. *)
Theorem C50_operand_range_refuted :
  forall d l r k1 k2 k3,
    write_insn (I32Add (d + 256 * k1) (l + 256 * k2) (r + 256 * k3)) = write_insn (I32Add d l r).
Proof.
  intros. cbn [write_insn].
  replace (d + 256 * k1) with (d + k1 * 256) by lia. replace (l + 256 * k2) with (l + k2 * 256) by lia.
  replace (r + 256 * k3) with (r + k3 * 256) by lia. now rewrite !Z_mod_plus_full.
Qed.
Print Assumptions C50_operand_range_refuted.

Theorem C50_same_file_refuted :
  exists m1 m2, m1 <> m2 /\ is_ok (write m1) /\ write m1 = write m2.
Proof.
  exists (mkMN [mkFT [I32] [I32]] [mkFN 0 300 [X32Return 256]]),
         (mkMN [mkFT [I32] [I32]] [mkFN 0 300 [X32Return 0]]).
  split; [discriminate|]. split; [eexists; vm_compute; reflexivity|vm_compute; reflexivity].
Qed.
Print Assumptions C50_same_file_refuted.

Lemma app_eq_app_length {A} (a b c d : list A) :
  length a = length c -> a ++ b = c ++ d -> a = c /\ b = d.
Proof.
  revert c. induction a as [|x a IH]; intros [|y c] L E; cbn in *; try discriminate; [auto|].
  injection E as -> E. injection L as L. destruct (IH c L E) as [-> ->]. auto.
Qed.
Lemma Ok_inj {A} (a b : A) : Ok a = Ok b -> a = b.
Proof. now intros [= ->]. Qed.

(** The true part: descriptions whose operands do fit never give the same file. *)
Lemma write_body_injective a b :
  Forall insn_fits a -> Forall insn_fits b -> write_body a = write_body b -> a = b.
Proof.
  unfold write_body. revert b. induction a as [|i a IH]; intros [|j b] Ha Hb E; [reflexivity| | |].
  - exfalso. destruct j; discriminate.
  - exfalso. destruct i; discriminate.
  - inversion Ha as [|? ? Hi Ha']; subst. inversion Hb as [|? ? Hj Hb']; subst.
    cbn [flat_map] in E.
    rewrite (proj1 (write_insn_code i Hi)), (proj1 (write_insn_code j Hj)) in E.
    destruct i, j; cbn [insn_code app] in E; try discriminate; injection E; intros;
      subst; f_equal; apply IH; auto.
Qed.

Lemma code_append_injective f1 f2 g1 g2 r1 r2 n :
  func_fits n f1 -> func_fits n f2 -> fn_type_idx f1 = fn_type_idx f2 ->
  code_append_to f1 = Ok g1 -> code_append_to f2 = Ok g2 ->
  Z.of_nat (length g1) < 2 ^ 32 -> Z.of_nat (length g2) < 2 ^ 32 ->
  g1 ++ r1 = g2 ++ r2 -> f1 = f2 /\ r1 = r2.
Proof.
  intros (Ht1 & Hn1 & Hi1) (Ht2 & Hn2 & Hi2) Et E1 E2 L1 L2 E. unfold code_append_to in E1, E2.
  apply bind_ok in E1 as (n1 & En1 & E1). apply bind_ok in E1 as (s1 & Es1 & E1).
  injection E1 as <-.
  apply bind_ok in E2 as (n2 & En2 & E2). apply bind_ok in E2 as (s2 & Es2 & E2).
  injection E2 as <-.
  rewrite !app_length in L1, L2. rewrite <- !app_assoc in E.
  assert (B1 : 0 <= size (n1 ++ write_body (fn_insns f1)) < 2 ^ 32) by (unfold size; rewrite app_length; lia).
  assert (B2 : 0 <= size (n2 ++ write_body (fn_insns f2)) < 2 ^ 32) by (unfold size; rewrite app_length; lia).
  destruct (C02_varuint32_prefix_free _ _ _ _ _ _ B1 B2 Es1 Es2 E)
    as (Hs & _ & E'). unfold size in Hs.
  rewrite !app_assoc in E'. apply app_eq_app_length in E' as [Ec Er]; [|rewrite !app_length in *; lia].
  destruct (C02_varuint32_prefix_free _ _ _ _ _ _ Hn1 Hn2 En1 En2 Ec) as (Hn & _ & Eb).
  apply write_body_injective in Eb; auto.
  split; [|exact Er]. destruct f1, f2. cbn in *. congruence.
Qed.

Lemma append_all_codes_injective n : forall l1 l2 g1 g2 r1 r2,
  Forall (func_fits n) l1 -> Forall (func_fits n) l2 -> map fn_type_idx l1 = map fn_type_idx l2 ->
  append_all code_append_to l1 = Ok g1 -> append_all code_append_to l2 = Ok g2 ->
  Z.of_nat (length g1) < 2 ^ 32 -> Z.of_nat (length g2) < 2 ^ 32 ->
  g1 ++ r1 = g2 ++ r2 -> l1 = l2.
Proof.
  induction l1 as [|f1 l1 IH]; intros [|f2 l2] g1 g2 r1 r2 H1 H2 Ht E1 E2 L1 L2 E; try discriminate; [reflexivity|].
  cbn [map] in Ht.
  assert (Ht1 : fn_type_idx f1 = fn_type_idx f2) by (now apply (f_equal (hd 0)) in Ht).
  assert (Ht2 : map fn_type_idx l1 = map fn_type_idx l2) by (now apply (f_equal (@tl Z)) in Ht).
  inversion H1; subst. inversion H2; subst. cbn [append_all] in E1, E2.
  apply bind_ok in E1 as (a1 & Ea1 & E1). apply bind_ok in E1 as (b1 & Eb1 & E1). injection E1 as <-.
  apply bind_ok in E2 as (a2 & Ea2 & E2). apply bind_ok in E2 as (b2 & Eb2 & E2). injection E2 as <-.
  rewrite app_length in L1, L2. rewrite <- !app_assoc in E.
  destruct (code_append_injective f1 f2 a1 a2 (b1 ++ r1) (b2 ++ r2) n) as [-> Er]; auto; try lia.
  f_equal. eapply IH; eauto; lia.
Qed.

Theorem C50_operands_that_fit_partial :
  forall m1 m2 bs, fits m1 -> fits m2 -> write m1 = Ok bs -> write m2 = Ok bs ->
    Z.of_nat (length bs) < 2 ^ 32 -> m1 = m2.
Proof.
  intros m1 m2 bs F1 F2 W1 W2 L.
  destruct (C07_write_then_compile m1 F1) as (bs1 & W1' & _ & C1). rewrite W1 in W1'. injection W1' as <-.
  destruct (C07_write_then_compile m2 F2) as (bs2 & W2' & _ & C2). rewrite W2 in W2'. injection W2' as <-.
  destruct (C1 L) as (c1 & E1 & T1 & I1 & _). destruct (C2 L) as (c2 & E2 & T2 & I2 & _).
  rewrite E1 in E2. injection E2 as <-. clear C1 C2 E1.
  destruct m1 as [ts1 fs1], m2 as [ts2 fs2]. cbn [mn_types mn_funcs] in *.
  assert (ts1 = ts2) by congruence. clear T1 T2. subst ts2. f_equal.
  rewrite I1 in I2. destruct F1 as [_ F1], F2 as [_ F2]. cbn [mn_types mn_funcs] in *.
  unfold write in W1, W2. cbn [mn_types mn_funcs] in W1, W2.
  apply bind_ok in W1 as (t1 & Et1 & W1). apply bind_ok in W1 as (f1 & Ef1 & W1).
  apply bind_ok in W1 as (g1 & Eg1 & W1).
  apply bind_ok in W2 as (t2 & Et2 & W2). apply bind_ok in W2 as (f2 & Ef2 & W2).
  apply bind_ok in W2 as (g2 & Eg2 & W2).
  assert (t1 = t2) by congruence. assert (f1 = f2) by congruence. subst t2 f2.
  assert (Eb : forall X : bytes, le_bytes 4 MODULE_MAGIC ++ le_bytes 4 MODULE_VERSION ++ t1 ++ f1 ++ X
     = (le_bytes 4 MODULE_MAGIC ++ le_bytes 4 MODULE_VERSION ++ t1 ++ f1) ++ X)
    by (intros; now rewrite <- !app_assoc).
  rewrite Eb in W1, W2. apply Ok_inj in W1. apply Ok_inj in W2.
  rewrite <- W1 in W2, L. apply app_inv_head in W2. subst g2. rewrite app_length in L.
  clear - F1 F2 I2 Eg1 Eg2 L.
  unfold append_section in Eg1, Eg2.
  destruct fs1 as [|d1 fs1], fs2 as [|d2 fs2]; try discriminate; [reflexivity|].
  apply bind_ok in Eg1 as (n1 & En1 & W1). apply bind_ok in W1 as (a1 & Ea1 & W1).
  apply bind_ok in W1 as (s1 & Es1 & W1). apply Ok_inj in W1.
  apply bind_ok in Eg2 as (n2 & En2 & W2). apply bind_ok in W2 as (a2 & Ea2 & W2).
  apply bind_ok in W2 as (s2 & Es2 & W2). apply Ok_inj in W2.
  rewrite <- W2 in W1, L. cbn [app] in W1. rewrite !app_length in L.
  assert (W : s1 ++ n1 ++ a1 = s2 ++ n2 ++ a2) by (now apply (f_equal (@tl Z)) in W1).
  assert (L1 : (length s1 + length n1 + length a1 = length s2 + length n2 + length a2)%nat).
  { apply (f_equal (@length Z)) in W. rewrite !app_length in W. lia. }
  assert (B1 : 0 <= size (n1 ++ a1) < 2 ^ 32) by (unfold size; rewrite app_length; lia).
  assert (B2 : 0 <= size (n2 ++ a2) < 2 ^ 32) by (unfold size; rewrite app_length; lia).
  destruct (C02_varuint32_prefix_free _ _ _ _ _ _ B1 B2 Es1 Es2 W)
    as (_ & _ & W').
  assert (Hn : n1 = n2).
  { apply (f_equal (@length Z)) in I2. rewrite !map_length in I2. rewrite I2 in En1. congruence. }
  rewrite Hn in W'. apply app_inv_head in W'.
  apply (append_all_codes_injective _ _ _ a1 a2 [] [] F1 F2 I2); auto; try lia. now rewrite W'.
Qed.
Print Assumptions C50_operands_that_fit_partial.
Example C50_case : fits add_module /\ exists bs, write add_module = Ok bs /\ Z.of_nat (length bs) < 2 ^ 32.
Proof. split; [exact C07_instance|]. eexists. split; [vm_compute; reflexivity|]. vm_compute. reflexivity. Qed.

(** C51 (wish: one function per function-section entry, code sections of the declared size,
    and references to types that stay valid).  False for repeated, reordered or mis-sized
    sections: *)
Theorem C51_sections_refuted :
  (* two code sections: two functions for one entry *)
  (exists m, compile [97; 98; 97; 98; 1; 0; 0; 0; 1; 4; 1; 96; 0; 0; 3; 2; 1; 0;
                      10; 3; 1; 1; 0; 10; 3; 1; 1; 0] = Ok m /\
     length (m_func_types m) = 1%nat /\ length (m_funcs m) = 2%nat) /\
  (* a function section and no code section: no function for one entry *)
  (exists m, compile [97; 98; 97; 98; 1; 0; 0; 0; 1; 4; 1; 96; 0; 0; 3; 2; 1; 0] = Ok m /\
     length (m_func_types m) = 1%nat /\ length (m_funcs m) = 0%nat) /\
  (* a code section declared 99 bytes long *)
  (exists m, compile [97; 98; 97; 98; 1; 0; 0; 0; 1; 4; 1; 96; 0; 0; 3; 2; 1; 0;
                      10; 99; 1; 1; 0] = Ok m) /\
  (* types added after a function took a reference into the vector of types *)
  (exists m f, compile [97; 98; 97; 98; 1; 0; 0; 0; 1; 4; 1; 96; 0; 0; 3; 2; 1; 0;
                      10; 3; 1; 1; 0; 1; 4; 1; 96; 0; 0] = Ok m /\
     In f (m_funcs m) /\ f_ntypes f < Z.of_nat (length (m_types m))).
Proof.
  split; [|split; [|split]].
  - eexists. split; [vm_compute; reflexivity|]. split; reflexivity.
  - eexists. split; [vm_compute; reflexivity|]. split; reflexivity.
  - eexists. vm_compute. reflexivity.
  - eexists. eexists. split; [vm_compute; reflexivity|]. split; [left; reflexivity|]. vm_compute. reflexivity.
Qed.
Print Assumptions C51_sections_refuted.

(** C51, the true part: in the usual order (type sections, function sections, one code
    section) there is one function per entry, of the type named by the entry, and no
    reference to a type is invalidated. *)
Theorem C51_usual_order_partial :
  forall bs m n1 n2, is_bytes bs ->
    bytes_at bs 0 [97; 98; 97; 98; 1; 0; 0; 0] 8 ->
    layout bs 8 (mkModule [] [] []) (repeat 1 n1 ++ repeat 3 n2 ++ [10]) (Z.of_nat (length bs)) m ->
    compile bs = Ok m /\
    map f_type (m_funcs m) = m_func_types m /\
    Forall (fun f => f_ntypes f = Z.of_nat (length (m_types m))) (m_funcs m).
Proof.
  intros bs m n1 n2 Hb Hh L. split.
  { apply compile_spec; auto. split; [auto|].
    clear Hh. remember (Z.of_nat (length bs)) as e eqn:Ee.
    induction L as [p m|p m c p0 p1 m1 cs p2 m2 B S L IH]; [subst; constructor|].
    econstructor; eauto. }
  assert (CU : forall p c c' q q', byte_at bs p c q -> byte_at bs p c' q' -> c = c').
  { intros p c c' q q' (a & b & E & La & _) (a' & b' & E' & La' & _). rewrite E in E'.
    apply app_pos in E' as [_ E']; [|lia]. cbn in E'. congruence. }
  (* the last section *)
  assert (P3 : forall p ts tis, layout bs p (mkModule ts tis []) [10] (Z.of_nat (length bs)) m ->
    map f_type (m_funcs m) = m_func_types m /\
    Forall (fun f => f_ntypes f = Z.of_nat (length (m_types m))) (m_funcs m)).
  { intros p ts tis H. inversion H as [|? ? ? p0 p1 m1 ? ? ? B S L1]; subst. inversion L1; subst.
    inversion S as [q1 q2 q3 sz xs B1|q1 q2 q3 sz xs B1|q1 q2 q3 q4 sz fs B1 _ _ C]; subst;
      try (pose proof (CU _ _ _ _ _ B B1); lia).
    cbn [m_types m_func_types m_funcs app] in *.
    clear -C. induction C as [|p ti f p1 tis fs p2 C Cs [IH1 IH2]]; [split; [reflexivity|constructor]|].
    destruct C as (sz & q & ft & _ & _ & _ & _ & _ & E1 & E2 & _). cbn. split.
    - now rewrite E1, IH1.
    - constructor; auto. }
  assert (P2 : forall n p ts tis, layout bs p (mkModule ts tis []) (repeat 3 n ++ [10]) (Z.of_nat (length bs)) m ->
    map f_type (m_funcs m) = m_func_types m /\
    Forall (fun f => f_ntypes f = Z.of_nat (length (m_types m))) (m_funcs m)).
  { induction n as [|n IH]; intros p ts tis H; [eapply P3; eauto|]. cbn in H.
    inversion H as [|? ? ? p0 p1 m1 ? ? ? B S L1]; subst.
    inversion S as [q1 q2 q3 sz xs B1|q1 q2 q3 sz xs B1|q1 q2 q3 q4 sz fs B1 _ _ C]; subst;
      try (pose proof (CU _ _ _ _ _ B B1); lia). eapply IH; eauto. }
  revert L. generalize (@nil functype) as ts. generalize 8 as p. clear Hh.
  induction n1 as [|n IH]; intros p ts H; [exact (P2 n2 p ts [] H)|]. cbn in H.
  inversion H as [|? ? ? p0 p1 m1 ? ? ? B S L1]; subst.
  inversion S as [q1 q2 q3 sz xs B1|q1 q2 q3 sz xs B1|q1 q2 q3 q4 sz fs B1 _ _ C]; subst;
    try (pose proof (CU _ _ _ _ _ B B1); lia). eapply IH; eauto.
Qed.
Print Assumptions C51_usual_order_partial.

Example C51_instance :
  let bs := [97; 98; 97; 98; 1; 0; 0; 0; 1; 4; 1; 96; 0; 0; 3; 2; 1; 0; 10; 3; 1; 1; 0] in
  is_bytes bs /\ bytes_at bs 0 [97; 98; 97; 98; 1; 0; 0; 0] 8 /\
  exists m, layout bs 8 (mkModule [] [] []) (repeat 1 1 ++ repeat 3 1 ++ [10]) (Z.of_nat (length bs)) m /\
    length (m_funcs m) = 1%nat.
Proof.
  cbv zeta. match goal with |- is_bytes ?b /\ _ => set (bs := b) end.
  assert (Hb : is_bytes bs) by (repeat constructor; unfold is_byte; lia).
  split; [exact Hb|]. split; [exists [], (skipn 8 bs); repeat split|].
  assert (SX : forall p m p' m', 0 <= p <= len bs -> one_section m bs p = Ok (m', p') -> section_at bs p m m' p')
    by (intros p m p' m' Hp E; apply (rd_ok _ _ _ (reader_section m) _ _ _ _ Hb Hp E)).
  eexists. split.
  - cbn [repeat app]. eapply lay_cons; [exists (firstn 8 bs), (skipn 9 bs); repeat split| |].
    { apply SX; [unfold len; cbn; lia|vm_compute; reflexivity]. }
    eapply lay_cons; [exists (firstn 14 bs), (skipn 15 bs); repeat split| |].
    { apply SX; [unfold len; cbn; lia|vm_compute; reflexivity]. }
    eapply lay_cons; [exists (firstn 18 bs), (skipn 19 bs); repeat split| |].
    { apply SX; [unfold len; cbn; lia|vm_compute; reflexivity]. }
    apply lay_nil.
  - reflexivity.
Qed.

(** C40: an instruction list of the three operand-free instructions the reader knows is
    reported exactly, in order, and the reader stops; more generally it reports a prefix
    of such bytes. *)
Theorem C40_insn_list_reported :
  forall is post, Forall (fun i => i = Unreachable \/ i = Nop \/ i = Halt) is ->
    exists fuel0, forall fuel, (fuel0 <= fuel)%nat ->
      accept fuel (write_body is ++ post) (Z.of_nat (length (write_body is))) = Ok is.
Proof.
  intros is post H. exists (S (length is)). intros fuel Hf. unfold accept.
  enough (G : forall pre, accept_loop fuel (pre ++ write_body is ++ post)
     (Z.of_nat (length (pre ++ write_body is))) (Z.of_nat (length pre)) = Ok is)
    by exact (G []).
  revert fuel Hf. induction H as [|i is Hi _ IH]; intros [|fuel] Hf pre; cbn [length] in Hf; try lia.
  - cbn [accept_loop write_body flat_map]. rewrite app_nil_r.
    destruct (Z.ltb_spec (Z.of_nat (length pre)) (Z.of_nat (length pre))); [lia|reflexivity].
  - assert (E : exists c, write_body (i :: is) = c :: write_body is /\
              list_opcode c = Some i).
    { destruct Hi as [->|[->| ->]]; [exists 0|exists 1|exists 4]; auto. }
    destruct E as (c & Ew & Eo). rewrite Ew. cbn [accept_loop].
    destruct (Z.ltb_spec (Z.of_nat (length pre)) (Z.of_nat (length (pre ++ c :: write_body is)))) as [_|X].
    2: { rewrite app_length in X. cbn [length] in X. lia. }
    rewrite Nat2Z.id. replace (nth_error (pre ++ (c :: write_body is) ++ post) (length pre)) with (Some c).
    2: { rewrite nth_error_app2, Nat.sub_diag by lia. reflexivity. }
    rewrite Eo. specialize (IH fuel ltac:(lia) (pre ++ [c])).
    rewrite <- !app_assoc in IH. cbn [app] in *.
    replace (Z.of_nat (length pre) + 1) with (Z.of_nat (length (pre ++ [c])))
      by (rewrite app_length; cbn; lia).
    rewrite IH. reflexivity.
Qed.
Print Assumptions C40_insn_list_reported.

Example C40_instance :
  accept 10 (write_body [Nop; Nop; Halt; Unreachable] ++ [77]) 4 = Ok [Nop; Nop; Halt; Unreachable].
Proof. vm_compute. reflexivity. Qed.

(** C52 (wish: reading any list of written instructions ends and reports it).  False: any
    instruction with an operand, and [Return], makes the reader loop forever. *)
Theorem C52_terminates_refuted :
  forall i is rest post fuel,
    Forall (fun i => i = Unreachable \/ i = Nop \/ i = Halt) is ->
    ~ (i = Unreachable \/ i = Nop \/ i = Halt) ->
    accept fuel (write_body (is ++ i :: rest) ++ post) (Z.of_nat (length (write_body (is ++ i :: rest))))
    = OutOfFuel.
Proof.
  intros i is rest post fuel H Ni. unfold accept.
  enough (G : forall pre, accept_loop fuel (pre ++ write_body (is ++ i :: rest) ++ post)
     (Z.of_nat (length (pre ++ write_body (is ++ i :: rest)))) (Z.of_nat (length pre)) = OutOfFuel)
    by exact (G []).
  revert fuel. induction H as [|j is Hj _ IH]; intros fuel pre.
  - cbn [app]. assert (E : exists c r, write_body (i :: rest) = c :: r /\ list_opcode c = None).
    { destruct i; try (exfalso; apply Ni; tauto); cbn; eauto. }
    destruct E as (c & r & Ew & Eo). rewrite Ew. induction fuel as [|fuel IHf]; [reflexivity|].
    cbn [accept_loop].
    destruct (Z.ltb_spec (Z.of_nat (length pre)) (Z.of_nat (length (pre ++ c :: r)))) as [_|X].
    2: { rewrite app_length in X. cbn [length] in X. lia. }
    rewrite Nat2Z.id. replace (nth_error (pre ++ (c :: r) ++ post) (length pre)) with (Some c).
    2: { rewrite nth_error_app2, Nat.sub_diag by lia. reflexivity. }
    rewrite Eo. exact IHf.
  - destruct fuel as [|fuel]; [reflexivity|].
    assert (E : exists c, write_body ((j :: is) ++ i :: rest) = c :: write_body (is ++ i :: rest) /\
              list_opcode c = Some j).
    { destruct Hj as [->|[->| ->]]; [exists 0|exists 1|exists 4]; auto. }
    destruct E as (c & Ew & Eo). rewrite Ew. cbn [accept_loop].
    destruct (Z.ltb_spec (Z.of_nat (length pre)) (Z.of_nat (length (pre ++ c :: write_body (is ++ i :: rest))))) as [_|X].
    2: { rewrite app_length in X. cbn [length] in X. lia. }
    rewrite Nat2Z.id. replace (nth_error (pre ++ (c :: write_body (is ++ i :: rest)) ++ post) (length pre)) with (Some c).
    2: { rewrite nth_error_app2, Nat.sub_diag by lia. reflexivity. }
    rewrite Eo. specialize (IH fuel (pre ++ [c])).
    rewrite <- !app_assoc in IH. cbn [app] in *.
    replace (Z.of_nat (length pre) + 1) with (Z.of_nat (length (pre ++ [c])))
      by (rewrite app_length; cbn; lia).
    rewrite IH. reflexivity.
Qed.
Print Assumptions C52_terminates_refuted.

(** Exactly the lists of instructions without operands, [Return] excepted, are read to the end. *)
Theorem C52_terminates_exactly_partial :
  forall is post,
    (exists fuel r, accept fuel (write_body is ++ post) (Z.of_nat (length (write_body is))) = Ok r) <->
    Forall (fun i => i = Unreachable \/ i = Nop \/ i = Halt) is.
Proof.
  intros is post. split.
  - intros (fuel & r & E).
    assert (D : Forall (fun i => i = Unreachable \/ i = Nop \/ i = Halt) is \/
      exists a i b, is = a ++ i :: b /\ Forall (fun i => i = Unreachable \/ i = Nop \/ i = Halt) a /\
        ~ (i = Unreachable \/ i = Nop \/ i = Halt)).
    { clear. induction is as [|i is IH]; [left; constructor|].
      assert (Di : (i = Unreachable \/ i = Nop \/ i = Halt) \/ ~ (i = Unreachable \/ i = Nop \/ i = Halt)).
      { destruct i; auto; right; intros [|[|]]; discriminate. }
      destruct Di as [Di|Di]; [|right; exists [], i, is; auto].
      destruct IH as [IH|(a & j & b & -> & Ha & Hj)]; [left; auto|].
      right. exists (i :: a), j, b. auto. }
    destruct D as [D|(a & i & b & -> & Ha & Hi)]; [exact D|].
    rewrite (C52_terminates_refuted i a b post fuel Ha Hi) in E. discriminate.
  - intros H. destruct (C40_insn_list_reported is post H) as (fuel0 & E). eauto.
Qed.
Print Assumptions C52_terminates_exactly_partial.
Example C52_case : exists r, accept 100 (write_body [Nop; Unreachable; Halt] ++ [7; 7]) (Z.of_nat (length (write_body [Nop; Unreachable; Halt]))) = Ok r.
Proof. eexists. vm_compute. reflexivity. Qed.
