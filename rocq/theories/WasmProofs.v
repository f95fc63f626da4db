From Coq Require Import ZArith List Lia Bool ZifyBool ZifyNat.
From Verif Require Import Outcome LebSpec VarIntModel VarIntProofs StreamModel StreamProofs WasmModel WasmSpec.
Import ListNotations.
Local Open Scope Z_scope.

(** ** Reading what was written *)

Definition W (rest : bytes) (off : Z) (log : list event) : wst := mkW (mkStream rest false off) false log.
(** [m] takes exactly [b], returns [a] and makes the calls [ev]. *)
Definition reads {A} (m : M A) (a : A) (b : bytes) (ev : list event) : Prop :=
  forall post off log, m (W (b ++ post) off log) = Ok (a, W post (off + Z.of_nat (length b)) (log ++ ev)).

Lemma reads_ret {A} (a : A) : reads (ret a) a [] [].
Proof. intros post off log. unfold ret. cbn. rewrite app_nil_r, Z.add_0_r. reflexivity. Qed.

Lemma reads_bind {A B} (m : M A) (k : A -> M B) a b b1 b2 e1 e2 :
  reads m a b1 e1 -> reads (k a) b b2 e2 -> reads (mbind m k) b (b1 ++ b2) (e1 ++ e2).
Proof.
  intros H1 H2 post off log. unfold mbind. rewrite <- app_assoc, H1. cbn [bind]. rewrite H2, app_length, app_assoc.
  do 3 f_equal. lia.
Qed.
Lemma reads_bind0 {A B} (m : M A) (k : A -> M B) a b b2 e1 e2 :
  reads m a [] e1 -> reads (k a) b b2 e2 -> reads (mbind m k) b b2 (e1 ++ e2).
Proof. intros H1 H2. exact (reads_bind m k a b [] b2 e1 e2 H1 H2). Qed.
(** binding a reader without calls *)
Lemma reads_bindq {A B} (m : M A) (k : A -> M B) a b b1 b2 e :
  reads m a b1 [] -> reads (k a) b b2 e -> reads (mbind m k) b (b1 ++ b2) e.
Proof. intros H1 H2. exact (reads_bind m k a b b1 b2 [] e H1 H2). Qed.
Lemma reads_bindr {A B} (m : M A) (k : A -> M B) a b b1 e :
  reads m a b1 e -> reads (k a) b [] [] -> reads (mbind m k) b b1 e.
Proof. intros H1 H2. pose proof (reads_bind m k a b b1 [] e [] H1 H2) as H. now rewrite !app_nil_r in H. Qed.

Lemma reads_emit e : reads (emit e) tt [] [e].
Proof. intros post off log. unfold emit, W. cbn. now rewrite Z.add_0_r. Qed.

Lemma reads_get x : reads get x [x] [].
Proof. intros post off log. unfold get, W. cbn. now rewrite app_nil_r. Qed.

Lemma reads_varuint v g : enc_u32 v g -> reads varuint v g [].
Proof.
  intros (Hs & Hl & Hv & Hr) post off log. unfold varuint, on_stream, W. cbn [w_stuck w_in w_log].
  rewrite uleb128_ok by (auto; lia). cbn [bind]. rewrite app_nil_r, Hv. rewrite Z.mod_small by lia. reflexivity.
Qed.
Lemma reads_varuint1 v : 0 <= v < 128 -> reads varuint v [v] [].
Proof.
  intros H. apply reads_varuint. repeat split; try lia.
  - now constructor.
  - cbn. lia.
  - cbn. rewrite Z.mod_small; lia.
Qed.
Lemma reads_varint n v g : (n <= 9)%nat -> enc_s n v g -> reads varint v g [].
Proof.
  intros Hn (Hs & Hl & Hv) post off log. unfold varint, on_stream, W. cbn [w_stuck w_in w_log].
  rewrite leb128_ok by (auto; lia). cbn [bind]. now rewrite app_nil_r, Hv.
Qed.

Lemma reads_in_read n b : n = Z.of_nat (length b) -> reads (in_read n) b b [].
Proof.
  intros -> post off log. unfold in_read, W, w_fail. cbn [w_in w_stuck s_eof s_rest s_offset w_log orb].
  rewrite app_length. replace (_ <=? _) with true by lia. rewrite Nat2Z.id.
  rewrite firstn_app, skipn_app, Nat.sub_diag, firstn_all, skipn_all. cbn. now rewrite !app_nil_r.
Qed.
Lemma reads_uint n b : n = Z.of_nat (length b) -> reads (uint n) (le_value b) b [].
Proof.
  intros Hn post off log. unfold uint. cbn [W w_fail w_in w_stuck s_eof orb].
  exact (reads_bindr _ _ b (le_value b) b [] (reads_in_read n b Hn) (reads_ret _) post off log).
Qed.
Lemma reads_type t : is_byte t -> reads type_code t [t] [].
Proof.
  intros H. unfold type_code. pose proof (reads_uint 1 [t] eq_refl) as R. cbn [le_value] in R.
  now rewrite Z.mul_0_r, Z.add_0_r in R.
Qed.
Lemma reads_alloc c n : n <= c_lim c -> reads (alloc c n) tt [] [].
Proof. intros H. unfold alloc. replace (n <=? c_lim c) with true by lia. apply reads_ret. Qed.

Lemma le_value_enc n : forall v, 0 <= v < 256 ^ Z.of_nat n -> le_value (enc_le n v) = v.
Proof.
  induction n as [|n IH]; intros v Hv; cbn [enc_le le_value].
  - change (256 ^ Z.of_nat 0) with 1 in Hv. lia.
  - rewrite Nat2Z.inj_succ, Z.pow_succ_r in Hv by lia.
    rewrite IH; [pose proof (Z.div_mod v 256); lia|].
    split; [apply Z.div_pos; lia|]. apply Z.div_lt_upper_bound; lia.
Qed.
Lemma enc_le_length n : forall v, length (enc_le n v) = n.
Proof. induction n; intros; cbn; auto. Qed.
Lemma reads_number n v : 0 <= v < 256 ^ Z.of_nat n -> reads (read_number n) v (enc_le n v) [].
Proof.
  intros Hv post off log. unfold read_number, readNumber, s_read, W. cbn [w_stuck w_in s_rest s_eof s_offset w_log].
  rewrite app_length, enc_le_length. replace (_ <? _)%nat with false by lia. cbn [bind].
  replace n with (length (enc_le n v)) at 1 3 by apply enc_le_length.
  rewrite firstn_app, skipn_app, Nat.sub_diag, firstn_all, skipn_all. cbn [firstn skipn app].
  now rewrite !app_nil_r, le_value_enc.
Qed.

Lemma u32_small v : 0 <= v < 2 ^ 32 -> u32 v = v.
Proof. intros. unfold u32. now apply Z.mod_small. Qed.
Lemma u32_nat n g : enc_u32 n g -> u32 n = n.
Proof. intros (_ & _ & _ & H). now apply u32_small. Qed.

Lemma reads_collect {A} (f : M A) (enc : A -> bytes -> Prop) :
  (forall a b, enc a b -> reads f a b []) ->
  forall l bs, Forall2 enc l bs -> reads (collect (length l) f) l (concat bs) [].
Proof.
  intros Hf l bs H. induction H as [|a b l bs Hab H IH]; cbn [collect length concat].
  - apply reads_ret.
  - eapply reads_bindq; [apply Hf; eassumption|]. eapply reads_bindr; [apply IH|apply reads_ret].
Qed.
Lemma reads_iter {A} (f : Z -> M unit) (enc : A -> bytes -> Prop) (ev : Z -> A -> list event) :
  forall l bs i, Forall2 enc l bs -> (forall j a b, In a l -> enc a b -> reads (f j) tt b (ev j a)) ->
  reads (iter (length l) i f) tt (concat bs) (numbered ev i l).
Proof.
  intros l bs i H. revert i. induction H as [|a b l bs Hab H IH]; intros i Hf; cbn [iter length concat numbered].
  - apply reads_ret.
  - eapply reads_bind; [apply Hf; [now left|assumption]|]. apply IH. intros. apply Hf; [now right|assumption].
Qed.
Lemma numbered_map {A} (f : A -> event) : forall l i, numbered (fun _ a => [f a]) i l = map f l.
Proof. induction l; intros; cbn; [reflexivity|]. now rewrite IHl. Qed.
Lemma numbered_flat {A} (f : A -> list event) : forall l i, numbered (fun _ a => f a) i l = flat_map f l.
Proof. induction l; intros; cbn; [reflexivity|]. now rewrite IHl. Qed.

(** count, then the entries *)
Lemma reads_entries {A} (f : Z -> M unit) (enc : A -> bytes -> Prop) (ev : Z -> A -> list event) l b :
  enc_vec enc l b -> (forall j a b, In a l -> enc a b -> reads (f j) tt b (ev j a)) ->
  reads (n <~ varuint; for_count n f) tt b (numbered ev 0 l).
Proof.
  intros (g & bs & Hg & Hbs & ->) Hf. eapply reads_bindq; [apply reads_varuint, Hg|].
  unfold for_count. rewrite Nat2Z.id. eapply reads_iter; eauto.
Qed.
Lemma reads_entries_ev {A} (f : Z -> M unit) (enc : A -> bytes -> Prop) (ev : Z -> A -> list event) (e : Z -> event) l b :
  enc_vec enc l b -> (forall j a b, In a l -> enc a b -> reads (f j) tt b (ev j a)) ->
  reads (n <~ varuint; _ <~ emit (e n); for_count n f) tt b (e (Z.of_nat (length l)) :: numbered ev 0 l).
Proof.
  intros (g & bs & Hg & Hbs & ->) Hf. eapply reads_bindq; [apply reads_varuint, Hg|].
  apply (reads_bind0 _ _ tt tt (concat bs) [e (Z.of_nat (length l))]); [apply reads_emit|].
  unfold for_count. rewrite Nat2Z.id. eapply reads_iter; eauto.
Qed.
Lemma bytes_concat l bs : Forall2 enc_byte l bs -> concat bs = l.
Proof. induction 1 as [|a b l bs [_ ->] H IH]; cbn; congruence. Qed.

Lemma c_str_id l : ~ In 0 l -> c_str l = l.
Proof.
  induction l as [|x l IH]; cbn [c_str In]; intros H; [reflexivity|].
  replace (x =? 0) with false by (symmetry; apply Z.eqb_neq; intros ->; tauto). f_equal. apply IH. tauto.
Qed.
Lemma reads_string c name b : enc_string (c_lim c) name b -> reads (string c) name b [].
Proof.
  intros ((g & bs & Hg & Hbs & ->) & Hl & Hz). unfold string. eapply reads_bindq; [apply reads_varuint, Hg|].
  cbv beta. destruct Hg as (_ & _ & _ & Hr).
  replace (_ =? 2 ^ 64 - 1) with false by lia.
  rewrite (bytes_concat _ _ Hbs).
  apply (reads_bind0 _ _ tt name name []); [apply reads_alloc; lia|].
  eapply reads_bindr; [apply (reads_in_read _ name); reflexivity|]. rewrite c_str_id by exact Hz. apply reads_ret.
Qed.

Ltac rd :=
  first [ eapply reads_varuint; eassumption | eapply reads_varuint1; lia | eapply reads_type; eassumption
        | apply reads_get | apply reads_ret | apply reads_emit ].

Lemma reads_imm c e b : enc_instr (c_lim c) e b ->
  exists k b', b = e_op e :: b' /\ op_kind (e_op e) = Some k /\ reads (read_imm c k) (e_imm e) b' [].
Proof.
  intros H. destruct H; cbn [e_op e_imm].
  - exists KNone, []. conjs; [reflexivity| |apply reads_ret].
    unfold nullary_op in H. unfold op_kind.
    destruct H as [->|[->|[->|[->|[->|[->|[->|H]]]]]]]; try reflexivity.
    repeat match goal with |- context [if ?x then _ else _] => first [replace x with false by lia | replace x with true by lia] end.
    reflexivity.
  - exists KType, [t]. conjs; [reflexivity| |].
    + destruct H as [->|[->| ->]]; reflexivity.
    + cbn [read_imm]. eapply reads_bindr; rd.
  - exists KVaruint, g. conjs; [reflexivity| |].
    + destruct H as [->|[->|[->|H]]]; try reflexivity. unfold op_kind.
      repeat match goal with |- context [if ?x then _ else _] => first [replace x with false by lia | replace x with true by lia] end.
      reflexivity.
    + cbn [read_imm]. eapply reads_bindr; rd.
  - exists KBranchTable, (gt ++ gd). conjs; [reflexivity|reflexivity|]. cbn [read_imm].
    destruct H as (g & bs & Hg & Hbs & ->). rewrite <- app_assoc. eapply reads_bindq; [rd|]. cbv beta.
    apply (reads_bind0 _ _ tt (IBranchTable ts d) (concat bs ++ gd) []); [apply reads_alloc; lia|].
    rewrite Nat2Z.id. eapply reads_bindq.
    + eapply (reads_collect _ enc_u32); [|exact Hbs]. intros a b Hab. eapply reads_bindr; [rd|]. cbv beta.
      rewrite (u32_nat a b Hab). rd.
    + cbv beta. eapply reads_bindr; [rd|]. cbv beta. rewrite (u32_nat d gd H0). rd.
  - exists KSignature, (g ++ [0]). conjs; [reflexivity|reflexivity|]. cbn [read_imm].
    eapply reads_bindq; [rd|]. cbv beta. eapply reads_bindr; [apply (reads_varuint1 0); lia|].
    rewrite (u32_nat v g H). rd.
  - exists KMemory, (gf ++ go). conjs; [reflexivity| |].
    + unfold op_kind.
      repeat match goal with |- context [if ?x then _ else _] => first [replace x with false by lia | replace x with true by lia] end.
      reflexivity.
    + cbn [read_imm]. eapply reads_bindq; [rd|]. cbv beta. eapply reads_bindr; rd.
  - exists KVarint, g. conjs; [reflexivity|reflexivity|]. cbn [read_imm].
    eapply reads_bindr; [eapply (reads_varint 5); [lia|eassumption]|rd].
  - exists KVarint, g. conjs; [reflexivity|reflexivity|]. cbn [read_imm].
    eapply reads_bindr; [eapply (reads_varint 9); [lia|eassumption]|rd].
  - exists KBits32, (enc_le 4 v). conjs; [reflexivity|reflexivity|]. cbn [read_imm].
    eapply reads_bindr; [apply (reads_number 4); exact H|rd].
  - exists KBits64, (enc_le 8 v). conjs; [reflexivity|reflexivity|]. cbn [read_imm].
    eapply reads_bindr; [apply (reads_number 8); exact H|rd].
Qed.

Lemma reads_expr c e b : enc_instr (c_lim c) e b -> reads (read_expr c) e b [].
Proof.
  intros H. destruct (reads_imm c e b H) as (k & b' & -> & Hk & Hr). unfold read_expr.
  apply (reads_bindq get _ (e_op e) e [e_op e] b'); [rd|]. rewrite Hk.
  eapply reads_bindr; [exact Hr|]. destruct e. rd.
Qed.

Lemma reads_init c e b : enc_init (c_lim c) e b -> reads (init_expr c) e b [].
Proof.
  intros (Hop & be & Hb & ->). unfold init_expr. eapply reads_bindq; [eapply reads_expr; exact Hb|]. cbv beta.
  replace (init_op (e_op e)) with true.
  - eapply reads_bindr; [|rd]. eapply reads_expr. apply (In_nullary _ 11). unfold nullary_op. lia.
  - unfold init_op. destruct Hop as [->|[->|[->|[->| ->]]]]; reflexivity.
Qed.

Lemma reads_limits l b : enc_limits l b -> reads resizable_limits l b [].
Proof.
  destruct l as [i m]. intros (bi & Hi & H). cbn [li_initial li_max] in *. unfold resizable_limits. destruct m as [m|].
  - destruct H as (bm & Hm & ->). eapply reads_bindq; [apply (reads_varuint1 1); lia|]. cbv beta.
    eapply reads_bindq; [rd|]. cbv beta. change (truth 1) with true. cbv iota. eapply reads_bindr; [rd|]. cbv beta.
    rewrite (u32_nat i bi Hi), (u32_nat m bm Hm). rd.
  - subst b. eapply reads_bindq; [apply (reads_varuint1 0); lia|]. cbv beta.
    eapply reads_bindr; [rd|]. cbv beta. change (truth 0) with false. cbv iota. rewrite (u32_nat i bi Hi). rd.
Qed.
Lemma reads_gtype g b : enc_gtype g b -> reads global_type g b [].
Proof.
  destruct g as [t m]. intros (Ht & ->). cbn [gt_content gt_mutable] in *. unfold global_type.
  apply (reads_bindq _ _ t (mkGtype t m) [t] [if m then 1 else 0]); [rd|].
  apply (reads_bindr _ _ (if m then 1 else 0)); [apply reads_varuint1; destruct m; lia|]. destruct m; rd.
Qed.

Lemma reads_function_type c t b : enc_ftype (c_lim c) t b -> reads (function_type c) tt b [EvFunctionType t].
Proof.
  intros (bp & br & (g & bs & Hg & Hbs & ->) & Hl & Hbr & Hret & ->). destruct t as [ps r]. cbn [ft_params ft_return] in *.
  unfold function_type. eapply reads_bindq; [apply (reads_type 96); unfold is_byte; lia|]. cbv beta.
  change (negb (96 =? 96)) with false. cbv iota. rewrite <- app_assoc. eapply reads_bindq; [rd|]. cbv beta.
  apply (reads_bind0 _ _ tt tt (concat bs ++ br) []); [apply reads_alloc; lia|]. rewrite Nat2Z.id.
  eapply reads_bindq; [eapply (reads_collect _ enc_byte); [|exact Hbs]|].
  { intros a b (Ha & ->). rd. }
  cbv beta. destruct r as [r|]; subst br.
  - apply (reads_bindq _ _ 1 tt [1] [r]); [apply reads_varuint1; lia|]. change (truth 1) with true. cbv iota.
    apply (reads_bindq _ _ r tt [r] []); [apply reads_type, Hret; reflexivity|]. rd.
  - apply (reads_bindq _ _ 0 tt [0] []); [apply reads_varuint1; lia|]. change (truth 0) with false. cbv iota. rd.
Qed.

Lemma reads_import c i b : enc_import (c_lim c) i b ->
  reads (import_entry c) tt b [EvImport (is_module i) (is_field i) (is_desc i)].
Proof.
  destruct i as [m f d]. cbn [is_module is_field is_desc]. intros (bm & bf & bd & Hm & Hf & Hd & ->).
  cbn [is_module is_field is_desc] in *. unfold import_entry.
  eapply reads_bindq; [apply reads_string, Hm|]. cbv beta. eapply reads_bindq; [apply reads_string, Hf|]. cbv beta.
  destruct d as [t|e l|l|g]; cbn [enc_desc] in Hd.
  - destruct Hd as (g & Hg & ->). eapply reads_bindq; [apply (reads_type 0); unfold is_byte; lia|]. cbv beta iota. cbn [Z.eqb].
    replace g with (g ++ []) by apply app_nil_r.
    eapply reads_bindq; [|rd]. eapply reads_bindr; [rd|]. cbv beta. rewrite (u32_nat _ _ Hg). rd.
  - destruct Hd as (g & He & Hg & ->). apply (reads_bindq _ _ 1 tt [1] (e :: g)); [apply (reads_type 1); unfold is_byte; lia|]. cbn [Z.eqb Pos.eqb].
    replace (e :: g) with ((e :: g) ++ []) by apply app_nil_r.
    eapply reads_bindq; [|rd]. unfold table_type. apply (reads_bindq _ _ e (ImTable e l) [e] g); [rd|].
    eapply reads_bindr; [apply reads_limits, Hg|rd].
  - destruct Hd as (g & Hg & ->). eapply reads_bindq; [apply (reads_type 2); unfold is_byte; lia|]. cbn [Z.eqb Pos.eqb].
    replace g with (g ++ []) by apply app_nil_r.
    eapply reads_bindq; [|rd]. eapply reads_bindr; [apply reads_limits, Hg|rd].
  - destruct Hd as (b & Hg & ->). eapply reads_bindq; [apply (reads_type 3); unfold is_byte; lia|]. cbn [Z.eqb Pos.eqb].
    replace b with (b ++ []) by apply app_nil_r.
    eapply reads_bindq; [|rd]. eapply reads_bindr; [apply reads_gtype, Hg|rd].
Qed.

Lemma reads_element c x b : enc_element (c_lim c) x b ->
  reads (element_entry c) tt b
    (EvElementEntry (ls_table x) (ls_offset x) (Z.of_nat (length (ls_items x))) :: map EvElement (ls_items x) ++ [EvElementEnd]).
Proof.
  destruct x as [t o l]. cbn [ls_table ls_offset ls_items].
  intros (bt & bo & bi & Ht & Ho & (g & bs & Hg & Hbs & ->) & ->). cbn [ls_table ls_offset ls_items] in *. unfold element_entry.
  eapply reads_bindq; [rd|]. cbv beta. eapply reads_bindq; [apply reads_init, Ho|]. cbv beta.
  eapply reads_bindq; [rd|]. cbv beta. rewrite (u32_nat _ _ Ht), (u32_nat _ _ Hg).
  apply (reads_bind0 _ _ tt tt (concat bs) [_]); [apply reads_emit|].
  replace (concat bs) with (concat bs ++ []) by apply app_nil_r.
  eapply reads_bind; [|rd]. unfold for_count. rewrite Nat2Z.id.
  rewrite <- (numbered_map EvElement l 0).
  eapply (reads_iter _ enc_u32); [exact Hbs|]. intros j a b _ Hab.
  replace b with (b ++ []) by apply app_nil_r. eapply reads_bindq; [rd|]. cbv beta. rewrite (u32_nat _ _ Hab). rd.
Qed.

Lemma reads_data c x b : enc_data (c_lim c) x b ->
  reads (data_segment c) tt b [EvData (ds_memory x) (ds_offset x) (ds_bytes x)].
Proof.
  destruct x as [m o d]. cbn [ds_memory ds_offset ds_bytes].
  intros (bm & bo & bd & Hm & Ho & (g & bs & Hg & Hbs & ->) & Hl & ->). cbn [ds_memory ds_offset ds_bytes] in *.
  unfold data_segment. eapply reads_bindq; [rd|]. cbv beta. eapply reads_bindq; [apply reads_init, Ho|]. cbv beta.
  eapply reads_bindq; [rd|]. cbv beta.
  rewrite (bytes_concat _ _ Hbs), (u32_nat _ _ Hm).
  apply (reads_bind0 _ _ tt tt d []); [apply reads_alloc; lia|].
  match goal with |- reads _ _ _ ?e => enough (X : reads (b <~ in_read (Z.of_nat (length d));
    emit (EvData m o (b ++ repeat 0 (Z.to_nat (Z.of_nat (length d)) - length b)))) tt (d ++ []) e) by now rewrite app_nil_r in X end.
  eapply reads_bindq; [apply (reads_in_read _ d); reflexivity|]. cbv beta.
  rewrite Nat2Z.id, Nat.sub_diag. cbn [repeat]. rewrite app_nil_r. rd.
Qed.

Lemma reads_body c bev x b j : enc_body (c_lim c) x b -> takes_code (c_body c) bev x ->
  reads (function_body c j) tt b (EvBody j (mkBody (bs_locals x) (bs_size x)) :: bev j x ++ [EvBodyEnd]).
Proof.
  intros (gs & bl & Hs & (g & bs & Hg & Hbs & ->) & Hl & Hsz & ->) Ht. unfold function_body.
  eapply reads_bindq; [rd|]. cbv beta. rewrite <- app_assoc. eapply reads_bindq; [rd|]. cbv beta.
  rewrite (u32_nat _ _ Hs).
  apply (reads_bind0 _ _ tt tt (concat bs ++ bs_code x) []); [apply reads_alloc; lia|]. rewrite Nat2Z.id.
  eapply reads_bindq; [eapply (reads_collect _ enc_local); [|exact Hbs]|].
  { intros [n t] b (g' & Hg' & Hb & ->). cbn [lo_count lo_type] in *. unfold local_entry.
    eapply reads_bindq; [rd|]. cbv beta. eapply reads_bindr; [rd|]. cbv beta. rewrite (u32_nat _ _ Hg'). rd. }
  cbv beta. apply (reads_bind0 _ _ tt tt (bs_code x) [_]); [apply reads_emit|].
  replace (bs_code x) with (bs_code x ++ []) by apply app_nil_r.
  eapply reads_bind; [|rd]. intros post off log. apply Ht.
Qed.

(** (the announced length is reported, whatever it is) *)
Lemma reads_section_payload c bev x len gl p : enc_u32 len gl -> enc_payload (c_lim c) x p ->
  Forall (takes_code (c_body c) bev) (bodies_of x) ->
  reads (section c (sec_code x)) tt (gl ++ p) (section_events bev (x, len)).
Proof.
  intros Hgl Hp Hb. unfold section.
  eapply reads_bindq; [rd|]. cbv beta. rewrite (u32_nat _ _ Hgl).
  replace (sec_code x =? 0) with false by (destruct x; reflexivity).
  apply (reads_bind0 _ _ [] tt p []); [rd|].
  unfold section_events. cbn [fst snd].
  apply (reads_bind0 _ _ tt tt p [_]); [apply reads_emit|].
  replace p with (p ++ []) by apply app_nil_r.
  eapply reads_bind; [|rd].
  destruct x as [l|l|l|l|l|l|l|l]; cbn [sec_code Z.eqb Pos.eqb orb enc_payload bodies_of entry_events] in *.
  - rewrite <- (numbered_map EvFunctionType l 0). eapply reads_entries_ev; [exact Hp|]. intros. now apply reads_function_type.
  - rewrite <- (numbered_map (fun i => EvImport (is_module i) (is_field i) (is_desc i)) l 0).
    eapply reads_entries_ev; [exact Hp|]. intros. now apply reads_import.
  - eapply reads_entries; [exact Hp|]. intros j a b' _ Hab.
    replace b' with (b' ++ []) by apply app_nil_r. eapply reads_bindq; [rd|]. cbv beta. rewrite (u32_nat _ _ Hab). rd.
  - rewrite <- (numbered_map (fun g => EvGlobal (gs_type g) (gs_init g)) l 0). eapply reads_entries; [exact Hp|].
    intros j a b' _ (bt & bi & Ht & Hi & ->).
    eapply reads_bindq; [apply reads_gtype, Ht|]. cbv beta.
    replace bi with (bi ++ []) by apply app_nil_r. eapply reads_bindq; [apply reads_init, Hi|]. rd.
  - rewrite <- (numbered_map (fun e => EvExport (es_field e) (es_kind e) (es_index e)) l 0). eapply reads_entries; [exact Hp|].
    intros j a b' _ (bf & bi & Hf & Hk & Hi & ->).
    eapply reads_bindq; [apply reads_string, Hf|]. cbv beta.
    eapply reads_bindq; [apply (reads_type _ Hk)|]. cbv beta.
    replace bi with (bi ++ []) by apply app_nil_r. eapply reads_bindq; [rd|]. cbv beta. rewrite (u32_nat _ _ Hi). rd.
  - rewrite <- (numbered_flat _ l 0). eapply reads_entries; [exact Hp|]. intros j a b' _ Hab. now apply reads_element.
  - eapply reads_entries; [exact Hp|]. intros j a b' Hin Hab. apply reads_body; [assumption|].
    rewrite Forall_forall in Hb. now apply Hb.
  - rewrite <- (numbered_map (fun d => EvData (ds_memory d) (ds_offset d) (ds_bytes d)) l 0). eapply reads_entries; [exact Hp|].
    intros j a b' _ Hab. now apply reads_data.
Qed.

Lemma reads_section c bev x len b : enc_section (c_lim c) x len b -> Forall (takes_code (c_body c) bev) (bodies_of x) ->
  exists b', b = sec_code x :: b' /\ reads (section c (sec_code x)) tt b' (section_events bev (x, len)).
Proof.
  intros (gl & p & Hgl & Hlen & Hp & ->) Hb. exists (gl ++ p). split; [reflexivity|]. now apply reads_section_payload.
Qed.

Lemma sections_end c fuel off log : exists s, sections c (S fuel) (W [] off log) = Ok (tt, s) /\ w_log s = log.
Proof. eexists. cbn. split; reflexivity. Qed.

Lemma sections_ok c bev l bs : Forall2 (fun p b => enc_section (c_lim c) (fst p) (snd p) b) l bs ->
  Forall (fun p => Forall (takes_code (c_body c) bev) (bodies_of (fst p))) l ->
  forall fuel off log, (length (concat bs) < fuel)%nat ->
  exists s, sections c fuel (W (concat bs) off log) = Ok (tt, s) /\ w_log s = log ++ flat_map (section_events bev) l.
Proof.
  intros H. induction H as [|[x len] b l bs Hx H IH]; intros Hb fuel off log Hf.
  - destruct fuel; [cbn in Hf; lia|]. destruct (sections_end c fuel off log) as (s & E & El). exists s. split; [exact E|].
    cbn. now rewrite app_nil_r.
  - inversion Hb as [|? ? Hbx Hb']; subst. cbn [fst snd] in *.
    destruct (reads_section c bev x len b Hx Hbx) as (b' & -> & Hr).
    cbn [concat] in *. destruct fuel as [|fuel]; [cbn in Hf; lia|]. cbn [sections]. cbn [W w_eof w_in s_eof].
    unfold mbind at 1. fold (W ((sec_code x :: b') ++ concat bs) off log).
    change ((sec_code x :: b') ++ concat bs) with ([sec_code x] ++ (b' ++ concat bs)).
    rewrite (reads_varuint1 (sec_code x)) by (destruct x; cbn; lia). cbn [bind].
    cbn [W w_eof w_in s_eof]. fold (W (b' ++ concat bs) (off + Z.of_nat (length [sec_code x])) (log ++ [])).
    unfold mbind. replace (u8 (sec_code x)) with (sec_code x) by (destruct x; reflexivity). rewrite Hr. cbn [bind].
    edestruct (IH Hb' fuel) as (s & E & El); [cbn [app length] in Hf; rewrite app_length in Hf; lia|].
    rewrite E. exists s. split; [reflexivity|]. rewrite El. cbn [flat_map]. now rewrite <- !app_assoc.
Qed.

(** ** Every input: termination, and what can go wrong *)

Definition rest_of (s : wst) : bytes := s_rest (w_in s).
Definition suffix (a b : bytes) : Prop := exists p, b = p ++ a.
Lemma suffix_refl a : suffix a a.
Proof. now exists []. Qed.
Lemma suffix_trans a b c : suffix a b -> suffix b c -> suffix a c.
Proof. intros (p & ->) (q & ->). exists (q ++ p). now rewrite app_assoc. Qed.
Lemma suffix_length a b : suffix a b -> (length a <= length b)%nat.
Proof. intros (p & ->). rewrite app_length. lia. Qed.
Lemma suffix_nine a b : suffix a b -> nine_free b -> nine_free a.
Proof. intros (p & ->) H pre mid post -> Hl Hf. eapply (H (p ++ pre) mid post); auto. now rewrite <- app_assoc. Qed.
Lemma suffix_bytes a b : suffix a b -> is_bytes b -> is_bytes a.
Proof. intros (p & ->) H. apply Forall_app in H. tauto. Qed.
Lemma suffix_skipn n a : suffix (skipn n a) a.
Proof. exists (firstn n a). now rewrite firstn_skipn. Qed.
Lemma suffix_nil a : suffix [] a.
Proof. exists a. now rewrite app_nil_r. Qed.

(** [any] allows every undefined behaviour; otherwise there must be nine bytes above 127 in a row. *)
Definition tame_at {A} (any : bool) (s : wst) (o : outcome (A * wst)) : Prop :=
  match o with
  | Ok (_, s') => w_stuck s' = false /\ suffix (rest_of s') (rest_of s)
  | Throw _ => True
  | Trap t => t = Exit
  | UB _ => any = true \/ ~ nine_free (rest_of s)
  | OutOfFuel => False
  end.
Definition tame {A} (any : bool) (m : M A) : Prop :=
  forall s, w_stuck s = false -> is_bytes (rest_of s) -> tame_at any s (m s).

Lemma tame_ret {A} any (a : A) : tame any (ret a).
Proof. intros s H _. cbn. auto using suffix_refl. Qed.
Lemma tame_throw {A} any e : tame any (@throw A e).
Proof. intros s H _. exact I. Qed.
Lemma tame_emit any e : tame any (emit e).
Proof. intros s H _. cbn. auto using suffix_refl. Qed.
Lemma tame_weaken {A} any s s' (o : outcome (A * wst)) : suffix (rest_of s') (rest_of s) ->
  tame_at any s' o -> tame_at any s o.
Proof.
  intros Hs. destruct o as [[a s2]| | | |]; cbn [tame_at]; auto.
  - intros (? & ?). split; [assumption|]. eapply suffix_trans; eauto.
  - intros [?|H]; [now left|right]. intros C. apply H. eapply suffix_nine; eauto.
Qed.
Lemma tame_bind {A B} any (m : M A) (k : A -> M B) : tame any m -> (forall a, tame any (k a)) -> tame any (mbind m k).
Proof.
  intros Hm Hk s Hs Hb. unfold mbind. specialize (Hm s Hs Hb). destruct (m s) as [[a s']| | | |]; cbn [bind tame_at] in *; auto.
  destruct Hm as (H1 & H2). eapply tame_weaken; [exact H2|]. apply Hk; [exact H1|]. eapply suffix_bytes; eauto.
Qed.
Lemma tame_get any : tame any get.
Proof.
  intros s H Hb. unfold get. rewrite H. unfold s_get, rest_of in *. destruct (w_in s) as [[|b r] e o] eqn:E; cbn [s_rest s_eof s_offset].
  - cbn. unfold rest_of. cbn. split; [reflexivity|]. apply suffix_nil.
  - cbn. unfold rest_of. cbn. split; [reflexivity|]. rewrite E. cbn. now exists [b].
Qed.

Lemma leb_loop_trace fuel : forall shift result s b sh r s',
  is_bytes (s_rest s) -> 0 <= shift -> 0 <= result < 2 ^ shift ->
  leb_loop fuel shift result s = Ok (b, sh, r, s') ->
  exists q t, s_rest s = q ++ t ++ s_rest s' /\ (length t <= 1)%nat /\ Forall (fun x => 128 <= x) q /\
    sh = shift + 7 * (Z.of_nat (length q) + 1) /\ 0 <= r < 2 ^ sh.
Proof.
  induction fuel as [|fuel IH]; intros shift result s b sh r s' Hb Hs Hr; [discriminate|].
  cbn [leb_loop]. destruct (63 <? shift) eqn:E63; [discriminate|].
  assert (Hres : forall x, 0 <= Z.lor result (Z.shiftl (Z.land x 127) shift mod 2 ^ 64) < 2 ^ (shift + 7)).
  { intros x. rewrite BitLemmas.land_127. rewrite Z.shiftl_mul_pow2 by lia.
    assert (0 < 2 ^ shift) by (apply Z.pow_pos_nonneg; lia).
    assert (0 <= x mod 128 < 128) by (apply Z.mod_pos_bound; lia).
    assert (B : 0 <= (x mod 128 * 2 ^ shift) mod 2 ^ 64 < 2 ^ (shift + 7)).
    { rewrite Z.pow_add_r by lia. change (2 ^ 7) with 128. split; [apply Z.mod_pos_bound; lia|].
      eapply Z.le_lt_trans; [apply Z.mod_le; [nia|lia]|]. nia. }
    split; [apply Z.lor_nonneg; lia|].
    assert (2 ^ shift <= 2 ^ (shift + 7)) by (apply Z.pow_le_mono_r; lia).
    set (y := (x mod 128 * 2 ^ shift) mod 2 ^ 64) in *.
    destruct (Z.eq_dec (Z.lor result y) 0) as [E0|N0]; [rewrite E0; apply Z.pow_pos_nonneg; lia|].
    apply Z.log2_lt_pow2; [assert (0 <= Z.lor result y) by (apply Z.lor_nonneg; lia); lia|].
    rewrite Z.log2_lor by lia. apply Z.max_lub_lt.
    - destruct (Z.eq_dec result 0) as [->|]; [cbn; lia|]. apply Z.log2_lt_pow2; lia.
    - destruct (Z.eq_dec y 0) as [->|]; [cbn; lia|]. apply Z.log2_lt_pow2; lia. }
  destruct s as [[|x rest] e o]; cbn [s_get s_rest s_eof s_offset] in *.
  - replace (negb _ && _ && negb true) with false by (rewrite andb_false_r; reflexivity).
    intros H. injection H as <- <- <- <-. exists [], []. cbn [app length s_rest]. pose proof (Hres 255) as Hx. conjs; auto; try lia; apply Hx.
  - inversion Hb as [|? ? Hx Hrest]; subst. destruct (_ && _ && _) eqn:Ec.
    + intros H. apply IH in H; [|exact Hrest|lia|apply Hres]. cbn [s_rest] in H.
      destruct H as (q & t & -> & Ht & Hq & -> & Hr'). exists (x :: q), t. cbn [app length]. conjs; auto; try lia.
      constructor; [|assumption]. rewrite BitLemmas.land_128_byte in Ec by exact Hx.
      destruct (x <? 128) eqn:Ex; [cbn in Ec; discriminate|lia].
    + intros H. injection H as <- <- <- <-. exists [], [x]. cbn [app length s_rest]. pose proof (Hres x) as Hx'. conjs; auto; try lia; apply Hx'.
Qed.

Lemma nine_intro q rest n : (9 <= length q)%nat -> n = q ++ rest -> Forall (fun x => 128 <= x) q -> ~ nine_free n.
Proof.
  intros Hl -> Hf H. apply (H [] (firstn 9 q) (skipn 9 q ++ rest)).
  - cbn [app]. rewrite app_assoc, firstn_skipn. reflexivity.
  - rewrite firstn_length. lia.
  - rewrite <- (firstn_skipn 9 q) in Hf. apply Forall_app in Hf. tauto.
Qed.

Lemma leb_loop_total s : exists b sh r s', leb_loop 12 0 0 s = Ok (b, sh, r, s').
Proof. apply leb_loop_never_throws; lia. Qed.

(** numbers *)
Lemma varuint_spec s : w_stuck s = false -> is_bytes (rest_of s) ->
  exists v s', varuint s = Ok (v, s') /\ w_stuck s' = false /\ suffix (rest_of s') (rest_of s) /\ w_log s' = w_log s /\
    0 <= v /\ (2 ^ 63 <= v -> ~ nine_free (rest_of s)).
Proof.
  intros Hs Hb. unfold varuint, on_stream, uleb128. rewrite Hs.
  destruct (leb_loop_total (w_in s)) as (b & sh & r & i & E). rewrite E. cbn [bind].
  destruct (leb_loop_trace 12 0 0 (w_in s) b sh r i Hb ltac:(lia) ltac:(cbn; lia) E) as (q & t & Hq & Ht & Hf & Hsh & Hr).
  eexists _, _. split; [reflexivity|]. cbn [w_stuck w_log]. unfold rest_of. cbn [w_in].
  split; [reflexivity|]. split; [exists (q ++ t); rewrite <- app_assoc; exact Hq|]. split; [reflexivity|].
  split; [lia|]. intros H63. eapply nine_intro; [|exact Hq|exact Hf].
  destruct (Nat.le_gt_cases 9 (length q)) as [?|C]; [assumption|].
  assert (2 ^ sh <= 2 ^ 63) by (apply Z.pow_le_mono_r; lia). lia.
Qed.
Lemma tame_varuint any : tame any varuint.
Proof.
  intros s Hs Hb. destruct (varuint_spec s Hs Hb) as (v & s' & -> & H1 & H2 & _). cbn. auto.
Qed.
Lemma tame_varint any : tame any varint.
Proof.
  intros s Hs Hb. unfold varint, on_stream, leb128. rewrite Hs.
  destruct (leb_loop_total (w_in s)) as (b & sh & r & i & E). rewrite E. cbn [bind].
  destruct (leb_loop_trace 12 0 0 (w_in s) b sh r i Hb ltac:(lia) ltac:(cbn; lia) E) as (q & t & Hq & Ht & Hf & Hsh & Hr).
  assert (Hsuf : suffix (s_rest i) (rest_of s)) by (exists (q ++ t); rewrite <- app_assoc; exact Hq).
  destruct (Z.land b 64 =? 0); cbn; [now split|]. destruct (64 <=? sh) eqn:E64; cbn; [|now split].
  right. eapply nine_intro; [|exact Hq|exact Hf]. lia.
Qed.

Lemma tame_in_read any n : tame any (in_read n).
Proof.
  intros s Hs Hb. unfold in_read. destruct (w_fail s); [cbn; auto using suffix_refl|].
  destruct (n <=? _); cbn; unfold rest_of; cbn; split; auto using suffix_skipn, suffix_nil.
Qed.
Lemma tame_uint any n : tame any (uint n).
Proof.
  intros s Hs Hb. unfold uint. destruct (w_fail s); [exact I|].
  refine (tame_bind any (in_read n) _ (tame_in_read any n) _ s Hs Hb). intros; apply tame_ret.
Qed.
Lemma tame_number any n : tame any (read_number n).
Proof.
  intros s Hs Hb. unfold read_number. rewrite Hs. unfold readNumber, s_read.
  destruct (_ <? _)%nat; cbn; [exact I|]. split; [reflexivity|]. unfold rest_of; cbn. apply suffix_skipn.
Qed.
Lemma tame_alloc any c n : tame any (alloc c n).
Proof. unfold alloc. destruct (n <=? c_lim c); [apply tame_ret|apply tame_throw]. Qed.
Lemma tame_collect {A} any (f : M A) : tame any f -> forall n, tame any (collect n f).
Proof.
  intros Hf. induction n; cbn [collect]; [apply tame_ret|]. apply tame_bind; [exact Hf|]. intros.
  apply tame_bind; [exact IHn|]. intros. apply tame_ret.
Qed.
Lemma tame_iter any (f : Z -> M unit) : (forall i, tame any (f i)) -> forall n i, tame any (iter n i f).
Proof. intros Hf. induction n; intros i; cbn [iter]; [apply tame_ret|]. apply tame_bind; auto. Qed.

Lemma tame_string any c : tame any (string c).
Proof.
  intros s Hs Hb. unfold string, mbind at 1. destruct (varuint_spec s Hs Hb) as (v & s' & E & H1 & H2 & _ & Hv & H63).
  rewrite E. cbn [bind]. destruct (v =? 2 ^ 64 - 1) eqn:E1.
  - cbn. right. apply H63. lia.
  - apply (tame_weaken any s s' _ H2). refine (tame_bind any (alloc c (v + 1)) _ _ _ s' H1 _); [apply tame_alloc| |eapply suffix_bytes; eauto].
    intros. apply tame_bind; [apply tame_in_read|]. intros. apply tame_ret.
Qed.

Ltac tm :=
  repeat first [ apply tame_ret | apply tame_throw | apply tame_emit | apply tame_get | apply tame_varuint | apply tame_varint
               | apply tame_in_read | apply tame_uint | apply tame_number | apply tame_alloc | apply tame_string
               | apply tame_collect | match goal with |- tame _ (iter _ _ _) => apply tame_iter; intros end | match goal with |- tame _ (mbind _ _) => apply tame_bind; [|intros] end
               | match goal with |- tame _ (if ?b then _ else _) => destruct b end
               | match goal with |- tame _ (for_count _ _) => unfold for_count end
               | match goal with |- tame _ type_code => unfold type_code end ].

Lemma tame_imm any c k : tame any (read_imm c k).
Proof. destruct k; cbn [read_imm]; tm. Qed.
Lemma tame_expr any c : tame any (read_expr c).
Proof.
  unfold read_expr. apply tame_bind; [tm|]. intros op. destruct (op_kind op); [|now intros s ? ?].
  apply tame_bind; [apply tame_imm|]. intros. apply tame_ret.
Qed.
Lemma op_kind_255 : op_kind 255 = None. Proof. reflexivity. Qed.
Lemma read_expr_takes c s e s' : w_stuck s = false -> is_bytes (rest_of s) -> read_expr c s = Ok (e, s') ->
  (length (rest_of s') < length (rest_of s))%nat.
Proof.
  intros Hs Hb H. unfold read_expr, mbind, get in H. rewrite Hs in H. unfold rest_of in *.
  destruct (w_in s) as [[|b r] eo o] eqn:E; cbn [s_get s_rest s_eof s_offset] in H; cbn [bind] in H.
  - rewrite op_kind_255 in H. discriminate.
  - destruct (op_kind b) as [k|]; [|discriminate].
    pose proof (tame_imm false c k (mkW (mkStream r eo (o + 1)) false (w_log s)) eq_refl) as Ht.
    destruct (read_imm c k _) as [[i s2]| | | |]; cbn [bind] in H; try discriminate.
    cbn [ret] in H. injection H as _ <-. cbn [tame_at] in Ht. destruct Ht as (_ & Ht); [inversion Hb; assumption|].
    apply suffix_length in Ht. unfold rest_of in Ht. cbn [w_in s_rest length] in *. lia.
Qed.
Lemma tame_expr_loop any c start size f : (forall e, tame any (f e)) ->
  forall fuel s, w_stuck s = false -> is_bytes (rest_of s) -> (length (rest_of s) < fuel)%nat ->
  tame_at any s (expr_loop c fuel start size f s).
Proof.
  intros Hf. induction fuel as [|fuel IH]; intros s Hs Hb Hl; [lia|]. cbn [expr_loop]. unfold mbind at 1.
  pose proof (tame_expr any c s Hs Hb) as Ht. pose proof (read_expr_takes c s) as Hk.
  destruct (read_expr c s) as [[e s1]| | | |]; cbn [bind]; try exact Ht. cbn [tame_at] in Ht. destruct Ht as (H1 & H2).
  specialize (Hk e s1 Hs Hb eq_refl). apply (tame_weaken any s s1 _ H2).
  assert (Hb1 : is_bytes (rest_of s1)) by (eapply suffix_bytes; eauto).
  unfold mbind. pose proof (Hf e s1 H1 Hb1) as Ht.
  destruct (f e s1) as [[u s2]| | | |]; cbn [bind]; try exact Ht. cbn [tame_at] in Ht. destruct Ht as (H3 & H4).
  apply (tame_weaken any s1 s2 _ H4). destruct (_ <? size); [|cbn; auto using suffix_refl].
  apply IH; [assumption|eapply suffix_bytes; eauto|]. apply suffix_length in H4. lia.
Qed.
Lemma tame_init any c : tame any (init_expr c).
Proof. unfold init_expr. apply tame_bind; [apply tame_expr|]. intros. tm; apply tame_expr. Qed.

Lemma tame_entry_readers any c : (forall i b, tame any (c_body c i b)) ->
  tame any (type_section c) /\ tame any (import_section c) /\ tame any function_section /\ tame any (global_section c) /\
  tame any (export_section c) /\ tame any (element_section c) /\ tame any (code_section c) /\ tame any (data_section c).
Proof.
  intros Hv. conjs.
  - unfold type_section, function_type. tm.
  - unfold import_section, import_entry, table_type, global_type, resizable_limits. tm.
  - unfold function_section. tm.
  - unfold global_section, global_type. tm. apply tame_init.
  - unfold export_section. tm.
  - unfold element_section, element_entry. tm. apply tame_init.
  - unfold code_section, function_body, local_entry. tm. apply Hv.
  - unfold data_section, data_segment. tm. apply tame_init.
Qed.

Lemma section_plain any c code : (forall i b, tame any (c_body c i b)) -> (code =? 0) = false -> tame any (section c code).
Proof.
  intros Hv E0. destruct (tame_entry_readers any c Hv) as (T1 & T2 & T3 & T4 & T5 & T6 & T7 & T8).
  unfold section. rewrite E0.
  apply tame_bind; [tm|intros]. apply tame_bind; [tm|intros]. apply tame_bind; [tm|intros]. apply tame_bind; [|intros; tm].
  repeat match goal with |- tame _ (if ?b then _ else _) => destruct b end; auto using tame_ret, tame_throw.
Qed.
(** A section: as above, or the stream is left failed (by the seek of a custom section). *)
Lemma section_tame any c code s : (forall i b, tame any (c_body c i b)) -> w_stuck s = false -> is_bytes (rest_of s) ->
  tame_at any s (section c code s) \/ exists s', section c code s = Ok (tt, s') /\ w_stuck s' = true.
Proof.
  intros Hv Hs Hb. destruct (tame_entry_readers any c Hv) as (T1 & T2 & T3 & T4 & T5 & T6 & T7 & T8).
  destruct (code =? 0) eqn:E0.
  - assert (Hp : tame any (l <~ varuint; name <~ string c; _ <~ emit (EvSectionStart code (u32 l) name); ret l)) by tm.
    unfold section. rewrite E0. unfold mbind in *. specialize (Hp s Hs Hb). cbv beta in Hp.
    destruct (varuint s) as [[l s1]| | | |]; cbn [bind] in *; try now left.
    destruct (string c s1) as [[nm s2]| | | |]; cbn [bind] in *; try now left.
    cbv beta iota delta [emit ret bind tame_at] in Hp. destruct Hp as (H1 & H2).
    cbn [emit bind]. unfold custom_section, seekg. cbn [w_in w_stuck w_log] in *. unfold w_fail. cbn [w_in w_stuck].
    destruct (s_eof (w_in s2) || w_stuck s2); [right; cbn [bind emit]; eexists; split; reflexivity|].
    destruct (_ <=? _); [left|destruct (c_strict c); [right|left]].
    + cbn. split; [reflexivity|]. eapply suffix_trans; [|exact H2]. unfold rest_of; cbn. apply suffix_skipn.
    + cbn [bind emit]. eexists; split; reflexivity.
    + cbn. split; [reflexivity|]. apply suffix_nil.
  - left. apply section_plain; assumption.
Qed.

Lemma stuck_varuint s : w_stuck s = true -> varuint s = Ok (2 ^ 64 - 1, s).
Proof. intros H. unfold varuint, on_stream. rewrite H. reflexivity. Qed.
Lemma sections_stuck c fuel s : w_stuck s = true -> w_eof s = false -> sections c (S fuel) s = Throw InvalidSection.
Proof.
  intros H He. cbn [sections]. rewrite He. unfold mbind at 1. rewrite stuck_varuint by exact H. cbn [bind]. rewrite He.
  unfold mbind. unfold section, mbind. rewrite stuck_varuint by exact H. reflexivity.
Qed.

(** The result of reading on: anything but a wrong stop or an unexplained undefined behaviour. *)
Definition settled {A} (any : bool) (input : bytes) (o : outcome A) : Prop :=
  match o with
  | Ok _ | Throw _ => True
  | Trap t => t = Exit
  | UB _ => any = true \/ ~ nine_free input
  | OutOfFuel => False
  end.
Lemma tame_settled {A} any s (o : outcome (A * wst)) : tame_at any s o -> settled any (rest_of s) o.
Proof. destruct o as [[? ?]| | | |]; cbn; tauto. Qed.
Lemma settled_suffix {A} any a b (o : outcome A) : suffix a b -> settled any a o -> settled any b o.
Proof. intros Hs. destruct o; cbn; auto. intros [?|H]; [now left|right]. intros C. apply H. eapply suffix_nine; eauto. Qed.

Lemma leb_loop_first fuel x rest o b sh r i : is_bytes (x :: rest) ->
  leb_loop (S fuel) 0 0 (mkStream (x :: rest) false o) = Ok (b, sh, r, i) -> (length (s_rest i) <= length rest)%nat.
Proof.
  intros Hb E. cbn [leb_loop] in E. change (63 <? 0) with false in E. cbn [s_get s_rest s_eof s_offset] in E.
  inversion Hb as [|? ? Hx Hrest]; subst. destruct (_ && _ && _) in E.
  - apply leb_loop_trace in E; [|exact Hrest|lia|].
    + destruct E as (q & t & Hq & _). cbn [s_rest] in Hq. rewrite Hq, !app_length. lia.
    + change (0 + 7) with 7. rewrite BitLemmas.land_127, Z.shiftl_0_r.
      assert (0 <= x mod 128 < 128) by (apply Z.mod_pos_bound; lia). rewrite Z.mod_small by lia.
      rewrite Z.lor_0_l. change (2 ^ 7) with 128. lia.
  - injection E as _ _ _ <-. cbn [s_rest]. lia.
Qed.
Lemma leb_loop_at_end fuel o : leb_loop (S fuel) 0 0 (mkStream [] false o) = Ok (255, 7, 127, mkStream [] true o).
Proof. reflexivity. Qed.
Lemma varuint_takes s v s' : w_stuck s = false -> is_bytes (rest_of s) -> w_eof s = false -> varuint s = Ok (v, s') ->
  w_eof s' = true \/ (length (rest_of s') < length (rest_of s))%nat.
Proof.
  intros Hs Hb He H. unfold varuint, on_stream, uleb128 in H. rewrite Hs in H.
  unfold rest_of, w_eof in *. destruct (w_in s) as [[|x rest] e o] eqn:Ei; cbn [s_rest s_eof] in *; subst e.
  - left. change 12%nat with (S 11) in H. rewrite leb_loop_at_end in H. cbn [bind] in H. injection H as _ <-. reflexivity.
  - right. destruct (leb_loop 12 0 0 _) as [[[[b sh] r] i]| | | |] eqn:E; cbn [bind] in H; try discriminate. injection H as _ <-.
    apply leb_loop_first in E; [|exact Hb]. cbn [w_in length]. lia.
Qed.

Lemma section_eof_stuck c code s s' any : (forall i b, tame any (c_body c i b)) -> w_stuck s = false -> is_bytes (rest_of s) ->
  section c code s = Ok (tt, s') -> w_stuck s' = true -> w_eof s' = false.
Proof.
  intros Hv Hs Hb H Hst. destruct (code =? 0) eqn:E0.
  - unfold section in H. rewrite E0 in H. unfold mbind in H.
    destruct (varuint s) as [[l s1]| | | |] eqn:Ev; cbn [bind] in H; try discriminate.
    destruct (string c s1) as [[nm s2]| | | |] eqn:Es; cbn [bind] in H; try discriminate.
    cbn [emit bind] in H. unfold custom_section, seekg in H. cbn [w_in w_stuck w_log] in H. unfold w_fail in H. cbn [w_in w_stuck] in H.
    destruct (s_eof (w_in s2) || w_stuck s2) eqn:Ef.
    + cbn [bind emit] in H. injection H as <-. reflexivity.
    + apply orb_false_iff in Ef. destruct (_ <=? _); [|destruct (c_strict c)]; cbn [bind emit] in H; injection H as <-; cbn in *; tauto.
  - exfalso. pose proof (section_plain any c code Hv E0 s Hs Hb) as T. rewrite H in T. cbn in T. destruct T. congruence.
Qed.

Lemma sections_settled any c : (forall i b, tame any (c_body c i b)) ->
  forall fuel s, w_stuck s = false -> is_bytes (rest_of s) -> (length (rest_of s) + 1 < fuel)%nat ->
  settled any (rest_of s) (sections c fuel s).
Proof.
  intros Hv. induction fuel as [|fuel IH]; intros s Hs Hb Hl; [lia|]. cbn [sections].
  destruct (w_eof s) eqn:Ee; [exact I|]. unfold mbind at 1.
  destruct (varuint_spec s Hs Hb) as (v & s1 & E & H1 & H2 & _). pose proof (varuint_takes s v s1 Hs Hb Ee E) as Hk.
  rewrite E. cbn [bind]. destruct (w_eof s1) eqn:Ee1; [exact I|]. destruct Hk as [C|Hk]; [congruence|].
  assert (Hb1 : is_bytes (rest_of s1)) by (eapply suffix_bytes; eauto).
  apply (settled_suffix any (rest_of s1) (rest_of s) _ H2). unfold mbind.
  destruct (section_tame any c (u8 v) s1 Hv H1 Hb1) as [T|(s2 & E2 & Hst)].
  - destruct (section c (u8 v) s1) as [[u s2]| | | |] eqn:Es; cbn [bind]; try (apply tame_settled in T; exact T).
    cbn [tame_at] in T. destruct T as (H3 & H4). apply (settled_suffix any (rest_of s2) _ _ H4).
    apply IH; [assumption|eapply suffix_bytes; eauto|]. apply suffix_length in H4. lia.
  - rewrite E2. cbn [bind]. destruct fuel as [|fuel]; [lia|].
    rewrite sections_stuck; [exact I|exact Hst|]. eapply section_eof_stuck; eauto.
Qed.

Lemma module_settled any c input : (forall i b, tame any (c_body c i b)) -> is_bytes input ->
  settled any input (read_module c input).
Proof.
  intros Hv Hb. unfold read_module, module. unfold mbind at 1. cbn [emit bind w_in w_stuck w_log app].
  unfold mbind at 1.
  assert (Hh : tame any header) by (unfold header; tm).
  specialize (Hh (mkW (mkStream input false 0) false [EvModuleStart]) eq_refl Hb).
  destruct (header _) as [[u s]| | | |]; cbn [bind]; try (apply tame_settled in Hh; exact Hh).
  cbn [tame_at] in Hh. destruct Hh as (H1 & H2). unfold mbind.
  assert (Hb1 : is_bytes (rest_of s)) by (eapply suffix_bytes; [exact H2|exact Hb]).
  pose proof (sections_settled any c Hv (2 + length (s_rest (w_in s))) s H1 Hb1) as Hs.
  specialize (Hs ltac:(unfold rest_of; lia)). apply (settled_suffix any _ input) in Hs; [|exact H2].
  destruct (sections c _ s) as [[u2 s2]| | | |]; cbn [bind emit]; exact Hs.
Qed.

(** ** Sequences of expressions *)

Lemma enc_instr_cons lim e b : enc_instr lim e b -> exists x b', b = x :: b'.
Proof. destruct 1; eauto. Qed.

Lemma expr_loop_ok c f (ev : expr -> list event) start size : forall es bs, Forall2 (enc_instr (c_lim c)) es bs -> es <> [] ->
  (forall e, In e es -> reads (f e) tt [] (ev e)) ->
  forall fuel post off log, off - start + Z.of_nat (length (concat bs)) = size -> (length (concat bs) <= fuel)%nat ->
  expr_loop c fuel start size f (W (concat bs ++ post) off log)
  = Ok (tt, W post (start + size) (log ++ flat_map ev es)).
Proof.
  intros es bs H. induction H as [|e b es bs He H IH]; intros Hne Hf fuel post off log Hsz Hfu; [congruence|].
  destruct (enc_instr_cons _ _ _ He) as (x & b' & Eb).
  cbn [concat] in *. rewrite app_length in *. destruct fuel as [|fuel]; [subst b; cbn [length] in Hfu; lia|].
  cbn [expr_loop]. unfold mbind at 1. rewrite <- app_assoc, (reads_expr c e b He). cbn [bind]. unfold mbind.
  pose proof (Hf e (or_introl eq_refl) (concat bs ++ post) (off + Z.of_nat (length b)) (log ++ [])) as Hfe. cbn [app] in Hfe. rewrite Hfe. cbn [bind].
  cbn [W w_in s_offset length Z.of_nat]. rewrite Z.add_0_r, app_nil_r.
  destruct es as [|e2 es].
  - inversion H; subst bs. cbn [concat app flat_map length] in *. replace (_ <? _) with false by lia. unfold W.
    replace (start + size) with (off + Z.of_nat (length b)) by lia. rewrite app_nil_r. reflexivity.
  - assert (Hl : (1 <= length (concat bs))%nat).
    { inversion H as [|? ? ? ? H1 H2]; subst. destruct (enc_instr_cons _ _ _ H1) as (? & ? & ->). cbn. lia. }
    replace (_ <? _) with true by lia.
    specialize (IH ltac:(discriminate) (fun e' He' => Hf e' (or_intror He')) fuel post (off + Z.of_nat (length b)) (log ++ ev e)).
    rewrite IH by (subst b; cbn [length] in *; lia). cbn [flat_map]. now rewrite <- app_assoc.
Qed.

(** ... and when the size says there should be more than the input has *)
Lemma expr_loop_overrun c f (ev : expr -> list event) start size : forall es bs, Forall2 (enc_instr (c_lim c)) es bs ->
  (forall e, In e es -> reads (f e) tt [] (ev e)) ->
  forall fuel off log, off - start + Z.of_nat (length (concat bs)) < size -> (length (concat bs) < fuel)%nat ->
  expr_loop c fuel start size f (W (concat bs) off log) = Trap Exit.
Proof.
  intros es bs H. induction H as [|e b es bs He H IH]; intros Hf fuel off log Hsz Hfu.
  - destruct fuel as [|fuel]; [cbn in Hfu; lia|]. reflexivity.
  - destruct (enc_instr_cons _ _ _ He) as (x & b' & Eb).
    cbn [concat] in *. rewrite app_length in *. destruct fuel as [|fuel]; [lia|].
    cbn [expr_loop]. unfold mbind at 1. rewrite (reads_expr c e b He). cbn [bind]. unfold mbind.
    pose proof (Hf e (or_introl eq_refl) (concat bs) (off + Z.of_nat (length b)) (log ++ [])) as Hfe. cbn [app] in Hfe. rewrite Hfe. cbn [bind].
    cbn [W w_in s_offset length Z.of_nat]. rewrite Z.add_0_r, app_nil_r. replace (_ <? _) with true by lia.
    specialize (IH (fun e' He' => Hf e' (or_intror He')) fuel (off + Z.of_nat (length b)) (log ++ ev e)).
    apply IH; subst b; cbn [length] in *; lia.
Qed.

Lemma concat_length_ge {A} (P : A -> bytes -> Prop) l bs : (forall a b, P a b -> b <> []) -> Forall2 P l bs ->
  (length l <= length (concat bs))%nat.
Proof.
  intros HP H. induction H as [|a b l bs Hab H IH]; cbn; [lia|]. rewrite app_length. specialize (HP a b Hab).
  destruct b; [congruence|]. cbn. lia.
Qed.

(** Sections in front of anything. *)
Lemma sections_prefix c bev l bs : Forall2 (fun p b => enc_section (c_lim c) (fst p) (snd p) b) l bs ->
  Forall (fun p => Forall (takes_code (c_body c) bev) (bodies_of (fst p))) l ->
  forall fuel post off log, (length l <= fuel)%nat ->
  sections c fuel (W (concat bs ++ post) off log) =
  sections c (fuel - length l) (W post (off + Z.of_nat (length (concat bs))) (log ++ flat_map (section_events bev) l)).
Proof.
  intros H. induction H as [|[x len] b l bs Hx H IH]; intros Hb fuel post off log Hf.
  - cbn [concat app flat_map length]. rewrite Nat.sub_0_r, Z.add_0_r, app_nil_r. reflexivity.
  - inversion Hb as [|? ? Hbx Hb']; subst. cbn [fst snd] in *.
    destruct (reads_section c bev x len b Hx Hbx) as (b' & -> & Hr).
    cbn [concat] in *. destruct fuel as [|fuel]; [cbn in Hf; lia|]. cbn [sections]. cbn [W w_eof w_in s_eof].
    unfold mbind at 1. rewrite <- app_assoc. fold (W ((sec_code x :: b') ++ concat bs ++ post) off log).
    change ((sec_code x :: b') ++ concat bs ++ post) with ([sec_code x] ++ (b' ++ concat bs ++ post)).
    rewrite (reads_varuint1 (sec_code x)) by (destruct x; cbn; lia). cbn [bind].
    cbn [W w_eof w_in s_eof]. fold (W (b' ++ concat bs ++ post) (off + Z.of_nat (length [sec_code x])) (log ++ [])).
    unfold mbind. replace (u8 (sec_code x)) with (sec_code x) by (destruct x; reflexivity). rewrite Hr. cbn [bind].
    rewrite (IH Hb') by (cbn [length] in Hf; lia). cbn [flat_map length Nat.sub].
    rewrite <- !app_assoc. cbn [app length]. rewrite app_length.
    match goal with |- sections _ _ (W _ ?a _) = sections _ _ (W _ ?b _) => replace b with a by lia end. reflexivity.
Qed.

Lemma header_ok rest off : header (W (wasm_header ++ rest) off [EvModuleStart]) = Ok (tt, W rest (off + 8) [EvModuleStart; EvHeader 1836278016 1]).
Proof.
  unfold header.
  apply (reads_bindq (uint 4) (fun m => if negb (m =? 1836278016) then throw InvalidHeader else
    (v <~ uint 4; if negb (v =? 1) then throw InvalidHeader else emit (EvHeader m v))) 1836278016 tt [0; 97; 115; 109] [1; 0; 0; 0] [EvHeader 1836278016 1]).
  - exact (reads_uint 4 [0; 97; 115; 109] eq_refl).
  - cbn [Z.eqb Pos.eqb negb]. apply (reads_bindq (uint 4) (fun v => if negb (v =? 1) then throw InvalidHeader else emit (EvHeader 1836278016 v)) 1 tt [1; 0; 0; 0] [] [EvHeader 1836278016 1]).
    + exact (reads_uint 4 [1; 0; 0; 0] eq_refl).
    + apply reads_emit.
Qed.
Lemma module_after_header c rest :
  read_module c (wasm_header ++ rest) =
  do (_, s) <- sections c (2 + length rest) (W rest 8 [EvModuleStart; EvHeader 1836278016 1]); Ok (w_log s ++ [EvModuleEnd]).
Proof.
  unfold read_module, module. unfold mbind at 1. cbn [emit bind w_in w_stuck w_log app].
  unfold mbind at 1. fold (W (wasm_header ++ rest) 0 [EvModuleStart]). rewrite header_ok. cbn [bind].
  unfold mbind. cbn [W w_in s_rest]. fold (W rest (0 + 8) [EvModuleStart; EvHeader 1836278016 1]). change (0 + 8) with 8.
  destruct (sections c _ _) as [[u s]| | | |]; reflexivity.
Qed.

(** Past the end: numbers are 127. *)
Lemma varuint_eof off log : varuint (mkW (mkStream [] true off) false log) = Ok (127, mkW (mkStream [] true off) false log).
Proof. reflexivity. Qed.
Lemma varuint_end off log : varuint (W [] off log) = Ok (127, mkW (mkStream [] true off) false log).
Proof. reflexivity. Qed.
Lemma function_entries_eof n : forall i off log,
  iter n i (fun i => t <~ varuint; emit (EvFunction i (u32 t))) (mkW (mkStream [] true off) false log)
  = Ok (tt, mkW (mkStream [] true off) false (log ++ map (fun k => EvFunction (i + Z.of_nat k) 127) (seq 0 n))).
Proof.
  induction n as [|n IH]; intros i off log; cbn [iter].
  - cbn. now rewrite app_nil_r.
  - unfold mbind. rewrite varuint_eof. cbn [bind emit w_in w_stuck w_log]. rewrite IH. rewrite <- app_assoc.
    cbn [seq map app]. rewrite <- seq_shift, map_map. do 4 f_equal. f_equal; [now rewrite Z.add_0_r|].
    apply map_ext. intros k. f_equal. lia.
Qed.
Lemma function_entries_end n off log :
  exists s, iter n 0 (fun i => t <~ varuint; emit (EvFunction i (u32 t))) (W [] off log) = Ok (tt, s) /\
    w_log s = log ++ map (fun k => EvFunction (Z.of_nat k) 127) (seq 0 n) /\ w_stuck s = false /\ rest_of s = [].
Proof.
  destruct n as [|n]; cbn [iter].
  - eexists. split; [reflexivity|]. cbn. now rewrite app_nil_r.
  - unfold mbind. rewrite varuint_end. cbn [bind emit w_in w_stuck w_log]. rewrite function_entries_eof.
    eexists. split; [reflexivity|]. cbn [w_log w_stuck]. unfold rest_of. cbn [w_in s_rest]. conjs; auto.
    rewrite <- app_assoc. cbn [seq map app]. rewrite <- seq_shift, map_map. do 2 f_equal.
    apply map_ext. intros k. f_equal. lia.
Qed.

(** [m] first takes [b], makes the calls [ev] and then does [m2] (and then something). *)
Definition reaches {A B} (m : M A) (b : bytes) (ev : list event) (m2 : M B) : Prop :=
  forall post off log, exists k, m (W (b ++ post) off log) = bind (m2 (W post (off + Z.of_nat (length b)) (log ++ ev))) k.
Lemma reaches_left {A B C} (m : M A) (k : A -> M C) b ev (m2 : M B) : reaches m b ev m2 -> reaches (mbind m k) b ev m2.
Proof.
  intros H post off log. destruct (H post off log) as (k' & E). exists (fun a => bind (k' a) (fun '(a, s') => k a s')).
  unfold mbind. rewrite E. now destruct (m2 _).
Qed.
Lemma reaches_bind {A B C} (m : M A) (k : A -> M C) a b1 b2 e1 e2 (m2 : M B) :
  reads m a b1 e1 -> reaches (k a) b2 e2 m2 -> reaches (mbind m k) (b1 ++ b2) (e1 ++ e2) m2.
Proof.
  intros H1 H2 post off log. destruct (H2 post (off + Z.of_nat (length b1)) (log ++ e1)) as (k' & E).
  exists k'. unfold mbind. rewrite <- app_assoc, H1. cbn [bind]. rewrite E, app_length, app_assoc.
  replace (off + Z.of_nat (length b1) + Z.of_nat (length b2)) with (off + Z.of_nat (length b1 + length b2)) by lia. reflexivity.
Qed.
Lemma reaches_self {A} (m : M A) : reaches m [] [] m.
Proof. intros post off log. exists (fun x => Ok x). cbn [app length Z.of_nat]. rewrite Z.add_0_r, app_nil_r. now destruct (m _). Qed.
Lemma reaches_app {A B} (m : M A) b b' ev (m2 : M B) : b = b' -> reaches m b ev m2 -> reaches m b' ev m2.
Proof. now intros ->. Qed.

Lemma reaches_first_body c x xs len b : enc_section (c_lim c) (SCode (x :: xs)) len b ->
  exists h t, b = 10 :: h ++ bs_code x ++ t /\ (xs = [] -> t = []) /\
    reaches (section c 10) h [EvSectionStart 10 len []; EvBody 0 (mkBody (bs_locals x) (bs_size x))]
      (c_body c 0 (mkBody (bs_locals x) (bs_size x))).
Proof.
  intros (gl & p & Hgl & Hlen & (g & bs & Hg & Hbs & ->) & ->). inversion Hbs as [|? bx ? bs' Hx Hxs]; subst.
  destruct Hx as (gs & bl & Hs & (g' & bs & Hg' & Hls & ->) & Hl & Hsz & ->).
  exists (gl ++ [] ++ [] ++ g ++ gs ++ g' ++ [] ++ concat bs ++ [] ++ []), (concat bs').
  split; [cbn [sec_code concat app]; rewrite !app_nil_r, <- !app_assoc; reflexivity|].
  split; [intros ->; now inversion Hxs|].
  unfold section.
  change [EvSectionStart 10 (Z.of_nat (length (g ++ concat ((gs ++ (g' ++ concat bs) ++ bs_code x) :: bs')))) []; EvBody 0 (mkBody (bs_locals x) (bs_size x))]
    with ([] ++ [] ++ [EvSectionStart 10 (Z.of_nat (length (g ++ concat ((gs ++ (g' ++ concat bs) ++ bs_code x) :: bs')))) []] ++
            [] ++ [] ++ [] ++ [] ++ [] ++ [EvBody 0 (mkBody (bs_locals x) (bs_size x))] ++ []).
  eapply reaches_bind; [rd|]. cbv beta. cbn [Z.eqb].
  eapply reaches_bind; [apply reads_ret|]. rewrite (u32_nat _ _ Hgl).
  eapply reaches_bind; [apply reads_emit|].
  apply reaches_left. cbn [Pos.eqb orb]. unfold code_section.
  eapply reaches_bind; [apply reads_varuint, Hg|]. unfold for_count. rewrite Nat2Z.id. cbn [length iter].
  apply reaches_left. unfold function_body.
  eapply reaches_bind; [apply reads_varuint, Hs|]. cbv beta.
  eapply reaches_bind; [apply reads_varuint, Hg'|]. cbv beta. rewrite (u32_nat _ _ Hs).
  eapply reaches_bind; [apply reads_alloc; lia|]. rewrite Nat2Z.id.
  eapply reaches_bind; [eapply (reads_collect _ enc_local); [|exact Hls]|].
  { intros [n t] b (g2 & Hg2 & Hb & ->). cbn [lo_count lo_type] in *. unfold local_entry.
    eapply reads_bindq; [rd|]. cbv beta. eapply reads_bindr; [rd|]. cbv beta. rewrite (u32_nat _ _ Hg2). rd. }
  eapply reaches_bind; [apply reads_emit|].
  apply reaches_left, reaches_self.
Qed.

Lemma bind_assoc {A B C} (m : outcome A) (f : A -> outcome B) (g : B -> outcome C) :
  bind (bind m f) g = bind m (fun a => bind (f a) g).
Proof. now destruct m. Qed.

(** A module whose code section is preceded by other sections, up to its first body. *)
Lemma module_first_body c l bs x xs len b : Forall2 (fun p b => enc_section (c_lim c) (fst p) (snd p) b) l bs ->
  Forall (fun p => bodies_of (fst p) = []) l -> enc_section (c_lim c) (SCode (x :: xs)) len b ->
  exists t off log k, (xs = [] -> t = []) /\ filter is_function log = filter is_function (flat_map (section_events (fun _ _ => [])) l) /\
    read_module c (wasm_header ++ concat bs ++ b)
    = bind (c_body c 0 (mkBody (bs_locals x) (bs_size x)) (W (bs_code x ++ t) off log)) k.
Proof.
  intros H Hn Hb. destruct (reaches_first_body c x xs len b Hb) as (h & t & -> & Ht & Hr).
  assert (Hlen : (length l <= length (concat bs))%nat).
  { apply (concat_length_ge _ l bs) in H; [exact H|]. intros [y ly] b (gl & p & _ & _ & _ & ->). discriminate. }
  rewrite module_after_header.
  erewrite (sections_prefix c (fun _ _ => []) l bs H); [|eapply Forall_impl; [|exact Hn]; cbv beta; intros a ->; constructor|rewrite app_length; cbn; lia].
  match goal with |- context [sections c ?f _] => destruct f as [|fuel] eqn:Ef end; [exfalso; rewrite app_length in Ef; lia|].
  cbn [sections W w_eof w_in s_eof]. unfold mbind at 1.
  set (log0 := [EvModuleStart; EvHeader 1836278016 1] ++ _). set (o := 8 + _).
  change (10 :: h ++ bs_code x ++ t) with ([10] ++ (h ++ bs_code x ++ t)). fold (W ([10] ++ (h ++ bs_code x ++ t)) o log0).
  rewrite (reads_varuint1 10) by lia. cbn [bind W w_eof w_in s_eof]. change (u8 10) with 10.
  try match goal with |- context [mkW (mkStream ?r false ?o) false ?l] => fold (W r o l) end. unfold mbind at 1.
  match goal with |- context [section c 10 (W _ ?o ?l)] => destruct (Hr (bs_code x ++ t) o l) as (k & E) end.
  rewrite E, !bind_assoc. eexists t, _, _, _. split; [exact Ht|]. split; [|reflexivity].
  unfold log0. rewrite !filter_app. cbn [filter is_function app]. now rewrite !app_nil_r.
Qed.
