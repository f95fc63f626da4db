(** Properties of the interpreter and of static_call (C10-C16, C53). *)

From Coq Require Import ZArith List Bool Lia ZifyBool ZifyNat.
From Verif Require Import Outcome VarIntModel CodecModel CodecSpec CodecProps InterpModel InterpSpec
  InterpProofs InterpCallProofs InterpSafe.
Import ListNotations.
Local Open Scope Z_scope.

(** C11: one instruction.  [reg_ok m i]: register [i] lies, aligned, inside the stack. *)
Theorem C11_nop_and_goto :
  forall m ip o q, op_at (m_code m) (ip - m_code_base m) o q ->
    match o with
    | ONop => step m ip = Ok (m, inl (m_code_base m + q))
    | OGoto off => step m ip = Ok (m, inl (m_code_base m + q + off))
    | _ => True
    end.
Proof. intros m ip [] q H; auto; [now apply step_nop|now apply step_goto]. Qed.
Print Assumptions C11_nop_and_goto.

Theorem C11_conditional_goto :
  forall m ip o q t off, op_at (m_code m) (ip - m_code_base m) o q -> reg_ok m t ->
    let tested := word (m_mem m) (m_sp m + 4 * t) in
    (o = OGotoIf t off ->
      (tested <> 0 -> step m ip = Ok (m, inl (m_code_base m + q + off))) /\
      (tested = 0 -> step m ip = Ok (m, inl (m_code_base m + q)))) /\
    (o = OGotoUnless t off ->
      (tested = 0 -> step m ip = Ok (m, inl (m_code_base m + q + off))) /\
      (tested <> 0 -> step m ip = Ok (m, inl (m_code_base m + q)))).
Proof.
  cbv zeta. intros m ip o q t off H Hr. split; intros ->; split; intros Ht.
  - erewrite step_goto_if; eauto. now replace (_ =? 0) with false by lia.
  - erewrite step_goto_if; eauto. now replace (_ =? 0) with true by lia.
  - erewrite step_goto_unless; eauto. now replace (_ =? 0) with true by lia.
  - erewrite step_goto_unless; eauto. now replace (_ =? 0) with false by lia.
Qed.
Print Assumptions C11_conditional_goto.

Theorem C11_arithmetic :
  forall m ip o q d l r, op_at (m_code m) (ip - m_code_base m) o q ->
    (forall a, is_byte (m_mem m a)) -> reg_ok m d -> reg_ok m l -> reg_ok m r ->
    let x := word (m_mem m) (m_sp m + 4 * l) in let y := word (m_mem m) (m_sp m + 4 * r) in
    forall v, (o = OAdd d l r /\ v = signed x + signed y \/ o = OSub d l r /\ v = signed x - signed y) ->
    (in_i32 v -> exists m', step m ip = Ok (m', inl (m_code_base m + q)) /\
      signed (word (m_mem m') (m_sp m + 4 * d)) = v /\
      same_but m m' (m_sp m + 4 * d) (m_sp m + 4 * d + 4)) /\
    (~ in_i32 v -> step m ip = UB SignedOverflow).
Proof.
  cbv zeta. intros m ip o q d l r H Hb Hd Hl Hr v Hv.
  set (x := word (m_mem m) (m_sp m + 4 * l)) in *. set (y := word (m_mem m) (m_sp m + 4 * r)) in *.
  assert (step m ip = if (- 2 ^ 31 <=? v) && (v <? 2 ^ 31)
    then Ok (with_mem m (update (m_mem m) (m_sp m + 4 * d) 4 (v mod 2 ^ 32)), inl (m_code_base m + q))
    else UB SignedOverflow) as ->.
  { destruct Hv as [(-> & ->)|(-> & ->)].
    - rewrite (step_add m ip q Hb d l r H Hd Hl Hr). fold x y. now rewrite signed_sum_mod.
    - rewrite (step_sub m ip q Hb d l r H Hd Hl Hr). fold x y. now rewrite signed_diff_mod. }
  pose proof (Z.mod_pos_bound v (2 ^ 32) ltac:(lia)) as B. unfold in_i32. split; intros Hi.
  - replace ((- 2 ^ 31 <=? v) && (v <? 2 ^ 31)) with true by lia. eexists. split; [reflexivity|].
    cbn [m_mem with_mem]. rewrite update_word_in by auto. split.
    + unfold signed. destruct (Z.ltb_spec v 0).
      * assert (v mod 2 ^ 32 = v + 2 ^ 32) as -> by (symmetry; apply (Z.mod_unique v (2 ^ 32) (-1)); lia).
        replace (v + 2 ^ 32 <? 2 ^ 31) with false by lia. lia.
      * rewrite Z.mod_small by lia. replace (v <? 2 ^ 31) with true by lia. lia.
    + unfold same_but. cbn [m_stack m_size m_code m_code_base m_ip m_sp m_fn m_func m_halted m_error m_mem with_mem].
      conjs; auto. intros a Ha. apply update_out. lia.
  - now replace ((- 2 ^ 31 <=? v) && (v <? 2 ^ 31)) with false by lia.
Qed.
Print Assumptions C11_arithmetic.

(** C11: exits record where they happened and change nothing else (unreachable sets the error
    flag); returns look at the frame tag. *)
Theorem C11_exits :
  forall m ip o q, op_at (m_code m) (ip - m_code_base m) o q ->
    forall m' r, step m ip = Ok (m', r) ->
    let at_ip := with_regs m ip (m_sp m) (m_fn m) in
    let error_at_ip := mkMach (m_mem m) (m_stack m) (m_size m) (m_code m) (m_code_base m) ip (m_sp m) (m_fn m) (m_func m) (m_halted m) true in
    match o with
    | OUnreachable => m' = error_at_ip /\ r = inr (EXIT 0)
    | OHalt => m' = at_ip /\ r = inr HALT
    | OReturn => m' = at_ip /\ r = inr (EXIT 0)
    | ORet32 s => m' = at_ip /\ r = inr (EXIT (m_sp m + 4 * s))
    | _ => exists next, r = inl next
    end.
Proof.
  cbv zeta. intros m ip o q H m' r E.
  destruct o.
  - erewrite step_nop in E by eauto. injection E as <- <-. eauto.
  - erewrite step_halt in E by eauto. injection E as <- <-. auto.
  - erewrite step_unreachable in E by eauto. injection E as <- <-. auto.
  - erewrite step_return in E by eauto. apply bind_ok in E as (tag & _ & E).
    destruct (_ =? _) in E; [|discriminate]. injection E as <- <-. auto.
  - erewrite step_ret32 in E by eauto. apply bind_ok in E as (? & _ & E). apply bind_ok in E as (tag & _ & E).
    destruct (_ =? _) in E; [|discriminate]. injection E as <- <-. auto.
  - erewrite step_goto in E by eauto. injection E as <- <-. eauto.
  - destruct H as (_ & _ & H). unfold step in E.
    revert E. pose proof (fetch _ _ _ _ 0%nat _ H eq_refl) as F. cbn [Z.of_nat] in F. rewrite Z.add_0_r in F.
    rewrite F. cbn [bind Z.eqb Pos.eqb]. intros E. inv_ok. eauto.
  - destruct H as (_ & _ & H). unfold step in E.
    revert E. pose proof (fetch _ _ _ _ 0%nat _ H eq_refl) as F. cbn [Z.of_nat] in F. rewrite Z.add_0_r in F.
    rewrite F. cbn [bind Z.eqb Pos.eqb]. intros E. inv_ok. eauto.
  - destruct H as (_ & _ & H). unfold step in E.
    revert E. pose proof (fetch _ _ _ _ 0%nat _ H eq_refl) as F. cbn [Z.of_nat] in F. rewrite Z.add_0_r in F.
    rewrite F. cbn [bind Z.eqb Pos.eqb]. intros E. inv_ok. eauto.
  - destruct H as (_ & _ & H). unfold step in E.
    revert E. pose proof (fetch _ _ _ _ 0%nat _ H eq_refl) as F. cbn [Z.of_nat] in F. rewrite Z.add_0_r in F.
    rewrite F. cbn [bind Z.eqb Pos.eqb]. intros E. inv_ok. eauto.
Qed.
Print Assumptions C11_exits.

(** C11: any other opcode stops the process. *)
Theorem C11_unknown_opcode :
  forall m ip b, 0 <= ip - m_code_base m ->
    nth_error (m_code m) (Z.to_nat (ip - m_code_base m)) = Some b ->
    ~ In b [0; 1; 4; 12; 13; 22; 23; 24; 106; 107] -> step m ip = Trap Assertion.
Proof.
  intros m ip b Hp H Hb. unfold step.
  pose proof (u8_at_nth m _ _ H Hp) as U. replace (m_code_base m + (ip - m_code_base m)) with ip in U by lia.
  rewrite U. cbn [bind]. cbn [In] in Hb.
  repeat match goal with |- context [b =? ?k] => destruct (Z.eqb_spec b k); [exfalso; apply Hb; subst; tauto|] end.
  reflexivity.
Qed.
Print Assumptions C11_unknown_opcode.

Example C11_instance :
  let m := mkMach (fun a => if a =? 4100 then 7 else 0) 4096 2048 [106; 0; 1; 1; 22; 254] 65536 0 4096 0 None true false in
  op_at (m_code m) 0 (OAdd 0 1 1) 4 /\ op_at (m_code m) 4 (OGoto (-2)) 6 /\ reg_ok m 0 /\ reg_ok m 1 /\
  word (m_mem m) (m_sp m + 4 * 1) = 7.
Proof.
  cbv zeta. split; [|split; [|split; [|split]]].
  - split; [repeat constructor; unfold is_byte; lia|]. split; [cbn; lia|]. exists [], [22; 254]. cbn. auto.
  - split; [constructor|]. split; [cbn; lia|]. exists [106; 0; 1; 1], []. cbn. auto.
  - unfold reg_ok, stack_ok; cbn. lia.
  - unfold reg_ok, stack_ok; cbn. lia.
  - reflexivity.
Qed.

(** * C10: calls compute what the abstract machine computes *)

Lemma ret_word m base n rs s v t : frame_words (m_mem m) base (Z.to_nat n) = rs -> 0 <= s -> reg rs s v ->
  wide t = false -> 0 < base -> m_stack m <= base -> base mod 4 = 0 ->
  base + 4 * n <= m_stack m + m_size m -> 0 <= n ->
  get_stack_elements m (base + 4 * s) [t] = Ok [v].
Proof.
  intros Hw Hs Hr Ht Hb H1 H2 H3 Hn. rewrite <- Hw in Hr. apply reg_frame in Hr as (L & ->); [|auto].
  unfold get_stack_elements. cbn [get_elements]. replace (base + 4 * s =? 0) with false by lia.
  change (nth_slot_offset 0 [t]) with 0. rewrite Z.add_0_r, sizeof_wide, Ht.
  rewrite load_ok; [reflexivity|]. apply stack_ok4; lia.
Qed.

(** Whenever the callee's code, run by the abstract machine of InterpSpec on the argument
    words, reaches an x32.return, the call returns that register's value (with any sufficient
    amount of fuel) and the caller's machine is as before. *)
Theorem C10_call_returns_register :
  forall dbg m f As xs t p rs s q v,
    can_call dbg m f As xs [t] -> wide t = false -> m_ip m mod 256 = 0 ->
    asteps (m_code m) (fi_body f - m_code_base m, initial_regs dbg m (fi_nregs f) As xs) (p, rs) ->
    op_at (m_code m) p (ORet32 s) q -> reg rs s v ->
    exists fuel0 m',
      (forall fuel, (fuel0 <= fuel)%nat -> static_call fuel dbg m f As xs [t] = Ok ([v], m')) /\
      restored m m' (frame_base dbg m (fi_nregs f)) (m_sp m).
Proof.
  intros dbg m f As xs t p rs s q v [Hroom Hb Hv Hn Ha Hh HA HR] Ht Hip Hs Ho Hr.
  pose proof Hroom as (R1 & R2 & R3 & R4 & R5 & R6 & R7 & R8 & R9 & R10).
  destruct (frame_bytes_facts dbg) as (F1 & F2).
  pose proof (op_regs _ _ _ _ s Ho ltac:(cbn; auto)) as Hsb.
  assert (forall mm, frame_words (m_mem mm) (frame_base dbg m (fi_nregs f)) (Z.to_nat (fi_nregs f)) = rs ->
    m_stack mm = m_stack m -> m_size mm = m_size m ->
    get_stack_elements mm (frame_base dbg m (fi_nregs f) + 4 * s) [t] = Ok [v]) as Hget.
  { intros mm E1 E2 E3. eapply (ret_word mm _ (fi_nregs f)); eauto; rewrite ?E2, ?E3; unfold frame_base; lia. }
  destruct (call_run dbg m f As [t] xs Hroom Hb Hv Hn Ha Hh HA HR p rs (ORet32 s) q
    (frame_base dbg m (fi_nregs f) + 4 * s)) as (fuel0 & r & m' & H1 & H2 & mm & M1 & M2 & M3 & M4); auto.
  { cbn. eauto. }
  { intros mm E1 E2 E3. eexists. eauto. }
  rewrite Hget in M4 by auto. injection M4 as <-. eauto.
Qed.
Print Assumptions C10_call_returns_register.

(** Functions without result: any exit will do. *)
Theorem C10_call_without_result :
  forall dbg m f As xs p rs o q,
    can_call dbg m f As xs [] -> m_ip m mod 256 = 0 ->
    asteps (m_code m) (fi_body f - m_code_base m, initial_regs dbg m (fi_nregs f) As xs) (p, rs) ->
    op_at (m_code m) p o q ->
    (o = OHalt \/ o = OReturn \/ o = OUnreachable \/ exists s v, o = ORet32 s /\ reg rs s v) ->
    exists fuel0 m',
      (forall fuel, (fuel0 <= fuel)%nat -> static_call fuel dbg m f As xs [] = Ok ([], m')) /\
      restored m m' (frame_base dbg m (fi_nregs f)) (m_sp m).
Proof.
  intros dbg m f As xs p rs o q [Hroom Hb Hv Hn Ha Hh HA HR] Hip Hs Ho Hx.
  assert (exists ptr, exit_ptr (frame_base dbg m (fi_nregs f)) o = Some ptr) as (ptr & Hptr).
  { destruct Hx as [->|[->|[->|(s & ? & -> & _)]]]; cbn; eauto. }
  assert (exit_reg rs o) as Hxr.
  { destruct Hx as [->|[->|[->|(s & v & -> & Hr)]]]; cbn; eauto. }
  destruct (call_run dbg m f As [] xs Hroom Hb Hv Hn Ha Hh HA HR p rs o q ptr)
    as (fuel0 & r & m' & H1 & H2 & mm & M1 & M2 & M3 & M4); auto.
  { intros. eexists. reflexivity. }
  unfold get_stack_elements in M4. injection M4 as <-. eauto.
Qed.
Print Assumptions C10_call_without_result.

(** End to end: describe a module, write it, compile it, load it anywhere, call a function
    of nop, i32.add and x32.return instructions. *)
Theorem C10_written_module_computes :
  forall mn bs md i d g dbg m As xs t v,
    fits mn -> write mn = Ok bs -> Z.of_nat (length bs) < 2 ^ 32 -> compile bs = Ok md ->
    nth_error (mn_funcs mn) i = Some d -> func_inst md (Z.of_nat i) = Ok g ->
    m_code m = bs -> m_ip m mod 256 = 0 ->
    let f := instance md (m_code_base m) g in
    can_call dbg m f As xs [t] -> wide t = false ->
    eval (fn_insns d) (initial_regs dbg m (fi_nregs f) As xs) = Some v ->
    exists fuel0 m',
      (forall fuel, (fuel0 <= fuel)%nat -> static_call fuel dbg m f As xs [t] = Ok ([v], m')) /\
      restored m m' (frame_base dbg m (fi_nregs f)) (m_sp m).
Proof.
  cbv zeta. intros mn bs md i d g dbg m As xs t v Hf Hw Hl Hc Hd Hg Hcode Hip Hcc Ht He.
  destruct (C07_func_inst mn bs md i d Hf Hw Hl Hc Hd) as (g' & Hg' & Hsame).
  rewrite Hg in Hg'. injection Hg' as <-. destruct Hsame as (ty & p' & _ & _ & _ & _ & _ & _ & _ & Hbody).
  assert (Forall insn_fits (fn_insns d)) as Hif.
  { destruct Hf as (_ & Hff). apply nth_error_In in Hd. rewrite Forall_forall in Hff.
    destruct (Hff d Hd) as (_ & _ & H). exact H. }
  rewrite <- Hcode in Hbody.
  destruct (eval_asteps (m_code m) (fn_insns d) Hif (f_body g) p' _ v Hbody He)
    as (p1 & rs1 & s & q & H1 & H2 & H3).
  eapply C10_call_returns_register; eauto. cbn [instance fi_body].
  replace (m_code_base m + f_body g - m_code_base m) with (f_body g) by lia. exact H1.
Qed.
Print Assumptions C10_written_module_computes.

(** A new interpreter has room for 502 registers. *)
Theorem C10_new_interpreter_has_room :
  forall dbg mem base code cb n, 0 < base -> base + 2048 < 2 ^ 64 -> base mod 8 = 0 -> 0 <= n <= 502 ->
    room dbg (new_interpreter mem base code cb) n.
Proof.
  intros. unfold room, new_interpreter; cbn [m_stack m_size m_sp m_ip m_fn].
  unfold frame_bytes. destruct dbg; lia.
Qed.
(** ... and nothing has gone wrong in it: unreachable sets the error flag (C11_exits), and no other
    instruction changes it. *)
Theorem C11_error_flag :
  (forall mem base code cb, m_error (new_interpreter mem base code cb) = false) /\
  forall m ip o q, op_at (m_code m) (ip - m_code_base m) o q -> forall m' r, step m ip = Ok (m', r) ->
    m_error m' = match o with OUnreachable => true | _ => m_error m end.
Proof.
  split; [reflexivity|]. intros m ip o q H m' r E.
  assert (G : exists opc, u8_at m ip = Ok opc /\ m_error m' = if opc =? 0 then true else m_error m).
  { clear H. unfold step in E. apply bind_ok in E as (opc & Eo & E). exists opc. split; [exact Eo|]. cbv zeta in E.
    destruct (opc =? 0); [injection E as <- _; reflexivity|].
    assert (St : forall a n v m1, store_stack m a n v = Ok m1 -> m_error m1 = m_error m).
    { intros a n v m1 S. unfold store_stack in S. apply bind_ok in S as (? & _ & S). injection S as <-. reflexivity. }
    repeat match type of E with
           | (if ?c then _ else _) = _ => destruct c
           | bind ?x _ = _ => let y := fresh "y" in let Y := fresh "Y" in apply bind_ok in E as (y & Y & E)
           | Ok _ = Ok _ => injection E as <- _
           end; try discriminate E; eauto. }
  destruct G as (opc & F & ->). destruct H as (_ & _ & H).
  assert (R : forall b rest, enc o = b :: rest -> opc = b).
  { intros b rest Eb. pose proof (fetch _ _ _ _ 0%nat b H) as F'. rewrite Eb in F'. cbn [Z.of_nat] in F'. rewrite Z.add_0_r in F'.
    rewrite F' in F by reflexivity. congruence. }
  destruct o; rewrite (R _ _ eq_refl); reflexivity.
Qed.
Print Assumptions C11_error_flag.
Print Assumptions C10_new_interpreter_has_room.

Definition sample_module : modnode :=
  mkMN [mkFT [127; 127] [127]; mkFT [] [126]]
       [mkFN 0 1 [I32Add 2 0 1; Nop; I32Add 2 2 2; X32Return 2]; mkFN 1 0 [Nop; Halt]].
Definition sample_bytes : bytes := match write sample_module with Ok b => b | _ => [] end.
Definition sample_compiled : module := match compile sample_bytes with Ok m => m | _ => mkModule [] [] [] end.
Definition sample_func : func := match func_inst sample_compiled 0 with Ok f => f | _ => mkFunc 0 0 0 0 0 0 0 end.
Definition sample_machine : mach := new_interpreter (fun _ => 0) 4096 sample_bytes 70000.

Example C10_instance :
  fits sample_module /\ write sample_module = Ok sample_bytes /\ Z.of_nat (length sample_bytes) < 2 ^ 32 /\
  compile sample_bytes = Ok sample_compiled /\ func_inst sample_compiled 0 = Ok sample_func /\
  can_call true sample_machine (instance sample_compiled 70000 sample_func) [Int32; Uint32] [2 ^ 32 - 5; 12] [Int32] /\
  eval [I32Add 2 0 1; Nop; I32Add 2 2 2; X32Return 2]
    (initial_regs true sample_machine 3 [Int32; Uint32] [2 ^ 32 - 5; 12]) = Some 14.
Proof.
  split; [|split; [|split; [|split; [|split; [|split]]]]].
  - repeat constructor; cbn; unfold is_byte; try lia.
  - reflexivity.
  - cbn. lia.
  - vm_compute. reflexivity.
  - vm_compute. reflexivity.
  - constructor.
    + apply C10_new_interpreter_has_room; [lia|lia|reflexivity|vm_compute; split; discriminate].
    + intros a. cbn. unfold is_byte. lia.
    + repeat constructor; cbn; lia.
    + vm_compute. discriminate.
    + vm_compute. repeat split; discriminate.
    + reflexivity.
    + vm_compute. reflexivity.
    + vm_compute. reflexivity.
  - vm_compute. reflexivity.
Qed.

(** * C12 *)

(** A call that returns leaves ip, sp, fn and everything except the callee's own frame as it
    was, whatever the callee's code, provided it names only registers of its own frame. *)
Theorem C12_caller_state_restored :
  forall fuel dbg m f As xs Rs r m',
    machine64 m -> is_bytes (m_code m) ->
    own_regs (m_code m) (fi_body f - m_code_base m) (fi_nregs f) ->
    words_taken As <= fi_nregs f -> length xs = length As ->
    static_call fuel dbg m f As xs Rs = Ok (r, m') ->
    restored m m' (frame_base dbg m (fi_nregs f)) (m_sp m).
Proof. intros. eapply static_call_inv; eauto. Qed.
Print Assumptions C12_caller_state_restored.

Lemma app_inj_len {A} (a b c d : list A) : a ++ b = c ++ d -> length a = length c -> a = c /\ b = d.
Proof.
  revert c; induction a as [|x a IH]; intros [|y c] H L; cbn in *; try lia; [auto|].
  injection H as -> H. destruct (IH c H ltac:(lia)) as (-> & ->). auto.
Qed.

(** A decidable way to see [own_regs] and [closed] for straight code: the positions reachable
    from [start] are among [ps]. *)
Lemma cfg_in code start (ps : list (Z * op * Z)) :
  (exists o q, In (start, o, q) ps) ->
  (forall p o q, In (p, o, q) ps -> op_at code p o q /\
     (match o with ONop | OGotoIf _ _ | OGotoUnless _ _ | OAdd _ _ _ | OSub _ _ _ => exists o' q', In (q, o', q') ps | _ => True end) /\
     (match o with OGoto _ | OGotoIf _ _ | OGotoUnless _ _ => exists o' q', In (q + off_of o, o', q') ps | _ => True end)) ->
  forall p, cfg code start p -> exists o q, In (p, o, q) ps.
Proof.
  intros H0 Hs p H. induction H as [|p q H IH Hsucc]; [auto|].
  destruct IH as (o & q' & Hin). destruct (Hs _ _ _ Hin) as (Ho & Hn & Hj).
  assert (forall o1 q1, op_at code p o1 q1 -> o1 = o /\ q1 = q') as Uniq.
  { intros o1 q1 (A1 & A2 & A3). destruct Ho as (B1 & B2 & B3).
    destruct A3 as (pre & post & E & L & ->). destruct B3 as (pre' & post' & E' & L' & ->).
    assert (pre = pre' /\ enc o1 ++ post = enc o ++ post') as (-> & EE).
    { rewrite E in E'. apply app_inj_len in E'; [auto|lia]. }
    assert (o1 = o) as ->; [|auto].
    clear - EE A1 A2 B1 B2.
    destruct o1, o; cbn [enc app] in EE; try discriminate EE; try reflexivity;
      injection EE; intros; subst; try reflexivity; cbn [off_of] in *;
      repeat match goal with
      | X : ?a mod 256 = ?b mod 256 |- _ =>
          assert (a = b) by (rewrite <- (to_signed_off a), <- (to_signed_off b), X; auto); clear X
      end; subst; reflexivity. }
  destruct Hsucc as [o1 q1 H1 Hk|o1 q1 H1 Hk].
  - destruct (Uniq _ _ H1) as (-> & ->). destruct o; try contradiction; exact Hn.
  - destruct (Uniq _ _ H1) as (-> & ->). destruct o; try contradiction; exact Hj.
Qed.

(** A loop: r0 := r0 - r1 until r0 is 0, then return r2. *)
Definition loop_code : bytes := [107; 0; 0; 1; 23; 0; 249; 13; 2].
Definition loop_ops : list (Z * op * Z) :=
  [(0, OSub 0 0 1, 4); (4, OGotoIf 0 (-7), 7); (7, ORet32 2, 9)].
Lemma loop_ops_ok : forall p o q, In (p, o, q) loop_ops -> op_at loop_code p o q /\
     (match o with ONop | OGotoIf _ _ | OGotoUnless _ _ | OAdd _ _ _ | OSub _ _ _ => exists o' q', In (q, o', q') loop_ops | _ => True end) /\
     (match o with OGoto _ | OGotoIf _ _ | OGotoUnless _ _ => exists o' q', In (q + off_of o, o', q') loop_ops | _ => True end).
Proof.
  intros p o q [E|[E|[E|[]]]]; injection E as <- <- <-.
  - split; [|split; [|exact I]].
    + split; [repeat constructor; unfold is_byte; lia|]. split; [cbn; lia|]. exists [], [23; 0; 249; 13; 2]. auto.
    + eexists _, _. right. left. reflexivity.
  - split; [|split].
    + split; [repeat constructor; unfold is_byte; lia|]. split; [cbn; lia|]. exists [107; 0; 0; 1], [13; 2]. auto.
    + eexists _, _. right. right. left. reflexivity.
    + eexists _, _. left. reflexivity.
  - split; [|split; exact I].
    split; [repeat constructor; unfold is_byte; lia|]. split; [cbn; lia|]. exists [107; 0; 0; 1; 23; 0; 249], []. auto.
Qed.
Lemma loop_cfg : forall p, cfg loop_code 0 p -> exists o q, In (p, o, q) loop_ops.
Proof. apply cfg_in; [|apply loop_ops_ok]. eexists _, _. left. reflexivity. Qed.

Lemma op_at_fun code p o q o' q' : op_at code p o q -> op_at code p o' q' -> o = o' /\ q = q'.
Proof.
  intros (A1 & A2 & A3) (B1 & B2 & B3).
  destruct A3 as (pre & post & E & L & ->). destruct B3 as (pre' & post' & E' & L' & ->).
  assert (pre = pre' /\ enc o ++ post = enc o' ++ post') as (-> & EE).
  { rewrite E in E'. apply app_inj_len in E'; [auto|lia]. }
  assert (o = o') as ->; [|auto].
  clear - EE A1 A2 B1 B2.
  destruct o, o'; cbn [enc app] in EE; try discriminate EE; try reflexivity;
    injection EE; intros; subst; try reflexivity; cbn [off_of] in *;
    repeat match goal with
    | X : ?a mod 256 = ?b mod 256 |- _ =>
        assert (a = b) by (rewrite <- (to_signed_off a), <- (to_signed_off b), X; auto); clear X
    end; subst; reflexivity.
Qed.

Lemma loop_own : own_regs loop_code 0 3.
Proof.
  intros p o q Hc Ho. destruct (loop_cfg p Hc) as (o' & q' & Hin).
  destruct (loop_ops_ok _ _ _ Hin) as (Ho' & _). destruct (op_at_fun _ _ _ _ _ _ Ho Ho') as (-> & ->).
  destruct Hin as [E|[E|[E|[]]]]; injection E as <- <- <-; repeat constructor; lia.
Qed.
Lemma loop_closed : closed loop_code 0.
Proof.
  intros p Hc. destruct (loop_cfg p Hc) as (o' & q' & Hin). destruct (loop_ops_ok _ _ _ Hin) as (Ho' & _). eauto.
Qed.
Lemma loop_returns : returns_word loop_code 0.
Proof.
  intros p o q Hc Ho. destruct (loop_cfg p Hc) as (o' & q' & Hin).
  destruct (loop_ops_ok _ _ _ Hin) as (Ho' & _). destruct (op_at_fun _ _ _ _ _ _ Ho Ho') as (-> & ->).
  destruct Hin as [E|[E|[E|[]]]]; injection E as <- <- <-; exact I.
Qed.

Definition loop_machine : mach := new_interpreter (fun _ => 171) 4096 loop_code 70000.
Definition loop_func : finst := mkFI (mkFT [127; 127; 127] [127]) 3 70000.

Example C12_instance :
  machine64 loop_machine /\ is_bytes (m_code loop_machine) /\
  own_regs (m_code loop_machine) (fi_body loop_func - m_code_base loop_machine) (fi_nregs loop_func) /\
  match static_call 100 true loop_machine loop_func [Int32; Int32; Int32] [12; 3; 99] [Int32] with
  | Ok (r, m') => r = [99] /\
      m_mem m' (frame_base true loop_machine 3 + 4) <> m_mem loop_machine (frame_base true loop_machine 3 + 4)
  | _ => False
  end.
Proof.
  split; [|split; [|split]].
  - unfold machine64; cbn. lia.
  - repeat constructor; unfold is_byte; lia.
  - exact loop_own.
  - vm_compute. split; [reflexivity|discriminate].
Qed.

(** * C13: recursive entry *)

(** False in general: when the interrupted activation's instruction pointer does not end in a
    zero byte, the callee's return takes it for the tag of its frame and stops the process. *)
Theorem C13_nested_call_aborts_refuted :
  forall fuel dbg m f As xs Rs p rs o q,
    can_call dbg m f As xs Rs -> m_ip m mod 256 <> 0 ->
    asteps (m_code m) (fi_body f - m_code_base m, initial_regs dbg m (fi_nregs f) As xs) (p, rs) ->
    op_at (m_code m) p o q -> (o = OReturn \/ exists s v, o = ORet32 s /\ reg rs s v) ->
    static_call fuel dbg m f As xs Rs = OutOfFuel \/ static_call fuel dbg m f As xs Rs = Trap Assertion.
Proof.
  intros fuel dbg m f As xs Rs p rs o q [Hroom Hb Hv Hn Ha Hh HA HR] Hip Hs Ho Hx.
  eapply (call_bad_tag dbg m f As Rs xs Hroom Hb Hv Hn Ha HA HR p rs o q); auto.
  - destruct Hx as [->|(s & v & -> & _)]; reflexivity.
  - destruct Hx as [->|(s & v & -> & Hr)]; cbn; eauto.
Qed.
Print Assumptions C13_nested_call_aborts_refuted.

(** The same call at top level, and after a first call was entered with enter_native_frame and
    enter_interpreter (and not left yet), with the same function: the second one never
    returns.  With the module loaded 7 bytes lower it does. *)
Example C13_nested_witness_refuted :
  let nested (cb : Z) :=
    let m := new_interpreter (fun _ => 171) 4096 loop_code cb in
    let f := mkFI (mkFT [127; 127; 127] [127]) 4 cb in
    do m <- enter_native_frame false m 4;
    do m <- set_stack_elements m (m_sp m) [Int32; Int32; Int32] [12; 3; 99];
    do (m, p) <- enter_interpreter 100 m f;
    do (r, m) <- static_call 100 false m f
                   [Int32; Int32; Int32] [12; 3; 98] [Int32];
    Ok r in
  (do (r, m) <- static_call 100 false (new_interpreter (fun _ => 171) 4096 loop_code 65536)
     (mkFI (mkFT [127; 127; 127] [127]) 4 65536) [Int32; Int32; Int32] [12; 3; 99] [Int32]; Ok r) = Ok [99] /\
  nested 65536 = Trap Assertion /\ nested 65529 = Ok [98].
Proof.
  cbv zeta. split; [vm_compute; reflexivity|]. split; vm_compute; reflexivity.
Qed.

(** What holds: an inner call behaves as one at top level when that byte is zero, and the
    outer activation's registers and memory are unaffected. *)
Theorem C13_inner_call_partial :
  forall dbg m f As xs t p rs s q v,
    can_call dbg m f As xs [t] -> wide t = false -> m_ip m mod 256 = 0 ->
    asteps (m_code m) (fi_body f - m_code_base m, initial_regs dbg m (fi_nregs f) As xs) (p, rs) ->
    op_at (m_code m) p (ORet32 s) q -> reg rs s v ->
    exists fuel0 m',
      (forall fuel, (fuel0 <= fuel)%nat -> static_call fuel dbg m f As xs [t] = Ok ([v], m')) /\
      m_ip m' = m_ip m /\ m_sp m' = m_sp m /\ m_fn m' = m_fn m /\
      forall a, m_sp m <= a -> m_mem m' a = m_mem m a.
Proof.
  intros. edestruct C10_call_returns_register as (fuel0 & m' & E & R); eauto.
  exists fuel0, m'. destruct R as (A & B & C & _ & _ & _ & _ & _ & D). conjs; auto.
  intros a Ha. apply D. lia.
Qed.
Print Assumptions C13_inner_call_partial.

(** * C14: staying inside the stack *)

(** What holds: with room for the frame, a callee that names only its own registers and whose
    control stays inside its code, the only undefined behaviour possible is signed overflow. *)
Theorem C14_safe_call_partial :
  forall fuel dbg m f As xs Rs,
    can_call dbg m f As xs Rs -> is_bytes (m_code m) ->
    own_regs (m_code m) (fi_body f - m_code_base m) (fi_nregs f) ->
    closed (m_code m) (fi_body f - m_code_base m) ->
    (Rs = [] \/ exists t, Rs = [t] /\ wide t = false /\
       returns_word (m_code m) (fi_body f - m_code_base m)) ->
    at_most_overflow (static_call fuel dbg m f As xs Rs).
Proof. intros. now apply call_safe. Qed.
Print Assumptions C14_safe_call_partial.

Example C14_instance :
  can_call true loop_machine loop_func [Int32; Int32; Int32] [12; 3; 99] [Int32] /\
  own_regs (m_code loop_machine) (fi_body loop_func - m_code_base loop_machine) 3 /\
  closed (m_code loop_machine) (fi_body loop_func - m_code_base loop_machine) /\
  returns_word (m_code loop_machine) (fi_body loop_func - m_code_base loop_machine) /\
  static_call 100 true loop_machine loop_func [Int32; Int32; Int32] [2 ^ 31; 1; 99] [Int32] = UB SignedOverflow.
Proof.
  split; [|split; [exact loop_own|split; [exact loop_closed|split; [exact loop_returns|vm_compute; reflexivity]]]].
  constructor; try reflexivity.
  - apply C10_new_interpreter_has_room; try lia; try reflexivity. cbn; lia.
  - intros a. cbn. unfold is_byte. lia.
  - repeat constructor; cbn; lia.
  - cbn. lia.
Qed.

(** False in general: nothing compares the callee's register count with the stack.  If the
    save area fits but the registers do not, storing the first argument is out of bounds. *)
Theorem C14_large_frame_refuted :
  forall fuel dbg m f t ts x xs Rs,
    room dbg m 0 -> frame_base dbg m (fi_nregs f) < m_stack m ->
    map to_val_type (t :: ts) = ft_args (fi_type f) -> map to_val_type Rs = ft_rets (fi_type f) ->
    static_call fuel dbg m f (t :: ts) (x :: xs) Rs = UB OutOfBounds.
Proof.
  intros fuel dbg m f t ts x xs Rs Hroom Hlow HA HR. unfold static_call.
  rewrite (proj2 (types_match_spec _ _) HA), (proj2 (types_match_spec _ _) HR). cbn [ab_assert bind].
  destruct (enter_ok0 dbg m (fi_nregs f) Hroom) as (m1 & E1). rewrite E1. cbn [bind].
  destruct (frame_bytes_facts dbg) as (_ & F2).
  assert (machine64 m) as H64 by (unfold machine64, room in *; lia).
  assert (m_stack m <= m_sp m) by (unfold room, frame_bytes in *; destruct dbg; lia).
  destruct (enter_inv _ _ _ _ H64 E1) as (mem1 & -> & _).
  unfold set_stack_elements. cbn [combine set_elements].
  change (nth_slot_offset 0 (t :: ts)) with 0. unfold store_stack, check_stack.
  cbn [pushed with_regs with_mem m_sp m_stack m_size].
  replace (m_stack m <=? frame_base dbg m (fi_nregs f) + 0) with false by lia. reflexivity.
Qed.
Print Assumptions C14_large_frame_refuted.

(** Modules that compile accepts and whose calls leave the stack: [k] registers. *)
Definition module_with (nregs : Z) (is : list insn) : bytes :=
  match write (mkMN [mkFT [127] []] [mkFN 0 nregs is]) with Ok b => b | _ => [] end.
Definition call_module (bs : bytes) (xs : list Z) : outcome (list Z * mach) :=
  do md <- compile bs; do g <- func_inst md 0;
  static_call 100 false (new_interpreter (fun _ => 0) 4096 bs 65536) (instance md 65536 g) [Int32] xs [].

Example C14_witnesses_refuted :
  call_module (module_with 504 [Halt]) [1] = UB OutOfBounds /\           (* too many registers *)
  call_module (module_with 0 [I32Add 255 0 0; Halt]) [1] = UB OutOfBounds /\  (* register 255 of 1 *)
  (* registers beyond the frame are the saved state: the caller's stack pointer is moved above
     the end of the stack, and the next call writes there *)
  match call_module (module_with 0 [I32Add 3 3 0; Halt]) [256] with
  | Ok (r, m) => r = [] /\ m_sp m = m_stack m + m_size m + 256 /\
      static_call 100 false m (mkFI (mkFT [] []) 0 65536) [] [] [] = UB OutOfBounds
  | _ => False
  end.
Proof.
  split; [vm_compute; reflexivity|]. split; [vm_compute; reflexivity|].
  vm_compute. auto.
Qed.

(** * C15: argument slots *)

(** The slots of successive values: consecutive, in order, disjoint; together they are the
    argument registers of the function type (a 32-bit count). *)
Theorem C15_slots :
  forall ts,
    nth_slot_index 0 ts = 0 /\
    (forall i t, nth_error ts i = Some t ->
       nth_slot_index (S i) ts = nth_slot_index i ts + (if wide t then 2 else 1)) /\
    (forall i j t, (i < j)%nat -> (j <= length ts)%nat -> nth_error ts i = Some t ->
       nth_slot_index i ts + (if wide t then 2 else 1) <= nth_slot_index j ts) /\
    forall rets, arg_nregs (mkFT (map to_val_type ts) rets) = nth_slot_index (length ts) ts mod 2 ^ 32.
Proof.
  intros ts.
  assert (forall i t, nth_error ts i = Some t ->
    nth_slot_index (S i) ts = nth_slot_index i ts + (if wide t then 2 else 1)) as Hstep.
  { unfold nth_slot_index. intros i. revert ts. induction i as [|i IH]; intros [|t0 ts] t H; try discriminate.
    - injection H as ->. cbn. rewrite slot_sizeof_wide. lia.
    - cbn [firstn map fold_right] in *. rewrite (IH ts t H). lia. }
  split; [reflexivity|]. split; [exact Hstep|]. split.
  - intros i j t Hij Hj Ht. rewrite <- (Hstep i t Ht).
    induction Hij as [|j Hij IH]; [lia|].
    destruct (nth_error ts j) as [u|] eqn:E; [|apply nth_error_None in E; lia].
    rewrite (Hstep j u E). specialize (IH ltac:(lia)). destruct (wide u); lia.
  - intros rets. unfold arg_nregs, nth_slot_index. cbn [ft_args]. rewrite firstn_all.
    assert (forall acc, sum_nregs acc (map to_val_type ts) mod 2 ^ 32 =
      (acc + fold_right Z.add 0 (map slot_sizeof ts)) mod 2 ^ 32) as G.
    { clear. induction ts as [|t ts IH]; intros acc; cbn [map sum_nregs fold_right]; [f_equal; lia|].
      rewrite IH. rewrite Zplus_mod_idemp_l. f_equal.
      assert (nreg (to_val_type t) = slot_sizeof t) as -> by now destruct t. lia. }
    specialize (G 0). rewrite Z.add_0_l in G. rewrite <- G. symmetry. apply Z.mod_small.
    clear. assert (forall acc, 0 <= acc < 2 ^ 32 -> 0 <= sum_nregs acc (map to_val_type ts) < 2 ^ 32) as B.
    { induction ts as [|t ts IH]; intros acc Ha; cbn [map sum_nregs]; [auto|]. apply IH. apply Z.mod_pos_bound. lia. }
    apply B. lia.
Qed.
Print Assumptions C15_slots.

(** Storing a tuple and reading it back (addresses inside the stack and aligned). *)
Theorem C15_store_then_read :
  forall m base ts xs,
    Forall2 value_ok ts xs -> m_stack m <= base -> 0 < base -> base mod 4 = 0 ->
    base + 4 * words_taken ts <= m_stack m + m_size m -> aligned_args base ts ->
    exists m', set_stack_elements m base ts xs = Ok m' /\ get_stack_elements m' base ts = Ok xs /\
      same_but m m' base (base + 4 * words_taken ts).
Proof.
  intros m base ts xs Hv H1 H0 H2 H3 H4.
  destruct (set_elements_ok [] ts xs Hv m base H1 H2) as (mem' & E & _ & Ho & Hw).
  { exact H3. } { cbn [words_taken]. rewrite Z.mul_0_r, Z.add_0_r. exact H4. }
  cbn [app words_taken] in Ho, Hw. rewrite Z.mul_0_r, Z.add_0_r in Ho, Hw.
  exists (with_mem m mem'). split; [exact E|]. split.
  - apply (get_elements_ok ts xs Hv [] (with_mem m mem') base); cbn [app words_taken m_stack m_size m_mem with_mem]; auto;
      rewrite Z.mul_0_r, Z.add_0_r; auto.
  - unfold same_but. cbn [m_stack m_size m_code m_code_base m_ip m_sp m_fn m_func m_halted m_error m_mem with_mem].
    conjs; auto.
Qed.
Print Assumptions C15_store_then_read.

Example C15_instance :
  Forall2 value_ok [Int64; Float; Uint32; Double] [2 ^ 63 + 5; 7; 2 ^ 32 - 1; 9] /\
  aligned_args 4096 [Int64; Float; Uint32; Double] /\ words_taken [Int64; Float; Uint32; Double] = 6 /\
  (do m <- set_stack_elements loop_machine 4096 [Int64; Float; Uint32; Double] [2 ^ 63 + 5; 7; 2 ^ 32 - 1; 9];
   get_stack_elements m 4096 [Int64; Float; Uint32; Double]) = Ok [2 ^ 63 + 5; 7; 2 ^ 32 - 1; 9].
Proof.
  split; [repeat constructor; cbn; lia|]. split; [vm_compute; repeat split; try reflexivity; discriminate|].
  split; vm_compute; reflexivity.
Qed.

(** * C53: alignment of 64-bit arguments *)

(** False: a 64-bit argument after a 32-bit one is stored at an address that is not a multiple
    of eight, undefined in C++, as is a first 64-bit argument when the register count is odd. *)
Theorem C53_second_argument_refuted :
  forall fuel dbg m f t1 t2 x1 x2 Rs,
    room dbg m (fi_nregs f) -> 3 <= fi_nregs f -> wide t1 = false -> wide t2 = true ->
    fi_nregs f mod 2 = 0 ->
    map to_val_type [t1; t2] = ft_args (fi_type f) -> map to_val_type Rs = ft_rets (fi_type f) ->
    static_call fuel dbg m f [t1; t2] [x1; x2] Rs = UB Misaligned.
Proof.
  intros fuel dbg m f t1 t2 x1 x2 Rs Hroom Hn W1 W2 Hev HA HR.
  pose proof Hroom as (R1 & R2 & R3 & R4 & R5 & R6 & R7 & R8 & R9 & R10).
  destruct (frame_bytes_facts dbg) as (F1 & F2). unfold static_call.
  rewrite (proj2 (types_match_spec _ _) HA), (proj2 (types_match_spec _ _) HR). cbn [ab_assert bind].
  destruct (enter_ok dbg m (fi_nregs f) Hroom) as (m1 & E1). rewrite E1. cbn [bind].
  assert (machine64 m) as H64 by (unfold machine64; lia).
  destruct (enter_inv _ _ _ _ H64 E1) as (mem1 & -> & _).
  unfold set_stack_elements. cbn [combine set_elements].
  change (nth_slot_offset 0 [t1; t2]) with 0.
  assert (nth_slot_offset 1 [t1; t2] = 4) as ->
    by (unfold nth_slot_offset, nth_slot_index; cbn; rewrite slot_sizeof_wide, W1; reflexivity).
  rewrite Z.add_0_r. cbn [m_sp pushed with_regs]. rewrite sizeof_wide, W1.
  set (base := frame_base dbg m (fi_nregs f)).
  assert (base = m_sp m - frame_bytes dbg - 4 * fi_nregs f) as Eb by reflexivity.
  rewrite store_ok. 2: { apply stack_ok4; cbn [m_stack m_size pushed with_regs with_mem]; lia. }
  cbn [bind]. rewrite sizeof_wide, W2. unfold store_stack, check_stack.
  cbn [m_stack m_size pushed with_regs with_mem].
  replace ((m_stack m <=? base + 4) && (base + 4 + Z.of_nat 8 <=? m_stack m + m_size m)) with true by lia.
  cbn [negb]. replace ((base + 4) mod Z.of_nat 8 =? 0) with false; [reflexivity|].
  change (Z.of_nat 8) with 8. lia.
Qed.
Print Assumptions C53_second_argument_refuted.

Theorem C53_odd_registers_refuted :
  forall fuel dbg m f t x Rs,
    room dbg m (fi_nregs f) -> 2 <= fi_nregs f -> wide t = true -> fi_nregs f mod 2 = 1 ->
    map to_val_type [t] = ft_args (fi_type f) -> map to_val_type Rs = ft_rets (fi_type f) ->
    static_call fuel dbg m f [t] [x] Rs = UB Misaligned.
Proof.
  intros fuel dbg m f t x Rs Hroom Hn W Hodd HA HR.
  pose proof Hroom as (R1 & R2 & R3 & R4 & R5 & R6 & R7 & R8 & R9 & R10).
  destruct (frame_bytes_facts dbg) as (F1 & F2). unfold static_call.
  rewrite (proj2 (types_match_spec _ _) HA), (proj2 (types_match_spec _ _) HR). cbn [ab_assert bind].
  destruct (enter_ok dbg m (fi_nregs f) Hroom) as (m1 & E1). rewrite E1. cbn [bind].
  assert (machine64 m) as H64 by (unfold machine64; lia).
  destruct (enter_inv _ _ _ _ H64 E1) as (mem1 & -> & _).
  unfold set_stack_elements. cbn [combine set_elements].
  change (nth_slot_offset 0 [t]) with 0. rewrite Z.add_0_r. cbn [m_sp pushed with_regs]. rewrite sizeof_wide, W.
  set (base := frame_base dbg m (fi_nregs f)).
  assert (base = m_sp m - frame_bytes dbg - 4 * fi_nregs f) as Eb by reflexivity.
  unfold store_stack, check_stack. cbn [m_stack m_size pushed with_regs with_mem].
  replace ((m_stack m <=? base) && (base + Z.of_nat 8 <=? m_stack m + m_size m)) with true by lia.
  cbn [negb]. replace (base mod Z.of_nat 8 =? 0) with false; [reflexivity|].
  change (Z.of_nat 8) with 8. lia.
Qed.
Print Assumptions C53_odd_registers_refuted.

(** Exactly when: a call with room for its frame in which some 64-bit argument falls on an
    address that is not a multiple of eight is undefined; if none does, all are stored, at
    aligned addresses (and [C14_safe_call_partial], [C10_call_returns_register] apply). *)
Lemma set_elements_misaligned ts : forall pre xs m base, length xs = length ts ->
  m_stack m <= base -> base mod 4 = 0 -> base + 4 * words_taken (pre ++ ts) <= m_stack m + m_size m ->
  ~ aligned_args (base + 4 * words_taken pre) ts ->
  set_elements m base (pre ++ ts) (length pre) (combine ts xs) = UB Misaligned.
Proof.
  induction ts as [|t ts IH]; intros pre xs m base Hl H1 H2 H3 H4; [elim H4; exact I|].
  destruct xs as [|x xs]; [discriminate|]. cbn [combine set_elements]. rewrite slot_offset.
  cbn [aligned_args] in H4. rewrite words_taken_app in H3. cbn [words_taken] in H3.
  pose proof (words_taken_pos pre) as Hp. pose proof (words_taken_pos ts) as Ht.
  set (a := base + 4 * words_taken pre) in *.
  assert (a mod 4 = 0) as Ha4. { unfold a. rewrite (Z.mul_comm 4), Z_mod_plus_full. auto. }
  assert ((wide t = true /\ a mod 8 <> 0) \/ stack_ok m a (sizeof t)) as [[W Ha]|Hok].
  { rewrite sizeof_wide. destruct (wide t) eqn:W.
    - destruct (Z.eq_dec (a mod 8) 0); [right; apply stack_ok8; unfold a in *; lia|auto].
    - right. apply stack_ok4; unfold a in *; lia. }
  - rewrite sizeof_wide, W. unfold store_stack, check_stack.
    rewrite W in H3.
    replace ((m_stack m <=? a) && (a + Z.of_nat 8 <=? m_stack m + m_size m)) with true by (unfold a in *; lia).
    cbn [negb]. replace (a mod Z.of_nat 8 =? 0) with false; [reflexivity|]. change (Z.of_nat 8) with 8. lia.
  - rewrite store_ok by exact Hok. cbn [bind].
    replace (S (length pre)) with (length (pre ++ [t])) by (rewrite app_length; cbn; lia).
    replace (pre ++ t :: ts) with ((pre ++ [t]) ++ ts) by now rewrite <- app_assoc.
    assert (base + 4 * words_taken (pre ++ [t]) = a + if wide t then 8 else 4) as E1.
    { rewrite words_taken_app. cbn [words_taken]. unfold a. destruct (wide t); lia. }
    apply IH; cbn [m_stack m_size with_mem]; auto.
    + rewrite !words_taken_app. cbn [words_taken]. lia.
    + rewrite E1. intros H. apply H4. split; [|exact H]. intros W.
      rewrite sizeof_wide, W in Hok. destruct Hok as (_ & _ & Hok). exact Hok.
Qed.

Theorem C53_when_aligned_partial :
  forall fuel dbg m f As xs Rs,
    room dbg m (fi_nregs f) -> words_taken As <= fi_nregs f -> Forall2 value_ok As xs ->
    map to_val_type As = ft_args (fi_type f) -> map to_val_type Rs = ft_rets (fi_type f) ->
    (aligned_args (frame_base dbg m (fi_nregs f)) As ->
       exists m1 m2, enter_native_frame dbg m (fi_nregs f) = Ok m1 /\
         set_stack_elements m1 (frame_base dbg m (fi_nregs f)) As xs = Ok m2 /\
         get_stack_elements m2 (frame_base dbg m (fi_nregs f)) As = Ok xs) /\
    (~ aligned_args (frame_base dbg m (fi_nregs f)) As ->
       static_call fuel dbg m f As xs Rs = UB Misaligned).
Proof.
  intros fuel dbg m f As xs Rs Hroom Hn Hv HA HR.
  pose proof Hroom as (R1 & R2 & R3 & R4 & R5 & R6 & R7 & R8 & R9 & R10).
  destruct (frame_bytes_facts dbg) as (F1 & F2).
  destruct (enter_ok dbg m (fi_nregs f) Hroom) as (m1 & E1).
  assert (machine64 m) as H64 by (unfold machine64; lia).
  pose proof E1 as E1'.
  destruct (enter_inv _ _ _ _ H64 E1) as (mem1 & -> & _).
  set (base := frame_base dbg m (fi_nregs f)) in *.
  assert (base = m_sp m - frame_bytes dbg - 4 * fi_nregs f) as Eb by reflexivity.
  assert (base mod 4 = 0) as Hb4 by lia.
  split; intros Hal.
  - destruct (C15_store_then_read (pushed m mem1 base) base As xs) as (m2 & Es & Eg & _);
      cbn [m_stack m_size pushed with_regs with_mem]; auto; try lia.
    exists (pushed m mem1 base), m2. auto.
  - unfold static_call.
    rewrite (proj2 (types_match_spec _ _) HA), (proj2 (types_match_spec _ _) HR). cbn [ab_assert bind].
    rewrite E1'. cbn [bind]. unfold set_stack_elements.
    pose proof (set_elements_misaligned As [] xs (pushed m mem1 base) base) as E.
    cbn [app words_taken length m_stack m_size pushed with_regs with_mem] in E.
    cbn [m_sp pushed with_regs]. rewrite E; [reflexivity| | | | |].
    + clear - Hv. induction Hv; cbn [length]; congruence.
    + lia.
    + exact Hb4.
    + lia.
    + rewrite Z.mul_0_r, Z.add_0_r. exact Hal.
Qed.
Print Assumptions C53_when_aligned_partial.

(** In particular every call of a function with an even number of registers whose 64-bit
    arguments come first. *)
Theorem C53_wide_first_partial :
  forall dbg m n wides narrows,
    room dbg m n -> n mod 2 = 0 ->
    Forall (fun t => wide t = true) wides -> Forall (fun t => wide t = false) narrows ->
    aligned_args (frame_base dbg m n) (wides ++ narrows).
Proof.
  intros dbg m n ws ns Hroom Hn Hw Hs.
  pose proof Hroom as (R1 & R2 & R3 & R4 & R5 & R6 & R7 & R8 & R9 & R10).
  destruct (frame_bytes_facts dbg) as (F1 & F2).
  assert (forall a, aligned_args a ns) as Hns.
  { clear - Hs. induction Hs as [|t ns Ht Hs IH]; intros a; cbn [aligned_args]; [exact I|].
    split; [congruence|apply IH]. }
  assert (frame_base dbg m n mod 8 = 0) as Hb by (unfold frame_base; lia).
  revert Hb. generalize (frame_base dbg m n) as a.
  clear - Hw Hns. induction Hw as [|t ws Ht Hw IH]; intros a Ha; cbn [app aligned_args]; [apply Hns|].
  rewrite Ht. split; [auto|]. apply IH. lia.
Qed.
Print Assumptions C53_wide_first_partial.

Example C53_instance :
  let f := mkFI (mkFT [127; 126] [127]) 4 70000 in
  room false loop_machine (fi_nregs f) /\ map to_val_type [Int32; Int64] = ft_args (fi_type f) /\
  map to_val_type [Int32] = ft_rets (fi_type f).
Proof.
  split; [apply C10_new_interpreter_has_room; try lia; try reflexivity; cbn; lia|]. split; reflexivity.
Qed.

(** * C16: signature check *)

(** A mismatch stops the process, in every machine state, before anything else (a state in
    which any access to the stack is undefined included). *)
Theorem C16_mismatch_aborts :
  forall fuel dbg m f As xs Rs,
    ~ (map to_val_type As = ft_args (fi_type f) /\ map to_val_type Rs = ft_rets (fi_type f)) ->
    static_call fuel dbg m f As xs Rs = Trap Assertion.
Proof.
  intros fuel dbg m f As xs Rs H. unfold static_call.
  destruct (types_match As _) eqn:E1; [|reflexivity]. cbn [ab_assert bind].
  destruct (types_match Rs _) eqn:E2; [|reflexivity].
  apply types_match_spec in E1, E2. tauto.
Qed.
Print Assumptions C16_mismatch_aborts.

(** A call whose types match is not rejected: it is the frame being entered, arguments stored,
    the code run, results read and the frame left. *)
Theorem C16_match_accepted :
  forall fuel dbg m f As xs Rs,
    map to_val_type As = ft_args (fi_type f) -> map to_val_type Rs = ft_rets (fi_type f) ->
    static_call fuel dbg m f As xs Rs =
      do m1 <- enter_native_frame dbg m (fi_nregs f);
      do m2 <- set_stack_elements m1 (m_sp m1) As xs;
      do (m3, p) <- enter_interpreter fuel m2 f;
      do ret <- get_stack_elements m3 p Rs;
      do m4 <- leave_native_frame dbg m3 (fi_nregs f);
      Ok (ret, m4).
Proof.
  intros fuel dbg m f As xs Rs HA HR. unfold static_call.
  rewrite (proj2 (types_match_spec _ _) HA), (proj2 (types_match_spec _ _) HR). reflexivity.
Qed.
Print Assumptions C16_match_accepted.

(** The C++ types: exactly those of the same width and kind are taken for one another. *)
Theorem C16_type_map :
  forall t, to_val_type t =
    match t with Uint32 | Int32 => 127 | Uint64 | Int64 => 126 | Float => 125 | Double => 124 end.
Proof. now intros []. Qed.

(** Calls by index: as calls of the instance, and an abort for an index out of range. *)
Theorem C16_by_index :
  forall fuel dbg m insts i As xs,
    match nth_error insts i with
    | Some f => static_call_index fuel dbg m insts i As xs = static_call fuel dbg m f As xs []
    | None => static_call_index fuel dbg m insts i As xs = Trap Assertion
    end.
Proof. intros. unfold static_call_index. now destruct (nth_error insts i). Qed.
Print Assumptions C16_by_index.

Example C16_instance :
  static_call 100 true loop_machine loop_func [Int32; Int32; Float] [12; 3; 99] [Int32] = Trap Assertion /\
  static_call 100 true loop_machine loop_func [Int32; Int32] [12; 3] [Int32] = Trap Assertion /\
  (do (r, m) <- static_call 100 true loop_machine loop_func [Int32; Uint32; Int32] [12; 3; 99] [Uint32]; Ok r) = Ok [99].
Proof. split; [reflexivity|]. split; [reflexivity|]. vm_compute. reflexivity. Qed.
