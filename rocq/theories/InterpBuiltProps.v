(** C150: which instructions a call of a built function executes. *)

From Coq Require Import ZArith List Bool Arith Lia ZifyBool ZifyNat.
From Verif Require Import Outcome BitLemmas VarIntModel CodecModel CodecSpec CodecProofs CodecProps InterpModel InterpSpec
  InterpProofs InterpCallProofs InterpSafe InterpProps InterpExact InterpExactProps.
Import ListNotations.
Local Open Scope Z_scope.

(** * Specification: following a list of instructions *)

(** Either an instruction ends the call, or the list ends first, with these registers. *)
Inductive stop := Done (e : ending) | FallsOff (rs : list Z).

(** The instructions in order on the registers [rs]; a register that is missing reads as 0 here, which
    [regs_exist] excludes. *)
Fixpoint follow (is : list insn) (rs : list Z) : stop :=
  match is with
  | [] => FallsOff rs
  | Nop :: is => follow is rs
  | I32Add d l r :: is =>
    let x := nth (Z.to_nat l) rs 0 in let y := nth (Z.to_nat r) rs 0 in
    if (- 2 ^ 31 <=? signed x + signed y) && (signed x + signed y <? 2 ^ 31)
    then follow is (put rs (Z.to_nat d) ((x + y) mod 2 ^ 32)) else Done EOverflow
  | X32Return s :: _ => Done (EWord (nth (Z.to_nat s) rs 0))
  | X64Return _ :: _ => Done EUnknownOpcode        (* the interpreter has no such instruction *)
  | (Halt | Return | Unreachable) :: _ => Done ENoWord
  end.
Definition insn_regs (i : insn) : list Z :=
  match i with I32Add d l r => [d; l; r] | X32Return s | X64Return s => [s] | _ => [] end.
Definition regs_exist (n : Z) (is : list insn) : Prop := Forall (fun i => Forall (fun r => r < n) (insn_regs i)) is.
(** Instructions after which a function does not go on. *)
Definition is_last (i : insn) : bool :=
  match i with Nop | I32Add _ _ _ => false | _ => true end.

(** * Proofs *)

Lemma put_len rs i v : length (put rs i v) = length rs.
Proof. revert i. induction rs; intros [|i]; cbn; auto. Qed.

Lemma follow_steps code n is : Forall insn_fits is -> regs_exist (Z.of_nat n) is -> forall p p' rs, length rs = n ->
  bytes_at code p (flat_map insn_code is) p' ->
  match follow is rs with
  | Done e => exists k s, (k < length is)%nat /\ astepn code k (p, rs) s /\ ends code s e
  | FallsOff rs' => astepn code (length is) (p, rs) (p', rs')
  end.
Proof.
  intros Hf. induction Hf as [|i is Hi His IH]; intros Hr p p' rs Hl Hb.
  - cbn. destruct Hb as (pre & post & _ & _ & ->). cbn. rewrite Z.add_0_r. constructor.
  - inversion Hr as [|? ? Hri Hr']; subst. specialize (IH Hr').
    cbn [flat_map] in Hb. apply bytes_at_split in Hb as (B1 & B2).
    assert (forall r, In r (insn_regs i) -> is_byte r -> reg rs r (nth (Z.to_nat r) rs 0)) as R.
    { intros r Hin Hby. rewrite Forall_forall in Hri. specialize (Hri r Hin). cbv beta in Hri. unfold is_byte in Hby.
      unfold reg. apply nth_error_nth'. lia. }
    destruct i; cbn [follow].
    + exists 0%nat, (p, rs). split; [cbn; lia|]. split; [constructor|]. eapply e_unreachable. split; [constructor|]. split; [cbn; lia|exact B1].
    + exists 0%nat, (p, rs). split; [cbn; lia|]. split; [constructor|]. eapply e_halt. split; [constructor|]. split; [cbn; lia|exact B1].
    + assert (astep code (p, rs) (p + Z.of_nat (length (insn_code Nop)), rs)) as A
        by (apply a_nop; split; [constructor|]; split; [cbn; lia|exact B1]).
      specialize (IH _ _ rs eq_refl B2). destruct (follow is rs).
      * destruct IH as (k & s & K & S1 & E). exists (S k), s. split; [cbn; lia|]. split; [econstructor; eauto|exact E].
      * cbn [length]. econstructor; eauto.
    + destruct Hi as (I1 & I2 & I3).
      pose proof (R dst ltac:(cbn; auto) I1) as Rd. pose proof (R lhs ltac:(cbn; auto) I2) as Rl. pose proof (R rhs ltac:(cbn; auto) I3) as Rr.
      assert (op_at code p (OAdd dst lhs rhs) (p + Z.of_nat (length (insn_code (I32Add dst lhs rhs))))) as Ho.
      { split; [|split; [cbn; lia|exact B1]]. repeat (apply Forall_cons; [assumption|]). apply Forall_nil. }
      cbv zeta. set (x := nth (Z.to_nat lhs) rs 0) in *. set (y := nth (Z.to_nat rhs) rs 0) in *.
      destruct ((- 2 ^ 31 <=? signed x + signed y) && (signed x + signed y <? 2 ^ 31)) eqn:Eo.
      * assert (astep code (p, rs) (p + Z.of_nat (length (insn_code (I32Add dst lhs rhs))), put rs (Z.to_nat dst) ((x + y) mod 2 ^ 32))) as A.
        { eapply a_add; eauto. unfold in_i32. lia. }
        specialize (IH _ _ (put rs (Z.to_nat dst) ((x + y) mod 2 ^ 32)) ltac:(now rewrite put_len) B2).
        destruct (follow is (put rs (Z.to_nat dst) ((x + y) mod 2 ^ 32))).
        -- destruct IH as (k & s & K & S1 & E). exists (S k), s. split; [cbn; lia|]. split; [econstructor; eauto|exact E].
        -- cbn [length]. econstructor; eauto.
      * exists 0%nat, (p, rs). split; [cbn; lia|]. split; [constructor|]. eapply e_add; eauto. unfold in_i32. lia.
    + exists 0%nat, (p, rs). split; [cbn; lia|]. split; [constructor|]. eapply e_return. split; [constructor|]. split; [cbn; lia|exact B1].
    + exists 0%nat, (p, rs). split; [cbn; lia|]. split; [constructor|]. eapply (e_word _ _ _ (p + 2) src); [|apply R; [cbn; auto|exact Hi]].
      split; [apply Forall_cons; [exact Hi|apply Forall_nil]|]. split; [cbn; lia|exact B1].
    + exists 0%nat, (p, rs). split; [cbn; lia|]. split; [constructor|].
      destruct B1 as (pre & post & E & L & _). eapply (e_unknown _ _ _ 14); [lia| |cbn; lia].
      rewrite E. replace (Z.to_nat p) with (length pre + 0)%nat by lia. rewrite nth_error_app2 by lia.
      replace (length pre + 0 - length pre)%nat with 0%nat by lia. reflexivity.
Qed.

Lemma stand_nth bs : forall p ds fs p', stand bs p ds fs p' -> forall i d f, nth_error ds i = Some d -> nth_error fs i = Some f ->
  exists p2, bytes_at bs (f_body f) (flat_map insn_code (fn_insns d)) p2 /\
    match nth_error ds (S i) with
    | None => p2 = p'
    | Some d2 => exists f2 sz p3, nth_error fs (S i) = Some f2 /\ u32_at bs p2 sz p3 /\ u32_at bs p3 (fn_nregs d2) (f_body f2)
    end.
Proof.
  induction 1 as [p|p d f sz p1 p2 ds fs p' U1 U2 B S IH]; intros i d0 f0 Hd Hf; [destruct i; discriminate|].
  destruct i as [|i]; cbn [nth_error] in *.
  - injection Hd as <-. injection Hf as <-. exists p2. split; [exact B|].
    inversion S; subst; [reflexivity|]. eauto 10.
  - apply (IH i d0 f0 Hd Hf).
Qed.

(** What is known of a function of a module that was written and compiled. *)
Lemma built mn bs md i d g : fits mn -> write mn = Ok bs -> Z.of_nat (length bs) < 2 ^ 32 -> compile bs = Ok md ->
  nth_error (mn_funcs mn) i = Some d -> func_inst md (Z.of_nat i) = Ok g ->
  is_bytes bs /\ Forall insn_fits (fn_insns d) /\
  exists p2, bytes_at bs (f_body g) (flat_map insn_code (fn_insns d)) p2 /\
    match nth_error (mn_funcs mn) (S i) with
    | None => p2 = Z.of_nat (length bs)
    | Some d2 => exists g2 sz p3, func_inst md (Z.of_nat (S i)) = Ok g2 /\ u32_at bs p2 sz p3 /\ u32_at bs p3 (fn_nregs d2) (f_body g2)
    end.
Proof.
  intros F E L C Hd Hg. destruct (write_spec mn F) as (bs' & E' & Hb & H). rewrite E in E'. injection E' as <-.
  destruct (H L) as (fs & Hm & Sm & p & St). apply compile_spec in Hm; [|exact Hb]. rewrite C in Hm. injection Hm as ->.
  assert (forall j h, nth_error fs j = Some h -> func_inst (mkModule (mn_types mn) (map fn_type_idx (mn_funcs mn)) fs) (Z.of_nat j) = Ok h) as FI.
  { intros j h Hj. unfold func_inst. cbn [m_funcs]. assert (j < length fs)%nat by (apply nth_error_Some; congruence).
    replace (Z.of_nat j <? Z.of_nat (length fs)) with true by lia. cbn. now rewrite Nat2Z.id, Hj. }
  split; [exact Hb|]. split.
  { destruct F as (_ & Ff). apply nth_error_In in Hd. rewrite Forall_forall in Ff. apply (Ff d Hd). }
  assert (nth_error fs i = Some g) as Hf.
  { assert (length (mn_funcs mn) = length fs) as Ll by (clear - Sm; induction Sm; cbn; congruence).
    assert (i < length (mn_funcs mn))%nat by (apply nth_error_Some; congruence).
    destruct (nth_error fs i) as [h|] eqn:Eh; [|apply nth_error_None in Eh; lia].
    rewrite (FI i h Eh) in Hg. congruence. }
  destruct (stand_nth _ _ _ _ _ St i d g Hd Hf) as (p2 & B & N). exists p2. split; [exact B|].
  destruct (nth_error (mn_funcs mn) (S i)) as [d2|]; [|exact N].
  destruct N as (f2 & sz & p3 & N1 & N2 & N3). exists f2, sz, p3. auto.
Qed.

Section Built.
Variables (mn : modnode) (bs : bytes) (md : module) (i : nat) (d : funcnode) (g : func).
Variables (dbg : bool) (m : mach) (As : list ctype) (xs : list Z) (Rs : list ctype).
Hypotheses (Hf : fits mn) (Hw : write mn = Ok bs) (HL : Z.of_nat (length bs) < 2 ^ 32) (Hc : compile bs = Ok md)
  (Hd : nth_error (mn_funcs mn) i = Some d) (Hg : func_inst md (Z.of_nat i) = Ok g)
  (Hcode : m_code m = bs) (Hip : m_ip m mod 256 = 0).
Let f := instance md (m_code_base m) g.
Hypotheses (Hcc : can_call dbg m f As xs Rs) (HRs : simple_result Rs) (Hr : regs_exist (fi_nregs f) (fn_insns d)).

Lemma built_start : start_of dbg m f As xs = (f_body g, initial_regs dbg m (fi_nregs f) As xs).
Proof. unfold start_of, f, instance. cbn [fi_body fi_nregs]. f_equal. lia. Qed.

Lemma built_run :
  match follow (fn_insns d) (initial_regs dbg m (fi_nregs f) As xs) with
  | Done e => exists k s, (k < length (fn_insns d))%nat /\ astepn bs k (start_of dbg m f As xs) s /\ ends bs s e
  | FallsOff rs' => exists p2, astepn bs (length (fn_insns d)) (start_of dbg m f As xs) (p2, rs') /\
      match nth_error (mn_funcs mn) (S i) with
      | None => p2 = Z.of_nat (length bs)
      | Some d2 => exists g2 sz p3, func_inst md (Z.of_nat (S i)) = Ok g2 /\ u32_at bs p2 sz p3 /\ u32_at bs p3 (fn_nregs d2) (f_body g2)
      end
  end.
Proof.
  destruct (built mn bs md i d g Hf Hw HL Hc Hd Hg) as (Hb & Hi & p2 & B & N).
  pose proof (initial_regs_length _ _ _ _ _ _ Hcc) as Hl.
  assert (0 <= fi_nregs f) as Hn by (destruct (cc_room _ _ _ _ _ _ Hcc); lia).
  assert (Hr' := Hr). rewrite <- (Z2Nat.id (fi_nregs f)) in Hr' by exact Hn.
  rewrite built_start.
  pose proof (follow_steps bs _ _ Hi Hr' (f_body g) p2 _ Hl B) as FS.
  destruct (follow (fn_insns d) (initial_regs dbg m (fi_nregs f) As xs)); [exact FS|]. exists p2. auto.
Qed.
End Built.

(** The function runs the instructions given to the builder, from the first to the first one that
    ends it, and ends as that instruction says, after no more instructions than were given. *)
Theorem C150_runs_what_was_built_partial :
  forall mn bs md i d g dbg m As xs Rs e,
    fits mn -> write mn = Ok bs -> Z.of_nat (length bs) < 2 ^ 32 -> compile bs = Ok md ->
    nth_error (mn_funcs mn) i = Some d -> func_inst md (Z.of_nat i) = Ok g ->
    m_code m = bs -> m_ip m mod 256 = 0 ->
    let f := instance md (m_code_base m) g in
    can_call dbg m f As xs Rs -> simple_result Rs -> regs_exist (fi_nregs f) (fn_insns d) ->
    follow (fn_insns d) (initial_regs dbg m (fi_nregs f) As xs) = Done e ->
    exists k, (k < length (fn_insns d))%nat /\ forall fuel,
      ((fuel <= k)%nat -> static_call fuel dbg m f As xs Rs = OutOfFuel) /\
      ((k < fuel)%nat -> result (static_call fuel dbg m f As xs Rs) = seen Rs e).
Proof.
  cbv zeta. intros mn bs md i d g dbg m As xs Rs e Hf Hw HL Hc Hd Hg Hcode Hip Hcc HRs Hr Hfo.
  pose proof (built_run mn bs md i d g dbg m As xs Rs Hf Hw HL Hc Hd Hg Hcc Hr) as B. rewrite Hfo in B.
  destruct B as (k & s & K & S & E). exists k. split; [exact K|]. intros fuel.
  destruct (built mn bs md i d g Hf Hw HL Hc Hd Hg) as (Hb & _).
  subst bs. destruct (call_ends dbg m _ As xs Rs k s e Hcc Hip Hb HRs S) as (A & A'). auto.
Qed.
Print Assumptions C150_runs_what_was_built_partial.

(** Every list with an instruction that ends a function is such a list. *)
Theorem C150_ended_functions_partial :
  forall is rs, existsb is_last is = true -> exists e, follow is rs = Done e.
Proof.
  induction is as [|i is IH]; intros rs H; [discriminate|].
  destruct i; cbn [existsb is_last orb follow] in *; eauto.
  cbv zeta. destruct (_ && _); eauto.
Qed.
Print Assumptions C150_ended_functions_partial.

(** C150 fails: a function whose instructions do not end it goes on behind them.  The last function
    of a module leaves the module: the call reads outside of it. *)
Theorem C150_the_last_function_leaves_the_module_refuted :
  forall mn bs md i d g dbg m As xs Rs rs',
    fits mn -> write mn = Ok bs -> Z.of_nat (length bs) < 2 ^ 32 -> compile bs = Ok md ->
    nth_error (mn_funcs mn) i = Some d -> nth_error (mn_funcs mn) (S i) = None -> func_inst md (Z.of_nat i) = Ok g ->
    m_code m = bs -> m_ip m mod 256 = 0 ->
    let f := instance md (m_code_base m) g in
    can_call dbg m f As xs Rs -> simple_result Rs -> regs_exist (fi_nregs f) (fn_insns d) ->
    follow (fn_insns d) (initial_regs dbg m (fi_nregs f) As xs) = FallsOff rs' ->
    forall fuel, (length (fn_insns d) < fuel)%nat -> static_call fuel dbg m f As xs Rs = UB OutOfBounds.
Proof.
  cbv zeta. intros mn bs md i d g dbg m As xs Rs rs' Hf Hw HL Hc Hd Hnext Hg Hcode Hip Hcc HRs Hr Hfo fuel Hfuel.
  pose proof (built_run mn bs md i d g dbg m As xs Rs Hf Hw HL Hc Hd Hg Hcc Hr) as B. rewrite Hfo, Hnext in B.
  destruct B as (p2 & S & ->).
  destruct (built mn bs md i d g Hf Hw HL Hc Hd Hg) as (Hb & _).
  assert (ends bs (Z.of_nat (length bs), rs') EOutside) as E.
  { apply e_outside.
    - intros o q (_ & _ & pre & post & E & L & _). assert (length (enc o) <> 0)%nat by (destruct o; cbn; lia).
      apply (f_equal (@length Z)) in E. rewrite !app_length in E. lia.
    - intros b _ Nb. exfalso. assert (Z.to_nat (Z.of_nat (length bs)) < length bs)%nat by (apply nth_error_Some; congruence). lia. }
  subst bs. destruct (call_ends dbg m _ As xs Rs _ _ EOutside Hcc Hip Hb HRs S) as (_ & A).
  specialize (A E fuel Hfuel). destruct (static_call _ _ _ _ _ _ _) as [[]| | | |]; cbn in A; try discriminate. congruence.
Qed.
Print Assumptions C150_the_last_function_leaves_the_module_refuted.

(** Any other function goes on with the size field of the next function's entry. *)
Theorem C150_other_functions_run_into_the_next_refuted :
  forall mn bs md i d d2 g dbg m As xs Rs rs',
    fits mn -> write mn = Ok bs -> Z.of_nat (length bs) < 2 ^ 32 -> compile bs = Ok md ->
    nth_error (mn_funcs mn) i = Some d -> nth_error (mn_funcs mn) (S i) = Some d2 -> func_inst md (Z.of_nat i) = Ok g ->
    m_code m = bs ->
    let f := instance md (m_code_base m) g in
    can_call dbg m f As xs Rs -> regs_exist (fi_nregs f) (fn_insns d) ->
    follow (fn_insns d) (initial_regs dbg m (fi_nregs f) As xs) = FallsOff rs' ->
    exists g2 p sz p', asteps (m_code m) (start_of dbg m f As xs) (p, rs') /\ func_inst md (Z.of_nat (S i)) = Ok g2 /\
      u32_at bs p sz p' /\ u32_at bs p' (fn_nregs d2) (f_body g2).
Proof.
  cbv zeta. intros mn bs md i d d2 g dbg m As xs Rs rs' Hf Hw HL Hc Hd Hnext Hg Hcode Hcc Hr Hfo.
  pose proof (built_run mn bs md i d g dbg m As xs Rs Hf Hw HL Hc Hd Hg Hcc Hr) as B. rewrite Hfo, Hnext in B.
  destruct B as (p2 & S & g2 & sz & p3 & N1 & N2 & N3). exists g2, p2, sz, p3.
  split; [|auto]. apply asteps_n. subst bs. eauto.
Qed.
Print Assumptions C150_other_functions_run_into_the_next_refuted.

(** * A case: a module with a function of two nops, then one that adds its arguments and returns the
    sum, then one of one nop. *)
Definition mn150 : modnode :=
  mkMN [mkFT [127; 127] [127]; mkFT [] []] [mkFN 1 0 [Nop; Nop]; mkFN 0 1 [I32Add 2 0 1; Nop; X32Return 2]; mkFN 1 0 [Nop]].
Definition bs150 : bytes := Eval vm_compute in match write mn150 with Ok b => b | _ => [] end.
Definition md150 : module := Eval vm_compute in match compile bs150 with Ok x => x | _ => mkModule [] [] [] end.
Definition m150 : mach := new_interpreter (fun _ => 0) 4096 bs150 65536.
Definition g150 (i : nat) : func := nth i (m_funcs md150) (mkFunc 0 0 0 0 0 0 0).

Example mn150_fits : fits mn150 /\ write mn150 = Ok bs150 /\ compile bs150 = Ok md150 /\
  func_inst md150 0 = Ok (g150 0) /\ func_inst md150 1 = Ok (g150 1) /\ func_inst md150 2 = Ok (g150 2).
Proof.
  split; [split; repeat constructor; cbn; unfold is_byte; lia|]. repeat split; vm_compute; reflexivity.
Qed.
Example C150_adds x y : 0 <= x < 2 ^ 32 -> 0 <= y < 2 ^ 32 ->
  can_call true m150 (instance md150 65536 (g150 1)) [Int32; Int32] [x; y] [Int32] /\
  regs_exist (fi_nregs (instance md150 65536 (g150 1))) [I32Add 2 0 1; Nop; X32Return 2] /\
  (in_i32 (signed x + signed y) ->
   follow [I32Add 2 0 1; Nop; X32Return 2] (initial_regs true m150 3 [Int32; Int32] [x; y]) = Done (EWord ((x + y) mod 2 ^ 32))).
Proof.
  intros Hx Hy. split; [|split].
  - constructor; try reflexivity.
    + apply C10_new_interpreter_has_room; [lia|lia|reflexivity|vm_compute; split; discriminate].
    + intros a. cbn. unfold is_byte. lia.
    + repeat constructor; cbn; lia.
    + vm_compute. discriminate.
    + vm_compute. repeat split; discriminate.
  - vm_compute. repeat constructor; discriminate.
  - intros I. unfold initial_regs. change (arg_words [Int32; Int32] [x; y]) with [x; y].
    change (Z.to_nat (3 - words_taken [Int32; Int32])) with 1%nat. cbn [frame_words seq map app follow].
    change (Z.to_nat 0) with 0%nat. change (Z.to_nat 1) with 1%nat. change (Z.to_nat 2) with 2%nat. cbn [nth].
    unfold in_i32 in I. replace (_ && _) with true by lia. reflexivity.
Qed.
Example C150_falls_off :
  can_call true m150 (instance md150 65536 (g150 2)) [] [] [] /\ nth_error (mn_funcs mn150) 3 = None /\
  follow [Nop] (initial_regs true m150 0 [] []) = FallsOff [] /\ static_call 2 true m150 (instance md150 65536 (g150 2)) [] [] [] = UB OutOfBounds /\
  (** the first function goes on with the 8 of the second entry, its size: no instruction has number 8 *)
  skipn (Z.to_nat (f_body (g150 0))) bs150 = [1; 1; 8; 1; 106; 2; 0; 1; 1; 13; 2; 2; 0; 1] /\
  static_call 5 true m150 (instance md150 65536 (g150 0)) [] [] [] = Trap Assertion.
Proof.
  split.
  - constructor; try reflexivity.
    + apply C10_new_interpreter_has_room; [lia|lia|reflexivity|vm_compute; split; discriminate].
    + intros a. cbn. unfold is_byte. lia.
    + constructor.
  - repeat split; vm_compute; reflexivity.
Qed.
