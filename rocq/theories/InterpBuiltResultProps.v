(** C150, for results of any number and type: what a call of a built function returns. *)

From Coq Require Import ZArith List Bool Arith Lia ZifyBool ZifyNat.
From Verif Require Import Outcome BitLemmas VarIntModel CodecModel CodecSpec CodecProofs CodecProps InterpModel InterpSpec
  InterpProofs InterpCallProofs InterpSafe InterpProps InterpExact InterpExactProps InterpBuiltProps InterpResultProps.
Import ListNotations.
Local Open Scope Z_scope.

(** * Specification: the register an instruction list returns, and the registers it leaves *)
Fixpoint returns (is : list insn) (rs : list Z) : option (Z * list Z) :=
  match is with
  | [] => None
  | Nop :: is => returns is rs
  | I32Add d l r :: is =>
    let x := nth (Z.to_nat l) rs 0 in let y := nth (Z.to_nat r) rs 0 in
    if (- 2 ^ 31 <=? signed x + signed y) && (signed x + signed y <? 2 ^ 31)
    then returns is (put rs (Z.to_nat d) ((x + y) mod 2 ^ 32)) else None
  | X32Return s :: _ => Some (s, rs)
  | (X64Return _ | Halt | Return | Unreachable) :: _ => None
  end.

(** It agrees with [follow]. *)
Lemma returns_follow is : forall rs s rs', returns is rs = Some (s, rs') ->
  follow is rs = Done (EWord (nth (Z.to_nat s) rs' 0)).
Proof.
  induction is as [|i is IH]; intros rs s rs' H; [discriminate|].
  destruct i; cbn [returns follow] in *; try discriminate; eauto.
  - cbv zeta in *. destruct (_ && _); [eauto|discriminate].
  - injection H as <- <-. reflexivity.
Qed.

Lemma returns_steps code n is : Forall insn_fits is -> regs_exist (Z.of_nat n) is -> forall p p' rs s rs', length rs = n ->
  bytes_at code p (flat_map insn_code is) p' -> returns is rs = Some (s, rs') ->
  s < Z.of_nat n /\ exists q q', asteps code (p, rs) (q, rs') /\ op_at code q (ORet32 s) q'.
Proof.
  intros Hf. induction Hf as [|i is Hi His IH]; intros Hr p p' rs s rs' Hl Hb H; [discriminate|].
  inversion Hr as [|? ? Hri Hr']; subst. specialize (IH Hr').
  cbn [flat_map] in Hb. apply bytes_at_split in Hb as (B1 & B2).
  assert (forall r, In r (insn_regs i) -> is_byte r -> reg rs r (nth (Z.to_nat r) rs 0)) as R.
  { intros r Hin Hby. rewrite Forall_forall in Hri. specialize (Hri r Hin). cbv beta in Hri. unfold is_byte in Hby.
    unfold reg. apply nth_error_nth'. lia. }
  destruct i; cbn [returns] in H; try discriminate.
  - assert (astep code (p, rs) (p + Z.of_nat (length (insn_code Nop)), rs)) as A
      by (apply a_nop; split; [constructor|]; split; [cbn; lia|exact B1]).
    destruct (IH _ _ rs s rs' eq_refl B2 H) as (L & q & q' & S & O). split; [exact L|]. exists q, q'. split; [econstructor; eauto|exact O].
  - destruct Hi as (I1 & I2 & I3).
    pose proof (R dst ltac:(cbn; auto) I1) as Rd. pose proof (R lhs ltac:(cbn; auto) I2) as Rl. pose proof (R rhs ltac:(cbn; auto) I3) as Rr.
    assert (op_at code p (OAdd dst lhs rhs) (p + Z.of_nat (length (insn_code (I32Add dst lhs rhs))))) as Ho.
    { split; [|split; [cbn; lia|exact B1]]. repeat (apply Forall_cons; [assumption|]). apply Forall_nil. }
    cbv zeta in H. set (x := nth (Z.to_nat lhs) rs 0) in *. set (y := nth (Z.to_nat rhs) rs 0) in *.
    destruct ((- 2 ^ 31 <=? signed x + signed y) && (signed x + signed y <? 2 ^ 31)) eqn:Eo; [|discriminate].
    assert (astep code (p, rs) (p + Z.of_nat (length (insn_code (I32Add dst lhs rhs))), put rs (Z.to_nat dst) ((x + y) mod 2 ^ 32))) as A.
    { eapply a_add; eauto. unfold in_i32. lia. }
    destruct (IH _ _ (put rs (Z.to_nat dst) ((x + y) mod 2 ^ 32)) s rs' ltac:(now rewrite put_len) B2 H) as (L & q & q' & S & O).
    split; [exact L|]. exists q, q'. split; [econstructor; eauto|exact O].
  - injection H as <- <-. split.
    { rewrite Forall_forall in Hri. apply Hri. cbn. auto. }
    exists p, (p + 2). split; [constructor|]. split; [apply Forall_cons; [exact Hi|apply Forall_nil]|]. split; [cbn; lia|exact B1].
Qed.

(** The instructions given to the builder return register [s] and leave the registers [rs].  Then a
    call, whatever its result types, returns the values whose words stand from register [s] on (behind
    the last register come the words in which the caller is saved), and the machine is as before. *)
Theorem C150_results_of_any_type_partial :
  forall mn bs md i d g dbg m As xs Rs s rs vs,
    fits mn -> write mn = Ok bs -> Z.of_nat (length bs) < 2 ^ 32 -> compile bs = Ok md ->
    nth_error (mn_funcs mn) i = Some d -> func_inst md (Z.of_nat i) = Ok g ->
    m_code m = bs -> m_ip m mod 256 = 0 ->
    let f := instance md (m_code_base m) g in
    can_call dbg m f As xs Rs -> Rs <> [] -> regs_exist (fi_nregs f) (fn_insns d) ->
    returns (fn_insns d) (initial_regs dbg m (fi_nregs f) As xs) = Some (s, rs) ->
    Forall2 value_ok Rs vs -> stands_at (rs ++ caller_words m) s (arg_words Rs vs) ->
    aligned_args (frame_base dbg m (fi_nregs f) + 4 * s) Rs ->
    exists fuel0 m',
      (forall fuel, (fuel0 <= fuel)%nat -> static_call fuel dbg m f As xs Rs = Ok (vs, m')) /\
      restored m m' (frame_base dbg m (fi_nregs f)) (m_sp m).
Proof.
  cbv zeta. intros mn bs md i d g dbg m As xs Rs s rs vs Hf Hw HL Hc Hd Hg Hcode Hip Hcc HRs Hr Hret Hvs Hst Hal.
  destruct (built mn bs md i d g Hf Hw HL Hc Hd Hg) as (Hb & Hi & p2 & B & _).
  pose proof (initial_regs_length _ _ _ _ _ _ Hcc) as Hl.
  set (f := instance md (m_code_base m) g) in *.
  assert (0 <= fi_nregs f) as Hn by (destruct (cc_room _ _ _ _ _ _ Hcc); lia).
  rewrite <- (Z2Nat.id (fi_nregs f)) in Hr by exact Hn.
  destruct (returns_steps bs _ _ Hi Hr (f_body g) p2 _ s rs Hl B Hret) as (L & q & q' & S & O).
  rewrite Z2Nat.id in L by exact Hn.
  eapply (C147_results_are_the_words_from_the_register dbg m f As xs Rs q rs s q'); eauto; rewrite Hcode; auto.
  assert (fi_body f - m_code_base m = f_body g) as -> by (unfold f, instance; cbn [fi_body]; lia). exact S.
Qed.
Print Assumptions C150_results_of_any_type_partial.

(** A case: a function of two 32-bit arguments with one 64-bit result returns its arguments as the two words of it. *)
Definition mn150w : modnode := mkMN [mkFT [127; 127] [126]] [mkFN 0 0 [Nop; X32Return 0]].
Definition bs150w : bytes := Eval vm_compute in match write mn150w with Ok b => b | _ => [] end.
Definition md150w : module := Eval vm_compute in match compile bs150w with Ok x => x | _ => mkModule [] [] [] end.
Definition m150w : mach := new_interpreter (fun _ => 0) 4096 bs150w 65536.
Definition g150w : func := nth 0 (m_funcs md150w) (mkFunc 0 0 0 0 0 0 0).

Example C150_wide x y : 0 <= x < 2 ^ 32 -> 0 <= y < 2 ^ 32 ->
  exists fuel0 m', forall fuel, (fuel0 <= fuel)%nat ->
    static_call fuel true m150w (instance md150w 65536 g150w) [Int32; Int32] [x; y] [Int64] = Ok ([x + y * 2 ^ 32], m').
Proof.
  intros Hx Hy.
  destruct (C150_results_of_any_type_partial mn150w bs150w md150w 0 (mkFN 0 0 [Nop; X32Return 0]) g150w true m150w
    [Int32; Int32] [x; y] [Int64] 0 [x; y] [x + y * 2 ^ 32]) as (fuel0 & m' & H & _).
  - split; repeat constructor; cbn; unfold is_byte; lia.
  - vm_compute; reflexivity.
  - vm_compute; reflexivity.
  - vm_compute; reflexivity.
  - reflexivity.
  - vm_compute; reflexivity.
  - reflexivity.
  - reflexivity.
  - constructor; try reflexivity.
    + apply C10_new_interpreter_has_room; [lia|lia|reflexivity|vm_compute; split; discriminate].
    + intros a. cbn. unfold is_byte. lia.
    + repeat constructor; cbn; lia.
    + vm_compute. repeat split; discriminate.
  - discriminate.
  - vm_compute. repeat constructor; discriminate.
  - reflexivity.
  - repeat constructor; cbn; lia.
  - exists [], (caller_words m150w). split; [|reflexivity].
    assert (arg_words [Int64] [x + y * 2 ^ 32] = [x; y]) as ->; [|reflexivity].
    cbn [arg_words wide]. rewrite Z_mod_plus_full, (Z.mod_small x) by lia.
    rewrite Z_div_plus_full, (Z.div_small x) by lia. reflexivity.
  - vm_compute. repeat split; intros; reflexivity || discriminate.
  - exists fuel0, m'. exact H.
Qed.
