(** C137, C149 and C150 for results of any number and type, when the call does not end with a word. *)

From Coq Require Import ZArith List Bool Arith Lia ZifyBool ZifyNat.
From Verif Require Import Outcome BitLemmas VarIntModel CodecModel CodecSpec CodecProofs CodecProps InterpModel InterpSpec
  InterpProofs InterpCallProofs InterpSafe InterpProps InterpExact InterpExactProps InterpRepeatProps InterpBuiltProps.
Import ListNotations.
Local Open Scope Z_scope.

(** * Specification: the endings without a word *)

Definition wordless (e : ending) : Prop := match e with EWord _ => False | _ => True end.

Lemma wordless_no e v : wordless e -> e <> EWord v.
Proof. destruct e; cbn; congruence. Qed.

(** * C137 *)

(** Whatever the results are: if the reference run ends without a word, the call runs out of fuel up to
    some bound, and beyond it ends as the caller sees that ending. *)
Theorem C137_wordless_endings :
  forall dbg m f As xs Rs e,
    can_call dbg m f As xs Rs -> m_ip m mod 256 = 0 -> is_bytes (m_code m) -> wordless e ->
    call_ends_with dbg m f As xs e ->
    exists k, forall fuel,
      ((fuel <= k)%nat -> static_call fuel dbg m f As xs Rs = OutOfFuel) /\
      ((k < fuel)%nat -> result (static_call fuel dbg m f As xs Rs) = seen Rs e).
Proof.
  intros dbg m f As xs Rs e Hcc Hip Hc He0 (s & Hs & He). apply asteps_n in Hs as (k & Hs).
  exists k. intros fuel. destruct (call_ends_gen dbg m f As xs Rs k s e Hcc Hip Hc) as (A & B); auto.
  intros v ->. destruct He0.
Qed.
Print Assumptions C137_wordless_endings.

(** * C149 *)

(** One call on two machines which hold the same code, in builds of either kind, loaded at addresses of
    their own, with anything on the stacks, with results of any number and type.  If the reference run of
    the first ends without a word, both calls have the outcome of that ending. *)
Theorem C149_wordless_endings_partial :
  forall dbg dbg' m m' f f' As xs Rs e,
    can_call dbg m f As xs Rs -> can_call dbg' m' f' As xs Rs -> m_ip m mod 256 = 0 -> m_ip m' mod 256 = 0 ->
    is_bytes (m_code m) ->
    m_code m' = m_code m -> fi_body f' - m_code_base m' = fi_body f - m_code_base m -> fi_nregs f' = fi_nregs f ->
    set_before_use (m_code m) (fi_body f - m_code_base m) (words_taken As) ->
    wordless e -> call_ends_with dbg m f As xs e ->
    exists k, forall fuel,
      ((fuel <= k)%nat -> static_call fuel dbg m f As xs Rs = OutOfFuel /\ static_call fuel dbg' m' f' As xs Rs = OutOfFuel) /\
      ((k < fuel)%nat -> result (static_call fuel dbg m f As xs Rs) = seen Rs e /\
         result (static_call fuel dbg' m' f' As xs Rs) = seen Rs e).
Proof.
  intros dbg dbg' m m' f f' As xs Rs e Hcc Hcc' Hip Hip' Hc Ec Eb En Hset He0 (s & Hs & He).
  pose proof (initial_regs_length _ _ _ _ _ _ Hcc) as Hl. pose proof (initial_regs_length _ _ _ _ _ _ Hcc') as Hl'.
  assert (0 <= fi_nregs f) as Hn by (destruct (cc_room _ _ _ _ _ _ Hcc); lia).
  unfold start_of in Hs. set (start := fi_body f - m_code_base m) in *.
  assert (alike (words_taken As) [] (initial_regs dbg m (fi_nregs f) As xs) (initial_regs dbg' m' (fi_nregs f') As xs)) as A.
  { split; [lia|]. intros i Hi [Hk|[]]. unfold initial_regs.
    pose proof (arg_words_len _ _ (cc_values _ _ _ _ _ _ Hcc)) as La.
    rewrite !nth_error_app1 by lia. reflexivity. }
  apply asteps_n in Hs as (j & Hs).
  destruct (alike_steps _ _ _ Hset _ _ _ Hs [] _ (way_start _ _) A) as (ws & rs' & Hs' & W & L).
  destruct s as [p rs]. cbn [fst snd] in *.
  pose proof (alike_ends _ _ _ Hset _ _ _ _ _ W L He) as He'.
  assert (forall v, e = EWord v -> Rs = [] \/ exists t, Rs = [t] /\ wide t = false) as Hw by (intros v ->; destruct He0).
  destruct (call_ends_gen dbg m f As xs Rs j _ e Hcc Hip Hc Hw Hs) as (X1 & X2).
  rewrite <- Ec in Hc. rewrite <- Ec in Hs'. rewrite <- Eb in Hs'. rewrite <- Ec in He'.
  destruct (call_ends_gen dbg' m' f' As xs Rs j _ e Hcc' Hip' Hc Hw Hs') as (Y1 & Y2).
  exists j. intros fuel. auto.
Qed.
Print Assumptions C149_wordless_endings_partial.

(** * C150 *)

Theorem C150_wordless_endings_partial :
  forall mn bs md i d g dbg m As xs Rs e,
    fits mn -> write mn = Ok bs -> Z.of_nat (length bs) < 2 ^ 32 -> compile bs = Ok md ->
    nth_error (mn_funcs mn) i = Some d -> func_inst md (Z.of_nat i) = Ok g ->
    m_code m = bs -> m_ip m mod 256 = 0 ->
    let f := instance md (m_code_base m) g in
    can_call dbg m f As xs Rs -> regs_exist (fi_nregs f) (fn_insns d) ->
    follow (fn_insns d) (initial_regs dbg m (fi_nregs f) As xs) = Done e -> wordless e ->
    exists k, (k < length (fn_insns d))%nat /\ forall fuel,
      ((fuel <= k)%nat -> static_call fuel dbg m f As xs Rs = OutOfFuel) /\
      ((k < fuel)%nat -> result (static_call fuel dbg m f As xs Rs) = seen Rs e).
Proof.
  cbv zeta. intros mn bs md i d g dbg m As xs Rs e Hf Hw HL Hc Hd Hg Hcode Hip Hcc Hr Hfo He0.
  pose proof (built_run mn bs md i d g dbg m As xs Rs Hf Hw HL Hc Hd Hg Hcc Hr) as B. rewrite Hfo in B.
  destruct B as (k & s & K & S & E). exists k. split; [exact K|]. intros fuel.
  destruct (built mn bs md i d g Hf Hw HL Hc Hd Hg) as (Hb & _).
  subst bs. destruct (call_ends_gen dbg m _ As xs Rs k s e Hcc Hip Hb (fun v H => False_ind _ (wordless_no e v He0 H)) S) as (A & A'). auto.
Qed.
Print Assumptions C150_wordless_endings_partial.

(** The last function of a module, with no instruction that ends it, leaves the module. *)
Theorem C150_any_results_leave_the_module_refuted :
  forall mn bs md i d g dbg m As xs Rs rs',
    fits mn -> write mn = Ok bs -> Z.of_nat (length bs) < 2 ^ 32 -> compile bs = Ok md ->
    nth_error (mn_funcs mn) i = Some d -> nth_error (mn_funcs mn) (S i) = None -> func_inst md (Z.of_nat i) = Ok g ->
    m_code m = bs -> m_ip m mod 256 = 0 ->
    let f := instance md (m_code_base m) g in
    can_call dbg m f As xs Rs -> regs_exist (fi_nregs f) (fn_insns d) ->
    follow (fn_insns d) (initial_regs dbg m (fi_nregs f) As xs) = FallsOff rs' ->
    forall fuel, (length (fn_insns d) < fuel)%nat -> static_call fuel dbg m f As xs Rs = UB OutOfBounds.
Proof.
  cbv zeta. intros mn bs md i d g dbg m As xs Rs rs' Hf Hw HL Hc Hd Hnext Hg Hcode Hip Hcc Hr Hfo fuel Hfuel.
  pose proof (built_run mn bs md i d g dbg m As xs Rs Hf Hw HL Hc Hd Hg Hcc Hr) as B. rewrite Hfo, Hnext in B.
  destruct B as (p2 & S & ->).
  destruct (built mn bs md i d g Hf Hw HL Hc Hd Hg) as (Hb & _).
  assert (ends bs (Z.of_nat (length bs), rs') EOutside) as E.
  { apply e_outside.
    - intros o q (_ & _ & pre & post & E & L & _). assert (length (enc o) <> 0)%nat by (destruct o; cbn; lia).
      apply (f_equal (@length Z)) in E. rewrite !app_length in E. lia.
    - intros b _ Nb. exfalso. assert (Z.to_nat (Z.of_nat (length bs)) < length bs)%nat by (apply nth_error_Some; congruence). lia. }
  subst bs. destruct (call_ends_gen dbg m _ As xs Rs _ _ EOutside Hcc Hip Hb (fun v H => False_ind _ (wordless_no EOutside v I H)) S) as (_ & A).
  specialize (A E fuel Hfuel). destruct (static_call _ _ _ _ _ _ _) as [[]| | | |]; cbn in A; try discriminate. congruence.
Qed.
Print Assumptions C150_any_results_leave_the_module_refuted.

(** * A case: a module with a function of two wide results, that adds its arguments and halts, and one
    that does nothing *)

Definition mn137w : modnode :=
  mkMN [mkFT [127; 127] [126; 124]] [mkFN 0 0 [I32Add 0 0 1; Halt]; mkFN 0 0 [Nop]].
Definition bs137w : bytes := Eval vm_compute in match write mn137w with Ok b => b | _ => [] end.
Definition md137w : module := Eval vm_compute in match compile bs137w with Ok x => x | _ => mkModule [] [] [] end.
Definition m137w : mach := new_interpreter (fun _ => 0) 4096 bs137w 65536.
Definition m137w' : mach := new_interpreter (fun a => a mod 251) 8192 bs137w (2 ^ 20).
Definition g137w (i : nat) : func := nth i (m_funcs md137w) (mkFunc 0 0 0 0 0 0 0).

Lemma mn137w_fits : fits mn137w /\ write mn137w = Ok bs137w /\ compile bs137w = Ok md137w /\
  func_inst md137w 0 = Ok (g137w 0) /\ func_inst md137w 1 = Ok (g137w 1).
Proof.
  split; [split; repeat constructor; cbn; unfold is_byte; lia|]. repeat split; vm_compute; reflexivity.
Qed.

Lemma can137w x y i : 0 <= x < 2 ^ 32 -> 0 <= y < 2 ^ 32 -> (i < 2)%nat ->
  can_call true m137w (instance md137w 65536 (g137w i)) [Int32; Int32] [x; y] [Int64; Double].
Proof.
  intros Hx Hy Hi. destruct i as [|[|i]]; [| |lia].
  all: constructor.
  1, 9: apply C10_new_interpreter_has_room; [lia|lia|reflexivity|vm_compute; split; discriminate].
  1, 8: intros a; cbn; unfold is_byte; lia.
  1, 7: constructor; [exact Hx|constructor; [exact Hy|constructor]].
  1, 6: vm_compute; discriminate.
  1, 5: vm_compute; repeat split; discriminate.
  all: reflexivity.
Qed.

Example C150_two_wide_results_halt x y : 0 <= x < 2 ^ 32 -> 0 <= y < 2 ^ 32 -> in_i32 (signed x + signed y) ->
  exists k, (k < 2)%nat /\ forall fuel, (k < fuel)%nat ->
    result (static_call fuel true m137w (instance md137w 65536 (g137w 0)) [Int32; Int32] [x; y] [Int64; Double]) =
      seen [Int64; Double] ENoWord.
Proof.
  intros Hx Hy HI. destruct mn137w_fits as (H1 & H2 & H3 & H4 & H5).
  destruct (C150_wordless_endings_partial mn137w bs137w md137w 0 (mkFN 0 0 [I32Add 0 0 1; Halt]) (g137w 0) true m137w
    [Int32; Int32] [x; y] [Int64; Double] ENoWord) as (k & K & H); auto; try reflexivity.
  - apply can137w; auto.
  - vm_compute. repeat constructor; discriminate.
  - unfold initial_regs. change (arg_words [Int32; Int32] [x; y]) with [x; y].
    change (Z.to_nat (fi_nregs (instance md137w (m_code_base m137w) (g137w 0)) - words_taken [Int32; Int32])) with 0%nat.
    cbn [seq map app follow fn_insns].
    change (Z.to_nat 0) with 0%nat. change (Z.to_nat 1) with 1%nat. cbn [nth frame_words app follow].
    unfold in_i32 in HI. replace (_ && _) with true by lia. reflexivity.
  - exists k. split; [exact K|]. intros fuel Hf. apply H. exact Hf.
Qed.

Example C150_two_wide_results_leave x y fuel : 0 <= x < 2 ^ 32 -> 0 <= y < 2 ^ 32 -> (1 < fuel)%nat ->
  static_call fuel true m137w (instance md137w 65536 (g137w 1)) [Int32; Int32] [x; y] [Int64; Double] = UB OutOfBounds.
Proof.
  intros Hx Hy Hf. destruct mn137w_fits as (H1 & H2 & H3 & H4 & H5).
  apply (C150_any_results_leave_the_module_refuted mn137w bs137w md137w 1 (mkFN 0 0 [Nop]) (g137w 1) true m137w
    [Int32; Int32] [x; y] [Int64; Double] (initial_regs true m137w (fi_nregs (instance md137w 65536 (g137w 1))) [Int32; Int32] [x; y])); auto; try reflexivity.
  - apply can137w; auto.
  - repeat constructor.
Qed.
