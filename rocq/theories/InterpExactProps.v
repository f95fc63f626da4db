(** C137: the reference run of the callee's bytes decides the outcome of a call completely. *)

From Coq Require Import ZArith List Bool Arith Lia ZifyBool ZifyNat.
From Verif Require Import Outcome BitLemmas VarIntModel CodecModel CodecSpec InterpModel InterpSpec
  InterpProofs InterpCallProofs InterpSafe InterpProps InterpExact.
Import ListNotations.
Local Open Scope Z_scope.

(** Where and with which registers the reference run of a call starts. *)
Definition start_of (dbg : bool) (m : mach) (f : finst) (As : list ctype) (xs : list Z) : Z * list Z :=
  (fi_body f - m_code_base m, initial_regs dbg m (fi_nregs f) As xs).

(** The reference run of the call ends with [e]. *)
Definition call_ends_with (dbg : bool) (m : mach) (f : finst) (As : list ctype) (xs : list Z) (e : ending) : Prop :=
  exists s, asteps (m_code m) (start_of dbg m f As xs) s /\ ends (m_code m) s e.

(** No result, or one 32-bit result. *)
Definition simple_result (Rs : list ctype) : Prop := Rs = [] \/ exists t, Rs = [t] /\ wide t = false.

(** A call that starts properly, of code that names only registers of its frame. *)
Record proper (dbg : bool) (m : mach) (f : finst) (As : list ctype) (xs : list Z) (Rs : list ctype) : Prop := {
  pr_can : can_call dbg m f As xs Rs;
  pr_ip : m_ip m mod 256 = 0;
  pr_code : is_bytes (m_code m);
  pr_rets : simple_result Rs;
  pr_regs : own_regs (m_code m) (fi_body f - m_code_base m) (fi_nregs f) }.

(** If the reference run ends with [e], then the call has exactly the outcome [seen Rs e], once
    enough instructions are allowed, and none before. *)
Theorem C137_ending_decides :
  forall dbg m f As xs Rs e,
    can_call dbg m f As xs Rs -> m_ip m mod 256 = 0 -> is_bytes (m_code m) -> simple_result Rs ->
    call_ends_with dbg m f As xs e ->
    exists k, forall fuel,
      ((fuel <= k)%nat -> static_call fuel dbg m f As xs Rs = OutOfFuel) /\
      ((k < fuel)%nat -> result (static_call fuel dbg m f As xs Rs) = seen Rs e).
Proof.
  intros dbg m f As xs Rs e Hcc Hip Hc HRs (s & Hs & He). apply asteps_n in Hs as (k & Hs).
  exists k. intros fuel. destruct (call_ends dbg m f As xs Rs k s e Hcc Hip Hc HRs Hs) as (A & B). auto.
Qed.
Print Assumptions C137_ending_decides.

(** The reference run ends in at most one way, and only where it cannot go on. *)
Theorem C137_one_ending :
  forall code s s1 s2 e1 e2, asteps code s s1 -> ends code s1 e1 -> asteps code s s2 -> ends code s2 e2 ->
    s1 = s2 /\ e1 = e2.
Proof.
  intros code s s1 s2 e1 e2 H1. revert s2. induction H1 as [s|s sa s1 A _ IH]; intros s2 E1 H2 E2.
  - destruct H2 as [s|s sb s2 B _]; [|exfalso; eapply astep_not_end; eauto].
    split; [auto|]. eapply ends_det; eauto.
  - destruct H2 as [s|s sb s2 B H2]; [exfalso; eapply astep_not_end; eauto|].
    assert (sa = sb) as -> by (eapply astep_det; eauto). eapply IH; eauto.
Qed.
Print Assumptions C137_one_ending.

(** Whatever the bound on the number of instructions: the call is still running, or the reference
    run ended and the call has the outcome that goes with it. *)
Theorem C137_every_outcome :
  forall dbg m f As xs Rs fuel, proper dbg m f As xs Rs ->
    static_call fuel dbg m f As xs Rs = OutOfFuel \/
    exists e, call_ends_with dbg m f As xs e /\ result (static_call fuel dbg m f As xs Rs) = seen Rs e.
Proof.
  intros dbg m f As xs Rs fuel [Hcc Hip Hc HRs Hown].
  pose proof (initial_regs_length _ _ _ _ _ _ Hcc) as Hl.
  assert (0 <= fi_nregs f) as Hn by (destruct (cc_room _ _ _ _ _ _ Hcc); lia).
  rewrite <- (Z2Nat.id (fi_nregs f)) in Hown by exact Hn.
  destruct (run_or_end (m_code m) _ _ (start_of dbg m f As xs) fuel Hc Hown) as [(s' & Hs)|(s' & e & Hs & He)].
  - constructor.
  - exact Hl.
  - left. apply (call_ends dbg m f As xs Rs fuel s' ENoWord Hcc Hip Hc HRs Hs). lia.
  - destruct (C137_ending_decides dbg m f As xs Rs e Hcc Hip Hc HRs) as (k & Hk); [exists s'; auto|].
    destruct (Nat.leb_spec fuel k); [left; now apply Hk|right]. exists e. split; [exists s'; auto|]. now apply Hk.
Qed.
Print Assumptions C137_every_outcome.

(** Hence: the outcome [o] of a call is seen for some bound exactly when the reference run ends
    with something the caller sees as [o]. *)
Theorem C137_outcome_iff :
  forall dbg m f As xs Rs o, proper dbg m f As xs Rs -> o <> OutOfFuel ->
    (exists fuel, result (static_call fuel dbg m f As xs Rs) = o) <->
    (exists e, call_ends_with dbg m f As xs e /\ seen Rs e = o).
Proof.
  intros dbg m f As xs Rs o P Ho. split.
  - intros (fuel & E). destruct (C137_every_outcome dbg m f As xs Rs fuel P) as [X|(e & He & X)].
    + rewrite X in E. cbn in E. congruence.
    + exists e. split; [auto|congruence].
  - intros (e & He & E). destruct P as [Hcc Hip Hc HRs Hown].
    destruct (C137_ending_decides dbg m f As xs Rs e Hcc Hip Hc HRs He) as (k & Hk).
    exists (S k). rewrite <- E. apply Hk. lia.
Qed.
Print Assumptions C137_outcome_iff.

(** In particular for a caller that expects one 32-bit word. *)
Corollary C137_word_iff :
  forall dbg m f As xs t, proper dbg m f As xs [t] ->
    (forall v, (exists fuel m', static_call fuel dbg m f As xs [t] = Ok ([v], m')) <->
       exists p rs s q, asteps (m_code m) (start_of dbg m f As xs) (p, rs) /\ op_at (m_code m) p (ORet32 s) q /\ reg rs s v) /\
    ((exists fuel, static_call fuel dbg m f As xs [t] = UB SignedOverflow) <-> call_ends_with dbg m f As xs EOverflow) /\
    ((exists fuel, static_call fuel dbg m f As xs [t] = UB NullDeref) <->
       exists p rs o q, asteps (m_code m) (start_of dbg m f As xs) (p, rs) /\ op_at (m_code m) p o q /\
         (o = OHalt \/ o = OReturn \/ o = OUnreachable)) /\
    ((exists fuel, static_call fuel dbg m f As xs [t] = Trap Assertion) <-> call_ends_with dbg m f As xs EUnknownOpcode) /\
    ((exists fuel, static_call fuel dbg m f As xs [t] = UB OutOfBounds) <-> call_ends_with dbg m f As xs EOutside).
Proof.
  intros dbg m f As xs t P.
  assert (forall (o : outcome (list Z)) (r : outcome (list Z * mach)), (forall x, o <> Ok x) ->
    (result r = o <-> r = match o with Ok _ => OutOfFuel | Throw e => Throw e | Trap t => Trap t | UB u => UB u | OutOfFuel => OutOfFuel end)) as X.
  { intros o r Ho. destruct r as [[a b]| | | |]; cbn; split; intros E; try (subst o; reflexivity); destruct o; try discriminate; try congruence.
    all: try (destruct (Ho _ eq_refl)). }
  assert (forall e o, (forall e', seen [t] e' = o -> e' = e) -> seen [t] e = o -> (forall x, o <> Ok x) -> o <> OutOfFuel ->
    ((exists fuel, static_call fuel dbg m f As xs [t] = match o with Ok _ => OutOfFuel | Throw e => Throw e | Trap t => Trap t | UB u => UB u | OutOfFuel => OutOfFuel end) <->
     call_ends_with dbg m f As xs e)) as Y.
  { intros e o Hu He Ho Hf. pose proof (C137_outcome_iff dbg m f As xs [t] o P Hf) as I. split.
    - intros (fuel & E). apply X in E; auto. destruct I as (I & _). destruct I as (e' & C & S); [eauto|].
      rewrite (Hu e' S) in C. exact C.
    - intros C. destruct I as (_ & I). destruct I as (fuel & E); [eauto|]. exists fuel. apply X; auto. }
  split; [|split; [|split; [|split]]].
  - intros v. pose proof (C137_outcome_iff dbg m f As xs [t] (Ok [v]) P ltac:(discriminate)) as I. split.
    + intros (fuel & m' & E). destruct I as (I & _). destruct I as (e & (s & A & B) & S); [exists fuel; now rewrite E|].
      destruct e; try discriminate. injection S as ->. inversion B; subst. eauto 10.
    + intros (p & rs & s & q & A & B & C). destruct I as (_ & I). destruct I as (fuel & E).
      { exists (EWord v). split; [|reflexivity]. exists (p, rs). split; [auto|]. eapply e_word; eauto. }
      destruct (static_call fuel dbg m f As xs [t]) as [[r m']| | | |] eqn:Es; try discriminate E.
      injection E as ->. eauto.
  - apply (Y EOverflow (UB SignedOverflow)); try discriminate; auto. intros []; cbn; congruence.
  - rewrite (Y ENoWord (UB NullDeref)); try discriminate; auto; [|intros []; cbn; congruence]. split.
    + intros (s & A & B). inversion B; subst; eauto 12.
    + intros (p & rs & o & q & A & B & C). exists (p, rs). split; [auto|].
      destruct C as [->|[->| ->]]; [eapply e_halt|eapply e_return|eapply e_unreachable]; eauto.
  - apply (Y EUnknownOpcode (Trap Assertion)); try discriminate; auto. intros []; cbn; congruence.
  - apply (Y EOutside (UB OutOfBounds)); try discriminate; auto. intros []; cbn; congruence.
Qed.
Print Assumptions C137_word_iff.

(** A call never comes back exactly when the reference run can always go on. *)
Theorem C137_never_returns_iff :
  forall dbg m f As xs Rs, proper dbg m f As xs Rs ->
    (forall fuel, static_call fuel dbg m f As xs Rs = OutOfFuel) <->
    (forall s, asteps (m_code m) (start_of dbg m f As xs) s -> exists s', astep (m_code m) s s').
Proof.
  intros dbg m f As xs Rs P. pose proof P as [Hcc Hip Hc HRs Hown]. split.
  - intros Hf s Hs. pose proof (initial_regs_length _ _ _ _ _ _ Hcc) as Hl.
    assert (0 <= fi_nregs f) as Hn by (destruct (cc_room _ _ _ _ _ _ Hcc); lia).
    rewrite <- (Z2Nat.id (fi_nregs f)) in Hown by exact Hn.
    destruct (asteps_cfg _ _ _ (fi_body f - m_code_base m) Hs) as (C & L); [constructor|].
    destruct s as [p rs]. cbn [start_of fst snd] in C, L.
    destruct (progress (m_code m) _ _ p rs Hc Hown C) as [A|(e & E)]; [lia|exact A|].
    exfalso. destruct (C137_ending_decides dbg m f As xs Rs e Hcc Hip Hc HRs) as (k & Hk); [exists (p, rs); auto|].
    destruct (Hk (S k)) as (_ & B). rewrite Hf in B. specialize (B ltac:(lia)).
    cbn in B. destruct e; cbn in B; try discriminate. destruct Rs; discriminate.
  - intros Hgo fuel. destruct (C137_every_outcome dbg m f As xs Rs fuel P) as [X|(e & (s & A & B) & _)]; [auto|].
    exfalso. destruct (Hgo s A) as (s' & S). eapply astep_not_end; eauto.
Qed.
Print Assumptions C137_never_returns_iff.

(** * Instances: three functions on a new interpreter: one that adds its two arguments (with and
    without overflow) and one that loops for ever. *)

Definition code137 : bytes := [106; 0; 0; 1; 13; 0; 22; 254].
Definition m137 : mach := new_interpreter (fun _ => 0) 4096 code137 65536.
Definition add137 : finst := mkFI (mkFT [I32; I32] [I32]) 2 65536.
Definition loop137 : finst := mkFI (mkFT [] [I32]) 0 65542.

Lemma add_at137 : op_at code137 0 (OAdd 0 0 1) 4.
Proof. split; [repeat constructor; unfold is_byte; lia|]. split; [cbn; lia|]. exists [], [13; 0; 22; 254]. auto. Qed.
Lemma ret_at137 : op_at code137 4 (ORet32 0) 6.
Proof. split; [repeat constructor; unfold is_byte; lia|]. split; [cbn; lia|]. exists [106; 0; 0; 1], [22; 254]. auto. Qed.
Lemma goto_at137 : op_at code137 6 (OGoto (-2)) 8.
Proof. split; [repeat constructor|]. split; [cbn; lia|]. exists [106; 0; 0; 1; 13; 0], []. auto. Qed.

Lemma can137 x y : 0 <= x < 2 ^ 32 -> 0 <= y < 2 ^ 32 -> can_call true m137 add137 [Int32; Int32] [x; y] [Int32].
Proof.
  intros Hx Hy. constructor; try reflexivity.
  - apply C10_new_interpreter_has_room; [lia|lia|reflexivity|cbn; lia].
  - intros a. cbn. unfold is_byte. lia.
  - repeat constructor; cbn; lia.
  - vm_compute. repeat split; discriminate.
Qed.

Example C137_add_proper x y : 0 <= x < 2 ^ 32 -> 0 <= y < 2 ^ 32 -> proper true m137 add137 [Int32; Int32] [x; y] [Int32].
Proof.
  intros Hx Hy. constructor; [now apply can137|reflexivity| | |].
  - repeat constructor; unfold is_byte; lia.
  - right. exists Int32. auto.
  - change (fi_body add137 - m_code_base m137) with 0. change (m_code m137) with code137. cbn [fi_nregs add137].
    assert (forall p, cfg code137 0 p -> p = 0 \/ p = 4) as C.
    { induction 1 as [|p q _ [->| ->] S]; [auto| |].
      - destruct S as [o q H K|o q H K]; destruct (op_at_det _ _ _ _ _ _ H add_at137) as (-> & ->); [auto|destruct K].
      - destruct S as [o q H K|o q H K]; destruct (op_at_det _ _ _ _ _ _ H ret_at137) as (-> & ->); destruct K. }
    intros p o q H Ho. destruct (C p H) as [->| ->].
    + destruct (op_at_det _ _ _ _ _ _ Ho add_at137) as (-> & _). repeat constructor; lia.
    + destruct (op_at_det _ _ _ _ _ _ Ho ret_at137) as (-> & _). repeat constructor; lia.
Qed.

Example C137_add_ends :
  call_ends_with true m137 add137 [Int32; Int32] [2 ^ 32 - 5; 12] (EWord 7) /\
  call_ends_with true m137 add137 [Int32; Int32] [2 ^ 31 - 1; 1] EOverflow.
Proof.
  split.
  - eexists (4, _). split.
    + eapply as_step; [eapply a_add; [exact add_at137|reflexivity|reflexivity|reflexivity|vm_compute; split; [discriminate|reflexivity]]|apply as_refl].
    + eapply e_word; [exact ret_at137|]. vm_compute. reflexivity.
  - eexists. split; [apply as_refl|]. eapply e_add; [exact add_at137|reflexivity|reflexivity|reflexivity|].
    unfold in_i32. vm_compute. intros (_ & H). discriminate H.
Qed.

Example C137_loop :
  proper true m137 loop137 [] [] [Int32] /\
  (forall s, asteps (m_code m137) (start_of true m137 loop137 [] []) s -> exists s', astep (m_code m137) s s').
Proof.
  split.
  - constructor; [|reflexivity| | |].
    + constructor; try reflexivity.
      * apply C10_new_interpreter_has_room; [lia|lia|reflexivity|cbn; lia].
      * intros a. cbn. unfold is_byte. lia.
      * constructor.
    + repeat constructor; unfold is_byte; lia.
    + right. exists Int32. auto.
    + change (fi_body loop137 - m_code_base m137) with 6. change (m_code m137) with code137.
      assert (forall p, cfg code137 6 p -> p = 6) as C.
      { induction 1 as [|p q _ -> S]; [auto|].
        destruct S as [o q H K|o q H K]; destruct (op_at_det _ _ _ _ _ _ H goto_at137) as (-> & ->); [destruct K|reflexivity]. }
      intros p o q H Ho. rewrite (C p H) in Ho. destruct (op_at_det _ _ _ _ _ _ Ho goto_at137) as (-> & _). constructor.
  - change (m_code m137) with code137.
    assert (forall s s', asteps code137 s s' -> fst s = 6 -> fst s' = 6) as X.
    { induction 1 as [s|s s1 s2 A _ IH]; intros E; [auto|]. apply IH.
      destruct s as [p rs]. cbn in E. subst p.
      inversion A; subst; match goal with H : op_at _ _ _ _ |- _ => destruct (op_at_det _ _ _ _ _ _ H goto_at137) as (K & ->); try discriminate K end.
      injection K as ->. reflexivity. }
    intros [p rs] H. apply X in H; [|reflexivity]. cbn in H. subst p. eexists. eapply a_goto. exact goto_at137.
Qed.
