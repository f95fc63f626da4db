(** Every way a call can end: the reference run of the callee's bytes (InterpSpec) decides the
    outcome of the call completely, including the outcomes that are not a result. *)

From Coq Require Import ZArith List Bool Arith Lia ZifyBool ZifyNat.
From Verif Require Import Outcome BitLemmas VarIntModel CodecModel CodecSpec InterpModel InterpSpec
  InterpProofs InterpCallProofs InterpSafe.
Import ListNotations.
Local Open Scope Z_scope.

(** * Specification *)

(** The opcodes the interpreter knows. *)
Definition known_opcodes : list Z := [0; 1; 4; 12; 13; 22; 23; 24; 106; 107].

(** How the reference run can stop: at an x32.return with the word of its register; at a halt,
    return or unreachable, without a word; at an addition or subtraction whose signed result does
    not fit; at a byte that is no opcode; or outside of the code (the next instruction is not, or
    not completely, inside). *)
Inductive ending := EWord (v : Z) | ENoWord | EOverflow | EUnknownOpcode | EOutside.

Inductive ends (code : bytes) : Z * list Z -> ending -> Prop :=
| e_word p rs q s v : op_at code p (ORet32 s) q -> reg rs s v -> ends code (p, rs) (EWord v)
| e_halt p rs q : op_at code p OHalt q -> ends code (p, rs) ENoWord
| e_unreachable p rs q : op_at code p OUnreachable q -> ends code (p, rs) ENoWord
| e_return p rs q : op_at code p OReturn q -> ends code (p, rs) ENoWord
| e_add p rs q d l r x y w : op_at code p (OAdd d l r) q -> reg rs d w -> reg rs l x -> reg rs r y ->
    ~ in_i32 (signed x + signed y) -> ends code (p, rs) EOverflow
| e_sub p rs q d l r x y w : op_at code p (OSub d l r) q -> reg rs d w -> reg rs l x -> reg rs r y ->
    ~ in_i32 (signed x - signed y) -> ends code (p, rs) EOverflow
| e_unknown p rs b : 0 <= p -> nth_error code (Z.to_nat p) = Some b -> ~ In b known_opcodes ->
    ends code (p, rs) EUnknownOpcode
| e_outside p rs : (forall o q, ~ op_at code p o q) ->
    (forall b, 0 <= p -> nth_error code (Z.to_nat p) = Some b -> In b known_opcodes) ->
    ends code (p, rs) EOutside.

(** What the caller sees: the results, a stop of the process, or undefined behaviour.  A caller
    that expects a word and gets none reads through a null pointer. *)
Definition seen (Rs : list ctype) (e : ending) : outcome (list Z) :=
  match e with
  | EWord v => Ok (match Rs with [] => [] | _ => [v] end)
  | ENoWord => match Rs with [] => Ok [] | _ => UB NullDeref end
  | EOverflow => UB SignedOverflow
  | EUnknownOpcode => Trap Assertion
  | EOutside => UB OutOfBounds
  end.

(** * The reference run is deterministic and never silently stuck *)

Lemma bytes_at_det code p g g' q q' : bytes_at code p g q -> bytes_at code p g' q' ->
  forall i b b', nth_error g i = Some b -> nth_error g' i = Some b' -> b = b'.
Proof.
  intros (a & c & E & L & _) (a' & c' & E' & L' & _) i b b' N N'.
  assert (forall (u v w : bytes) j x, nth_error v j = Some x -> nth_error (u ++ v ++ w) (length u + j) = Some x) as X.
  { intros u v w j x Hx. rewrite nth_error_app2 by lia. replace (length u + j - length u)%nat with j by lia.
    rewrite nth_error_app1; auto. apply nth_error_Some. congruence. }
  pose proof (X a g c i b N) as A. pose proof (X a' g' c' i b' N') as A'.
  rewrite <- E in A. rewrite <- E' in A'. assert (length a = length a') as La by lia. rewrite La in A. congruence.
Qed.

Lemma off_det x y : -128 <= x < 128 -> -128 <= y < 128 -> x mod 256 = y mod 256 -> x = y.
Proof. intros. rewrite <- (to_signed_off x), <- (to_signed_off y) by auto. congruence. Qed.

Lemma op_at_det code p o q o' q' : op_at code p o q -> op_at code p o' q' -> o = o' /\ q = q'.
Proof.
  intros (R & O & B) (R' & O' & B').
  assert (forall i b b', nth_error (enc o) i = Some b -> nth_error (enc o') i = Some b' -> b = b') as D
    by (eapply bytes_at_det; eauto).
  assert (o = o') as E.
  { pose proof (D 0%nat) as D0. pose proof (D 1%nat) as D1. pose proof (D 2%nat) as D2. pose proof (D 3%nat) as D3.
    destruct o; destruct o'; cbn [enc nth_error off_of] in *;
    try (specialize (D0 _ _ eq_refl eq_refl); discriminate D0); try reflexivity.
    all: try specialize (D1 _ _ eq_refl eq_refl); try specialize (D2 _ _ eq_refl eq_refl);
         try specialize (D3 _ _ eq_refl eq_refl).
    all: try apply off_det in D1; try apply off_det in D2; auto; congruence. }
  split; [exact E|]. subst o'. destruct B as (? & ? & _ & L & ->), B' as (? & ? & _ & L' & ->). reflexivity.
Qed.

Lemma op_at_first code p o q : op_at code p o q ->
  exists b, 0 <= p /\ nth_error code (Z.to_nat p) = Some b /\ In b known_opcodes.
Proof.
  intros (_ & _ & a & c & E & L & _). 
  assert (exists b t, enc o = b :: t /\ In b known_opcodes) as (b & t & Eo & Hb)
    by (destruct o; cbn; eexists _, _; (split; [reflexivity|cbn; tauto])).
  exists b. split; [lia|split;[|auto]]. rewrite E, Eo. rewrite nth_error_app2 by lia.
  replace (Z.to_nat p - length a)%nat with O by lia. reflexivity.
Qed.

Lemma astep_not_end code s s' e : astep code s s' -> ends code s e -> False.
Proof.
  intros A E.
  assert (forall p o q o' q', op_at code p o q -> op_at code p o' q' -> o = o' /\ q = q') as D by (intros; eapply op_at_det; eauto).
  inversion A; subst; inversion E; subst;
  match goal with
  | X : op_at _ ?p ?o _, Y : op_at _ ?p ?o' _ |- _ =>
      first [ destruct (D _ _ _ _ _ X Y) as (K & _); discriminate K
            | destruct (D _ _ _ _ _ X Y) as (K & _); injection K as <- <- <-; unfold reg in *; congruence ]
  | X : op_at _ ?p _ _, N : forall o q, ~ op_at _ ?p _ _ |- _ => exact (N _ _ X)
  | X : op_at _ ?p _ _ |- _ => apply op_at_first in X as (? & ? & ? & ?); congruence
  end.
Qed.

Lemma ends_det code s e e' : ends code s e -> ends code s e' -> e = e'.
Proof.
  intros A E. 
  assert (forall p o q o' q', op_at code p o q -> op_at code p o' q' -> o = o' /\ q = q') as D by (intros; eapply op_at_det; eauto).
  inversion A; subst; inversion E; subst; try reflexivity;
  match goal with
  | X : op_at _ ?p ?o _, Y : op_at _ ?p ?o' _ |- _ =>
      first [ destruct (D _ _ _ _ _ X Y) as (K & _); discriminate K
            | destruct (D _ _ _ _ _ X Y) as (K & _); injection K as <-; unfold reg in *; congruence ]
  | X : op_at _ ?p _ _, N : forall o q, ~ op_at _ ?p _ _ |- _ => destruct (N _ _ X)
  | X : op_at _ ?p _ _ |- _ => apply op_at_first in X as (? & ? & ? & ?); congruence
  | X : ~ In ?b known_opcodes, Y : forall b, _ -> _ -> In b known_opcodes |- _ => destruct X; apply Y; auto
  end.
Qed.

Lemma astep_det code s s1 s2 : astep code s s1 -> astep code s s2 -> s1 = s2.
Proof.
  intros A E. 
  assert (forall p o q o' q', op_at code p o q -> op_at code p o' q' -> o = o' /\ q = q') as D by (intros; eapply op_at_det; eauto).
  inversion A; subst; inversion E; subst;
  match goal with
  | X : op_at _ ?p ?o _, Y : op_at _ ?p ?o' _ |- _ =>
      first [ destruct (D _ _ _ _ _ X Y) as (K & _); discriminate K
            | destruct (D _ _ _ _ _ X Y) as (K & ->); try injection K; intros; subst; unfold reg in *; congruence ]
  end.
Qed.

(** [k] steps of the reference run. *)
Inductive astepn (code : bytes) : nat -> Z * list Z -> Z * list Z -> Prop :=
| an_O s : astepn code 0 s s
| an_S k s s1 s2 : astep code s s1 -> astepn code k s1 s2 -> astepn code (S k) s s2.

Lemma asteps_n code s s' : asteps code s s' <-> exists k, astepn code k s s'.
Proof.
  split.
  - induction 1 as [s|s s1 s2 H _ (k & IH)]; [exists O; constructor|]. exists (S k). econstructor; eauto.
  - intros (k & H). induction H; [apply as_refl|eapply as_step; eauto].
Qed.

Lemma astepn_snoc code k s s1 s2 : astepn code k s s1 -> astep code s1 s2 -> astepn code (S k) s s2.
Proof. induction 1; intros; [econstructor; [eassumption|constructor]|]. econstructor; eauto. Qed.

Lemma astepn_split code j k s s' : astepn code (j + k) s s' -> exists s1, astepn code j s s1 /\ astepn code k s1 s'.
Proof.
  revert s. induction j as [|j IH]; intros s H; [exists s; split; [constructor|exact H]|].
  inversion H; subst. edestruct IH as (s3 & A & B); [eassumption|]. exists s3. split; [econstructor; eauto|auto].
Qed.

Lemma asteps_trans code s s1 s2 : asteps code s s1 -> asteps code s1 s2 -> asteps code s s2.
Proof. induction 1; intros; auto. eapply as_step; eauto. Qed.

Lemma astep_succ code p rs p' rs' : astep code (p, rs) (p', rs') -> succ code p p' /\ length rs' = length rs.
Proof.
  intros H. inversion H; subst; (split; [|try rewrite put_length; reflexivity]).
  - eapply s_next; eauto; exact I.
  - change off with (off_of (OGoto off)). eapply s_jump; eauto; exact I.
  - change off with (off_of (OGotoIf t off)). eapply s_jump; eauto; exact I.
  - eapply s_next; eauto; exact I.
  - change off with (off_of (OGotoUnless t off)). eapply s_jump; eauto; exact I.
  - eapply s_next; eauto; exact I.
  - eapply s_next; eauto; exact I.
  - eapply s_next; eauto; exact I.
Qed.

Lemma asteps_cfg code s s' start : asteps code s s' -> cfg code start (fst s) ->
  cfg code start (fst s') /\ length (snd s') = length (snd s).
Proof.
  induction 1 as [s|s s1 s2 H _ IH]; intros C; [auto|]. destruct s as [p rs], s1 as [p1 rs1].
  cbn [fst snd] in *. apply astep_succ in H as (H & L). rewrite <- L. apply IH. eapply cfg_next; eauto.
Qed.

(** Reading an instruction: it is there, or its opcode is unknown, or the bytes end. *)
Lemma u8_at_cases m a : (exists b, u8_at m a = Ok b) \/ u8_at m a = UB OutOfBounds.
Proof. unfold u8_at. destruct (negb _); auto. destruct (nth_error _ _); eauto. Qed.

Lemma step_no_op m ip : is_bytes (m_code m) -> (forall o q, ~ op_at (m_code m) (ip - m_code_base m) o q) ->
  (exists b, 0 <= ip - m_code_base m /\ nth_error (m_code m) (Z.to_nat (ip - m_code_base m)) = Some b /\
     ~ In b known_opcodes /\ step m ip = Trap Assertion) \/
  ((forall b, 0 <= ip - m_code_base m -> nth_error (m_code m) (Z.to_nat (ip - m_code_base m)) = Some b -> In b known_opcodes) /\
   step m ip = UB OutOfBounds).
Proof.
  intros Hc Hno.
  assert (forall i b, 0 <= i -> u8_at m (ip + i) = Ok b ->
    nth_error (m_code m) (Z.to_nat (ip - m_code_base m + i)) = Some b /\ is_byte b) as Fi.
  { intros i b Hi E. apply u8_at_inv in E as (E & _).
    replace (ip - m_code_base m + i) with (ip + i - m_code_base m) by lia.
    split; [auto|]. eapply nth_bytes; eauto. }
  assert (forall i b, 0 <= i -> u8_at m (ip + i) = Ok b ->
    nth_error (m_code m) (Z.to_nat (ip - m_code_base m + i)) = Some (to_signed 8 b mod 256) /\ -128 <= to_signed 8 b < 128) as Gi.
  { intros i b Hi E. apply Fi in E as (E & B); auto. apply to_signed_8 in B as (B1 & B2). rewrite B2. auto. }
  unfold step. destruct (u8_at_cases m ip) as [(opc & E0)|E0]; rewrite E0; cbn [bind].
  2: { right. split; [|reflexivity]. intros b Hp N. exfalso.
       pose proof (u8_at_nth m _ _ N Hp) as U. replace (m_code_base m + (ip - m_code_base m)) with ip in U by lia. congruence. }
  apply u8_at_inv in E0 as (N0 & Hp).
  assert (In opc known_opcodes -> forall b, 0 <= ip - m_code_base m -> nth_error (m_code m) (Z.to_nat (ip - m_code_base m)) = Some b -> In b known_opcodes) as Hk
    by (intros ? ? ? ?; congruence).
  set (cb := m_code_base m) in *. set (code := m_code m) in *.
  Ltac nth_enc' := intros [|[|[|[|i]]]] b; cbn [nth_error enc]; intros E;
    try (destruct i; discriminate E); try discriminate E; injection E as <-;
    first [ eassumption | rewrite Z.add_0_r; eassumption | idtac ].
  Ltac no Hno o := exfalso; eapply (Hno o); apply op_at_intro; [assumption|assumption|discriminate|cbn [regs_of]; auto|cbn [off_of]; lia|nth_enc'].
  destruct (Z.eqb_spec opc 0) as [->|]; [no Hno OUnreachable|].
  destruct (Z.eqb_spec opc 1) as [->|]; [no Hno ONop|].
  destruct (Z.eqb_spec opc 4) as [->|]; [no Hno OHalt|].
  destruct (Z.eqb_spec opc 12) as [->|]; [no Hno OReturn|].
  destruct (Z.eqb_spec opc 13) as [->|].
  { destruct (u8_at_cases m (ip + 1)) as [(b1 & E1)|E1]; rewrite E1; [|right; split; [apply Hk; cbn; tauto|reflexivity]].
    apply (Fi 1) in E1 as (E1 & B1); [|lia]. no Hno (ORet32 b1). }
  destruct (Z.eqb_spec opc 22) as [->|].
  { unfold i8_at. destruct (u8_at_cases m (ip + 1)) as [(b1 & E1)|E1]; rewrite E1; [|right; split; [apply Hk; cbn; tauto|reflexivity]].
    apply (Gi 1) in E1 as (E1 & B1); [|lia]. no Hno (OGoto (to_signed 8 b1)). }
  destruct (Z.eqb_spec opc 23) as [->|].
  { unfold i8_at. destruct (u8_at_cases m (ip + 1)) as [(b1 & E1)|E1]; rewrite E1; [|right; split; [apply Hk; cbn; tauto|reflexivity]].
    cbn [bind].
    destruct (u8_at_cases m (ip + 2)) as [(b2 & E2)|E2]; rewrite E2; [|right; split; [apply Hk; cbn; tauto|reflexivity]].
    apply (Fi 1) in E1 as (E1 & B1); [|lia]. apply (Gi 2) in E2 as (E2 & B2); [|lia]. no Hno (OGotoIf b1 (to_signed 8 b2)). }
  destruct (Z.eqb_spec opc 24) as [->|].
  { unfold i8_at. destruct (u8_at_cases m (ip + 1)) as [(b1 & E1)|E1]; rewrite E1; [|right; split; [apply Hk; cbn; tauto|reflexivity]].
    cbn [bind].
    destruct (u8_at_cases m (ip + 2)) as [(b2 & E2)|E2]; rewrite E2; [|right; split; [apply Hk; cbn; tauto|reflexivity]].
    apply (Fi 1) in E1 as (E1 & B1); [|lia]. apply (Gi 2) in E2 as (E2 & B2); [|lia]. no Hno (OGotoUnless b1 (to_signed 8 b2)). }
  destruct (Z.eqb_spec opc 106) as [->|].
  { destruct (u8_at_cases m (ip + 1)) as [(b1 & E1)|E1]; rewrite E1; [|right; split; [apply Hk; cbn; tauto|reflexivity]].
    cbn [bind].
    destruct (u8_at_cases m (ip + 2)) as [(b2 & E2)|E2]; rewrite E2; [|right; split; [apply Hk; cbn; tauto|reflexivity]].
    cbn [bind].
    destruct (u8_at_cases m (ip + 3)) as [(b3 & E3)|E3]; rewrite E3; [|right; split; [apply Hk; cbn; tauto|reflexivity]].
    apply (Fi 1) in E1 as (E1 & B1); [|lia]. apply (Fi 2) in E2 as (E2 & B2); [|lia]. apply (Fi 3) in E3 as (E3 & B3); [|lia].
    no Hno (OAdd b1 b2 b3). }
  destruct (Z.eqb_spec opc 107) as [->|].
  { destruct (u8_at_cases m (ip + 1)) as [(b1 & E1)|E1]; rewrite E1; [|right; split; [apply Hk; cbn; tauto|reflexivity]].
    cbn [bind].
    destruct (u8_at_cases m (ip + 2)) as [(b2 & E2)|E2]; rewrite E2; [|right; split; [apply Hk; cbn; tauto|reflexivity]].
    cbn [bind].
    destruct (u8_at_cases m (ip + 3)) as [(b3 & E3)|E3]; rewrite E3; [|right; split; [apply Hk; cbn; tauto|reflexivity]].
    apply (Fi 1) in E1 as (E1 & B1); [|lia]. apply (Fi 2) in E2 as (E2 & B2); [|lia]. apply (Fi 3) in E3 as (E3 & B3); [|lia].
    no Hno (OSub b1 b2 b3). }
  left. exists opc. conjs; auto. unfold known_opcodes; cbn [In]. lia.
Qed.

(** Whether an instruction stands at [p]. *)
Lemma op_dec code p : is_bytes code -> (exists o q, op_at code p o q) \/ (forall o q, ~ op_at code p o q).
Proof.
  intros Hc.
  assert (forall g, {bytes_at code p g (p + Z.of_nat (length g))} + {~ bytes_at code p g (p + Z.of_nat (length g))}) as BD.
  { intros g. destruct (Z_lt_dec p 0); [right; intros (a & c & _ & L & _); lia|].
    destruct (list_eq_dec Z.eq_dec code (firstn (Z.to_nat p) code ++ g ++ skipn (Z.to_nat p + length g) code)) as [E|E].
    - destruct (le_dec (Z.to_nat p) (length code)) as [H0|H0].
      + left. exists (firstn (Z.to_nat p) code), (skipn (Z.to_nat p + length g) code). split; [auto|].
        rewrite firstn_length. lia.
      + right. intros (a & c & E' & L & _). rewrite E' in H0. rewrite !app_length in H0. lia.
    - right. intros (a & c & E' & L & _). apply E. clear E. rewrite E' at 1. subst code.
      assert (Z.to_nat p = length a) as -> by lia. rewrite firstn_app, firstn_all, Nat.sub_diag.
      cbn [firstn]. rewrite app_nil_r. f_equal. f_equal.
      rewrite skipn_app. rewrite skipn_all2 by lia. cbn [app].
      replace (length a + length g - length a)%nat with (length g) by lia.
      rewrite skipn_app, skipn_all, Nat.sub_diag. reflexivity. }
  assert (forall o q, op_at code p o q -> q = p + Z.of_nat (length (enc o))) as EQ.
  { intros o q (_ & _ & a & c & _ & _ & ->). reflexivity. }
  destruct (nth_error code (Z.to_nat p)) as [b0|] eqn:N0.
  2: { right. intros o q Ho. apply op_at_first in Ho as (b & _ & N & _). congruence. }
  set (at_ i := nth (Z.to_nat (p + i)) code 0).
  set (cand := [OUnreachable; ONop; OHalt; OReturn; ORet32 (at_ 1); OGoto (to_signed 8 (at_ 1));
    OGotoIf (at_ 1) (to_signed 8 (at_ 2)); OGotoUnless (at_ 1) (to_signed 8 (at_ 2));
    OAdd (at_ 1) (at_ 2) (at_ 3); OSub (at_ 1) (at_ 2) (at_ 3)]).
  assert (forall o q, op_at code p o q -> In o cand) as Hin.
  { intros o q (R & O & B).
    assert (forall i b, nth_error (enc o) i = Some b -> at_ (Z.of_nat i) = b) as X.
    { intros i b E. pose proof (bytes_at_nth _ _ _ _ i b B E) as Y.
      unfold at_. apply nth_error_nth. exact Y. }
    pose proof (X 1%nat) as X1. pose proof (X 2%nat) as X2. pose proof (X 3%nat) as X3.
    unfold cand. destruct o; cbn [enc nth_error] in X1, X2, X3; try (cbn [In]; tauto).
    all: try specialize (X1 _ eq_refl); try specialize (X2 _ eq_refl); try specialize (X3 _ eq_refl).
    all: cbn [Z.of_nat Pos.of_succ_nat Pos.succ] in X1, X2, X3; cbn [off_of] in O.
    all: try rewrite X1; try rewrite X2; try rewrite X3; try rewrite to_signed_off by auto; cbn [In]; tauto. }
  assert (forall l, (exists o q, In o l /\ op_at code p o q) \/ (forall o q, In o l -> ~ op_at code p o q)) as Scan.
  { induction l as [|o l IH]; [right; intros ? ? []|].
    destruct IH as [(o' & q & I' & H)|IH]; [left; exists o', q; cbn; auto|].
    destruct (BD (enc o)) as [B|B].
    2: { right. intros o' q [<-|I'] Ho; [|eapply IH; eauto]. rewrite (EQ _ _ Ho) in Ho. destruct Ho as (_ & _ & Ho). auto. }
    destruct (Forall_dec is_byte (fun x => ltac:(unfold is_byte; destruct (Z_le_dec 0 x); [destruct (Z_lt_dec x 256); [left; lia|right; lia]|right; lia])) (regs_of o)) as [R|R].
    2: { right. intros o' q [<-|I'] Ho; [|eapply IH; eauto]. destruct Ho as (Ho & _). auto. }
    destruct (Z_le_dec (-128) (off_of o)) as [L|L], (Z_lt_dec (off_of o) 128) as [G|G].
    1: { left. exists o, (p + Z.of_nat (length (enc o))). split; [cbn; auto|]. split; [auto|split; [lia|auto]]. }
    all: right; intros o' q [<-|I'] Ho; [|eapply IH; eauto]; destruct Ho as (_ & Ho & _); lia. }
  destruct (Scan cand) as [(o & q & _ & H)|H]; [left; eauto|right]. intros o q Ho. exact (H o q (Hin _ _ Ho) Ho).
Qed.

(** * Progress *)

(** With the registers of a frame of [n] and code that names only those, the run either goes on
    or ends in one of the five ways. *)
Lemma progress code start n p rs : is_bytes code -> own_regs code start (Z.of_nat n) -> cfg code start p ->
  length rs = n -> (exists s', astep code (p, rs) s') \/ (exists e, ends code (p, rs) e).
Proof.
  intros Hc Hown Hcfg Hl.
  destruct (op_dec code p Hc) as [(o & q & Ho)|Hno].
  2: { right. set (m := mkMach (fun _ => 0) 0 0 code 0 0 0 0 None true false).
       destruct (step_no_op m p) as [(b & A & B & C & _)|(A & _)]; cbn [m m_code m_code_base]; auto.
       - intros o q. rewrite Z.sub_0_r. apply Hno.
       - cbn [m m_code m_code_base] in *. rewrite Z.sub_0_r in *. eexists. eapply e_unknown; eauto.
       - cbn [m m_code m_code_base] in *. rewrite Z.sub_0_r in *. eexists. eapply e_outside; eauto. }
  pose proof (Hown _ _ _ Hcfg Ho) as Hr. rewrite Forall_forall in Hr.
  assert (forall i, In i (regs_of o) -> exists v, reg rs i v) as R.
  { intros i Hi. pose proof (op_regs _ _ _ _ i Ho Hi). specialize (Hr i Hi). cbv beta in Hr. unfold reg.
    destruct (nth_error rs (Z.to_nat i)) eqn:E; [eauto|]. apply nth_error_None in E. lia. }
  destruct o; cbn [regs_of] in R.
  - left. eexists. eapply a_nop; eauto.
  - right. eexists. eapply e_halt; eauto.
  - right. eexists. eapply e_unreachable; eauto.
  - right. eexists. eapply e_return; eauto.
  - destruct (R src) as (v & Rv); [cbn; auto|]. right. eexists. eapply e_word; eauto.
  - left. eexists. eapply a_goto; eauto.
  - destruct (R tst) as (v & Rv); [cbn; auto|]. left. destruct (Z.eq_dec v 0) as [->|Hv]; eexists.
    + eapply a_if_not; eauto.
    + eapply a_if; eauto.
  - destruct (R tst) as (v & Rv); [cbn; auto|]. left. destruct (Z.eq_dec v 0) as [->|Hv]; eexists.
    + eapply a_unless; eauto.
    + eapply a_unless_not; eauto.
  - destruct (R dst) as (w & Rw); [cbn; auto|]. destruct (R lhs) as (x & Rx); [cbn; auto|]. destruct (R rhs) as (y & Ry); [cbn; auto|].
    assert (in_i32 (signed x + signed y) \/ ~ in_i32 (signed x + signed y)) as [I|I] by (unfold in_i32; lia).
    + left. eexists. eapply a_add; eauto.
    + right. eexists. eapply e_add; eauto.
  - destruct (R dst) as (w & Rw); [cbn; auto|]. destruct (R lhs) as (x & Rx); [cbn; auto|]. destruct (R rhs) as (y & Ry); [cbn; auto|].
    assert (in_i32 (signed x - signed y) \/ ~ in_i32 (signed x - signed y)) as [I|I] by (unfold in_i32; lia).
    + left. eexists. eapply a_sub; eauto.
    + right. eexists. eapply e_sub; eauto.
Qed.

(** After [k] attempts the run has made [k] steps or has ended. *)
Lemma run_or_end code start n s k : is_bytes code -> own_regs code start (Z.of_nat n) -> cfg code start (fst s) ->
  length (snd s) = n ->
  (exists s', astepn code k s s') \/ (exists s' e, asteps code s s' /\ ends code s' e).
Proof.
  intros Hc Hown Hcfg Hl. induction k as [|k [(s' & IH)|IH]]; [left; eexists; constructor| |right; exact IH].
  assert (asteps code s s') as Hs by (apply asteps_n; eauto).
  destruct (asteps_cfg _ _ _ start Hs Hcfg) as (C & L). destruct s' as [p rs]. cbn [fst snd] in *.
  destruct (progress code start n p rs) as [(s1 & A)|(e & E)]; auto; [lia| |].
  - left. exists s1. eapply astepn_snoc; eauto.
  - right. eauto.
Qed.

(** * Runs of the interpreter *)

Lemma sim_n code k s s' : astepn code k s s' -> forall m n, m_code m = code ->
  bytes_mem (m_mem m) -> frame_in m (Z.of_nat n) -> frame_words (m_mem m) (m_sp m) n = snd s ->
  exists mem', (forall fuel, run (k + fuel) m (m_code_base m + fst s) =
                   run fuel (with_mem m mem') (m_code_base m + fst s')) /\
    bytes_mem mem' /\ frame_words mem' (m_sp m) n = snd s' /\
    (forall a, ~ (m_sp m <= a < m_sp m + 4 * Z.of_nat n) -> mem' a = m_mem m a).
Proof.
  induction 1 as [s|k s s1 s2 H1 _ IH]; intros m n Hc Hb Hf Hrs.
  - exists (m_mem m). replace (with_mem m (m_mem m)) with m by now destruct m. auto.
  - destruct s as [p rs], s1 as [p1 rs1]. cbn [fst snd] in *. subst code.
    destruct (sim_step m n p rs p1 rs1) as (mem1 & E & Hb1 & Hr1 & Ho1); auto.
    destruct (IH (with_mem m mem1) n) as (mem2 & E2 & Hb2 & Hr2 & Ho2); auto.
    exists mem2. conjs; auto.
    + intros fuel. cbn [run Nat.add]. rewrite E. cbn [bind]. apply E2.
    + intros a Ha. rewrite (Ho2 a) by auto. now apply Ho1.
Qed.

(** What the instruction at an ending does. *)
Lemma step_ends m n p rs e : is_bytes (m_code m) -> bytes_mem (m_mem m) -> frame_in m (Z.of_nat n) ->
  frame_words (m_mem m) (m_sp m) n = rs ->
  (exists tag, read_tag m = Ok tag /\ frame_kind tag = NATIVE) ->
  ends (m_code m) (p, rs) e ->
  match e with
  | EWord v => exists s, step m (m_code_base m + p) = Ok (commit m (m_code_base m + p), inr (EXIT (m_sp m + 4 * s))) /\ reg rs s v /\ 0 <= s
  | ENoWord => exists m' a, step m (m_code_base m + p) = Ok (m', inr a) /\ (a = HALT \/ a = EXIT 0) /\
      (m' = commit m (m_code_base m + p) \/ m' = with_error (commit m (m_code_base m + p)))
  | EOverflow => step m (m_code_base m + p) = UB SignedOverflow
  | EUnknownOpcode => step m (m_code_base m + p) = Trap Assertion
  | EOutside => step m (m_code_base m + p) = UB OutOfBounds
  end.
Proof.
  intros Hc Hb Hf Hrs (tag & T1 & T2) E. set (ip := m_code_base m + p).
  assert (ip - m_code_base m = p) as Ep by (unfold ip; lia).
  assert (forall i v, 0 <= i -> reg rs i v -> v = word (m_mem m) (m_sp m + 4 * i) /\ reg_ok m i) as R.
  { intros i v Hi X. rewrite <- Hrs in X. apply reg_frame in X as (E1 & E2); [|auto]. split; [auto|].
    eapply frame_reg_ok; eauto. }
  assert (forall o q, op_at (m_code m) p o q -> op_at (m_code m) (ip - m_code_base m) o q) as Eq by (intros; now rewrite Ep).
  inversion E; subst e; match goal with X : _ = p |- _ => subst p | _ => idtac end; try match goal with X : ?r = rs |- _ => is_var r; subst r end.
  - match goal with X : op_at _ _ _ _ |- _ => pose proof (op_regs _ _ _ _ s X ltac:(cbn; auto)) as Hs end.
    match goal with X : reg _ s v |- _ => pose proof (R s v ltac:(lia) X) as (Ev & Ro) end.
    exists s. split; [|split; [auto|lia]]. erewrite step_ret32 by eauto. rewrite load_ok by exact Ro. cbn [bind].
    rewrite T1. cbn [bind]. now rewrite T2.
  - eexists _, _. split; [eapply step_halt; eauto|auto].
  - eexists _, _. split; [eapply step_unreachable; eauto|auto].
  - eexists _, _. split; [erewrite step_return by eauto; rewrite T1; cbn [bind]; rewrite T2; reflexivity|auto].
  - match goal with X : op_at _ _ _ _ |- _ =>
      pose proof (op_regs _ _ _ _ d X ltac:(cbn; auto)) as Hd;
      pose proof (op_regs _ _ _ _ l X ltac:(cbn; auto)) as Hl;
      pose proof (op_regs _ _ _ _ r X ltac:(cbn; auto)) as Hr end.
    destruct (R d w) as (_ & Rd); [lia|auto|]. destruct (R l x) as (El & Rl); [lia|auto|].
    destruct (R r y) as (Er & Rr); [lia|auto|].
    erewrite (step_add m _ _ Hb d l r) by eauto. cbv zeta. rewrite <- El, <- Er.
    match goal with X : ~ in_i32 _ |- _ => unfold in_i32 in X end.
    now replace (_ && _) with false by lia.
  - match goal with X : op_at _ _ _ _ |- _ =>
      pose proof (op_regs _ _ _ _ d X ltac:(cbn; auto)) as Hd;
      pose proof (op_regs _ _ _ _ l X ltac:(cbn; auto)) as Hl;
      pose proof (op_regs _ _ _ _ r X ltac:(cbn; auto)) as Hr end.
    destruct (R d w) as (_ & Rd); [lia|auto|]. destruct (R l x) as (El & Rl); [lia|auto|].
    destruct (R r y) as (Er & Rr); [lia|auto|].
    erewrite (step_sub m _ _ Hb d l r) by eauto. cbv zeta. rewrite <- El, <- Er.
    match goal with X : ~ in_i32 _ |- _ => unfold in_i32 in X end.
    now replace (_ && _) with false by lia.
  - destruct (step_no_op m ip) as [(b' & _ & _ & _ & S)|(A & _)]; auto.
    + intros o q Ho. rewrite Ep in Ho. apply op_at_first in Ho as (b' & _ & N & I). congruence.
    + exfalso. rewrite Ep in A. match goal with X : ~ In _ known_opcodes |- _ => apply X; eapply A; eauto end.
  - destruct (step_no_op m ip) as [(b' & A1 & A2 & A3 & _)|(_ & S)]; auto.
    + intros o q Ho. rewrite Ep in Ho. match goal with X : forall o q, ~ op_at _ _ o q |- _ => exact (X _ _ Ho) end.
    + exfalso. rewrite Ep in A1, A2. apply A3. eauto.
Qed.

(** * Calls *)

(** The outcome of a call without the machine it leaves. *)
Definition result {A B} (o : outcome (A * B)) : outcome A := do (a, _) <- o; Ok a.

Lemma call_ends_gen dbg m f As xs Rs k s e :
  can_call dbg m f As xs Rs -> m_ip m mod 256 = 0 -> is_bytes (m_code m) ->
  (forall v, e = EWord v -> Rs = [] \/ exists t, Rs = [t] /\ wide t = false) ->
  astepn (m_code m) k (fi_body f - m_code_base m, initial_regs dbg m (fi_nregs f) As xs) s ->
  (forall fuel, (fuel <= k)%nat -> static_call fuel dbg m f As xs Rs = OutOfFuel) /\
  (ends (m_code m) s e -> forall fuel, (k < fuel)%nat -> result (static_call fuel dbg m f As xs Rs) = seen Rs e).
Proof.
  intros [Hroom Hb Hv Hn Ha Hh HA HR] Hip Hc HRs Hst.
  pose proof Hroom as (R1 & R2 & R3 & R4 & R5 & R6 & R7 & R8 & R9 & R10).
  destruct (frame_bytes_facts dbg) as (F1 & F2).
  pose proof (call_entry dbg m f As xs Hroom Hb Hv Hn Ha) as CE. cbv zeta in CE.
  destruct CE as (m1 & mem & E1 & E2 & Hbm & Hfw & Hsv & Hout).
  unfold initial_regs in Hst. set (n := fi_nregs f) in *. set (base := frame_base dbg m n) in *.
  assert (base + 4 * n = m_sp m - frame_bytes dbg) as Eb by (unfold base, frame_base; lia).
  unfold static_call.
  rewrite (proj2 (types_match_spec As _) HA), (proj2 (types_match_spec Rs _) HR). cbn [ab_assert bind].
  fold n. rewrite E1. cbn [bind]. rewrite E2. cbn [bind].
  set (m2 := with_regs (with_func (pushed m mem base) f) (fi_body f) base 0).
  assert (frame_in m2 (Z.of_nat (Z.to_nat n))) as Hfi.
  { unfold frame_in, m2; cbn [m_stack m_sp m_size with_regs with_func pushed with_mem].
    unfold base, frame_base. lia. }
  unfold enter_interpreter, ab_interpret_func, ab_act.
  change (m_sp (pushed m mem base)) with base. fold m2. change (m_ip m2) with (fi_body f).
  set (cb := m_code_base m) in *.
  split.
  - intros fuel Hf. replace k with (fuel + (k - fuel))%nat in Hst by lia.
    apply astepn_split in Hst as (s1 & Hst & _).
    destruct (sim_n _ _ _ _ Hst m2 (Z.to_nat n)) as (mem' & Hrun & _); [reflexivity|exact Hbm|exact Hfi|exact Hfw|].
    specialize (Hrun O). cbn [fst] in Hrun. change (m_code_base m2) with cb in Hrun.
    replace (cb + (fi_body f - cb)) with (fi_body f) in Hrun by lia. rewrite Nat.add_0_r in Hrun.
    rewrite Hrun. reflexivity.
  - intros He fuel Hf. destruct s as [p rs].
    destruct (sim_n _ _ _ _ Hst m2 (Z.to_nat n)) as (mem' & Hrun & Hb' & Hw' & Ho'); [reflexivity|exact Hbm|exact Hfi|exact Hfw|].
    specialize (Hrun (S (fuel - k - 1))). cbn [fst snd] in Hrun, Hw'. change (m_code_base m2) with cb in Hrun.
    replace (cb + (fi_body f - cb)) with (fi_body f) in Hrun by lia.
    replace (k + S (fuel - k - 1))%nat with fuel in Hrun by lia. rewrite Hrun. clear Hrun.
    change (m_sp m2) with base in *. change (m_mem m2) with mem in Ho'.
    assert (saved dbg mem' (m_sp m - frame_bytes dbg) (m_ip m) (m_sp m) (m_fn m)) as Hsv'.
    { eapply saved_ext; [|exact Hsv]. intros a Hra. apply Ho'. lia. }
    set (m3 := with_mem m2 mem') in *.
    assert (exists tag, read_tag m3 = Ok tag /\ frame_kind tag = NATIVE) as Htag.
    { destruct (read_tag_frame dbg m3 f (m_sp m - frame_bytes dbg) (m_ip m) (m_sp m) (m_fn m)) as (tag & T1 & T2); auto.
      - fold n. lia.
      - apply stack_ok4; unfold m3, m2, pushed; cbn [m_stack m_size with_mem with_regs with_func]; lia.
      - exists tag. split; [auto|]. rewrite T2. exact Hip. }
    assert (frame_in m3 (Z.of_nat (Z.to_nat n))) as Hfi3 by exact Hfi.
    pose proof (step_ends m3 (Z.to_nat n) p rs e Hc Hb' Hfi3 Hw' Htag He) as Hse.
    change (m_code_base m3) with cb in Hse. change (m_sp m3) with base in Hse.
    assert (forall mm, m_mem mm = mem' -> m_stack mm = m_stack m -> m_size mm = m_size m -> m_sp mm = base ->
      leave_native_frame dbg mm n = Ok (with_regs mm (m_ip m) (m_sp m) (m_fn m))) as Hleave.
    { intros mm G1 G2 G3 G4. apply leave_ok; rewrite ?G4, ?Eb, ?G1, ?G2, ?G3; auto; lia. }
    destruct e as [v| | | |]; cbn [run].
    + destruct Hse as (s & Hs & Hr & Hs0). rewrite Hs. cbn [bind].
      change (m_halted (commit m3 (cb + p))) with (m_halted m). rewrite Hh. cbn [bind].
      rewrite Hleave by reflexivity. assert (m_stack m <= base) as Hbl by (unfold base, frame_base; lia).
      destruct (HRs v eq_refl) as [->|(t & -> & Ht)]; [reflexivity|].
      rewrite <- Hw' in Hr. apply reg_frame in Hr as (L & ->); [|auto].
      unfold get_stack_elements. cbn [get_elements].
      assert (base + 4 * s =? 0 = false) as -> by lia.
      change (nth_slot_offset 0 [t]) with 0. rewrite Z.add_0_r, sizeof_wide, Ht.
      rewrite load_ok; [reflexivity|]. apply stack_ok4; unfold m3, m2, pushed, commit; cbn [m_stack m_size with_mem with_regs with_func]; unfold base, frame_base; lia.
    + destruct Hse as (m4 & a & Hs & Ha' & Hm4). rewrite Hs. cbn [bind].
      assert ((match a with EXIT ret => Ok (m4, ret) | HALT => Ok (m4, 0) end) = Ok (m4, 0)) as ->
        by (destruct Ha' as [->| ->]; reflexivity).
      cbn [bind]. assert (m_halted m4 = true) as -> by (destruct Hm4 as [->| ->]; exact Hh). cbn [bind].
      destruct Rs as [|t Rs].
      * unfold get_stack_elements. cbn [get_elements bind]. rewrite Hleave by (destruct Hm4 as [->| ->]; reflexivity). reflexivity.
      * reflexivity.
    + rewrite Hse. reflexivity.
    + rewrite Hse. reflexivity.
    + rewrite Hse. reflexivity.
Qed.

Lemma call_ends dbg m f As xs Rs k s e :
  can_call dbg m f As xs Rs -> m_ip m mod 256 = 0 -> is_bytes (m_code m) ->
  (Rs = [] \/ exists t, Rs = [t] /\ wide t = false) ->
  astepn (m_code m) k (fi_body f - m_code_base m, initial_regs dbg m (fi_nregs f) As xs) s ->
  (forall fuel, (fuel <= k)%nat -> static_call fuel dbg m f As xs Rs = OutOfFuel) /\
  (ends (m_code m) s e -> forall fuel, (k < fuel)%nat -> result (static_call fuel dbg m f As xs Rs) = seen Rs e).
Proof. intros H1 H2 H3 H4. apply call_ends_gen; auto. Qed.

Lemma initial_regs_length dbg m f As xs Rs : can_call dbg m f As xs Rs ->
  length (initial_regs dbg m (fi_nregs f) As xs) = Z.to_nat (fi_nregs f).
Proof.
  intros [Hroom _ Hv Hn _ _ _ _]. unfold initial_regs. rewrite app_length, frame_words_length.
  assert (length xs = length As) as Hl by (symmetry; eapply Forall2_len; eauto).
  pose proof (arg_words_length As xs Hl). pose proof (words_taken_pos As). lia.
Qed.
