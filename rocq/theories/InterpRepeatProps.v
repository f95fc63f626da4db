(** C149: whether the outcome of a call depends on what was called before. *)

From Coq Require Import ZArith List Bool Arith Lia ZifyBool ZifyNat.
From Verif Require Import Outcome BitLemmas VarIntModel CodecModel CodecSpec InterpModel InterpSpec
  InterpProofs InterpCallProofs InterpSafe InterpProps InterpExact InterpExactProps.
Import ListNotations.
Local Open Scope Z_scope.

(** * Specification: registers are set before they are read *)

(** The registers whose contents an instruction uses, and the one it sets. *)
Definition uses (o : op) : list Z :=
  match o with
  | ORet32 s => [s]
  | OGotoIf t _ | OGotoUnless t _ => [t]
  | OAdd _ l r | OSub _ l r => [l; r]
  | _ => []
  end.
Definition sets (o : op) : list Z := match o with OAdd d _ _ | OSub d _ _ => [d] | _ => [] end.

(** A way through the code from [start] to a position, with the registers set on the way. *)
Inductive way (code : bytes) (start : Z) : Z -> list Z -> Prop :=
| way_start : way code start start []
| way_next p ws o q p' : way code start p ws -> op_at code p o q -> succ code p p' -> way code start p' (sets o ++ ws).

(** On every way every register that is used is one of the first [k] or has been set. *)
Definition set_before_use (code : bytes) (start k : Z) : Prop :=
  forall p ws o q, way code start p ws -> op_at code p o q -> Forall (fun i => i < k \/ In i ws) (uses o).

(** * Two runs side by side *)

Definition alike (k : Z) (ws rs rs' : list Z) : Prop :=
  length rs = length rs' /\ forall i, 0 <= i -> i < k \/ In i ws -> nth_error rs (Z.to_nat i) = nth_error rs' (Z.to_nat i).

Lemma put_length rs i v : length (put rs i v) = length rs.
Proof. revert i. induction rs; intros [|i]; cbn; auto. Qed.
Lemma put_same rs i v : (i < length rs)%nat -> nth_error (put rs i v) i = Some v.
Proof. revert i. induction rs; intros [|i] H; cbn in *; try lia; auto. apply IHrs. lia. Qed.
Lemma put_other rs i j v : i <> j -> nth_error (put rs i v) j = nth_error rs j.
Proof. revert i j. induction rs; intros [|i] [|j] H; cbn; auto; try congruence. Qed.

Lemma alike_put k ws rs rs' d : 0 <= d -> alike k ws rs rs' -> (Z.to_nat d < length rs)%nat ->
  forall w, alike k (d :: ws) (put rs (Z.to_nat d) w) (put rs' (Z.to_nat d) w).
Proof.
  intros Hd (L & A) Hl w. split; [now rewrite !put_length|]. intros i Hi H.
  destruct (Z.eq_dec i d) as [->|N]; [rewrite !put_same by lia; reflexivity|].
  rewrite !put_other by lia. apply A; [exact Hi|]. destruct H as [H|[H|H]]; [auto|congruence|auto].
Qed.

Section Pair.
Variables (code : bytes) (start k : Z).
Hypothesis Hset : set_before_use code start k.

Lemma alike_use p ws rs rs' o q i : way code start p ws -> alike k ws rs rs' -> op_at code p o q -> In i (uses o) ->
  forall v, reg rs i v -> reg rs' i v.
Proof.
  intros W (_ & A) Ho Hi v Hv. pose proof (Hset _ _ _ _ W Ho) as F. rewrite Forall_forall in F.
  unfold reg in *. rewrite <- A; [exact Hv| |auto].
  assert (In i (regs_of o)) as Hr by (destruct o; cbn in *; tauto).
  pose proof (op_regs _ _ _ _ i Ho Hr) as B. unfold is_byte in B. lia.
Qed.
Lemma alike_exists ws rs rs' i v : alike k ws rs rs' -> reg rs i v -> exists w, reg rs' i w.
Proof.
  intros (L & _) Hv. unfold reg in *. assert (Z.to_nat i < length rs)%nat by (apply nth_error_Some; congruence).
  destruct (nth_error rs' (Z.to_nat i)) eqn:E; [eauto|]. apply nth_error_None in E. lia.
Qed.

Lemma alike_step p ws rs rs' p1 rs1 : way code start p ws -> alike k ws rs rs' -> astep code (p, rs) (p1, rs1) ->
  exists ws1 rs1', astep code (p, rs') (p1, rs1') /\ way code start p1 ws1 /\ alike k ws1 rs1 rs1'.
Proof.
  intros W A St. pose proof (proj1 (astep_succ _ _ _ _ _ St)) as Sc.
  inversion St; subst; match goal with H : op_at _ _ ?o _ |- _ => exists (sets o ++ ws) end;
    cbn [sets app]; try (exists rs'; split; [|split; [|exact A]];
      [econstructor; eauto; eapply alike_use; eauto; cbn; auto
      |match goal with H : op_at _ _ ?o _ |- _ => exact (way_next code start p ws o _ _ W H Sc) end]).
  - match goal with H : op_at _ _ (_ d _ _) _, H' : reg rs d _ |- _ => rename H into Ho; rename H' into Hd end.
    destruct (alike_exists _ _ _ _ _ A Hd) as (w' & Hw'). eexists. split; [|split].
    + eapply a_add; eauto; eapply alike_use; eauto; cbn; auto.
    + exact (way_next code start p ws _ _ _ W Ho Sc).
    + pose proof (op_regs _ _ _ _ d Ho ltac:(cbn; auto)) as B. unfold is_byte in B.
      apply alike_put; auto; [lia|]. apply nth_error_Some. unfold reg in Hd. congruence.
  - match goal with H : op_at _ _ (_ d _ _) _, H' : reg rs d _ |- _ => rename H into Ho; rename H' into Hd end.
    destruct (alike_exists _ _ _ _ _ A Hd) as (w' & Hw'). eexists. split; [|split].
    + eapply a_sub; eauto; eapply alike_use; eauto; cbn; auto.
    + exact (way_next code start p ws _ _ _ W Ho Sc).
    + pose proof (op_regs _ _ _ _ d Ho ltac:(cbn; auto)) as B. unfold is_byte in B.
      apply alike_put; auto; [lia|]. apply nth_error_Some. unfold reg in Hd. congruence.
Qed.

Lemma alike_ends p ws rs rs' e : way code start p ws -> alike k ws rs rs' -> ends code (p, rs) e -> ends code (p, rs') e.
Proof.
  intros W A E. inversion E; subst.
  - eapply e_word; eauto. eapply alike_use; eauto; cbn; auto.
  - eapply e_halt; eauto.
  - eapply e_unreachable; eauto.
  - eapply e_return; eauto.
  - match goal with H : reg rs d _ |- _ => rename H into Hd end.
    destruct (alike_exists _ _ _ _ _ A Hd) as (w' & Hw'). eapply e_add; eauto; eapply alike_use; eauto; cbn; auto.
  - match goal with H : reg rs d _ |- _ => rename H into Hd end.
    destruct (alike_exists _ _ _ _ _ A Hd) as (w' & Hw'). eapply e_sub; eauto; eapply alike_use; eauto; cbn; auto.
  - eapply e_unknown; eauto.
  - eapply e_outside; eauto.
Qed.

Lemma alike_steps j s s1 : astepn code j s s1 -> forall ws rs', way code start (fst s) ws -> alike k ws (snd s) rs' ->
  exists ws1 rs1', astepn code j (fst s, rs') (fst s1, rs1') /\ way code start (fst s1) ws1 /\ alike k ws1 (snd s1) rs1'.
Proof.
  induction 1 as [s|j s sa s1 A B IH]; intros ws rs' W L.
  - exists ws, rs'. split; [constructor|auto].
  - destruct s as [p rs], sa as [pa rsa]. cbn [fst snd] in *.
    destruct (alike_step p ws rs rs' pa rsa W L A) as (wa & ra & A' & Wa & La).
    destruct (IH wa ra Wa La) as (w1 & r1 & B' & W1 & L1). exists w1, r1. split; [econstructor; eauto|auto].
Qed.
End Pair.

(** * Calls *)

Lemma arg_words_len As xs : Forall2 value_ok As xs -> Z.of_nat (length (arg_words As xs)) = words_taken As.
Proof.
  induction 1 as [|t x As xs Hx _ IH]; cbn [arg_words words_taken]; [reflexivity|].
  destruct t; cbn [wide length]; lia.
Qed.

(** One call on two machines which hold the same code (it may be loaded at another address, and the
    build may be another): whatever the two stacks contain, the outcome is the same. *)
Theorem C149_stack_contents_do_not_matter_partial :
  forall dbg dbg' m m' f f' As xs Rs fuel,
    proper dbg m f As xs Rs -> proper dbg' m' f' As xs Rs ->
    m_code m' = m_code m -> fi_body f' - m_code_base m' = fi_body f - m_code_base m -> fi_nregs f' = fi_nregs f ->
    set_before_use (m_code m) (fi_body f - m_code_base m) (words_taken As) ->
    result (static_call fuel dbg' m' f' As xs Rs) = result (static_call fuel dbg m f As xs Rs).
Proof.
  intros dbg dbg' m m' f f' As xs Rs fuel [Hcc Hip Hc HRs Hown] [Hcc' Hip' Hc' HRs' Hown'] Ec Eb En Hset.
  pose proof (initial_regs_length _ _ _ _ _ _ Hcc) as Hl. pose proof (initial_regs_length _ _ _ _ _ _ Hcc') as Hl'.
  assert (0 <= fi_nregs f) as Hn by (destruct (cc_room _ _ _ _ _ _ Hcc); lia).
  set (start := fi_body f - m_code_base m) in *.
  assert (alike (words_taken As) [] (initial_regs dbg m (fi_nregs f) As xs) (initial_regs dbg' m' (fi_nregs f') As xs)) as A.
  { split; [lia|]. intros i Hi [Hk|[]]. unfold initial_regs.
    pose proof (arg_words_len _ _ (cc_values _ _ _ _ _ _ Hcc)) as La.
    rewrite !nth_error_app1 by lia. reflexivity. }
  assert (forall j s, astepn (m_code m) j (start, initial_regs dbg m (fi_nregs f) As xs) s ->
    exists ws rs', astepn (m_code m) j (start, initial_regs dbg' m' (fi_nregs f') As xs) (fst s, rs') /\
      way (m_code m) start (fst s) ws /\ alike (words_taken As) ws (snd s) rs') as P.
  { intros j s H. exact (alike_steps _ _ _ Hset _ _ _ H [] _ (way_start _ _) A). }
  assert (forall j s, astepn (m_code m) j (start, initial_regs dbg m (fi_nregs f) As xs) s -> (fuel <= j)%nat ->
    result (static_call fuel dbg' m' f' As xs Rs) = result (static_call fuel dbg m f As xs Rs)) as Q.
  { intros j s H Hj. destruct (P j s H) as (ws & rs' & H' & _).
    destruct (call_ends dbg m f As xs Rs j s ENoWord Hcc Hip Hc HRs H) as (X & _).
    rewrite <- Ec, <- Eb in H'. destruct (call_ends dbg' m' f' As xs Rs j _ ENoWord Hcc' Hip' Hc' HRs' H') as (X' & _).
    now rewrite X, X' by exact Hj. }
  rewrite <- (Z2Nat.id (fi_nregs f)) in Hown by exact Hn.
  destruct (run_or_end (m_code m) _ _ (start_of dbg m f As xs) fuel Hc Hown) as [(s' & Hs)|(s' & e & Hs & He)].
  - constructor.
  - exact Hl.
  - eapply Q; [exact Hs|lia].
  - apply asteps_n in Hs as (j & Hs). destruct (Nat.leb_spec fuel j); [eapply Q; eauto|].
    destruct (P j s' Hs) as (ws & rs' & H' & W & L). destruct s' as [p rs]. cbn [fst snd] in *.
    pose proof (alike_ends _ _ _ Hset _ _ _ _ _ W L He) as He'.
    destruct (call_ends dbg m f As xs Rs j _ e Hcc Hip Hc HRs Hs) as (_ & X).
    rewrite <- Ec, <- Eb in H'. destruct (call_ends dbg' m' f' As xs Rs j _ e Hcc' Hip' Hc' HRs' H') as (_ & X').
    rewrite Ec in X'. now rewrite X, X' by assumption.
Qed.
Print Assumptions C149_stack_contents_do_not_matter_partial.

(** * Calls in a row *)

Record call := mkCall { k_func : finst; k_args : list ctype; k_values : list Z; k_rets : list ctype }.
Definition one_call (fuel : nat) (dbg : bool) (m : mach) (c : call) : outcome (list Z * mach) :=
  static_call fuel dbg m (k_func c) (k_args c) (k_values c) (k_rets c).
(** The calls one after the other on one machine, with their results. *)
Fixpoint calls (fuel : nat) (dbg : bool) (m : mach) (cs : list call) : outcome (list (list Z) * mach) :=
  match cs with
  | [] => Ok ([], m)
  | c :: cs =>
    do (r, m) <- one_call fuel dbg m c;
    do (rs, m) <- calls fuel dbg m cs;
    Ok (r :: rs, m)
  end.
Definition proper_call (dbg : bool) (m : mach) (c : call) : Prop :=
  proper dbg m (k_func c) (k_args c) (k_values c) (k_rets c) /\
  set_before_use (m_code m) (fi_body (k_func c) - m_code_base m) (words_taken (k_args c)).

Lemma run_mono a b m ip : run a m ip <> OutOfFuel -> (a <= b)%nat -> run b m ip = run a m ip.
Proof.
  revert b m ip. induction a as [|a IH]; intros b m ip H L; [cbn in H; congruence|].
  destruct b as [|b]; [lia|]. cbn [run] in *. destruct (step m ip) as [[m1 [ip1|x]]| | | |]; cbn [bind] in *; auto.
  apply IH; [exact H|lia].
Qed.
Lemma call_mono a b dbg m f As xs Rs r : static_call a dbg m f As xs Rs = Ok r -> (a <= b)%nat ->
  static_call b dbg m f As xs Rs = Ok r.
Proof.
  unfold static_call. intros H L. apply bind_ok in H as (u & Eu & H). rewrite Eu. cbn [bind].
  apply bind_ok in H as (u1 & Eu1 & H). rewrite Eu1. cbn [bind].
  apply bind_ok in H as (m1 & E1 & H). rewrite E1. cbn [bind].
  apply bind_ok in H as (m2 & E2 & H). rewrite E2. cbn [bind].
  unfold enter_interpreter, ab_interpret_func, ab_act in *.
  match goal with |- context [run b ?x ?y] => assert (run b x y = run a x y) as -> end; [|exact H].
  apply run_mono; [|exact L]. intros X. rewrite X in H. discriminate H.
Qed.

(** How a call that returned ended, and what its frame then held. *)
Lemma returned dbg m f As xs Rs fuel r m' : proper dbg m f As xs Rs -> static_call fuel dbg m f As xs Rs = Ok (r, m') ->
  restored m m' (frame_base dbg m (fi_nregs f)) (m_sp m) /\ bytes_mem (m_mem m').
Proof.
  intros P E. pose proof P as [Hcc Hip Hc HRs Hown]. pose proof Hcc as [Hroom Hb Hv Hn Ha Hh HA HR].
  pose proof (cc_room _ _ _ _ _ _ Hcc) as (R1 & R2 & R3 & R4 & R5 & R6 & R7 & R8 & R9 & R10).
  destruct (C137_every_outcome dbg m f As xs Rs fuel P) as [X|(e & (s & Hs & He) & X)]; [congruence|].
  rewrite E in X. cbn [result bind] in X.
  assert (exists p rs o q ptr, s = (p, rs) /\ op_at (m_code m) p o q /\
            exit_ptr (frame_base dbg m (fi_nregs f)) o = Some ptr /\ exit_reg rs o) as (p & rs & o & q & ptr & -> & Ho & Hp & Hx).
  { inversion He; subst; cbn [seen] in X; try discriminate X.
    - eexists _, _, _, _, _. split; [reflexivity|]. split; [eassumption|]. split; [reflexivity|]. cbn. eauto.
    - eexists _, _, _, _, _. split; [reflexivity|]. split; [eassumption|]. split; [reflexivity|]. cbn. auto.
    - eexists _, _, _, _, _. split; [reflexivity|]. split; [eassumption|]. split; [reflexivity|]. cbn. auto.
    - eexists _, _, _, _, _. split; [reflexivity|]. split; [eassumption|]. split; [reflexivity|]. cbn. auto. }
  destruct (call_reach dbg m f As Rs xs Hroom Hb Hv Hn Ha Hh HA HR p rs o q ptr Hs Ho Hp Hx (fun _ => Hip))
    as (fuel0 & mm & H1 & H2 & M1 & M2 & M3 & M4 & M5).
  pose proof (call_mono fuel (fuel + fuel0) _ _ _ _ _ _ _ E ltac:(lia)) as E'.
  rewrite H1 in E' by lia. apply bind_ok in E' as (v & Ev & E'). injection E' as <- <-. auto.
Qed.

Lemma restored_can dbg m m' lo hi g Bs ys Ss : restored m m' lo hi -> bytes_mem (m_mem m') ->
  proper dbg m g Bs ys Ss -> proper dbg m' g Bs ys Ss.
Proof.
  intros (E1 & E2 & E3 & E4 & E5 & E6 & E7 & E8 & _) B [[Hroom Hb Hv Hn Ha Hh HA HR] Hip Hc HRs Hown].
  constructor; rewrite ?E1, ?E6, ?E7; auto. constructor; auto.
  - unfold room in *. rewrite E1, E2, E3, E4, E5. exact Hroom.
  - unfold frame_base in *. rewrite E2. exact Ha.
  - congruence.
Qed.

(** Calls in a row, on one machine: each returns what it returns when it is the first. *)
Theorem C149_calls_in_a_row_partial :
  forall fuel dbg m cs rss,
    Forall (proper_call dbg m) cs ->
    Forall2 (fun c rs => result (one_call fuel dbg m c) = Ok rs) cs rss ->
    exists m', calls fuel dbg m cs = Ok (rss, m').
Proof.
  intros fuel dbg m cs rss Hp H.
  assert (forall m1, (exists lo hi, restored m m1 lo hi) -> bytes_mem (m_mem m1) -> exists m', calls fuel dbg m1 cs = Ok (rss, m')) as G.
  2: { destruct cs as [|c cs]; [inversion H; subst; exists m; reflexivity|].
       apply G.
       - exists 0, 0. unfold restored. conjs; auto.
       - inversion Hp as [|? ? (P & _)]; subst. destruct P as [[]]. auto. }
  induction H as [|c rs cs rss Hc _ IH]; intros m1 (lo & hi & R) B; [exists m1; reflexivity|].
  inversion Hp as [|? ? (P & Sb) Hp']; subst.
  pose proof (restored_can dbg m m1 lo hi _ _ _ _ R B P) as P1.
  pose proof R as (E1 & E2 & E3 & E4 & E5 & E6 & E7 & E8 & _).
  assert (result (one_call fuel dbg m1 c) = Ok rs) as Hc1.
  { rewrite <- Hc. unfold one_call. apply C149_stack_contents_do_not_matter_partial; auto. now rewrite E7. }
  cbn [calls]. destruct (one_call fuel dbg m1 c) as [[r m2]| | | |] eqn:Er; try discriminate Hc1.
  injection Hc1 as ->. cbn [bind].
  destruct (returned _ _ _ _ _ _ _ _ _ P1 Er) as (R2 & B2).
  destruct (IH Hp' m2) as (m' & ->); [|exact B2|cbn [bind]; eauto].
  exists (Z.min lo (frame_base dbg m1 (fi_nregs (k_func c)))), (Z.max hi (m_sp m1)).
  destruct R as (_ & _ & _ & _ & _ & _ & _ & _ & Rm). destruct R2 as (F1 & F2 & F3 & F4 & F5 & F6 & F7 & F8 & Rm2).
  unfold restored. conjs; try congruence. intros a Ha. rewrite Rm2, Rm; auto; lia.
Qed.
Print Assumptions C149_calls_in_a_row_partial.

(** C149 fails: the registers a callee ends with are the registers the next callee of as many
    registers starts with, behind its arguments. *)
Theorem C149_registers_are_left_behind_refuted :
  forall dbg m f As xs t p rs s q v,
    can_call dbg m f As xs [t] -> wide t = false -> m_ip m mod 256 = 0 ->
    asteps (m_code m) (start_of dbg m f As xs) (p, rs) -> op_at (m_code m) p (ORet32 s) q -> reg rs s v ->
    exists fuel0 m',
      (forall fuel, (fuel0 <= fuel)%nat -> static_call fuel dbg m f As xs [t] = Ok ([v], m')) /\
      forall g Bs ys, fi_nregs g = fi_nregs f -> words_taken Bs <= fi_nregs g ->
        snd (start_of dbg m' g Bs ys) = arg_words Bs ys ++ skipn (Z.to_nat (words_taken Bs)) rs.
Proof.
  intros dbg m f As xs t p rs s q v Hcc Ht Hip Hs Ho Hr. pose proof Hcc as [Hroom Hb Hv Hn Ha Hh HA HR].
  pose proof (cc_room _ _ _ _ _ _ Hcc) as (R1 & R2 & R3 & R4 & R5 & R6 & R7 & R8 & R9 & R10).
  destruct (frame_bytes_facts dbg) as (F1 & F2).
  pose proof (op_regs _ _ _ _ s Ho ltac:(cbn; auto)) as Hsb.
  destruct (call_reach dbg m f As [t] xs Hroom Hb Hv Hn Ha Hh HA HR p rs (ORet32 s) q (frame_base dbg m (fi_nregs f) + 4 * s) Hs Ho eq_refl)
    as (fuel0 & mm & H1 & H2 & M1 & M2 & M3 & M4 & M5); [cbn; eauto|auto|].
  assert (get_stack_elements mm (frame_base dbg m (fi_nregs f) + 4 * s) [t] = Ok [v]) as Hg.
  { eapply (ret_word mm _ (fi_nregs f)); eauto; rewrite ?M2, ?M3; unfold frame_base; lia. }
  exists fuel0, (with_regs mm (m_ip m) (m_sp m) (m_fn m)). split.
  - intros fuel Hf. rewrite (H1 fuel Hf), Hg. reflexivity.
  - intros g Bs ys En Hw. cbn [start_of snd]. unfold initial_regs. f_equal.
    rewrite <- M1. rewrite En. change (m_mem (with_regs mm (m_ip m) (m_sp m) (m_fn m))) with (m_mem mm).
    change (frame_base dbg (with_regs mm (m_ip m) (m_sp m) (m_fn m)) (fi_nregs f)) with (frame_base dbg m (fi_nregs f)).
    set (base := frame_base dbg m (fi_nregs f)). set (n := fi_nregs f) in *.
    assert (0 <= words_taken Bs) as W0 by (clear; induction Bs as [|b Bs IH]; cbn [words_taken]; [lia|destruct (wide b); lia]).
    unfold frame_words.
    assert (forall k a j l, map (fun i => word (m_mem mm) (a + 4 * Z.of_nat i)) (seq (k + j) l) =
              map (fun i => word (m_mem mm) (a + 4 * Z.of_nat k + 4 * Z.of_nat i)) (seq j l)) as Sh.
    { intros k a j l. revert j. induction l as [|l IH]; intros j; cbn [seq map]; [reflexivity|].
      f_equal; [f_equal; lia|]. replace (S (k + j)) with (k + S j)%nat by lia. apply IH. }
    assert (forall k l a, skipn k (map (fun i => word (m_mem mm) (a + 4 * Z.of_nat i)) (seq 0 (k + l))) =
              map (fun i => word (m_mem mm) (a + 4 * Z.of_nat k + 4 * Z.of_nat i)) (seq 0 l)) as Sk.
    { intros k l a. rewrite seq_app, map_app, skipn_app, skipn_all2 by (rewrite map_length, seq_length; lia).
      rewrite map_length, seq_length, Nat.sub_diag. cbn [skipn app]. rewrite <- (Sh k a 0%nat l). now rewrite Nat.add_0_r. }
    replace (Z.to_nat n) with (Z.to_nat (words_taken Bs) + Z.to_nat (n - words_taken Bs))%nat by lia.
    rewrite Sk. replace (Z.of_nat (Z.to_nat (words_taken Bs))) with (words_taken Bs) by lia. reflexivity.
Qed.
Print Assumptions C149_registers_are_left_behind_refuted.

(** So on a new interpreter a function without arguments that returns its only register returns the
    argument of the call before. *)
Definition echo_code : bytes := [13; 0].
Definition echo (cb : Z) : finst := mkFI (mkFT [I32] [I32]) 1 cb.
Definition peek (cb : Z) : finst := mkFI (mkFT [] [I32]) 1 cb.

Lemma echo_at : op_at echo_code 0 (ORet32 0) 2.
Proof. split; [repeat constructor; unfold is_byte; lia|]. split; [cbn; lia|]. exists [], []. auto. Qed.

Lemma can_echo dbg mem base cb x : 0 < base -> base + 2048 < 2 ^ 64 -> base mod 8 = 0 -> bytes_mem mem ->
  0 <= x < 2 ^ 32 -> can_call dbg (new_interpreter mem base echo_code cb) (echo cb) [Int32] [x] [Int32].
Proof.
  intros B1 B2 B3 Hm Hx. constructor; try reflexivity.
  - apply C10_new_interpreter_has_room; auto. cbn; lia.
  - exact Hm.
  - repeat constructor; cbn; lia.
  - cbn. split; [discriminate|exact I].
Qed.

Theorem C149_the_outcome_depends_on_history_refuted :
  forall dbg mem base cb x, 0 < base -> base + 2048 < 2 ^ 64 -> base mod 8 = 0 -> (forall a, is_byte (mem a)) ->
    0 <= x < 2 ^ 32 ->
    exists fuel m1 m2,
      static_call fuel dbg (new_interpreter mem base echo_code cb) (echo cb) [Int32] [x] [Int32] = Ok ([x], m1) /\
      static_call fuel dbg m1 (peek cb) [] [] [Int32] = Ok ([x], m2).
Proof.
  intros dbg mem base cb x B1 B2 B3 Hm Hx.
  pose proof (can_echo dbg mem base cb x B1 B2 B3 Hm Hx) as Hcc. set (m := new_interpreter mem base echo_code cb) in *.
  assert (start_of dbg m (echo cb) [Int32] [x] = (0, [x])) as Es.
  { unfold start_of, initial_regs. cbn. f_equal. lia. }
  destruct (C149_registers_are_left_behind_refuted dbg m (echo cb) [Int32] [x] Int32 0 [x] 0 2 x Hcc eq_refl eq_refl)
    as (fuel0 & m1 & H1 & H2).
  { rewrite Es. constructor. } { exact echo_at. } { reflexivity. }
  specialize (H2 (peek cb) [] [] eq_refl ltac:(cbn; lia)). cbn [arg_words words_taken Z.to_nat skipn app] in H2.
  assert (proper dbg m (echo cb) [Int32] [x] [Int32]) as P.
  { constructor; auto.
    - repeat constructor; unfold is_byte; lia.
    - right. exists Int32. auto.
    - change (m_code m) with echo_code. replace (fi_body (echo cb) - m_code_base m) with 0 by (cbn; lia).
      intros p o q C Ho. assert (p = 0) as ->.
      { clear Ho. induction C as [|p q' _ -> S]; [reflexivity|].
        destruct S as [o' q' H K|o' q' H K]; destruct (op_at_det _ _ _ _ _ _ H echo_at) as (-> & ->); destruct K. }
      destruct (op_at_det _ _ _ _ _ _ Ho echo_at) as (-> & _). repeat constructor; cbn; lia. }
  destruct (returned _ _ _ _ _ _ _ _ _ P (H1 fuel0 (le_n _))) as (R & B).
  pose proof R as (E1 & E2 & E3 & E4 & E5 & E6 & E7 & E8 & _).
  assert (can_call dbg m1 (peek cb) [] [] [Int32]) as Hc1.
  { constructor; try reflexivity.
    - unfold room. rewrite E1, E2, E3, E4, E5. apply (C10_new_interpreter_has_room dbg mem base echo_code cb 1); auto; lia.
    - exact B.
    - constructor.
    - cbn. lia.
    - rewrite E8. reflexivity. }
  destruct (C10_call_returns_register dbg m1 (peek cb) [] [] Int32 0 [x] 0 2 x Hc1 eq_refl) as (fuel1 & m2 & H3 & _).
  { rewrite E1. reflexivity. }
  { change (fi_body (peek cb) - m_code_base m1, initial_regs dbg m1 (fi_nregs (peek cb)) [] []) with (start_of dbg m1 (peek cb) [] []).
    assert (fst (start_of dbg m1 (peek cb) [] []) = 0) as F0 by (cbn; rewrite E7; cbn; lia).
    destruct (start_of dbg m1 (peek cb) [] []) as [a b]. cbn [fst snd] in *. subst. constructor. }
  { rewrite E6. exact echo_at. } { reflexivity. }
  exists (fuel0 + fuel1)%nat, m1, m2. split; [apply H1; lia|apply H3; lia].
Qed.
Print Assumptions C149_the_outcome_depends_on_history_refuted.

(** * A case: the addition of C137 meets the hypotheses; three calls of it in a row. *)
Example C149_add_proper x y : 0 <= x < 2 ^ 32 -> 0 <= y < 2 ^ 32 ->
  proper_call true m137 (mkCall add137 [Int32; Int32] [x; y] [Int32]).
Proof.
  intros Hx Hy. split; [exact (C137_add_proper x y Hx Hy)|].
  change (fi_body (k_func _) - m_code_base m137) with 0. change (m_code m137) with code137.
  intros p ws o q W Ho. cbn [k_args words_taken wide].
  assert (p = 0 \/ p = 4) as [->| ->].
  { clear Ho. induction W as [|p ws o' q' p' _ [->| ->] H S]; [auto| |].
    - destruct S as [o1 q1 H1 K|o1 q1 H1 K]; destruct (op_at_det _ _ _ _ _ _ H1 add_at137) as (-> & ->); [auto|destruct K].
    - destruct S as [o1 q1 H1 K|o1 q1 H1 K]; destruct (op_at_det _ _ _ _ _ _ H1 ret_at137) as (-> & ->); destruct K. }
  - destruct (op_at_det _ _ _ _ _ _ Ho add_at137) as (-> & _). repeat constructor; lia.
  - destruct (op_at_det _ _ _ _ _ _ Ho ret_at137) as (-> & _). repeat constructor; lia.
Qed.
Example C149_three_additions :
  result (calls 10 true m137 [mkCall add137 [Int32; Int32] [1; 2] [Int32]; mkCall add137 [Int32; Int32] [2 ^ 32 - 1; 2] [Int32];
    mkCall add137 [Int32; Int32] [1; 2] [Int32]]) = Ok [[3]; [1]; [3]].
Proof. vm_compute. reflexivity. Qed.
