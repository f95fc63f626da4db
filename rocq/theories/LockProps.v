From Coq Require Import ZArith List Bool Lia.
From Verif Require Import Outcome LockModel.
Import ListNotations.
Local Open Scope Z_scope.

(** * Specification *)
Definition access_eqb (a b : access) : bool := match a, b with SHARED, SHARED | EXCLUSIVE, EXCLUSIVE => true | _, _ => false end.
(** how often thread [t] holds the lock with access [a] after the schedule *)
Definition change (t : nat) (a : access) (e : event) : Z :=
  match e with
  | Acquire t' a' | GuardAcquire t' a' => if Nat.eqb t t' && access_eqb a a' then 1 else 0
  | Release t' a' | GuardRelease t' a' => if Nat.eqb t t' && access_eqb a a' then -1 else 0
  end.
Fixpoint holds (t : nat) (a : access) (es : list event) : Z :=
  match es with [] => 0 | e :: es => change t a e + holds t a es end.
(** the exclusion the lock is for: whoever holds it exclusively is the only holder *)
Definition exclusion (es : list event) : Prop :=
  forall t u a, t <> u -> 0 < holds t EXCLUSIVE es -> holds u a es <= 0.
(** releases only follow acquisitions *)
Definition proper (es : list event) : Prop := forall pre post t a, es = pre ++ post -> 0 <= holds t a pre.

(** The lock admits two exclusive holders, directly or with guards. *)
Theorem C38_exclusion_refuted :
  exists es l, proper es /\ run new_lock es = Ok l /\ ~ exclusion es.
Proof.
  exists [Acquire 0 EXCLUSIVE; Acquire 1 EXCLUSIVE], (mkLock 0 2). split; [|split; [reflexivity|]].
  - intros pre post t a E.
    assert (G : forall t' a', 0 <= change t a (Acquire t' a')) by (intros; unfold change; destruct (_ && _); lia).
    pose proof (G 0%nat EXCLUSIVE). pose proof (G 1%nat EXCLUSIVE).
    destruct pre as [|x [|y [|z pre]]]; cbn [app] in E; try discriminate.
    + injection E as <- _. cbn [holds]. lia.
    + injection E as <- <- _. cbn [holds]. lia.
  - intros H. specialize (H 0%nat 1%nat EXCLUSIVE ltac:(discriminate)). cbn in H. lia.
Qed.
Print Assumptions C38_exclusion_refuted.
Theorem C38_exclusion_guards_refuted : forall l,
  try_guard EXCLUSIVE l = Ok (true, l) /\
  exists es, run l es = Ok l /\ ~ exclusion es /\ (forall a, is_locked a l = false).
Proof.
  intros l. split; [reflexivity|]. exists [GuardAcquire 0 EXCLUSIVE; GuardAcquire 1 SHARED]. split; [reflexivity|]. split; [|reflexivity].
  intros H. specialize (H 0%nat 1%nat SHARED ltac:(discriminate)). cbn in H. lia.
Qed.
Print Assumptions C38_exclusion_guards_refuted.

(** What does hold: acquiring never blocks and, without guards, the counters are exactly the number
    of holds, as long as no more than 2^31 - 1 are outstanding. *)
Definition delta (a : access) (e : event) : Z :=
  match e with
  | Acquire _ a' => if access_eqb a a' then 1 else 0
  | Release _ a' => if access_eqb a a' then -1 else 0
  | _ => 0
  end.
Fixpoint total (a : access) (es : list event) : Z := match es with [] => 0 | e :: es => delta a e + total a es end.
Lemma total_app a x y : total a (x ++ y) = total a x + total a y.
Proof. induction x as [|e x IH]; cbn [app total]; lia. Qed.
Theorem C38_counts_partial es :
  (forall pre post a, es = pre ++ post -> - 2 ^ 31 <= total a pre < 2 ^ 31) ->
  run new_lock es = Ok (mkLock (total SHARED es) (total EXCLUSIVE es)).
Proof.
  intros H. cut (forall pre post, es = pre ++ post -> run (mkLock (total SHARED pre) (total EXCLUSIVE pre)) post = Ok (mkLock (total SHARED es) (total EXCLUSIVE es))).
  { intros K. apply (K [] es). reflexivity. }
  intros pre post. revert pre. induction post as [|e post IH]; intros pre E; cbn [run].
  - rewrite app_nil_r in E. subst. reflexivity.
  - assert (E2 : es = (pre ++ [e]) ++ post) by (rewrite <- app_assoc; exact E).
    specialize (IH (pre ++ [e]) E2). rewrite !total_app in IH.
    pose proof (H (pre ++ [e]) post SHARED E2) as B1. pose proof (H (pre ++ [e]) post EXCLUSIVE E2) as B2.
    rewrite total_app in B1, B2.
    assert (D : forall n d, - 2 ^ 31 <= n + d < 2 ^ 31 -> add_int n d = Ok (n + d)).
    { intros n d B. unfold add_int, int_min, int_max. destruct (Z.leb_spec (- 2 ^ 31) (n + d)), (Z.leb_spec (n + d) (2 ^ 31 - 1)); try lia. reflexivity. }
    destruct e as [t [] |t [] |t a|t a]; cbn [step lock_acquire lock_release guard_acquire guard_release sharedCount exclusiveCount total delta access_eqb] in *;
      try (rewrite D by lia); cbn [bind]; rewrite ?Z.add_0_r in IH; try exact IH;
      match goal with H : run (mkLock ?a ?b) _ = ?r |- run (mkLock ?c ?d) _ = ?r => replace c with a by lia; replace d with b by lia; exact H end.
Qed.
Print Assumptions C38_counts_partial.
Example C38_example : run new_lock [Acquire 0 SHARED; Acquire 1 SHARED; Release 0 SHARED; Acquire 2 EXCLUSIVE] = Ok (mkLock 1 1).
Proof. reflexivity. Qed.

(** And only so long: one hold more, or one release too many, is undefined behaviour. *)
Theorem C38_counts_overflow_partial es :
  (exists pre post a, es = pre ++ post /\ ~ (- 2 ^ 31 <= total a pre < 2 ^ 31)) ->
  run new_lock es = UB SignedOverflow.
Proof.
  cut (forall s x, - 2 ^ 31 <= s < 2 ^ 31 -> - 2 ^ 31 <= x < 2 ^ 31 ->
    (exists pre post a, es = pre ++ post /\ ~ (- 2 ^ 31 <= (match a with SHARED => s | EXCLUSIVE => x end) + total a pre < 2 ^ 31)) ->
    run (mkLock s x) es = UB SignedOverflow).
  { intros K (pre & post & a & E & N). apply (K 0 0); try lia. exists pre, post, a. split; [exact E|]. destruct a; exact N. }
  induction es as [|e es IH]; intros s x Hs Hx (pre & post & a & E & N).
  - destruct pre; [|discriminate]. destruct a; cbn [total] in N; lia.
  - destruct pre as [|e' pre]; [destruct a; cbn [total] in N; lia|]. injection E as <- E. cbn [run].
    assert (D : forall n d, add_int n d = if (- 2 ^ 31 <=? n + d) && (n + d <=? 2 ^ 31 - 1) then Ok (n + d) else UB SignedOverflow) by reflexivity.
    destruct e as [t [] |t [] |t b|t b];
      cbn [step lock_acquire lock_release guard_acquire guard_release sharedCount exclusiveCount]; rewrite ?D;
      try match goal with |- context [(- 2 ^ 31 <=? ?y) && _] => destruct (Z.leb_spec (- 2 ^ 31) y), (Z.leb_spec y (2 ^ 31 - 1)); cbn [andb bind]; try reflexivity end;
      cbn [bind]; apply IH; try lia; exists pre, post, a; (split; [exact E|]); destruct a; cbn [total delta access_eqb] in N; lia.
Qed.
Print Assumptions C38_counts_overflow_partial.
(** One release without an acquisition is still counted (as -1), two are -2, ...; the hypothesis is
    met by 2^31 acquisitions. *)
Lemma total_repeat a e k : delta a e = 1 -> total a (repeat e k) = Z.of_nat k.
Proof. intros H. induction k as [|k IH]; [reflexivity|]. cbn [repeat total]. lia. Qed.
Example C38_overflow_example k : Z.of_nat k = 2 ^ 31 -> run new_lock (repeat (Acquire 0 SHARED) k) = UB SignedOverflow.
Proof.
  intros H. apply C38_counts_overflow_partial. exists (repeat (Acquire 0 SHARED) k), [], SHARED. rewrite app_nil_r. split; [reflexivity|].
  rewrite total_repeat by reflexivity. lia.
Qed.
