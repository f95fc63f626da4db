(** Theorems about the ownership of modules: C117, C118. *)

From Coq Require Import ZArith List Bool Lia Permutation.
From Verif Require Import Outcome CodecModel OwnModel OwnSpec OwnProofs.
Import ListNotations.
Local Open Scope Z_scope.

(** ** C117 *)

(** After any history: each storage that nothing refers to any more, also because compile threw,
    has been released by one call, and no other has. *)
Theorem C117_released_once_when_unowned ops : used_properly ops ->
  exists w gone, orun oworld0 ops = Ok w /\ NoDup gone /\
    (forall k, In k gone <-> (k < length (snd (history ops)))%nat /\ unowned (fst (history ops)) k) /\
    Permutation (ow_calls w)
      (flat_map (fun k => match nth_error (snd (history ops)) k with Some s => releasing s | None => [] end) gone).
Proof.
  intros U. destruct (orun_ok ops U) as (w & E & [A1 A2 [L M (ds & N & D & P)]]). exists w, ds. conjs; auto.
  intros k. rewrite D. rewrite <- L. assert (C := count_unowned _ k A2).
  assert (Hu : unowned (fst (history ops)) k <-> count (ow_env w) k = 0).
  { rewrite C. unfold unowned. split; intros H o; specialize (H o); rewrite A1 in *; auto. }
  rewrite Hu. specialize (M k). split.
  - intros H. rewrite H in M. split; auto. apply nth_error_Some. congruence.
  - intros (H1 & H2). apply nth_error_Some in H1. destruct (nth_error (ow_mods w) k) as [[m|]|]; auto; [lia|congruence].
Qed.

(** A live instance can use every function of its module, whatever became of the handles. *)
Theorem C117_functions_of_live_instances ops w i k : used_properly ops -> orun oworld0 ops = Ok w ->
  fst (history ops) (Instance i) = Some (Some k) ->
  exists addr del bs m, nth_error (snd (history ops)) k = Some (addr, del, bs) /\ compile bs = Ok m /\
    forall index, use_func w i index = func_inst m index.
Proof.
  intros U E R. destruct (orun_ok ops U) as (w' & E' & [A1 A2 [L M _]]). rewrite E in E'. injection E' as <-.
  pose proof (count_get (Instance i) (ow_env w) k ltac:(now rewrite A1)) as H. specialize (M k).
  destruct (nth_error (ow_mods w) k) as [[m|]|] eqn:F; [|lia|lia]. destruct M as (_ & _ & bs & M1 & M2).
  exists (om_addr m), (om_del m), bs, (om_body m). conjs; auto.
  intros index. unfold use_func, read. rewrite A1, R. cbn [bind]. now rewrite F.
Qed.

(** Every name refers to what the history says. *)
Theorem C117_names ops w o : used_properly ops -> orun oworld0 ops = Ok w -> get o (ow_env w) = fst (history ops) o.
Proof. intros U E. destruct (orun_ok ops U) as (w' & E' & [A1 _ _]). rewrite E in E'. injection E' as <-. apply A1. Qed.

(** ** C118 *)

(** Destroying the machine destroys no instance and releases nothing: what instances refer to stays. *)
Theorem C118_instances_outlive_the_machine_refuted ops i k : used_properly ops ->
  fst (history ops) (Instance i) = Some (Some k) ->
  exists w, orun oworld0 ops = Ok w /\ orun oworld0 (ops ++ [OVmEnd]) = Ok w /\
    get (Instance i) (ow_env w) = Some (Some k) /\ exists m, nth_error (ow_mods w) k = Some (Some m).
Proof.
  intros U R. destruct (orun_ok ops U) as (w & E & [A1 A2 [L M _]]). exists w. rewrite orun_app, E. cbn [bind orun ostep]. conjs; auto.
  - now rewrite A1.
  - pose proof (count_get (Instance i) (ow_env w) k ltac:(now rewrite A1)) as H. specialize (M k).
    destruct (nth_error (ow_mods w) k) as [[m|]|]; eauto; lia.
Qed.

(** So with every handle gone and the machine destroyed, the bytes of an instance that the caller does
    not delete are still held. *)
Definition add_bytes : bytes := match write add_module with Ok b => b | _ => [] end.

Theorem C118_leak_refuted addr del : addr <> 0 -> del <> 0 ->
  let ops := [OCompile 1 addr del add_bytes; OInstantiateMove 5 1; ODrop 1; OVmEnd] in
  used_properly ops /\ exists w, orun oworld0 ops = Ok w /\ ow_calls w = [] /\
    orun oworld0 (ops ++ [ODelete 5]) = Ok (mkOW [] [None] [(del, addr)]).
Proof.
  intros Na Nd. cbv zeta.
  assert (C : exists m, compile add_bytes = Ok m) by (vm_compute; eauto). destruct C as (m & Em). split.
  - intros before op later H.
    destruct before as [|o1 before]; [injection H as <- _; split; [reflexivity|eauto]|]. injection H as <- H.
    destruct before as [|o2 before].
    { injection H as <- _. split; [|exists 0%nat]; unfold history; cbn [fold_left after fst]; rewrite Em; reflexivity. }
    injection H as <- H. destruct before as [|o3 before].
    { injection H as <- _. unfold history; cbn [fold_left after fst]. rewrite Em. discriminate. }
    injection H as <- H. destruct before as [|o4 before]; [injection H as <- _; exact I|]. injection H as <- H. now destruct before.
  - assert (E : orun oworld0 [OCompile 1 addr del add_bytes; OInstantiateMove 5 1; ODrop 1; OVmEnd] =
      Ok (mkOW [(Instance 5, Some 0%nat)] [Some (mkOM addr del m 1)] [])) by (cbn [orun ostep]; rewrite Em; reflexivity).
    eexists. split; [exact E|]. split; [reflexivity|]. rewrite orun_app, E.
    assert (delete_storage addr del = [(del, addr)]) as S.
    { unfold delete_storage. destruct (Z.eqb_spec addr 0), (Z.eqb_spec del 0); easy. }
    cbn. now rewrite S.
Qed.

(** What holds: when the caller deletes every instance and drops every handle, all bytes are released. *)
Theorem C118_caller_deletes_partial ops : used_properly ops -> (forall o, fst (history ops) o = None \/ fst (history ops) o = Some None) ->
  exists w, orun oworld0 ops = Ok w /\ Permutation (ow_calls w) (flat_map releasing (snd (history ops))).
Proof.
  intros U H. destruct (C117_released_once_when_unowned ops U) as (w & gone & E & N & G & P). exists w. split; auto.
  rewrite P. set (st := snd (history ops)) in *.
  assert (Q : Permutation gone (seq 0 (length st))).
  { apply NoDup_Permutation; auto; [apply seq_NoDup|]. intros k. rewrite G, in_seq. split; [lia|]. intros H1. split; [lia|].
    intros o R. destruct (H o) as [H'|H']; rewrite H' in R; discriminate. }
  rewrite Q. clear. assert (X : forall pre, flat_map (fun k => match nth_error (pre ++ st) k with Some s => releasing s | None => [] end) (seq (length pre) (length st)) = flat_map releasing st).
  { induction st as [|s st IH]; intros pre; cbn [length seq flat_map]; auto.
    rewrite nth_error_app2, Nat.sub_diag by lia. cbn [nth_error]. f_equal. specialize (IH (pre ++ [s])).
    rewrite <- app_assoc, app_length in IH. cbn [length app] in IH. rewrite Nat.add_1_r in IH. exact IH. }
  specialize (X []). cbn [app length] in X. now rewrite X.
Qed.
(** A module instantiated once: if the caller deletes the instance, the bytes are released; if the
    machine goes first, they stay. *)
Example C118_case :
  let ops := [OCompile 1 4096 7 add_bytes; OInstantiate 5 1; ODrop 1] in
  (exists w, orun oworld0 (ops ++ [ODelete 5; OVmEnd]) = Ok w /\ ow_calls w = [(7, 4096)]) /\
  (exists w, orun oworld0 (ops ++ [OVmEnd]) = Ok w /\ ow_calls w = []).
Proof. cbv zeta. split; eexists; split; vm_compute; reflexivity. Qed.

Example C117_case :
  let ops := [OCompile 1 4096 7 add_bytes; OCopy 2 1; OInstantiate 5 2; OCompile 3 8192 7 [1; 2; 3; 4]; ODrop 1; OInstantiateMove 6 2; OAssign 2 2; ODelete 5; ODrop 2] in
  exists w m, orun oworld0 ops = Ok w /\ ow_calls w = [(7, 8192)] /\ compile add_bytes = Ok m /\ use_func w 6 0 = func_inst m 0 /\
    orun oworld0 (ops ++ [ODelete 6]) = Ok (mkOW [] [None; None] [(7, 8192); (7, 4096)]).
Proof. cbv zeta. eexists. eexists. split; [vm_compute; reflexivity|]. conjs; vm_compute; reflexivity. Qed.

Print Assumptions C117_released_once_when_unowned.
Print Assumptions C117_functions_of_live_instances.
Print Assumptions C117_names.
Print Assumptions C118_instances_outlive_the_machine_refuted.
Print Assumptions C118_leak_refuted.
Print Assumptions C118_caller_deletes_partial.
