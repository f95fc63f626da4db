(** Proofs about the tables. *)

From Coq Require Import ZArith List Bool Lia Permutation.
From Verif Require Import Outcome HashModel HashProofs TablesModel TablesSpec.
Import ListNotations.
Local Open Scope Z_scope.

(** * Labels *)

Lemma replace_nth_length {A} i (x : A) l : length (replace_nth i x l) = length l.
Proof. revert i; induction l as [|y l IH]; intros [|i]; cbn; auto. Qed.

Lemma nth_replace_same {A} i (x : A) l : (i < length l)%nat -> nth_error (replace_nth i x l) i = Some x.
Proof. revert i; induction l as [|y l IH]; intros [|i] H; cbn in *; try lia; auto. apply IH. lia. Qed.

Lemma nth_replace_other {A} i j (x : A) l : i <> j -> nth_error (replace_nth i x l) j = nth_error l j.
Proof. revert i j; induction l as [|y l IH]; intros [|i] [|j] H; cbn; auto; congruence. Qed.

(** The model's table represents the specification's. *)
Definition lrep (t : label_table) (s : labels) : Prop :=
  length t = length s /\
  forall i r, nth_error t i = Some r ->
    lr_id r = Z.of_nat i /\
    nth_error s i = Some (if lr_placed r then Some (lr_offset r) else None).

Lemma lrep_nth t s i : lrep t s -> (i < length s)%nat -> exists r, nth_error t i = Some r.
Proof.
  intros [HL _] Hi. destruct (nth_error t i) eqn:E; eauto. apply nth_error_None in E. lia.
Qed.

Lemma lrep_alloc t s : lrep t s -> lrep (fst (lt_alloc t)) (s ++ [None]) /\ snd (lt_alloc t) = Z.of_nat (length s).
Proof.
  intros [HL HR]. cbn. unfold lt_next. rewrite HL. split; [|reflexivity]. split; [rewrite !app_length; cbn; lia|].
  intros i r Hi. destruct (Nat.ltb_spec i (length t)).
  - rewrite nth_error_app1 in Hi by lia. rewrite nth_error_app1 by lia. auto.
  - rewrite nth_error_app2 in Hi by lia. rewrite nth_error_app2 by lia.
    destruct (i - length t)%nat eqn:E; cbn in Hi; [|destruct n; discriminate].
    injection Hi as <-. cbn. split; [lia|]. replace (i - length s)%nat with 0%nat by lia. reflexivity.
Qed.

Lemma place_spec t s id off : lrep t s -> 0 <= id < 2 ^ 64 ->
  match nth_error s (Z.to_nat id) with
  | Some None => exists t', lt_place t id off = Ok t' /\
                            lrep t' (replace_nth (Z.to_nat id) (Some (off mod 2 ^ 32)) s)
  | _ => lt_place t id off = Trap Assertion
  end.
Proof.
  intros R Hid. pose proof R as [HL HR]. unfold lt_place, lt_next.
  destruct (Z.ltb_spec id (Z.of_nat (length t))) as [Hlt|Hge]; cbn [ab_assert bind].
  2:{ destruct (nth_error s (Z.to_nat id)) eqn:E; [|reflexivity].
      assert (Z.to_nat id < length s)%nat by (apply nth_error_Some; congruence). lia. }
  destruct (nth_error t (Z.to_nat id)) as [r|] eqn:Er.
  2:{ apply nth_error_None in Er. lia. }
  destruct (HR _ _ Er) as [Hidr Hs]. rewrite Hs.
  destruct (lr_placed r) eqn:Hp; cbn [negb ab_assert bind]; [reflexivity|].
  rewrite Hidr, Z2Nat.id, Z.eqb_refl by lia. cbn [ab_assert bind].
  eexists. split; [reflexivity|]. split; [rewrite !replace_nth_length; auto|].
  intros i r' Hi. destruct (Nat.eq_dec (Z.to_nat id) i) as [<-|N].
  - rewrite nth_replace_same in Hi by lia. injection Hi as <-. cbn. split; [lia|].
    rewrite nth_replace_same by lia. reflexivity.
  - rewrite nth_replace_other in Hi by auto. rewrite nth_replace_other by auto. auto.
Qed.

Lemma to_i32_mod off : 0 <= off < 2 ^ 32 -> to_i32 off mod 2 ^ 32 = off.
Proof.
  intros H. unfold to_i32. destruct (Z.ltb_spec off (2 ^ 31)).
  - apply Z.mod_small. lia.
  - replace (off - 2 ^ 32) with (off + (-1) * 2 ^ 32) by lia. rewrite Z.mod_add by lia. apply Z.mod_small. lia.
Qed.

Lemma replace_app_last {A} (l : list A) x y : replace_nth (length l) y (l ++ [x]) = l ++ [y].
Proof. induction l; cbn; congruence. Qed.

Lemma label_step_spec t s o : lrep t s -> label_args o -> Z.of_nat (length s) < 2 ^ 64 ->
  match labels_step s o with
  | Some (s', id) => exists t', lt_step t o = Ok (t', id) /\ lrep t' s'
  | None => lt_step t o = Trap Assertion
  end.
Proof.
  intros R Ha Hlen. destruct o as [|off|id off]; cbn [labels_step lt_step].
  - destruct (lrep_alloc t s R) as [R' E]. eexists. split; [|exact R']. destruct (lt_alloc t); cbn in *; congruence.
  - destruct (lrep_alloc t s R) as [R' E]. unfold lt_alloc_at. destruct (lt_alloc t) as [t1 id]. cbn [fst snd] in *.
    subst id.
    pose proof (place_spec t1 _ (Z.of_nat (length s)) (to_i32 off) R' ltac:(lia)) as HP.
    rewrite Nat2Z.id in HP. rewrite nth_error_app2, Nat.sub_diag in HP by lia. cbn [nth_error] in HP.
    destruct HP as (t2 & -> & R2). cbn [bind]. eexists. split; [reflexivity|].
    rewrite replace_app_last, to_i32_mod in R2 by exact Ha. exact R2.
  - destruct Ha as [Hid _]. pose proof (place_spec t s id off R Hid) as HP.
    destruct (nth_error s (Z.to_nat id)) as [[o|]|].
    + now rewrite HP.
    + destruct HP as (t' & -> & R'). cbn [bind]. eauto.
    + now rewrite HP.
Qed.

Lemma labels_step_len s o s' id : labels_step s o = Some (s', id) -> (length s <= length s' <= S (length s))%nat.
Proof.
  destruct o; cbn [labels_step]; intros H.
  - injection H as <- <-. rewrite app_length. cbn. lia.
  - injection H as <- <-. rewrite app_length. cbn. lia.
  - destruct (nth_error s _) as [[|]|]; try discriminate. injection H as <- <-. rewrite replace_nth_length. lia.
Qed.

Lemma label_run_spec ops : forall t s, lrep t s -> Forall label_args ops ->
  Z.of_nat (length s) + Z.of_nat (length ops) < 2 ^ 64 ->
  match labels_run s ops with
  | Some (s', ids) => exists t', lt_run t ops = Ok (t', ids) /\ lrep t' s'
  | None => lt_run t ops = Trap Assertion
  end.
Proof.
  induction ops as [|o ops IH]; intros t s R A Hlen; cbn [labels_run lt_run]; [eauto|].
  inversion A as [|? ? Ao Aops]; subst. cbn [length] in Hlen.
  pose proof (label_step_spec t s o R Ao ltac:(lia)) as HS.
  destruct (labels_step s o) as [[s1 id]|] eqn:Es; [|now rewrite HS].
  destruct HS as (t1 & -> & R1). cbn [bind].
  apply labels_step_len in Es.
  specialize (IH t1 s1 R1 Aops ltac:(lia)). destruct (labels_run s1 ops) as [[s2 ids]|].
  - destruct IH as (t2 & -> & R2). cbn [bind]. eauto.
  - now rewrite IH.
Qed.

Lemma target_spec t s id : lrep t s -> 0 <= id ->
  lt_target_of t id =
    match nth_error s (Z.to_nat id) with Some (Some o) => Ok o | _ => Trap Assertion end.
Proof.
  intros R Hid. pose proof R as [HL HR]. unfold lt_target_of, lt_next.
  destruct (Z.ltb_spec id (Z.of_nat (length t))) as [Hlt|Hge]; cbn [ab_assert bind].
  2:{ destruct (nth_error s (Z.to_nat id)) eqn:E; [|reflexivity].
      assert (Z.to_nat id < length s)%nat by (apply nth_error_Some; congruence). lia. }
  destruct (nth_error t (Z.to_nat id)) as [r|] eqn:Er; [|apply nth_error_None in Er; lia].
  destruct (HR _ _ Er) as [Hidr Hs]. rewrite Hs, Hidr, Z2Nat.id, Z.eqb_refl by lia. cbn [ab_assert bind].
  destruct (lr_placed r); reflexivity.
Qed.

Lemma labels_step_keeps s o s' id i x : labels_step s o = Some (s', id) ->
  nth_error s i = Some (Some x) -> nth_error s' i = Some (Some x).
Proof.
  destruct o as [|off|j off]; cbn [labels_step]; intros H Hi.
  - injection H as <- <-. rewrite nth_error_app1; auto. apply nth_error_Some. congruence.
  - injection H as <- <-. rewrite nth_error_app1; auto. apply nth_error_Some. congruence.
  - destruct (nth_error s (Z.to_nat j)) as [[|]|] eqn:E; try discriminate. injection H as <- <-.
    rewrite nth_replace_other; auto. congruence.
Qed.

Lemma labels_run_keeps ops : forall s s' ids i x, labels_run s ops = Some (s', ids) ->
  nth_error s i = Some (Some x) -> nth_error s' i = Some (Some x).
Proof.
  induction ops as [|o ops IH]; intros s s' ids i x H Hi; cbn [labels_run] in H; [congruence|].
  destruct (labels_step s o) as [[s1 id]|] eqn:Es; [|discriminate].
  destruct (labels_run s1 ops) as [[s2 ids2]|] eqn:Er; [|discriminate]. injection H as <- <-.
  eapply IH; eauto. eapply labels_step_keeps; eauto.
Qed.

Lemma labels_run_app ops1 ops2 : forall s,
  labels_run s (ops1 ++ ops2) =
  match labels_run s ops1 with
  | Some (s1, ids1) => match labels_run s1 ops2 with Some (s2, ids2) => Some (s2, ids1 ++ ids2) | None => None end
  | None => None
  end.
Proof.
  induction ops1 as [|o ops1 IH]; intros s; cbn [app labels_run].
  - destruct (labels_run s ops2) as [[? ?]|]; auto.
  - destruct (labels_step s o) as [[s1 id]|]; auto. rewrite IH.
    destruct (labels_run s1 ops1) as [[s2 ids]|]; auto. destruct (labels_run s2 ops2) as [[? ?]|]; auto.
Qed.

(** * Symbols *)

Lemma name_eqb_eq a b : name_eqb a b = true <-> a = b.
Proof. unfold name_eqb. destruct (list_eq_dec Z.eq_dec a b); split; congruence. Qed.

(** The table represents the list of distinct names in order of first appearance. *)
Definition srep (t : symtab) (l : list name) : Prop :=
  NoDup l /\ st_next t = Z.of_nat (length l) /\
  (forall s i, find_name s (st_symbols t) = Some i <-> exists k, i = Z.of_nat k /\ nth_error l k = Some s) /\
  (forall i s, find_id i (st_strings t) = Some s <-> exists k, i = Z.of_nat k /\ nth_error l k = Some s).

Definition add_name (l : list name) (s : name) : list name :=
  if in_dec (list_eq_dec Z.eq_dec) s l then l else l ++ [s].

Lemma find_name_cons s s' i l : find_name s ((s', i) :: l) = if name_eqb s' s then Some i else find_name s l.
Proof. unfold find_name. cbn. destruct (name_eqb s' s); reflexivity. Qed.
Lemma find_id_cons i i' s l : find_id i ((i', s) :: l) = if i' =? i then Some s else find_id i l.
Proof. unfold find_id. cbn. destruct (i' =? i); reflexivity. Qed.

Lemma intern_spec t l s : srep t l -> Z.of_nat (length l) + 1 < 2 ^ 64 ->
  exists t' k, intern t s = (t', Z.of_nat k) /\ srep t' (add_name l s) /\ nth_error (add_name l s) k = Some s.
Proof.
  intros (ND & Hn & HS & HI) Hlen. unfold intern, add_name.
  destruct (find_name s (st_symbols t)) as [i|] eqn:E.
  - apply HS in E as E'. destruct E' as (k & -> & Hk).
    destruct (in_dec (list_eq_dec Z.eq_dec) s l) as [Hin|Hni].
    + exists t, k. split; auto. split; auto. repeat split; auto; apply HS || apply HI.
    + exfalso. apply Hni. eapply nth_error_In; eauto.
  - destruct (in_dec (list_eq_dec Z.eq_dec) s l) as [Hin|Hni].
    { exfalso. apply In_nth_error in Hin. destruct Hin as (k & Hk).
      assert (find_name s (st_symbols t) = Some (Z.of_nat k)) by (apply HS; eauto). congruence. }
    exists (mkSym (u64 (st_next t + 1)) (insert_name s (st_next t) (st_symbols t))
                  (insert_id (st_next t) s (st_strings t))), (length l).
    split; [now rewrite Hn|].
    assert (Hlast : nth_error (l ++ [s]) (length l) = Some s).
    { rewrite nth_error_app2, Nat.sub_diag by lia. reflexivity. }
    split; [|exact Hlast].
    assert (EI : find_id (st_next t) (st_strings t) = None).
    { destruct (find_id (st_next t) (st_strings t)) eqn:E'; auto. apply HI in E'. destruct E' as (k & Hk & Hk').
      assert (k < length l)%nat by (apply nth_error_Some; congruence). lia. }
    unfold srep, insert_name, insert_id. cbn [st_next st_symbols st_strings]. rewrite E, EI.
    conjs.
    + apply Permutation_NoDup with (s :: l); [apply Permutation_cons_append|]. constructor; auto.
    + rewrite Hn, app_length. cbn [length]. rewrite u64_small by (split; lia). lia.
    + intros s' i. rewrite find_name_cons. destruct (name_eqb s s') eqn:En.
      * apply name_eqb_eq in En. subst s'. split.
        -- intros [= <-]. exists (length l). split; auto.
        -- intros (k & -> & Hk). f_equal. rewrite Hn. f_equal.
           destruct (Nat.ltb_spec k (length l)).
           ++ rewrite nth_error_app1 in Hk by lia. exfalso. apply Hni. eapply nth_error_In; eauto.
           ++ assert (k < length (l ++ [s]))%nat by (apply nth_error_Some; congruence).
              rewrite app_length in *. cbn in *. lia.
      * rewrite HS. split; intros (k & -> & Hk); exists k; split; auto.
        -- rewrite nth_error_app1; auto. apply nth_error_Some. congruence.
        -- destruct (Nat.ltb_spec k (length l)); [rewrite nth_error_app1 in Hk by lia; auto|].
           rewrite nth_error_app2 in Hk by lia. destruct (k - length l)%nat; cbn in Hk; [|destruct n; discriminate].
           injection Hk as <-. exfalso. assert (name_eqb s s = true) by now apply name_eqb_eq. congruence.
    + intros i s'. rewrite find_id_cons. destruct (Z.eqb_spec (st_next t) i) as [<-|Ni].
      * split.
        -- intros [= <-]. exists (length l). split; [lia|auto].
        -- intros (k & Hk & Hk'). assert (k = length l) as -> by lia. congruence.
      * rewrite HI. split; intros (k & -> & Hk); exists k; split; auto.
        -- rewrite nth_error_app1; auto. apply nth_error_Some. congruence.
        -- rewrite nth_error_app1 in Hk; auto.
           assert (k < length (l ++ [s]))%nat by (apply nth_error_Some; congruence).
           rewrite app_length in *. cbn in *. lia.
Qed.

Lemma add_name_prefix l s : exists r, add_name l s = l ++ r.
Proof. unfold add_name. destruct (in_dec (list_eq_dec Z.eq_dec) s l); [exists []; now rewrite app_nil_r|eauto]. Qed.

Lemma add_name_len l s : (length (add_name l s) <= S (length l))%nat.
Proof. unfold add_name. destruct (in_dec (list_eq_dec Z.eq_dec) s l); [lia|]. rewrite app_length. cbn. lia. Qed.

Lemma add_name_in l s x : In x (add_name l s) <-> In x l \/ x = s.
Proof.
  unfold add_name. destruct (in_dec (list_eq_dec Z.eq_dec) s l).
  - split; auto. intros [H|H]; [auto|now subst].
  - rewrite in_app_iff. cbn. intuition.
Qed.

Lemma intern_all_spec ss : forall t l, srep t l -> Z.of_nat (length l) + Z.of_nat (length ss) < 2 ^ 64 ->
  exists t' ks, intern_all t ss = (t', map Z.of_nat ks) /\
    srep t' (fold_left add_name ss l) /\
    Forall2 (fun k s => nth_error (fold_left add_name ss l) k = Some s) ks ss.
Proof.
  induction ss as [|s ss IH]; intros t l R Hlen; cbn [intern_all fold_left length] in *.
  - exists t, []. auto.
  - destruct (intern_spec t l s R ltac:(lia)) as (t1 & k & -> & R1 & Hk).
    pose proof (add_name_len l s).
    destruct (IH t1 (add_name l s) R1 ltac:(lia)) as (t2 & ks & -> & R2 & F).
    exists t2, (k :: ks). split; auto. split; auto. constructor; auto.
    assert (P : forall ss l, exists r, fold_left add_name ss l = l ++ r).
    { clear. induction ss as [|s ss IH]; intros l; cbn; [exists []; now rewrite app_nil_r|].
      destruct (IH (add_name l s)) as (r & ->). destruct (add_name_prefix l s) as (r' & ->).
      exists (r' ++ r). now rewrite app_assoc. }
    destruct (P ss (add_name l s)) as (r & ->). rewrite nth_error_app1; auto.
    apply nth_error_Some. congruence.
Qed.

Lemma fold_add_in ss : forall l x, In x (fold_left add_name ss l) <-> In x l \/ In x ss.
Proof.
  induction ss as [|s ss IH]; intros l x; cbn [fold_left In]; [intuition|].
  rewrite IH, add_name_in. intuition.
Qed.

Lemma fold_add_prefix ss : forall l, exists r, fold_left add_name ss l = l ++ r.
Proof.
  induction ss as [|s ss IH]; intros l; cbn; [exists []; now rewrite app_nil_r|].
  destruct (IH (add_name l s)) as (r & ->). destruct (add_name_prefix l s) as (r' & ->).
  exists (r' ++ r). now rewrite app_assoc.
Qed.

Lemma empty_srep : srep empty_symtab [].
Proof.
  split; [constructor|]. split; [reflexivity|]. split.
  - intros s i. cbn. split; [discriminate|]. intros (k & _ & H). destruct k; discriminate.
  - intros i s. cbn. split; [discriminate|]. intros (k & _ & H). destruct k; discriminate.
Qed.

Lemma sym_id_spec t l s : srep t l ->
  (forall i, sym_id t s = Ok i <-> exists k, i = Z.of_nat k /\ nth_error l k = Some s) /\
  (sym_interned t s = true <-> In s l) /\
  (~ In s l -> sym_id t s = Throw StdException).
Proof.
  intros (ND & Hn & HS & HI). unfold sym_id, sym_interned.
  assert (NoneIff : find_name s (st_symbols t) = None -> ~ In s l).
  { intros E Hin. apply In_nth_error in Hin. destruct Hin as (k & Hk).
    assert (find_name s (st_symbols t) = Some (Z.of_nat k)) by (apply HS; eauto). congruence. }
  conjs.
  - intros i. rewrite <- HS. destruct (find_name s (st_symbols t)); split; congruence.
  - destruct (find_name s (st_symbols t)) eqn:E; split; try discriminate; auto.
    + intros _. apply HS in E. destruct E as (k & _ & Hk). eapply nth_error_In; eauto.
    + intros Hin. exfalso. now apply NoneIff.
  - intros Hni. destruct (find_name s (st_symbols t)) eqn:E; auto. exfalso. apply Hni.
    apply HS in E. destruct E as (k & _ & Hk). eapply nth_error_In; eauto.
Qed.

Lemma sym_string_spec t l k s : srep t l -> nth_error l k = Some s -> sym_string t (Z.of_nat k) = Ok s.
Proof.
  intros (ND & Hn & HS & HI) Hk. unfold sym_string.
  assert (find_id (Z.of_nat k) (st_strings t) = Some s) as -> by (apply HI; eauto). reflexivity.
Qed.

(** * Storage *)

Definition owns (s : storage) : list (Z * Z) :=
  if negb (sg_addr s =? 0) && negb (sg_del s =? 0) then [(sg_del s, sg_addr s)] else [].
Definition held (l : list (Z * storage)) : list (Z * Z) := flat_map (fun kv => owns (snd kv)) l.

Lemma sg_remove_names x l : map fst (sg_remove x l) = filter (fun y => negb (y =? x)) (map fst l).
Proof.
  induction l as [|[y s] l IH]; [reflexivity|]. unfold sg_remove in *. cbn [filter map fst].
  destruct (negb (y =? x)); cbn [map fst]; congruence.
Qed.

Lemma in_sg_remove x y l : In y (map fst (sg_remove x l)) <-> In y (map fst l) /\ y <> x.
Proof.
  rewrite sg_remove_names, filter_In. cbn beta. destruct (Z.eqb_spec y x) as [E|N]; cbn [negb].
  - split; intros [A B]; [discriminate|contradiction].
  - split; intros [A B]; auto.
Qed.

Lemma sg_remove_nodup x l : NoDup (map fst l) -> NoDup (map fst (sg_remove x l)).
Proof. intros H. rewrite sg_remove_names. now apply NoDup_filter. Qed.

Lemma sg_remove_absent x l : ~ In x (map fst l) -> sg_remove x l = l.
Proof.
  induction l as [|[y s] l IH]; cbn; auto. intros H. destruct (Z.eqb_spec y x); [exfalso; auto|]. cbn.
  f_equal. auto.
Qed.

Lemma sg_get_split w x : NoDup (map fst (sw_live w)) -> In x (map fst (sw_live w)) ->
  exists s, sg_get w x = Some s /\ Permutation (held (sw_live w)) (owns s ++ held (sg_remove x (sw_live w))).
Proof.
  unfold sg_get. destruct w as [l c]. cbn [sw_live]. induction l as [|[y s] l IH]; cbn [map fst In]; [contradiction|].
  intros ND Hin. inversion ND as [|? ? Hni ND']; subst. cbn [find fst].
  destruct (Z.eqb_spec y x) as [->|N].
  - exists s. split; [reflexivity|]. unfold sg_remove. cbn [filter fst]. rewrite Z.eqb_refl. cbn [negb].
    fold (sg_remove x l). rewrite sg_remove_absent by assumption. cbn [held flat_map snd]. reflexivity.
  - destruct Hin as [|Hin]; [congruence|]. destruct (IH ND' Hin) as (s' & E & P). exists s'. split; auto.
    unfold sg_remove. cbn [filter fst]. destruct (Z.eqb_spec y x); [congruence|]. cbn [negb]. fold (sg_remove x l).
    cbn [held flat_map snd]. fold (held l) (held (sg_remove x l)). rewrite P.
    rewrite !app_assoc. apply Permutation_app_tail. apply Permutation_app_comm.
Qed.

Lemma sg_run_ok ops : forall w live done,
  NoDup (map fst (sw_live w)) -> (forall x, In x (map fst (sw_live w)) <-> In x live) ->
  Permutation (sw_calls w ++ held (sw_live w)) done -> sg_used_well live ops ->
  exists w', sg_run w ops = Ok w' /\
    NoDup (map fst (sw_live w')) /\
    (forall x, In x (map fst (sw_live w')) <-> In x (sg_live live ops)) /\
    Permutation (sw_calls w' ++ held (sw_live w')) (done ++ sg_owned ops).
Proof.
  induction ops as [|o ops IH]; intros w live done ND HL P W.
  - exists w. cbn [sg_run sg_live sg_owned]. rewrite app_nil_r. conjs; auto; apply HL.
  - destruct o as [x a d|d s|x]; cbn [sg_used_well sg_live sg_owned sg_run sg_step bind] in *.
    + destruct W as [Hni W].
      destruct (IH (sg_create w x a d) (x :: live) (done ++ owns (mkStorage a d))) as (w' & E & N' & L' & P'); auto.
      * cbn [sg_create sw_live map fst]. constructor; auto. rewrite HL. auto.
      * intros y. cbn [sg_create sw_live map fst In]. rewrite HL. reflexivity.
      * cbn [sg_create sw_live sw_calls held flat_map snd]. fold (held (sw_live w)).
        rewrite <- P. rewrite <- app_assoc. apply Permutation_app_head, Permutation_app_comm.
      * exists w'. conjs; auto; try apply L'. rewrite P'. unfold owns. cbn [sg_addr sg_del].
        rewrite <- app_assoc. reflexivity.
    + destruct W as (Hs & Hd & W).
      destruct (sg_get_split w s ND ltac:(now apply HL)) as (st & E & PS).
      unfold sg_move. rewrite E. cbn [bind].
      destruct (IH (mkSW ((d, st) :: (s, mkStorage 0 0) :: sg_remove s (sw_live w)) (sw_calls w)) (d :: live) done)
        as (w' & E' & N' & L' & P'); auto.
      * cbn [sw_live map fst]. constructor.
        { cbn. intros [->|Hin]; [auto|]. apply in_sg_remove in Hin. apply Hd. apply HL. tauto. }
        constructor; [|now apply sg_remove_nodup]. intros Hin. apply in_sg_remove in Hin. tauto.
      * intros y. cbn [sw_live map fst In]. rewrite in_sg_remove, HL.
        destruct (Z.eq_dec s y) as [->|]; intuition congruence.
      * cbn [sw_live sw_calls held flat_map snd]. fold (held (sg_remove s (sw_live w))).
        change (owns (mkStorage 0 0)) with (@nil (Z * Z)). cbn [app]. rewrite <- PS. exact P.
      * exists w'. conjs; auto; apply L'.
    + destruct W as (Hx & W).
      destruct (sg_get_split w x ND ltac:(now apply HL)) as (st & E & PS).
      unfold sg_destroy. rewrite E. cbn [bind].
      set (w1 := mkSW (sg_remove x (sw_live w)) _).
      destruct (IH w1 (List.remove Z.eq_dec x live) done) as (w' & E' & N' & L' & P'); auto.
      * cbn [w1 sw_live]. now apply sg_remove_nodup.
      * intros y. cbn [w1 sw_live]. rewrite in_sg_remove, HL. split.
        { intros [H1 H2]. now apply in_in_remove. } { intros H. apply in_remove in H. tauto. }
      * assert (EC : sw_calls w1 = sw_calls w ++ owns st).
        { unfold w1, owns. cbn [sw_calls]. destruct (negb (sg_addr st =? 0) && negb (sg_del st =? 0)); auto.
          now rewrite app_nil_r. }
        rewrite EC, <- app_assoc. cbn [w1 sw_live]. rewrite <- PS. exact P.
      * exists w'. conjs; auto; apply L'.
Qed.

(** * Lines *)

(** Strictly increasing from 0. *)
Fixpoint incr_from (b : Z) (l : list Z) : Prop :=
  match l with [] => True | x :: l => b < x /\ incr_from x l end.
Definition good_breaks (li : line_info) : Prop :=
  exists l, li = 0 :: l /\ incr_from 0 l /\ Z.of_nat (length li) < 2 ^ 62 /\
    Forall (fun b => b < 2 ^ 64) l.

Lemma incr_nth l : forall b i j x y, incr_from b l -> (i < j)%nat ->
  nth_error (b :: l) i = Some x -> nth_error (b :: l) j = Some y -> x < y.
Proof.
  induction l as [|z l IH]; intros b i j x y H Hij Hi Hj.
  - destruct j as [|j]; [lia|]. destruct j; discriminate.
  - cbn [incr_from] in H. destruct H as [H1 H2].
    destruct i as [|i], j as [|j]; try lia.
    + cbn in Hi. injection Hi as <-. cbn [nth_error] in Hj.
      destruct j as [|j]; [cbn in Hj; injection Hj as <-; auto|].
      assert (z < y) by (apply (IH z 0%nat (S j)); auto; lia). lia.
    + cbn [nth_error] in Hi, Hj. eapply (IH z i j); eauto. lia.
Qed.

Lemma brk_ok li n : 0 <= n < Z.of_nat (length li) -> exists b, brk li n = Ok b /\ nth_error li (Z.to_nat n) = Some b.
Proof.
  intros H. unfold brk. destruct (Z.ltb_spec n 0); [lia|].
  destruct (nth_error li (Z.to_nat n)) eqn:E; eauto. apply nth_error_None in E. lia.
Qed.

(** m is the line of off: the last break at or before it. *)
Definition is_line (li : line_info) (off m : Z) : Prop :=
  0 <= m < Z.of_nat (length li) /\
  (exists b, nth_error li (Z.to_nat m) = Some b /\ b <= off) /\
  (forall b, nth_error li (Z.to_nat (m + 1)) = Some b -> off < b).

Lemma line_search_ok li off : good_breaks li -> 0 <= off < 2 ^ 64 - 1 ->
  forall fuel l r, 0 <= l -> l <= r -> r < Z.of_nat (length li) -> (Z.to_nat (r - l) < fuel)%nat ->
  (exists b, nth_error li (Z.to_nat l) = Some b /\ b <= off) ->
  (forall b, nth_error li (Z.to_nat (r + 1)) = Some b -> off < b) ->
  (exists b, nth_error li (length li - 1)%nat = Some b /\ off < b) ->
  exists m, line_search fuel li off l r = Ok m /\ is_line li off m.
Proof.
  intros (bl & -> & Hinc & Hlen & _) Hoff. set (li := 0 :: bl) in *.
  assert (Mono : forall i j x y, (i < j)%nat -> nth_error li i = Some x -> nth_error li j = Some y -> x < y).
  { intros. eapply (incr_nth bl 0 i j); eauto. }
  induction fuel as [|fuel IH]; intros l r Hl Hlr Hr Hf Hlo Hhi Hlast; [lia|].
  cbn [line_search]. destruct (Z.leb_spec l r); [|lia].
  rewrite (u64_small (l + r)) by (split; lia). set (m := (l + r) / 2).
  assert (Hm : l <= m <= r).
  { unfold m. split; [apply Z.div_le_lower_bound; lia|]. apply Z.div_le_upper_bound; lia. }
  destruct Hlo as (bl0 & Hbl & Hble). destruct Hlast as (bz & Hbz & Hbzo).
  assert (Hmn : m + 1 < Z.of_nat (length li)).
  { (* m is not the last line: l is not *)
    assert (l <> Z.of_nat (length li) - 1).
    { intros ->. replace (Z.to_nat (Z.of_nat (length li) - 1)) with (length li - 1)%nat in Hbl by lia.
      rewrite Hbz in Hbl. injection Hbl as <-. lia. }
    destruct (Z.eq_dec l r) as [E|E]; [lia|]. assert (m < r); [|lia]. unfold m. apply Z.div_lt_upper_bound; lia. }
  rewrite (u64_small (m + 1)) by (split; lia).
  rewrite (u64_small (off + 1)) by (split; lia).
  destruct (brk_ok li (m + 1) ltac:(lia)) as (e & Ee & He). rewrite Ee. cbn [bind].
  destruct (Z.ltb_spec e (off + 1)) as [Hlt|Hge].
  - assert (Hm1r : m + 1 <= r).
    { destruct (Z.leb_spec (m + 1) r); auto. assert (Em : m = r) by lia. rewrite Em in He.
      specialize (Hhi _ He). lia. }
    apply IH; auto; try lia; eauto. exists e. split; auto. lia.
  - destruct (brk_ok li m ltac:(lia)) as (s & Es & Hs). rewrite Es. cbn [bind].
    destruct (Z.ltb_spec off s) as [Hos|Hos].
    + assert (Hlm : l < m).
      { destruct (Z.eq_dec l m) as [E|]; [|lia]. rewrite <- E in Hs. rewrite Hbl in Hs. injection Hs as <-. lia. }
      rewrite (u64_small (m - 1)) by (split; lia).
      apply IH; auto; try lia; eauto.
      intros b Hb. replace (m - 1 + 1) with m in Hb by lia. rewrite Hs in Hb. injection Hb as <-. auto.
    + exists m. split; auto. split; [lia|]. split; [eauto|].
      intros b Hb. rewrite He in Hb. injection Hb as <-. lia.
Qed.

Lemma line_ok li off fuel : good_breaks li -> 0 <= off < 2 ^ 64 -> (length li <= fuel)%nat ->
  exists m, line fuel li off = Ok m /\ is_line li off m.
Proof.
  intros G Hoff Hf. pose proof G as (bl & E & Hinc & Hlen & Hw). unfold line.
  assert (0 < Z.of_nat (length li)) by (subst li; cbn; lia).
  rewrite (u64_small (Z.of_nat (length li) - 1)) by (split; lia).
  destruct (brk_ok li (Z.of_nat (length li) - 1) ltac:(lia)) as (b & Eb & Hb). rewrite Eb. cbn [bind].
  destruct (Z.leb_spec b off) as [L|L].
  - eexists. split; [reflexivity|]. split; [lia|]. split; [eauto|].
    intros b' Hb'. assert (Z.to_nat (Z.of_nat (length li) - 1 + 1) < length li)%nat
      by (apply nth_error_Some; congruence). lia.
  - destruct (line_search_ok li off G) with (fuel := fuel) (l := 0) (r := Z.of_nat (length li) - 1)
      as (m & Em & Hm); eauto; try lia.
    + split; [lia|]. assert (b < 2 ^ 64); [|lia].
      apply nth_error_In in Hb. subst li. destruct Hb as [<-|Hb]; [lia|].
      rewrite Forall_forall in Hw. now apply Hw.
    + exists 0. subst li. cbn. split; auto. lia.
    + intros b' Hb'. assert (Z.to_nat (Z.of_nat (length li) - 1 + 1) < length li)%nat
        by (apply nth_error_Some; congruence). lia.
    + exists b. split; auto. rewrite <- Hb. f_equal. lia.
Qed.

(** The breaks a text adds, from position [pos]. *)
Fixpoint breaks_at (pos : Z) (text : list Z) : list Z :=
  match text with
  | [] => []
  | ch :: text => if ch =? 10 then (pos + 1) :: breaks_at (pos + 1) text else breaks_at (pos + 1) text
  end.

Lemma breaks_of_at text : forall li pos, breaks_of li pos text = li ++ breaks_at pos text.
Proof.
  induction text as [|ch text IH]; intros li pos; cbn [breaks_of breaks_at]; [now rewrite app_nil_r|].
  destruct (ch =? 10); rewrite IH; auto. unfold record_br. now rewrite <- app_assoc.
Qed.

Lemma breaks_at_incr text : forall b pos, b <= pos -> incr_from b (breaks_at pos text).
Proof.
  induction text as [|ch text IH]; intros b pos H; cbn [breaks_at incr_from]; auto.
  destruct (ch =? 10); [|apply IH; lia]. cbn [incr_from]. split; [lia|apply IH; lia].
Qed.

Lemma breaks_at_bound text : forall pos,
  Forall (fun b => b <= pos + Z.of_nat (length text)) (breaks_at pos text) /\
  (length (breaks_at pos text) <= length text)%nat.
Proof.
  induction text as [|ch text IH]; intros pos; cbn [breaks_at length]; [split; auto|].
  destruct (IH (pos + 1)) as [F L].
  destruct (ch =? 10); cbn [length]; (split; [|lia]).
  - constructor; [lia|]. eapply Forall_impl; [|exact F]. cbn. intros. lia.
  - eapply Forall_impl; [|exact F]. cbn. intros. lia.
Qed.

Lemma breaks_at_first text : forall pos b l, breaks_at pos text = b :: l -> pos < b.
Proof.
  intros pos b l E. pose proof (breaks_at_incr text pos pos ltac:(lia)) as H. rewrite E in H. apply H.
Qed.

Lemma walk_breaks text : forall n pos b l,
  b <= pos -> 0 <= l ->
  let r := walk_text text n l (pos - b) in
  let off := pos + Z.of_nat n in
  l <= fst r /\ 0 <= snd r /\
  nth_error (b :: breaks_at pos text) (Z.to_nat (fst r - l)) = Some (off - snd r) /\
  (forall b', nth_error (b :: breaks_at pos text) (Z.to_nat (fst r + 1 - l)) = Some b' -> off < b').
Proof.
  induction text as [|ch text IH]; intros n pos b l Hb Hl r off; unfold r, off; clear r off.
  - destruct n as [|n]; cbn [walk_text fst snd breaks_at]; rewrite Z.sub_diag; cbn [Z.to_nat nth_error].
    + conjs; try lia. { f_equal. lia. }
      intros b' H. replace (Z.to_nat (l + 1 - l)) with 1%nat in H by lia. discriminate.
    + conjs; try lia. { f_equal. lia. }
      intros b' H. replace (Z.to_nat (l + 1 - l)) with 1%nat in H by lia. discriminate.
  - destruct n as [|n].
    + cbn [walk_text fst snd]. rewrite Z.sub_diag. cbn [Z.to_nat nth_error]. conjs; try lia. { f_equal. lia. }
      intros b' H. replace (Z.to_nat (l + 1 - l)) with 1%nat in H by lia. cbn [nth_error] in H.
      destruct (breaks_at pos (ch :: text)) as [|x ls] eqn:E; [discriminate|]. injection H as <-.
      apply breaks_at_first in E. lia.
    + cbn [walk_text breaks_at]. destruct (Z.eqb_spec ch 10) as [->|N].
      * destruct (IH n (pos + 1) (pos + 1) (l + 1) ltac:(lia) ltac:(lia)) as (A & B & C & D).
        rewrite Z.sub_diag in A, B, C, D. set (r := walk_text text n (l + 1) 0) in *. conjs; try lia.
        { replace (Z.to_nat (fst r - l)) with (S (Z.to_nat (fst r - (l + 1)))) by lia. cbn [nth_error].
          rewrite C. f_equal. lia. }
        intros b' H. replace (Z.to_nat (fst r + 1 - l)) with (S (Z.to_nat (fst r + 1 - (l + 1)))) in H by lia.
        apply D in H. lia.
      * destruct (IH n (pos + 1) b l ltac:(lia) ltac:(lia)) as (A & B & C & D).
        replace (pos + 1 - b) with (pos - b + 1) in A, B, C, D by lia.
        conjs; auto. { rewrite C. f_equal. lia. } intros b' H. apply D in H. lia.
Qed.

Lemma is_line_unique bl off m m' : incr_from 0 bl -> is_line (0 :: bl) off m -> is_line (0 :: bl) off m' -> m = m'.
Proof.
  assert (Half : forall m m', incr_from 0 bl -> is_line (0 :: bl) off m -> is_line (0 :: bl) off m' -> m < m' -> False).
  { intros x y I (Hx & (bx & Ex & Lx) & Nx) (Hy & (by_ & Ey & Ly) & Ny) L.
    destruct (nth_error (0 :: bl) (Z.to_nat (x + 1))) as [c|] eqn:E; [|apply nth_error_None in E; lia].
    specialize (Nx _ eq_refl). destruct (Z.eq_dec (x + 1) y) as [<-|].
    - rewrite E in Ey. injection Ey as <-. lia.
    - assert (c < by_); [|lia]. eapply (incr_nth bl 0 (Z.to_nat (x + 1)) (Z.to_nat y)); eauto. lia. }
  intros I A B. destruct (Z.lt_trichotomy m m') as [L|[L|L]]; auto; exfalso; eauto.
Qed.

Lemma location_ok text off fuel :
  Z.of_nat (length text) < 2 ^ 62 - 1 -> 0 <= off < 2 ^ 64 -> (length text < fuel)%nat ->
  location fuel (breaks_of new_line_info 0 text) off = Ok (walk_text text (Z.to_nat off) 0 0).
Proof.
  intros Hlen Hoff Hf. rewrite breaks_of_at. unfold new_line_info. cbn [app].
  destruct (breaks_at_bound text 0) as [FB LB].
  assert (I : incr_from 0 (breaks_at 0 text)) by (apply breaks_at_incr; lia).
  assert (G : good_breaks (0 :: breaks_at 0 text)).
  { exists (breaks_at 0 text). conjs; auto. { cbn [length]. lia. }
    eapply Forall_impl; [|exact FB]. cbn. intros. lia. }
  destruct (line_ok _ off fuel G Hoff) as (m & Em & Hm); [cbn [length]; lia|].
  destruct (walk_breaks text (Z.to_nat off) 0 0 0 ltac:(lia) ltac:(lia)) as (A & B & C & D).
  change (0 - 0) with 0 in *. set (r := walk_text text (Z.to_nat off) 0 0) in *.
  rewrite !Z.sub_0_r in C, D. replace (0 + Z.of_nat (Z.to_nat off)) with off in C, D by lia.
  assert (HL : is_line (0 :: breaks_at 0 text) off (fst r)).
  { split; [|split; auto].
    - split; auto. assert (Z.to_nat (fst r) < length (0%Z :: breaks_at 0%Z text))%nat by (apply nth_error_Some; congruence). lia.
    - exists (off - snd r). split; auto. lia. }
  assert (m = fst r) by (eapply is_line_unique; eauto). subst m.
  unfold location. rewrite Em. cbn [bind].
  destruct (brk_ok (0 :: breaks_at 0 text) (fst r)) as (b & Eb & Nb); [apply HL|]. rewrite Eb. cbn [bind].
  rewrite C in Nb. injection Nb as <-. replace (off - (off - snd r)) with (snd r) by lia.
  assert (snd r <= off).
  { destruct (Z.to_nat (fst r)) as [|k] eqn:Ek; [cbn [nth_error] in C; injection C as C; lia|].
    assert (0 < off - snd r); [|lia]. apply (incr_nth (breaks_at 0 text) 0 0 (S k)); auto. lia. }
  rewrite u64_small by (split; lia). destruct r; reflexivity.
Qed.
