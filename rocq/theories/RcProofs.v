From Coq Require Import List Arith Bool Lia Permutation.
From Verif Require Import Outcome RcModel RcSpec.
Import ListNotations.
Local Open Scope nat_scope.
Implicit Types (h : heap) (o : obj) (a b : nat).

Lemma put_length {A} (l : list A) i x : length (put l i x) = length l.
Proof. revert i; induction l as [|y l IH]; intros [|i]; cbn; auto. Qed.
Lemma nth_put {A} (l : list A) i j x : i < length l -> nth_error (put l i x) j = if j =? i then Some x else nth_error l j.
Proof. revert i j. induction l as [|y l IH]; intros [|i] [|j] H; cbn in *; try lia; auto. apply IH. lia. Qed.
Lemma put_put {A} (l : list A) i x y : put (put l i x) i y = put l i y.
Proof. revert i; induction l as [|z l IH]; intros [|i]; cbn; auto. now rewrite IH. Qed.
Lemma put_comm {A} (l : list A) i j x y : i <> j -> put (put l i x) j y = put (put l j y) i x.
Proof. revert i j; induction l as [|z l IH]; intros [|i] [|j] N; cbn; auto; try congruence. now rewrite IH by lia. Qed.
Lemma put_same {A} (l : list A) i x : nth_error l i = Some x -> put l i x = l.
Proof. revert i; induction l as [|y l IH]; intros [|i] H; cbn in *; try discriminate; [congruence|]. now rewrite IH. Qed.
Lemma put_out {A} (l : list A) i x : length l <= i -> put l i x = l.
Proof. revert i; induction l as [|y l IH]; intros [|i] H; cbn in *; auto; try lia. now rewrite IH by lia. Qed.

Definition live h a o := nth_error h a = Some (Some o).
Lemma live_fun h a o o' : live h a o -> live h a o' -> o = o'.
Proof. unfold live. congruence. Qed.
Lemma live_lt h a o : live h a o -> a < length h.
Proof. intros H. apply nth_error_Some. unfold live in H. congruence. Qed.
Lemma load_live h a o : live h a o -> load h a = Ok o.
Proof. unfold live, load. now intros ->. Qed.
Lemma load_inv h a o : load h a = Ok o -> live h a o.
Proof. unfold load, live. destruct (nth_error h a) as [[x|]|]; intros E; try discriminate. now injection E as ->. Qed.
Lemma live_put_same h a o o' : live h a o -> live (put h a (Some o')) a o'.
Proof. intros H. unfold live. rewrite nth_put by (eapply live_lt; eauto). now rewrite Nat.eqb_refl. Qed.
Lemma live_put_other h a x b o : a < length h -> b <> a -> live (put h a x) b o <-> live h b o.
Proof. intros H N. unfold live. rewrite nth_put by auto. destruct (Nat.eqb_spec b a); [contradiction|tauto]. Qed.
Lemma not_live_none h a o : a < length h -> ~ live (put h a None) a o.
Proof. intros H L. unfold live in L. rewrite nth_put, Nat.eqb_refl in L by auto. discriminate. Qed.

(** * Counting *)
Definition cnt := count_occ Nat.eq_dec.
Definition oh (v : option nat) : list nat := match v with Some a => [a] | None => [] end.
Definition okids (fs : list (option nat)) : list nat := flat_map oh fs.
Definition contrib (x : option obj) (a : nat) : nat :=
  match x with Some o => if count o =? 0 then 0 else cnt (okids (fields o)) a | None => 0 end.
Definition refs h (a : nat) : nat := list_sum (map (fun x => contrib x a) h).

Lemma cnt_app l l' a : cnt (l ++ l') a = cnt l a + cnt l' a.
Proof. apply count_occ_app. Qed.
Lemma cnt_perm l l' a : Permutation l l' -> cnt l a = cnt l' a.
Proof. intros H. unfold cnt. now apply Permutation_count_occ. Qed.
Lemma cnt_in l a : In a l <-> 0 < cnt l a.
Proof. unfold cnt. split; intros; now apply (count_occ_In Nat.eq_dec). Qed.
Lemma cnt_cons l a b : cnt (a :: l) b = (if Nat.eq_dec a b then 1 else 0) + cnt l b.
Proof. unfold cnt. cbn. destruct (Nat.eq_dec a b); lia. Qed.

Lemma refs_cons x h b : refs (x :: h) b = contrib x b + refs h b.
Proof. reflexivity. Qed.
Lemma refs_put h a x x' b : nth_error h a = Some x -> refs (put h a x') b + contrib x b = refs h b + contrib x' b.
Proof.
  revert a. induction h as [|y h IH]; intros [|a] H; try discriminate; cbn [put nth_error] in *; rewrite ?refs_cons.
  - injection H as ->. lia.
  - specialize (IH a H). lia.
Qed.
Lemma contrib_le h a x b : nth_error h a = Some x -> contrib x b <= refs h b.
Proof.
  revert a. induction h as [|y h IH]; intros [|a] H; try discriminate; cbn [put nth_error] in *; rewrite ?refs_cons.
  - injection H as ->. lia.
  - specialize (IH a H). lia.
Qed.
Lemma refs_app h x a : refs (h ++ [x]) a = refs h a + contrib x a.
Proof. unfold refs. rewrite map_app, list_sum_app. cbn. lia. Qed.
Lemma kid_refs h b o a : live h b o -> 0 < count o -> In a (okids (fields o)) -> 0 < refs h a.
Proof.
  intros L P I. apply (Nat.lt_le_trans _ (contrib (Some o) a)); [|eapply contrib_le; eauto].
  cbn. destruct (Nat.eqb_spec (count o) 0); [lia|]. now apply cnt_in.
Qed.
Lemma okids_app l l' : okids (l ++ l') = okids l ++ okids l'.
Proof. unfold okids. apply flat_map_app. Qed.
Lemma okids_in a fs : In a (okids fs) <-> exists k, nth_error fs k = Some (Some a).
Proof.
  unfold okids. rewrite in_flat_map. split.
  - intros ([b|] & I & H); cbn in H; [|contradiction]. destruct H as [->|[]]. apply In_nth_error in I as (k & E). eauto.
  - intros (k & E). exists (Some a). split; [eapply nth_error_In; eauto|now left].
Qed.
Lemma firstn_S {A} (l : list A) k x : nth_error l k = Some x -> firstn (S k) l = firstn k l ++ [x].
Proof. revert k; induction l as [|y l IH]; intros [|k] H; try discriminate; [injection H as ->; reflexivity|]. cbn [firstn app]. f_equal. now apply IH. Qed.
Lemma okids_put fs k v w : nth_error fs k = Some v -> forall a, cnt (okids (put fs k w)) a + cnt (oh v) a = cnt (okids fs) a + cnt (oh w) a.
Proof.
  revert k. induction fs as [|x fs IH]; intros [|k] H a; try discriminate; cbn [put nth_error] in *; unfold okids in *; cbn [flat_map]; rewrite !cnt_app.
  - injection H as ->. lia.
  - specialize (IH k H a). lia.
Qed.
Lemma firstn_put {A} (l : list A) k j x : k <= j -> firstn k (put l j x) = firstn k l.
Proof. revert k j; induction l as [|y l IH]; intros [|k] [|j] H; cbn; auto; try lia. f_equal. apply IH. lia. Qed.

(** * Counts are exact; handles are to objects in memory.  [R]: the handles not in counted objects. *)
Record Inv h (R : list nat) : Prop := mkInv {
  inv_rc : forall a o, live h a o -> count o = cnt R a + refs h a;
  inv_live : forall a, 0 < cnt R a + refs h a -> exists o, live h a o }.

Lemma inv_perm h R R' : Permutation R R' -> Inv h R -> Inv h R'.
Proof. intros P [I1 I2]. split; auto; intros a; rewrite <- (cnt_perm _ _ a P); auto. Qed.
Lemma inv_root h R a : Inv h R -> In a R -> exists o, live h a o /\ 0 < count o.
Proof.
  intros I H. apply cnt_in in H. destruct (inv_live _ _ I a) as (o & L); [lia|]. exists o. split; auto. rewrite (inv_rc _ _ I _ _ L). lia.
Qed.
Lemma inv_kid h R b ob a : Inv h R -> live h b ob -> 0 < count ob -> In a (okids (fields ob)) -> exists o, live h a o /\ 0 < count o.
Proof.
  intros I L P K. pose proof (kid_refs _ _ _ _ L P K) as Q.
  destruct (inv_live _ _ I a) as (c & La); [lia|]. exists c. split; auto. rewrite (inv_rc _ _ I _ _ La). lia.
Qed.

(** Replacing an object by one with other counts and handles *)
Lemma inv_put h R R' a o o' : Inv h R -> live h a o ->
  (forall b, cnt R' b + refs (put h a (Some o')) b + (if Nat.eq_dec a b then count o else 0)
           = cnt R b + refs h b + (if Nat.eq_dec a b then count o' else 0)) ->
  Inv (put h a (Some o')) R'.
Proof.
  intros I L E. assert (Hl : a < length h) by (eapply live_lt; eauto). split.
  - intros b ob Lb. specialize (E b). destruct (Nat.eq_dec a b) as [->|Nb].
    + pose proof (live_fun _ _ _ _ Lb (live_put_same _ _ _ o' L)) as ->. pose proof (inv_rc _ _ I _ _ L). lia.
    + apply live_put_other in Lb; auto. pose proof (inv_rc _ _ I _ _ Lb). lia.
  - intros b H. specialize (E b). destruct (Nat.eq_dec a b) as [->|Nb].
    + eexists. eapply live_put_same; eauto.
    + destruct (inv_live _ _ I b) as (ob & Lb); [lia|]. exists ob. apply live_put_other; auto.
Qed.

Definition recount h a o n := put h a (Some (mkObj n (fields o))).
Lemma inv_inc h R a o : Inv h R -> live h a o -> 0 < count o -> Inv (recount h a o (S (count o))) (a :: R).
Proof.
  intros I L P. eapply inv_put; eauto. intros b. pose proof (refs_put h a _ (Some (mkObj (S (count o)) (fields o))) b L) as H.
  unfold contrib in H. cbn [count fields] in *. replace (count o =? 0) with false in H by (symmetry; apply Nat.eqb_neq; lia).
  cbn [Nat.eqb] in H. rewrite cnt_cons. destruct (Nat.eq_dec a b); lia.
Qed.
Lemma inv_drop h R a o : Inv h (a :: R) -> live h a o -> 1 < count o -> Inv (recount h a o (count o - 1)) R.
Proof.
  intros I L P. eapply inv_put; eauto. intros b. pose proof (refs_put h a _ (Some (mkObj (count o - 1) (fields o))) b L) as H.
  unfold contrib in H. cbn [count fields] in *. replace (count o =? 0) with false in H by (symmetry; apply Nat.eqb_neq; lia).
  replace (count o - 1 =? 0) with false in H by (symmetry; apply Nat.eqb_neq; lia).
  rewrite cnt_cons. destruct (Nat.eq_dec a b); lia.
Qed.
Lemma inv_last h R a o : Inv h (a :: R) -> live h a o -> count o = 1 -> Inv (recount h a o 0) (okids (fields o) ++ R).
Proof.
  intros I L P. eapply inv_put; eauto. intros b. pose proof (refs_put h a _ (Some (mkObj 0 (fields o))) b L) as H.
  unfold contrib in H. rewrite P in *. cbn [count fields Nat.eqb] in *. rewrite cnt_cons, cnt_app. destruct (Nat.eq_dec a b); lia.
Qed.
Lemma inv_delete h R a o : Inv h R -> live h a o -> count o = 0 -> Inv (put h a None) R.
Proof.
  intros I L P. assert (Hl : a < length h) by (eapply live_lt; eauto).
  assert (Er : forall b, refs (put h a None) b = refs h b).
  { intros b. pose proof (refs_put h a (Some o) None b L) as H. cbn in H. rewrite P in H. cbn in H. lia. }
  split.
  - intros b ob H. rewrite Er. apply (inv_rc _ _ I). destruct (Nat.eq_dec b a) as [->|N]; [exfalso; eapply not_live_none; eauto|].
    now apply live_put_other in H.
  - intros b H. rewrite Er in H. destruct (inv_live _ _ I b H) as (ob & Lb). exists ob. apply live_put_other; auto.
    intros ->. pose proof (inv_rc _ _ I _ _ L). lia.
Qed.
(** Changing a dead object's handles *)
Lemma inv_dead h R a o fs : Inv h R -> live h a o -> count o = 0 -> Inv (put h a (Some (mkObj (count o) fs))) R.
Proof.
  intros I L P. eapply inv_put; eauto. intros b. pose proof (refs_put h a _ (Some (mkObj (count o) fs)) b L) as H.
  unfold contrib in H. cbn [count fields] in *. rewrite P in *. cbn [Nat.eqb] in *. destruct (Nat.eq_dec a b); lia.
Qed.
(** Changing a counted object's handle *)
Lemma inv_member h R a o k v w R' : Inv h R -> live h a o -> 0 < count o -> nth_error (fields o) k = Some v ->
  (forall b, cnt R' b + cnt (oh w) b = cnt R b + cnt (oh v) b) ->
  Inv (put h a (Some (mkObj (count o) (put (fields o) k w)))) R'.
Proof.
  intros I L P N E. eapply inv_put; eauto. intros b. pose proof (refs_put h a _ (Some (mkObj (count o) (put (fields o) k w))) b L) as H.
  unfold contrib in H. cbn [count fields] in *. replace (count o =? 0) with false in H by (symmetry; apply Nat.eqb_neq; lia).
  specialize (E b). pose proof (okids_put _ _ _ w N b). destruct (Nat.eq_dec a b); lia.
Qed.
Lemma inv_new h R n : Inv h R -> Inv (h ++ [Some (mkObj 1 (repeat None n))]) (length h :: R).
Proof.
  intros I.
  assert (K : okids (repeat None n) = []) by (induction n; cbn; auto).
  assert (Er : forall a, refs (h ++ [Some (mkObj 1 (repeat None n))]) a = refs h a).
  { intros a. rewrite refs_app. unfold contrib. cbn [count fields Nat.eqb]. rewrite K. cbn. lia. }
  assert (Fresh : cnt R (length h) + refs h (length h) = 0).
  { destruct (Nat.eq_dec (cnt R (length h) + refs h (length h)) 0) as [|N]; auto.
    destruct (inv_live _ _ I (length h)) as (c & L); [lia|]. apply live_lt in L. lia. }
  split.
  - intros a o L. rewrite Er, cnt_cons. unfold live in L. destruct (Nat.lt_ge_cases a (length h)) as [H|H].
    + rewrite nth_error_app1 in L by auto. destruct (Nat.eq_dec (length h) a); [lia|]. now apply (inv_rc _ _ I).
    + rewrite nth_error_app2 in L by auto. destruct (a - length h) as [|k] eqn:E.
      * cbn in L. injection L as <-. replace a with (length h) in * by lia. cbn [count]. destruct (Nat.eq_dec (length h) (length h)); lia.
      * cbn in L. destruct k; discriminate.
  - intros a H. rewrite Er, cnt_cons in H. destruct (Nat.eq_dec (length h) a) as [<-|N].
    + eexists. unfold live. rewrite nth_error_app2 by auto. rewrite Nat.sub_diag. reflexivity.
    + destruct (inv_live _ _ I a) as (o & L); [lia|]. exists o. unfold live in *. rewrite nth_error_app1; auto. apply nth_error_Some. congruence.
Qed.

(** * decref *)
(** What is in memory afterwards was there before, with the same handles; dead objects are untouched
    (except [x], if given) *)
Definition keeps (x : option nat) h h' : Prop :=
  length h' = length h /\
  (forall a o', Some a <> x -> live h' a o' -> exists o, live h a o /\ fields o' = fields o /\ (0 < count o' <-> 0 < count o)) /\
  (forall a o, Some a <> x -> live h a o -> count o = 0 -> live h' a o).
Lemma keeps_refl x h : keeps x h h.
Proof. split; [auto|split]; auto. intros a o N L. exists o. tauto. Qed.
Lemma keeps_trans x h1 h2 h3 : keeps x h1 h2 -> keeps x h2 h3 -> keeps x h1 h3.
Proof.
  intros (L1 & K1 & Z1) (L2 & K2 & Z2). split; [lia|split].
  - intros a c N L. destruct (K2 _ _ N L) as (c2 & Lc2 & E2 & P2). destruct (K1 _ _ N Lc2) as (c1 & Lc1 & E1 & P1).
    exists c1. split; [auto|split; [congruence|tauto]].
  - intros a c N L Z. apply Z2; auto.
Qed.
Lemma keeps_weaken x h h' : keeps None h h' -> keeps x h h'.
Proof. intros (L & K & Z). split; [auto|split]; intros; [apply K|apply Z]; auto; discriminate. Qed.
Lemma keeps_put_x h a y : keeps (Some a) h (put h a y).
Proof.
  destruct (Nat.lt_ge_cases a (length h)) as [H|H].
  - split; [apply put_length|split].
    + intros b o' N L. apply live_put_other in L; [|auto|congruence]. exists o'. tauto.
    + intros b o N L Z. apply live_put_other; auto.
  - replace (put h a y) with h; [apply keeps_refl|]. symmetry. now apply put_out.
Qed.

Definition pos (x : option obj) : nat := match x with Some o => if count o =? 0 then 0 else 1 | None => 0 end.
Definition npos h : nat := list_sum (map pos h).
Lemma npos_cons x h : npos (x :: h) = pos x + npos h.
Proof. reflexivity. Qed.
Lemma npos_le h h' : length h' = length h -> (forall a x x', nth_error h' a = Some x' -> nth_error h a = Some x -> pos x' <= pos x) -> npos h' <= npos h.
Proof.
  revert h'. induction h as [|y h IH]; intros [|y' h'] L H; try discriminate; [reflexivity|]. rewrite !npos_cons.
  apply Nat.add_le_mono; [apply (H 0); reflexivity|]. apply IH; [cbn in L; lia|]. intros a x x' E E'. apply (H (S a)); auto.
Qed.
Lemma npos_put h a x x' : nth_error h a = Some x -> npos (put h a x') + pos x = npos h + pos x'.
Proof.
  revert a. induction h as [|y h IH]; intros [|a] H; try discriminate; cbn [put nth_error] in *; rewrite ?npos_cons.
  - injection H as ->. lia.
  - specialize (IH a H). lia.
Qed.
Lemma npos_length h : npos h <= length h.
Proof.
  induction h as [|[o|] h IH]; rewrite ?npos_cons; cbn [pos length]; [cbn; lia| |lia].
  destruct (count o =? 0); lia.
Qed.
Lemma npos_keeps h h' : keeps None h h' -> npos h' <= npos h.
Proof.
  intros (L & K & Z). apply npos_le; auto. intros a x x' E' E. destruct x' as [o'|]; [|cbn; lia].
  destruct (K a o') as (o & Lo & _ & P); [discriminate|exact E'|]. unfold live in Lo. rewrite E in Lo. injection Lo as ->.
  cbn. destruct (Nat.eqb_spec (count o') 0), (Nat.eqb_spec (count o) 0); lia.
Qed.

Definition members (D : heap -> nat -> outcome heap) (a : nat) := fix members (h : heap) (k : nat) : outcome heap :=
  match k with
  | O => Ok h
  | S k =>
      do v <- get_field h a k;
      do h <- match v with
              | None => Ok h
              | Some b => do h <- D h b; set_field h a k None
              end;
      members h k
  end.
Lemma members_S D a h k : members D a h (S k) =
  do v <- get_field h a k;
  do h <- match v with
          | None => Ok h
          | Some b => do h <- D h b; set_field h a k None
          end;
  members D a h k.
Proof. reflexivity. Qed.
Lemma decref_S fuel h a : decref (S fuel) h a =
  do o <- load h a;
  match count o with
  | O => Trap Assertion
  | S n =>
      let h := put h a (Some (mkObj n (fields o))) in
      if n =? 0 then
        do h <- members (decref fuel) a h (length (fields o));
        do o <- load h a;
        ab_assert (count o =? 0) ;;
        Ok (put h a None)
      else Ok h
  end.
Proof. reflexivity. Qed.

Lemma members_ok D a (N : nat) :
  (forall h b R, Inv h (b :: R) -> npos h < N -> exists h', D h b = Ok h' /\ Inv h' R /\ keeps None h h') ->
  forall k h o R, live h a o -> count o = 0 -> k <= length (fields o) -> Inv h (okids (firstn k (fields o)) ++ R) -> npos h < N ->
  exists h' o', members D a h k = Ok h' /\ Inv h' R /\ live h' a o' /\ count o' = 0 /\ keeps (Some a) h h' /\ npos h' <= npos h.
Proof.
  intros HD. induction k as [|k IH]; intros h o R L Z Le I F.
  - exists h, o. cbn [members]. conjs; auto. apply keeps_refl.
  - rewrite members_S. unfold get_field. rewrite (load_live _ _ _ L). cbn [bind].
    destruct (nth_error (fields o) k) as [v|] eqn:E; [|apply nth_error_None in E; lia]. cbn [bind].
    rewrite (firstn_S _ _ _ E), okids_app in I.
    destruct v as [b|].
    + cbn [okids flat_map oh app] in I.
      assert (I' : Inv h (b :: okids (firstn k (fields o)) ++ R)).
      { eapply inv_perm; [|exact I]. rewrite <- app_assoc. cbn [app]. apply Permutation_sym, Permutation_middle. }
      destruct (HD _ _ _ I' F) as (h1 & E1 & I1 & K1). rewrite E1. cbn [bind].
      assert (L1 : live h1 a o) by (apply K1; auto; discriminate).
      unfold set_field. rewrite (load_live _ _ _ L1). cbn [bind]. destruct (Nat.ltb_spec k (length (fields o))); [|lia]. cbn [bind].
      set (o2 := mkObj (count o) (put (fields o) k None)). set (h2 := put h1 a (Some o2)).
      assert (L2 : live h2 a o2) by (eapply live_put_same; eauto).
      assert (P2 : npos h2 <= npos h1).
      { pose proof (npos_put h1 a _ (Some o2) L1) as Q. cbn [pos] in Q. unfold o2 in Q. cbn [count] in Q. fold o2 h2 in Q. lia. }
      pose proof (npos_keeps _ _ K1).
      destruct (IH h2 o2 R) as (h' & o' & E' & J & L' & Z' & K' & P'); auto.
      { unfold o2. cbn [fields]. rewrite put_length. lia. }
      { unfold o2, h2. cbn [fields]. rewrite firstn_put by lia. apply inv_dead; auto. }
      { lia. }
      exists h', o'. conjs; auto; [|lia]. eapply keeps_trans; [apply keeps_weaken; exact K1|]. eapply keeps_trans; [apply keeps_put_x|exact K'].
    + cbn [okids flat_map oh app] in I. rewrite app_nil_r in I. cbn [bind]. destruct (IH h o R) as (h' & o' & E' & J & L' & Z' & K' & P'); auto; try lia.
      exists h', o'. conjs; auto.
Qed.

Lemma decref_ok : forall fuel h a R, Inv h (a :: R) -> npos h < fuel ->
  exists h', decref fuel h a = Ok h' /\ Inv h' R /\ keeps None h h'.
Proof.
  induction fuel as [|fuel IH]; intros h a R I F; [lia|]. destruct (inv_root _ _ a I) as (o & L & P); [now left|].
  assert (Hl : a < length h) by (eapply live_lt; eauto).
  rewrite decref_S, (load_live _ _ _ L). cbn [bind]. destruct (count o) as [|n] eqn:C; [lia|]. cbn zeta.
  destruct (Nat.eqb_spec n 0) as [->|Nz].
  - fold (recount h a o 0). set (h1 := recount h a o 0).
    assert (I1 : Inv h1 (okids (fields o) ++ R)) by (apply inv_last; auto).
    assert (L1 : live h1 a (mkObj 0 (fields o))) by (eapply live_put_same; eauto).
    assert (P1 : npos h1 < npos h).
    { pose proof (npos_put h a _ (Some (mkObj 0 (fields o))) L) as Q. cbn [pos count] in Q. rewrite C in Q. cbn [Nat.eqb] in Q. unfold h1, recount. lia. }
    destruct (members_ok (decref fuel) a fuel IH (length (fields o)) h1 _ R L1 eq_refl) as (h2 & o2 & E2 & I2 & L2 & Z2 & K2 & P2).
    { cbn [fields]. lia. }
    { cbn [fields]. now rewrite firstn_all. }
    { lia. }
    rewrite E2. cbn [bind]. rewrite (load_live _ _ _ L2). cbn [bind]. rewrite Z2. cbn [Nat.eqb ab_assert bind].
    exists (put h2 a None). conjs; auto; [eapply inv_delete; eauto|]. assert (Hl2 : a < length h2) by (eapply live_lt; eauto).
    destruct K2 as (Le & K & Z). split; [rewrite put_length, Le; apply put_length|split].
    + intros b ob _ Lb. destruct (Nat.eq_dec b a) as [->|Nb]; [exfalso; eapply not_live_none; eauto|].
      apply live_put_other in Lb; auto. destruct (K b ob) as (ob1 & Lb1 & Ef & Pp); [congruence|auto|].
      apply live_put_other in Lb1; auto. eauto.
    + intros b ob _ Lb Zb. assert (b <> a) by (intros ->; pose proof (live_fun _ _ _ _ L Lb) as ->; lia).
      apply live_put_other; auto. apply Z; auto; [congruence|]. apply live_put_other; auto.
  - exists (recount h a o n). conjs; auto.
    + replace n with (count o - 1) by lia. apply inv_drop; auto. lia.
    + split; [apply put_length|split].
      * intros b ob _ Lb. destruct (Nat.eq_dec b a) as [->|Nb].
        -- pose proof (live_fun _ _ _ _ Lb (live_put_same _ _ _ (mkObj n (fields o)) L)) as ->. exists o. cbn [fields count]. conjs; auto; lia.
        -- apply live_put_other in Lb; auto. exists ob. tauto.
      * intros b ob _ Lb Zb. apply live_put_other; auto. intros ->. pose proof (live_fun _ _ _ _ L Lb) as ->. lia.
Qed.
Lemma xdecref_ok h v R : Inv h (oh v ++ R) -> exists h', xdecref h v = Ok h' /\ Inv h' R /\ keeps None h h'.
Proof.
  intros I. destruct v as [a|]; cbn [xdecref oh app] in *; [|exists h; conjs; auto; apply keeps_refl].
  apply decref_ok; auto. pose proof (npos_length h). lia.
Qed.

(** * A handle of an object that stays is not looked at *)
Definition setf h (c k : nat) (v : option nat) : heap :=
  match nth_error h c with
  | Some (Some o) => put h c (Some (mkObj (count o) (put (fields o) k v)))
  | _ => h
  end.
Lemma setf_other h c k v a : a <> c -> nth_error (setf h c k v) a = nth_error h a.
Proof.
  intros N. unfold setf. destruct (nth_error h c) as [[o|]|] eqn:E; auto. rewrite nth_put by (apply nth_error_Some; congruence).
  destruct (Nat.eqb_spec a c); [contradiction|auto].
Qed.
Lemma setf_load_other h c k v a : a <> c -> load (setf h c k v) a = load h a.
Proof. intros N. unfold load. now rewrite setf_other. Qed.
Lemma setf_put_other h c k v a x : a <> c -> setf (put h a x) c k v = put (setf h c k v) a x.
Proof.
  intros N. unfold setf. assert (E : nth_error (put h a x) c = nth_error h c).
  { destruct (Nat.lt_ge_cases a (length h)) as [H|H].
    - rewrite nth_put by auto. destruct (Nat.eqb_spec c a); [congruence|auto].
    - now rewrite put_out. }
  rewrite E. destruct (nth_error h c) as [[o|]|]; auto. now apply put_comm.
Qed.
Lemma setf_live h c k v o : live h c o -> setf h c k v = put h c (Some (mkObj (count o) (put (fields o) k v))).
Proof. unfold live, setf. now intros ->. Qed.

(** Freed objects stay freed *)
Lemma set_field_back h a k v h' : set_field h a k v = Ok h' -> forall c o, live h' c o -> exists o0, live h c o0.
Proof.
  unfold set_field. destruct (load h a) as [o| | | |] eqn:E; try discriminate. cbn [bind]. apply load_inv in E.
  destruct (k <? length (fields o)); [|discriminate]. intros E'. injection E' as <-. intros c oc L.
  destruct (Nat.eq_dec c a) as [->|N]; [eauto|]. apply live_put_other in L; eauto using live_lt.
Qed.
Lemma members_back D a : (forall h b h', D h b = Ok h' -> forall c o, live h' c o -> exists o0, live h c o0) ->
  forall k h h', members D a h k = Ok h' -> forall c o, live h' c o -> exists o0, live h c o0.
Proof.
  intros HD. induction k as [|k IH]; intros h h' E c o L; [injection E as <-; eauto|]. rewrite members_S in E.
  destruct (get_field h a k) as [v| | | |]; try discriminate. cbn [bind] in E. destruct v as [b|]; cbn [bind] in E.
  - destruct (D h b) as [h1| | | |] eqn:E1; try discriminate. cbn [bind] in E. destruct (set_field h1 a k None) as [h2| | | |] eqn:E2; try discriminate. cbn [bind] in E.
    destruct (IH _ _ E _ _ L) as (o2 & L2). destruct (set_field_back _ _ _ _ _ E2 _ _ L2) as (o1 & L1). eapply HD; eauto.
  - eapply IH; eauto.
Qed.
Lemma decref_back : forall fuel h a h', decref fuel h a = Ok h' -> forall c o, live h' c o -> exists o0, live h c o0.
Proof.
  induction fuel as [|fuel IH]; intros h a h' E c o L; [discriminate|]. rewrite decref_S in E.
  destruct (load h a) as [oa| | | |] eqn:El; try discriminate. cbn [bind] in E. apply load_inv in El. destruct (count oa) as [|n]; [discriminate|]. cbn zeta in E.
  assert (Bk : forall o1, live (put h a (Some (mkObj n (fields oa)))) c o1 -> exists o0, live h c o0).
  { intros o1 L1. destruct (Nat.eq_dec c a) as [->|N]; [eauto|]. apply live_put_other in L1; eauto using live_lt. }
  destruct (n =? 0).
  - destruct (members (decref fuel) a _ _) as [h2| | | |] eqn:E2; try discriminate. cbn [bind] in E.
    destruct (load h2 a) as [o2| | | |] eqn:E3; try discriminate. cbn [bind] in E. apply load_inv in E3.
    destruct (count o2 =? 0); [|discriminate]. cbn [ab_assert bind] in E. injection E as <-.
    destruct (Nat.eq_dec c a) as [->|N]; [eauto|]. apply live_put_other in L; eauto using live_lt.
    destruct (members_back _ _ IH _ _ _ E2 _ _ L) as (o1 & L1). eauto.
  - injection E as <-. eauto.
Qed.

Lemma members_frame D a c k v : a <> c -> (forall h b h', D h b = Ok h' -> forall x o, live h' x o -> exists o0, live h x o0) ->
  (forall h b h' o, D h b = Ok h' -> live h' c o -> D (setf h c k v) b = Ok (setf h' c k v)) ->
  forall n h h' o, members D a h n = Ok h' -> live h' c o -> members D a (setf h c k v) n = Ok (setf h' c k v).
Proof.
  intros Nac HB HF. induction n as [|n IH]; intros h h' o E L; [now injection E as <-|]. rewrite members_S in *.
  unfold get_field in *. rewrite setf_load_other by auto. destruct (load h a) as [oa| | | |] eqn:Ea; try discriminate. cbn [bind] in *.
  destruct (nth_error (fields oa) n) as [w|]; [|discriminate]. cbn [bind] in *. destruct w as [b|]; cbn [bind] in *; [|eapply IH; eauto].
  destruct (D h b) as [h1| | | |] eqn:E1; try discriminate. cbn [bind] in E. destruct (set_field h1 a n None) as [h2| | | |] eqn:E2; try discriminate. cbn [bind] in E.
  destruct (members_back _ _ HB _ _ _ E _ _ L) as (o2 & L2). destruct (set_field_back _ _ _ _ _ E2 _ _ L2) as (o1 & L1).
  rewrite (HF _ _ _ _ E1 L1). cbn [bind].
  assert (E2' : set_field (setf h1 c k v) a n None = Ok (setf h2 c k v)).
  { unfold set_field in *. rewrite setf_load_other by auto. destruct (load h1 a) as [ob| | | |]; try discriminate. cbn [bind] in *.
    destruct (n <? length (fields ob)); [|discriminate]. injection E2 as <-. now rewrite setf_put_other. }
  rewrite E2'. cbn [bind]. eapply IH; eauto.
Qed.
Lemma decref_frame c k v : forall fuel h a h' o, decref fuel h a = Ok h' -> live h' c o -> decref fuel (setf h c k v) a = Ok (setf h' c k v).
Proof.
  induction fuel as [|fuel IH]; intros h a h' o E L; [discriminate|]. destruct (decref_back _ _ _ _ E _ _ L) as (oc & Lc). rewrite decref_S in *.
  destruct (load h a) as [oa| | | |] eqn:El; try discriminate. cbn [bind] in E. apply load_inv in El.
  destruct (Nat.eq_dec a c) as [->|N].
  - pose proof (live_fun _ _ _ _ El Lc) as ->. rewrite (setf_live _ _ _ _ _ Lc).
    rewrite (load_live _ _ _ (live_put_same _ _ _ _ Lc)). cbn [bind count fields]. destruct (count oc) as [|n]; [discriminate|]. cbn zeta in *.
    destruct (n =? 0).
    + exfalso. destruct (members (decref fuel) c _ _) as [h2| | | |]; try discriminate. cbn [bind] in E.
      destruct (load h2 c) as [o2| | | |] eqn:E3; try discriminate. cbn [bind] in E. apply load_inv in E3.
      destruct (count o2 =? 0); [|discriminate]. cbn [ab_assert bind] in E. injection E as <-. apply (not_live_none h2 c o); [eapply live_lt; eauto|exact L].
    + injection E as <-. rewrite put_put. rewrite (setf_live _ _ _ _ _ (live_put_same _ _ _ _ Lc)). now rewrite put_put.
  - rewrite setf_load_other by auto. rewrite (load_live _ _ _ El). cbn [bind]. destruct (count oa) as [|n]; [discriminate|]. cbn zeta in *.
    rewrite <- setf_put_other by auto. destruct (n =? 0); [|now injection E as <-].
    destruct (members (decref fuel) a _ _) as [h2| | | |] eqn:E2; try discriminate. cbn [bind] in E.
    destruct (load h2 a) as [o2| | | |] eqn:E3; try discriminate. cbn [bind] in E.
    destruct (count o2 =? 0) eqn:Z; [|discriminate]. cbn [ab_assert bind] in E. injection E as <-.
    assert (L2 : live h2 c o) by (apply load_inv in E3; apply live_put_other in L; eauto using live_lt).
    rewrite (members_frame (decref fuel) a c k v N (decref_back fuel) IH _ _ _ _ E2 L2). cbn [bind].
    rewrite setf_load_other by auto. rewrite E3. cbn [bind]. rewrite Z. cbn [ab_assert bind]. now rewrite setf_put_other.
Qed.
Lemma setf_length h c k v : length (setf h c k v) = length h.
Proof. unfold setf. destruct (nth_error h c) as [[o|]|]; auto. apply put_length. Qed.
Lemma xdecref_frame c k v h w h' o : xdecref h w = Ok h' -> live h' c o -> xdecref (setf h c k v) w = Ok (setf h' c k v).
Proof. destruct w as [a|]; cbn [xdecref]; [|intros E; now injection E as <-]. rewrite setf_length. apply decref_frame. Qed.
