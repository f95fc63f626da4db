From Coq Require Import List Arith Bool Lia.
From Verif Require Import Outcome MaybeModel MaybeSpec.
Import ListNotations.
Local Open Scope nat_scope.

Lemma put_length {A} (l : list A) i x : length (put l i x) = length l.
Proof. revert i. induction l; intros [|i]; cbn; auto. Qed.
Lemma put_same {A} (l : list A) i x : i < length l -> nth_error (put l i x) i = Some x.
Proof. revert i. induction l; intros [|i] H; cbn in *; try lia; auto. apply IHl. lia. Qed.
Lemma put_other {A} (l : list A) i j x : i <> j -> nth_error (put l i x) j = nth_error l j.
Proof. revert i j. induction l; intros [|i] [|j] H; cbn; auto; try congruence. Qed.
Lemma nth_lt {A} (l : list A) i x : nth_error l i = Some x -> i < length l.
Proof. intros H. apply nth_error_Some. congruence. Qed.
Lemma nth_app_old {A} (l : list A) y i x : nth_error l i = Some x -> nth_error (l ++ [y]) i = Some x.
Proof. intros H. rewrite nth_error_app1; auto. eapply nth_lt; eauto. Qed.
Lemma nth_app_inv {A} (l : list A) y i x : nth_error (l ++ [y]) i = Some x -> (nth_error l i = Some x /\ i < length l) \/ (i = length l /\ x = y).
Proof.
  intros H. destruct (Nat.lt_ge_cases i (length l)) as [L|G].
  - rewrite nth_error_app1 in H by exact L. auto.
  - pose proof (nth_lt _ _ _ H) as L. rewrite app_length in L. cbn in L. assert (i = length l) as -> by lia.
    rewrite nth_error_app2, Nat.sub_diag in H by lia. injection H as <-. auto.
Qed.
Lemma put_inv {A} (l : list A) i j x y : nth_error (put l i x) j = Some y -> (i = j /\ y = x /\ i < length l) \/ (i <> j /\ nth_error l j = Some y).
Proof.
  intros H. destruct (Nat.eq_dec i j) as [->|N].
  - left. pose proof (nth_lt _ _ _ H) as L. rewrite put_length in L. rewrite put_same in H by exact L. injection H as <-. auto.
  - right. rewrite put_other in H by exact N. auto.
Qed.

Section P.
Variable T : Type.
Variable moved : T -> T.
Notation state := (state T).
Notation world := (world T).

(** what variable contents stand for *)
Definition stands (s : state) (m : option storage) (x : option (option T)) : Prop :=
  match m, x with
  | None, None => True
  | Some None, Some None => True
  | Some (Some k), Some (Some v) => nth_error (objs T s) k = Some (Some v)
  | _, _ => False
  end.
Definition owns (s : state) (i k : nat) : Prop := nth_error (vars T s) i = Some (Some (Some k)).
Definition live (s : state) (k : nat) : Prop := exists v, nth_error (objs T s) k = Some (Some v).

(** [ex] are the temporaries *)
Record R (s : state) (w : world) (ex : list nat) : Prop := mkR {
  R_len : length (vars T s) = length w;
  R_vars : forall i m x, nth_error (vars T s) i = Some m -> nth_error w i = Some x -> stands s m x;
  R_inj : forall i j k, owns s i k -> owns s j k -> i = j;
  R_live : forall k, live s k -> In k ex \/ exists i, owns s i k;
  R_ex : forall k, In k ex -> live s k /\ forall i, ~ owns s i k;
  R_nodup : NoDup ex }.

Lemma R_empty : R (empty_state T) [] [].
Proof.
  constructor; unfold owns, live; cbn [empty_state vars objs length].
  - reflexivity.
  - intros i m x H. destruct i; discriminate.
  - intros i j k H. destruct i; discriminate.
  - intros k (v & H). destruct k; discriminate.
  - intros k [].
  - constructor.
Qed.

Lemma R_holds s w ex i x : R s w ex -> holds T w i x ->
  exists m, get_var T s i = Ok m /\ nth_error (vars T s) i = Some (Some m) /\ stands s (Some m) (Some x).
Proof.
  intros H Hx. unfold holds in Hx. pose proof (nth_lt _ _ _ Hx) as L. rewrite <- (R_len _ _ _ H) in L.
  destruct (nth_error (vars T s) i) as [m|] eqn:E; [|apply nth_error_None in E; lia].
  pose proof (R_vars _ _ _ H _ _ _ E Hx) as S. destruct m as [m|]; [|destruct S].
  exists m. unfold get_var. rewrite E. auto.
Qed.
Lemma value_live s k v : nth_error (objs T s) k = Some (Some v) -> value_of T s k = Ok v.
Proof. intros H. unfold value_of. rewrite H. reflexivity. Qed.

Lemma R_construct s w ex v : R s w ex -> R (fst (construct T s v)) w (length (objs T s) :: ex).
Proof.
  intros H. unfold construct. cbn [fst].
  assert (Own : forall i k, owns s i k -> k < length (objs T s)).
  { intros i k O. unfold owns in O. pose proof (nth_lt _ _ _ O) as L. rewrite (R_len _ _ _ H) in L.
    destruct (nth_error w i) as [x|] eqn:E; [|apply nth_error_None in E; lia].
    pose proof (R_vars _ _ _ H _ _ _ O E) as S. destruct x as [[v'|]|]; cbn in S; try contradiction. eapply nth_lt; eauto. }
  constructor; cbn [vars objs].
  - apply (R_len _ _ _ H).
  - intros i m x Hm Hx. pose proof (R_vars _ _ _ H _ _ _ Hm Hx) as S.
    destruct m as [[k|]|], x as [[v'|]|]; cbn in *; auto. apply nth_app_old. exact S.
  - intros i j k. exact (R_inj _ _ _ H i j k).
  - intros k (v' & Hk). cbn in Hk. apply nth_app_inv in Hk as [[Hk _]|[-> _]]; [|left; left; reflexivity].
    destruct (R_live _ _ _ H k) as [I|I]; [exists v'; exact Hk|left; right; exact I|right; exact I].
  - intros k [<-|I].
    + split; [exists v; cbn; rewrite nth_error_app2, Nat.sub_diag by lia; reflexivity|].
      intros i O. specialize (Own _ _ O). lia.
    + destruct (R_ex _ _ _ H k I) as [(v' & L) N]. split; [exists v'; cbn; apply nth_app_old; exact L|exact N].
  - constructor; [|apply (R_nodup _ _ _ H)]. intros I. destruct (R_ex _ _ _ H _ I) as [(v' & L) _]. apply nth_lt in L. lia.
Qed.

Lemma R_destroy s w k ex : R s w (k :: ex) ->
  destroy T s k = Ok (mkState T (put (objs T s) k None) (vars T s)) /\
  R (mkState T (put (objs T s) k None) (vars T s)) w ex.
Proof.
  intros H. destruct (R_ex _ _ _ H k (or_introl eq_refl)) as [(v & L) N].
  split; [unfold destroy; rewrite L; reflexivity|].
  pose proof (R_nodup _ _ _ H) as D. inversion D as [|? ? Hnin Hd]; subst.
  constructor; cbn [vars objs].
  - apply (R_len _ _ _ H).
  - intros i m x Hm Hx. pose proof (R_vars _ _ _ H _ _ _ Hm Hx) as S.
    destruct m as [[k'|]|], x as [[v'|]|]; cbn in *; auto. rewrite put_other; [exact S|]. intros <-. apply (N i). exact Hm.
  - intros i j k'. exact (R_inj _ _ _ H i j k').
  - intros k' (v' & Hk). cbn in Hk. apply put_inv in Hk as [(_ & E & _)|[Hne Hk]]; [discriminate|].
    destruct (R_live _ _ _ H k') as [[E|I]|I]; [exists v'; exact Hk|contradiction|left; exact I|right; exact I].
  - intros k' I. destruct (R_ex _ _ _ H k' (or_intror I)) as [(v' & L') N']. split; [|exact N'].
    exists v'. cbn. rewrite put_other; [exact L'|]. intros <-. contradiction.
  - exact Hd.
Qed.

(** a temporary becomes the contents of a variable that holds nothing, or is new *)
Lemma R_adopt s w k ex i v x : R s w (k :: ex) -> nth_error (objs T s) k = Some (Some v) ->
  nth_error w i = Some x -> (x = None \/ x = Some None) ->
  R (set_var T s i (Some (Some k))) (put w i (Some (Some v))) ex.
Proof.
  intros H Hv Hx Hn. pose proof (R_nodup _ _ _ H) as D. inversion D as [|? ? Hnin Hd]; subst.
  destruct (R_ex _ _ _ H k (or_introl eq_refl)) as [L N].
  assert (Hi : i < length (vars T s)) by (rewrite (R_len _ _ _ H); eapply nth_lt; eauto).
  constructor; unfold set_var, owns in *; cbn [vars objs] in *.
  - rewrite !put_length. apply (R_len _ _ _ H).
  - intros j m y Hm Hy. apply put_inv in Hm as [(-> & -> & _)|[Hne Hm]].
    + rewrite put_same in Hy by (eapply nth_lt; eauto). injection Hy as <-. cbn. exact Hv.
    + rewrite put_other in Hy by exact Hne. pose proof (R_vars _ _ _ H _ _ _ Hm Hy) as S. exact S.
  - intros a b k' Ha Hb. apply put_inv in Ha as [(-> & Ea & _)|[Hna Ha]]; apply put_inv in Hb as [(-> & Eb & _)|[Hnb Hb]].
    + reflexivity.
    + injection Ea as <-. exfalso. eapply N; eauto.
    + injection Eb as <-. exfalso. eapply N; eauto.
    + eapply (R_inj _ _ _ H); eauto.
  - intros k' Lk. destruct (R_live _ _ _ H k' Lk) as [[<-|I]|(j & O)].
    + right. exists i. apply put_same. exact Hi.
    + left. exact I.
    + right. exists j. rewrite put_other; [exact O|]. intros ->.
      pose proof (R_vars _ _ _ H _ _ _ O Hx) as S. destruct Hn as [-> | ->]; destruct S.
  - intros k' I. destruct (R_ex _ _ _ H k' (or_intror I)) as [Lk N']. split; [exact Lk|].
    intros j O. apply put_inv in O as [(_ & E & _)|[_ O]]; [|eapply N'; eauto]. injection E as ->. contradiction.
  - exact Hd.
Qed.
(** the contents of a variable become a temporary *)
Lemma R_disown s w ex i k v (y : option storage) (z : option (option T)) : R s w ex -> owns s i k -> nth_error w i = Some (Some (Some v)) ->
  stands s y z -> (y = None \/ y = Some None) ->
  R (set_var T s i y) (put w i z) (k :: ex).
Proof.
  intros H O Hw Hst Hy. pose proof (R_vars _ _ _ H _ _ _ O Hw) as Sv.
  assert (Hi : i < length (vars T s)) by (eapply nth_lt; eauto).
  assert (Hni : ~ In k ex) by (intros I; destruct (R_ex _ _ _ H k I) as [_ N]; eapply N; eauto).
  constructor; unfold set_var, owns in *; cbn [vars objs] in *.
  - rewrite !put_length. apply (R_len _ _ _ H).
  - intros j m x Hm Hx. apply put_inv in Hm as [(-> & -> & _)|[Hne Hm]].
    + rewrite put_same in Hx by (eapply nth_lt; eauto). injection Hx as <-. exact Hst.
    + rewrite put_other in Hx by exact Hne. exact (R_vars _ _ _ H _ _ _ Hm Hx).
  - intros a b k' Ha Hb. apply put_inv in Ha as [(-> & Ea & _)|[Hna Ha]]; [destruct Hy; congruence|].
    apply put_inv in Hb as [(-> & Eb & _)|[Hnb Hb]]; [destruct Hy; congruence|]. eapply (R_inj _ _ _ H); eauto.
  - intros k' Lk. destruct (R_live _ _ _ H k' Lk) as [I|(j & Oj)]; [left; right; exact I|].
    destruct (Nat.eq_dec i j) as [->|N]; [left; left; congruence|]. right. exists j. rewrite put_other; auto.
  - intros k' [<-|I].
    + split; [exists v; exact Sv|]. intros j Oj. apply put_inv in Oj as [(-> & E & _)|[N Oj]]; [destruct Hy; congruence|].
      apply N. eapply (R_inj _ _ _ H); eauto.
    + destruct (R_ex _ _ _ H k' I) as [L N]. split; [exact L|]. intros j Oj. apply put_inv in Oj as [(-> & E & _)|[_ Oj]]; [destruct Hy; congruence|].
      eapply N; eauto.
  - constructor; [exact Hni|apply (R_nodup _ _ _ H)].
Qed.

(** moving from the value of a variable, or from a temporary *)
Lemma R_put_obj s w w' ex k v v' : R s w ex -> nth_error (objs T s) k = Some (Some v) ->
  length w' = length w ->
  (forall i x, ~ owns s i k -> nth_error w' i = Some x -> nth_error w i = Some x) ->
  (forall i x, owns s i k -> nth_error w' i = Some x -> x = Some (Some v')) ->
  R (mkState T (put (objs T s) k (Some v')) (vars T s)) w' ex.
Proof.
  intros H Hk Hlen Hout Hin. pose proof (nth_lt _ _ _ Hk) as Lk.
  constructor; unfold owns in *; cbn [vars objs] in *.
  - rewrite Hlen. apply (R_len _ _ _ H).
  - intros i m x Hm Hx. destruct m as [[k'|]|].
    + destruct (Nat.eq_dec k' k) as [->|N].
      * rewrite (Hin i x Hm Hx). cbn. apply put_same. exact Lk.
      * assert (Hw : nth_error w i = Some x) by (apply Hout; [congruence|exact Hx]).
        pose proof (R_vars _ _ _ H _ _ _ Hm Hw) as S. destruct x as [[u|]|]; cbn in *; auto. rewrite put_other; auto.
    + assert (Hw : nth_error w i = Some x) by (apply Hout; [congruence|exact Hx]).
      pose proof (R_vars _ _ _ H _ _ _ Hm Hw) as S. destruct x as [[u|]|]; exact S.
    + assert (Hw : nth_error w i = Some x) by (apply Hout; [congruence|exact Hx]).
      pose proof (R_vars _ _ _ H _ _ _ Hm Hw) as S. destruct x as [[u|]|]; exact S.
  - exact (R_inj _ _ _ H).
  - intros k' (u & Hu). cbn in Hu. apply (R_live _ _ _ H). apply put_inv in Hu as [(-> & _ & _)|[_ Hu]]; [exists v; exact Hk|exists u; exact Hu].
  - intros k' I. destruct (R_ex _ _ _ H k' I) as [(u & Hu) N]. split; [|exact N].
    destruct (Nat.eq_dec k k') as [->|Ne]; [exists v'; cbn; apply put_same; exact Lk|exists u; cbn; rewrite put_other; auto].
  - apply (R_nodup _ _ _ H).
Qed.

(** a new variable *)
Lemma R_new_scope s w ex : R s w ex -> R (mkState T (objs T s) (vars T s ++ [None])) (w ++ [None]) ex.
Proof.
  intros H. constructor; unfold owns in *; cbn [vars objs] in *.
  - rewrite !app_length, (R_len _ _ _ H). reflexivity.
  - intros i m x Hm Hx. apply nth_app_inv in Hm as [[Hm L]|[-> ->]].
    + rewrite (R_len _ _ _ H) in L. rewrite nth_error_app1 in Hx by exact L. exact (R_vars _ _ _ H _ _ _ Hm Hx).
    + rewrite (R_len _ _ _ H), nth_error_app2, Nat.sub_diag in Hx by lia. injection Hx as <-. exact I.
  - intros i j k Hi Hj. apply nth_app_inv in Hi as [[Hi _]|[_ E]]; [|discriminate].
    apply nth_app_inv in Hj as [[Hj _]|[_ E]]; [|discriminate]. exact (R_inj _ _ _ H _ _ _ Hi Hj).
  - intros k L. destruct (R_live _ _ _ H k L) as [I|(i & O)]; [auto|]. right. exists i. apply nth_app_old. exact O.
  - intros k I. destruct (R_ex _ _ _ H k I) as [L N]. split; [exact L|]. intros i O.
    apply nth_app_inv in O as [[O _]|[_ E]]; [|discriminate]. eapply N; eauto.
  - apply (R_nodup _ _ _ H).
Qed.
Lemma put_snoc {A} (l : list A) x y : put (l ++ [x]) (length l) y = l ++ [y].
Proof. induction l; cbn; congruence. Qed.
Lemma R_set_nothing_new s w ex i x : R s w ex -> nth_error w i = Some None -> (x = None \/ x = Some None) ->
  R (set_var T s i x) (put w i (match x with None => None | Some _ => Some None end)) ex.
Proof.
  intros H Hw Hx.
  assert (Hi : i < length (vars T s)) by (rewrite (R_len _ _ _ H); eapply nth_lt; eauto).
  constructor; unfold set_var, owns in *; cbn [vars objs] in *.
  - rewrite !put_length. apply (R_len _ _ _ H).
  - intros j m y Hm Hy. apply put_inv in Hm as [(-> & -> & _)|[Hne Hm]].
    + rewrite put_same in Hy by (eapply nth_lt; eauto). injection Hy as <-. destruct Hx as [-> | ->]; exact I.
    + rewrite put_other in Hy by exact Hne. exact (R_vars _ _ _ H _ _ _ Hm Hy).
  - intros a b k' Ha Hb. apply put_inv in Ha as [(-> & Ea & _)|[Hna Ha]]; [destruct Hx; congruence|].
    apply put_inv in Hb as [(-> & Eb & _)|[Hnb Hb]]; [destruct Hx; congruence|]. eapply (R_inj _ _ _ H); eauto.
  - intros k' Lk. destruct (R_live _ _ _ H k' Lk) as [I|(j & O)]; [auto|]. right. exists j. rewrite put_other; [exact O|].
    intros ->. pose proof (R_vars _ _ _ H _ _ _ O Hw) as S. exact S.
  - intros k' I. destruct (R_ex _ _ _ H k' I) as [L N]. split; [exact L|]. intros j O.
    apply put_inv in O as [(-> & E & _)|[_ O]]; [destruct Hx; congruence|]. eapply N; eauto.
  - apply (R_nodup _ _ _ H).
Qed.

Lemma declare_value s w k ex i v : R s w (k :: ex) -> nth_error (objs T s) k = Some (Some v) -> may_declare T w i ->
  exists s', declare T s i (Some k) = Ok s' /\ R s' (declared T w i (Some v)) ex.
Proof.
  intros H Hv Hd. unfold declare, declared. rewrite (R_len _ _ _ H). destruct (Nat.eqb_spec i (length w)) as [->|N].
  - eexists. split; [reflexivity|]. pose proof (R_len _ _ _ H) as L. apply R_new_scope in H.
    pose proof (R_adopt _ _ _ _ (length w) v None H Hv) as A. unfold set_var in A. cbn [vars objs] in A.
    rewrite nth_error_app2, Nat.sub_diag in A by lia. specialize (A eq_refl (or_introl eq_refl)).
    rewrite put_snoc in A. rewrite <- L in A. rewrite put_snoc in A. exact A.
  - destruct Hd as [E|Hw]; [contradiction|].
    assert (Hs : nth_error (vars T s) i = Some None).
    { pose proof (nth_lt _ _ _ Hw) as L. rewrite <- (R_len _ _ _ H) in L.
      destruct (nth_error (vars T s) i) as [m|] eqn:E; [|apply nth_error_None in E; lia].
      pose proof (R_vars _ _ _ H _ _ _ E Hw) as S. destruct m as [[]|]; destruct S; reflexivity. }
    rewrite Hs. eexists. split; [reflexivity|]. eapply R_adopt; eauto.
Qed.
Lemma declare_nothing s w ex i : R s w ex -> may_declare T w i ->
  exists s', declare T s i None = Ok s' /\ R s' (declared T w i None) ex.
Proof.
  intros H Hd. unfold declare, declared. rewrite (R_len _ _ _ H). destruct (Nat.eqb_spec i (length w)) as [->|N].
  - eexists. split; [reflexivity|]. pose proof (R_len _ _ _ H) as L. apply R_new_scope in H.
    pose proof (R_set_nothing_new _ _ _ (length w) (Some None) H) as A. unfold set_var in A. cbn [vars objs] in A.
    rewrite nth_error_app2, Nat.sub_diag in A by lia. specialize (A eq_refl (or_intror eq_refl)).
    rewrite put_snoc in A. rewrite <- L in A. rewrite put_snoc in A. exact A.
  - destruct Hd as [E|Hw]; [contradiction|].
    assert (Hs : nth_error (vars T s) i = Some None).
    { pose proof (nth_lt _ _ _ Hw) as L. rewrite <- (R_len _ _ _ H) in L.
      destruct (nth_error (vars T s) i) as [m|] eqn:E; [|apply nth_error_None in E; lia].
      pose proof (R_vars _ _ _ H _ _ _ E Hw) as S. destruct m as [[]|]; destruct S; reflexivity. }
    rewrite Hs. eexists. split; [reflexivity|]. exact (R_set_nothing_new _ _ _ i (Some None) H Hw (or_intror eq_refl)).
Qed.

Lemma destroy_then s w ex i k v y z : R s w ex -> owns s i k -> nth_error w i = Some (Some (Some v)) ->
  (stands s y z /\ (y = None \/ y = Some None)) ->
  exists s', destroy T s k = Ok s' /\ R (set_var T s' i y) (put w i z) ex /\
    (forall k', k' <> k -> nth_error (objs T s') k' = nth_error (objs T s) k') /\ vars T s' = vars T s.
Proof.
  intros H O Hw [Hs Hy]. pose proof (R_disown _ _ _ _ _ _ y z H O Hw Hs Hy) as D.
  apply R_destroy in D as [_ D]. unfold set_var in D. cbn [vars objs] in D.
  pose proof (R_vars _ _ _ H _ _ _ O Hw) as S. cbn in S.
  eexists. split; [unfold destroy; rewrite S; reflexivity|]. split; [exact D|]. cbn. split; [|reflexivity].
  intros k' N. apply put_other. congruence.
Qed.

Lemma set_nothing_ok s w ex i x : R s w ex -> holds T w i x ->
  exists s', set_nothing T s i = Ok s' /\ R s' (assigned T w i None) ex /\
    (forall k, (~ owns s i k) -> nth_error (objs T s') k = nth_error (objs T s) k) /\
    (forall j, j <> i -> nth_error (vars T s') j = nth_error (vars T s) j).
Proof.
  intros H Hx. destruct (R_holds _ _ _ _ _ H Hx) as (m & G & Hm & S). unfold set_nothing. rewrite G. cbn [bind].
  destruct m as [k|]; destruct x as [v|]; cbn in S; try contradiction.
  - destruct (destroy_then _ _ _ i k v (Some None) (Some None) H Hm Hx) as (s' & E & R' & Hk & Hv); [split; [exact I|auto]|].
    rewrite E. cbn [bind]. eexists. split; [reflexivity|]. split; [exact R'|]. cbn. split.
    + intros k' N. apply Hk. intros ->. apply N. exact Hm.
    + intros j N. rewrite put_other by congruence. rewrite Hv. reflexivity.
  - exists s. split; [reflexivity|]. split; [|auto]. unfold assigned.
    assert (E : put w i (Some None) = w).
    { unfold holds in Hx. clear - Hx. revert i Hx. induction w as [|a w IH]; intros [|i] Hx; cbn in *; try discriminate; [congruence|].
      f_equal. auto. }
    rewrite E. exact H.
Qed.

Lemma return_ok s w ex i x : R s w ex -> holds T w i x -> exists s', return_this T moved s i = Ok s' /\ R s' w ex /\
  (forall k, k < length (objs T s) -> nth_error (objs T s') k = nth_error (objs T s) k).
Proof.
  intros H Hx. destruct (R_holds _ _ _ _ _ H Hx) as (m & G & Hm & S). unfold return_this. rewrite G. cbn [bind].
  destruct m as [k|]; destruct x as [v|]; cbn in S; try contradiction.
  - cbn [copy_construct make bind]. cbn in S. rewrite (value_live _ _ _ S). cbn [bind storage_dtor construct].
    pose proof (R_construct _ _ _ v H) as C. apply R_destroy in C as [E C]. cbn [fst construct] in E, C. rewrite E.
    eexists. split; [reflexivity|]. split; [exact C|]. cbn. intros k' L. rewrite put_other by lia. apply nth_error_app1. exact L.
  - exists s. auto.
Qed.

Lemma holds_assigned w i x y : holds T w i x -> holds T (assigned T w i y) i y.
Proof. intros H. unfold holds, assigned in *. apply put_same. eapply nth_lt; eauto. Qed.
Lemma holds_assigned_other w i j x y : i <> j -> holds T w j x -> holds T (assigned T w i y) j x.
Proof. intros N H. unfold holds, assigned in *. rewrite put_other; auto. Qed.
Lemma put_put {A} (l : list A) i x y : put (put l i x) i y = put l i y.
Proof. revert i. induction l; intros [|i]; cbn; congruence. Qed.

(** assignment of a value that lives elsewhere *)
Lemma assign_tail s w ex i v : R s w ex -> holds T w i None ->
  exists s', return_this T moved (set_var T (mkState T (objs T s ++ [Some v]) (vars T s)) i (Some (Some (length (objs T s))))) i = Ok s' /\
    R s' (assigned T w i (Some v)) ex.
Proof.
  intros H Hn. pose proof (R_construct _ _ _ v H) as C.
  eapply (R_adopt _ _ _ _ i v) in C; [|cbn; rewrite nth_error_app2, Nat.sub_diag by lia; reflexivity|exact Hn|auto].
  unfold construct in C. cbn [fst] in C.
  destruct (return_ok _ _ _ i (Some v) C) as (s2 & E2 & R2 & _); [exact (holds_assigned _ _ _ (Some v) Hn)|].
  rewrite E2. eauto.
Qed.
Lemma assign_copied s w ex i k v y : R s w ex -> holds T w i y -> nth_error (objs T s) k = Some (Some v) -> ~ owns s i k ->
  exists s', assign T moved s i (Some (Copied k)) = Ok s' /\ R s' (assigned T w i (Some v)) ex.
Proof.
  intros H Hy Hv No. unfold assign, set_in_place.
  destruct (set_nothing_ok _ _ _ _ _ H Hy) as (s1 & E1 & R1 & Ho & _). rewrite E1. cbn [bind make].
  rewrite (value_live s1 k v) by (rewrite Ho; assumption). cbn [bind construct].
  destruct (assign_tail _ _ _ i v R1) as (s2 & E2 & R2); [exact (holds_assigned _ _ _ None Hy)|].
  rewrite E2. unfold assigned in R2. rewrite put_put in R2. eauto.
Qed.
Lemma assign_moved_temp s w k ex i v y : R s w (k :: ex) -> holds T w i y -> nth_error (objs T s) k = Some (Some v) ->
  exists s', assign T moved s i (Some (Moved k)) = Ok s' /\ R s' (assigned T w i (Some v)) (k :: ex).
Proof.
  intros H Hy Hv. unfold assign, set_in_place.
  destruct (R_ex _ _ _ H k (or_introl eq_refl)) as [_ No].
  destruct (set_nothing_ok _ _ _ _ _ H Hy) as (s1 & E1 & R1 & Ho & Hvars). rewrite E1. cbn [bind make]. unfold move_from.
  assert (Hv1 : nth_error (objs T s1) k = Some (Some v)) by (rewrite Ho; auto).
  rewrite (value_live s1 k v Hv1). cbn [bind construct objs vars].
  destruct (R_ex _ _ _ R1 k (or_introl eq_refl)) as [_ No1].
  pose proof (R_put_obj _ _ (assigned T w i None) _ k v (moved v) R1 Hv1 eq_refl) as P.
  destruct (assign_tail _ _ _ i v (P ltac:(auto) ltac:(intros j x O; exfalso; eapply No1; exact O))) as (s2 & E2 & R2); [exact (holds_assigned _ _ _ None Hy)|].
  cbn [objs vars] in E2. rewrite E2. unfold assigned in R2. rewrite put_put in R2. eauto.
Qed.
Lemma assign_moved_var s w ex i j k v y : R s w ex -> holds T w i y -> i <> j -> holds T w j (Some v) -> owns s j k ->
  exists s', assign T moved s i (Some (Moved k)) = Ok s' /\ R s' (assigned T (assigned T w j (Some (moved v))) i (Some v)) ex.
Proof.
  intros H Hy Hne Hj O. pose proof (R_vars _ _ _ H _ _ _ O Hj) as Hv. cbn in Hv. unfold assign, set_in_place.
  destruct (set_nothing_ok _ _ _ _ _ H Hy) as (s1 & E1 & R1 & Ho & Hvars). rewrite E1. cbn [bind make]. unfold move_from.
  assert (Hv1 : nth_error (objs T s1) k = Some (Some v)).
  { rewrite Ho; auto. intros Oi. apply Hne. exact (R_inj _ _ _ H _ _ _ Oi O). }
  rewrite (value_live s1 k v Hv1). cbn [bind construct objs vars].
  assert (O1 : owns s1 j k) by (unfold owns; rewrite Hvars; auto).
  assert (Hlj : j < length (assigned T w i None)) by (unfold assigned; rewrite put_length; eapply nth_lt; exact Hj).
  pose proof (R_put_obj _ _ (assigned T (assigned T w i None) j (Some (moved v))) _ k v (moved v) R1 Hv1) as P.
  assert (P' : R (mkState T (put (objs T s1) k (Some (moved v))) (vars T s1)) (assigned T (assigned T w i None) j (Some (moved v))) ex).
  { apply P.
    - unfold assigned. rewrite !put_length. reflexivity.
    - intros a x Na Hx. unfold assigned in Hx at 1. apply put_inv in Hx as [(<- & _)|[_ Hx]]; [contradiction|exact Hx].
    - intros a x Oa Hx. rewrite (R_inj _ _ _ R1 _ _ _ Oa O1) in Hx. unfold assigned in Hx at 1. rewrite put_same in Hx by exact Hlj. congruence. }
  destruct (assign_tail _ _ _ i v P') as (s2 & E2 & R2).
  { apply holds_assigned_other; [congruence|]. exact (holds_assigned _ _ _ None Hy). }
  cbn [objs vars] in E2. rewrite E2. eexists. split; [reflexivity|].
  replace (assigned T (assigned T w j (Some (moved v))) i (Some v)) with (assigned T (assigned T (assigned T w i None) j (Some (moved v))) i (Some v)); [exact R2|].
  unfold assigned. clear - Hne. revert i j Hne. induction w as [|a w IH]; intros [|i] [|j] Hne; cbn; try congruence; f_equal; try apply put_put; apply IH; congruence.
Qed.

Theorem exec_sound s w o w' : R s w [] -> means T moved w o w' -> assigns_values T w o ->
  exists s', exec T moved s o = Ok s' /\ R s' w' [].
Proof.
  intros H M A. destruct M as [w i Hd|w i v Hd|w i j x Hd Hx|w i j x Hd Hx|w i j x y Hy Hx|w i j x y Hne Hy Hx|w i x y Hy|w i x Hx]; cbn [exec].
  - apply declare_nothing; assumption.
  - cbn [construct]. pose proof (R_construct _ _ _ v H) as C. cbn [construct fst] in C.
    eapply declare_value; eauto. cbn. rewrite nth_error_app2, Nat.sub_diag by lia. reflexivity.
  - destruct (R_holds _ _ _ _ _ H Hx) as (m & G & Hm & S). rewrite G. cbn [bind].
    destruct m as [k|]; destruct x as [v|]; cbn in S; try contradiction; cbn [copy_construct make bind].
    + rewrite (value_live _ _ _ S). cbn [bind construct].
      pose proof (R_construct _ _ _ v H) as C. cbn [construct fst] in C.
      eapply declare_value; eauto. cbn. rewrite nth_error_app2, Nat.sub_diag by lia. reflexivity.
    + apply declare_nothing; assumption.
  - destruct (R_holds _ _ _ _ _ H Hx) as (m & G & Hm & S). rewrite G. cbn [bind].
    destruct m as [k|]; destruct x as [v|]; cbn in S; try contradiction; cbn [move_construct make bind after_move option_map].
    + unfold move_from. rewrite (value_live _ _ _ S). cbn [bind construct objs vars].
      assert (P : R (mkState T (put (objs T s) k (Some (moved v))) (vars T s)) (assigned T w j (Some (moved v))) []).
      { eapply R_put_obj; eauto.
        - unfold assigned. rewrite put_length. reflexivity.
        - intros a x Na Hx'. unfold assigned in Hx'. apply put_inv in Hx' as [(<- & _)|[_ Hx']]; [contradiction|exact Hx'].
        - intros a x Oa Hx'. rewrite (R_inj _ _ _ H _ _ _ Oa Hm) in Hx'. unfold assigned in Hx'. rewrite put_same in Hx' by (eapply nth_lt; exact Hx). congruence. }
      pose proof (R_construct _ _ _ v P) as C. cbn [construct fst objs vars] in C.
      eapply declare_value; eauto.
      * cbn. rewrite nth_error_app2, Nat.sub_diag by lia. reflexivity.
      * destruct Hd as [-> |Hd]; [left; unfold assigned; rewrite put_length; reflexivity|]. right. unfold assigned. rewrite put_other; [exact Hd|].
        intros ->. unfold holds in Hx. congruence.
    + apply declare_nothing.
      * assert (E : assigned T w j None = w); [|rewrite E; exact H].
        unfold holds in Hx. unfold assigned. clear - Hx. revert j Hx. induction w as [|a w IH]; intros [|j] Hx; cbn in *; try discriminate; [congruence|].
        f_equal. auto.
      * destruct Hd as [-> |Hd]; [left; unfold assigned; rewrite put_length; reflexivity|]. right. unfold assigned. rewrite put_other; [exact Hd|].
        intros ->. unfold holds in Hx. congruence.
  - destruct A as (Hne & v & Hv). assert (x = Some v) as -> by (unfold holds in *; congruence).
    destruct (R_holds _ _ _ _ _ H Hx) as (m & G & Hm & S). rewrite G. cbn [bind].
    destruct m as [k|]; cbn in S; try contradiction. cbn [option_map]. eapply assign_copied; eauto.
    intros O. apply Hne. exact (R_inj _ _ _ H _ _ _ O Hm).
  - destruct A as (_ & v & Hv). assert (x = Some v) as -> by (unfold holds in *; congruence).
    destruct (R_holds _ _ _ _ _ H Hx) as (m & G & Hm & S). rewrite G. cbn [bind].
    destruct m as [k|]; cbn in S; try contradiction. cbn [option_map after_move]. eapply assign_moved_var; eauto.
  - cbn in A. destruct x as [v|]; [|congruence]. cbn [construct].
    pose proof (R_construct _ _ _ v H) as C. cbn [construct fst] in C.
    destruct (assign_moved_temp _ _ _ _ i v y C Hy) as (s1 & E1 & R1); [cbn; rewrite nth_error_app2, Nat.sub_diag by lia; reflexivity|].
    rewrite E1. cbn [bind]. apply R_destroy in R1 as [E2 R2]. eauto.
  - destruct (R_holds _ _ _ _ _ H Hx) as (m & G & Hm & S). rewrite G. cbn [bind].
    destruct m as [k|]; destruct x as [v|]; cbn in S; try contradiction; cbn [storage_dtor bind].
    + destruct (destroy_then _ _ _ i k v None None H Hm Hx) as (s' & E & R' & _); [split; [exact I|auto]|].
      rewrite E. cbn [bind]. eauto.
    + eexists. split; [reflexivity|].
      assert (Hi : i < length (vars T s)) by (eapply nth_lt; eauto).
      constructor; unfold set_var, owns in *; cbn [vars objs] in *.
      * rewrite !put_length. apply (R_len _ _ _ H).
      * intros j m y Hm' Hy. apply put_inv in Hm' as [(-> & -> & _)|[Hne Hm']].
        { rewrite put_same in Hy by (eapply nth_lt; exact Hx). injection Hy as <-. exact I. }
        rewrite put_other in Hy by exact Hne. exact (R_vars _ _ _ H _ _ _ Hm' Hy).
      * intros a b k' Ha Hb. apply put_inv in Ha as [(-> & Ea & _)|[Hna Ha]]; [discriminate|].
        apply put_inv in Hb as [(-> & Eb & _)|[Hnb Hb]]; [discriminate|]. eapply (R_inj _ _ _ H); eauto.
      * intros k' Lk. destruct (R_live _ _ _ H k' Lk) as [[]|(j & O)]. right. exists j. rewrite put_other; [exact O|].
        intros ->. unfold owns in O. congruence.
      * intros k' [].
      * constructor.
Qed.
Theorem exec_all_sound w os w' : runs T moved w os w' -> forall s, R s w [] ->
  exists s', exec_all T moved s os = Ok s' /\ R s' w' [].
Proof.
  induction 1 as [w|w o w1 os w2 Hm Ha _ IH]; intros s H; cbn [exec_all]; [eauto|].
  destruct (exec_sound _ _ _ _ H Hm Ha) as (s1 & E & R1). rewrite E. cbn [bind]. auto.
Qed.
Lemma R_observe s w i x : R s w [] -> holds T w i x -> observe T s i = Ok x.
Proof.
  intros H Hx. destruct (R_holds _ _ _ _ _ H Hx) as (m & G & Hm & S). unfold observe. rewrite G. cbn [bind].
  destruct m as [k|]; destruct x as [v|]; cbn in S; try contradiction; [|reflexivity]. rewrite (value_live _ _ _ S). reflexivity.
Qed.
End P.
