(** Invariant and refinement for ByteBufferModel. *)

From Coq Require Import ZArith List Bool Lia ZifyBool ZifyNat.
From Verif Require Import Outcome ByteBufferModel ByteBufferSpec.
Import ListNotations.
Local Open Scope Z_scope.

(** * Lists *)

Lemma set_nth_length {A} n (x : A) l : length (set_nth n x l) = length l.
Proof. revert n; induction l; destruct n; cbn; auto. Qed.

Lemma nth_set_nth_eq {A} n (x : A) l : (n < length l)%nat -> nth_error (set_nth n x l) n = Some x.
Proof. revert n; induction l; destruct n; cbn; intros; try lia; auto. apply IHl. lia. Qed.

Lemma nth_set_nth_neq {A} n m (x : A) l : n <> m -> nth_error (set_nth n x l) m = nth_error l m.
Proof. revert n m; induction l; destruct n, m; cbn; intros; auto; try lia. Qed.

Lemma set_nth_app_end {A} (l : list A) x y : set_nth (length l) x (l ++ [y]) = l ++ [x].
Proof. induction l; cbn; congruence. Qed.

Lemma nth_some_lt {A} (l : list A) n x : nth_error l n = Some x -> (n < length l)%nat.
Proof. intros H. apply nth_error_Some. congruence. Qed.

Lemma nth_app_end {A} (l : list A) x : nth_error (l ++ [x]) (length l) = Some x.
Proof. rewrite nth_error_app2 by lia. now rewrite Nat.sub_diag. Qed.

(** * Invariant *)

Definition blk (h : heap) (id : nat) := nth_error (h_blocks h) id.

(** A buffer in memory shows a sequence. *)
Definition brel (h : heap) (b : buf) (a : abuf) : Prop :=
  if a_sto a then
    exists id k, b_data b = Some id /\ blk h id = Some (Some (a_cells a ++ repeat None k)) /\
      b_capa b = alen a + Z.of_nat k /\ 0 < b_capa b <= h_limit h /\ b_size b = alen a
  else b = mkBuf None 0 0 /\ a_cells a = [].

Definition orel (h : heap) (b : option (option buf)) (a : option (option abuf)) : Prop :=
  match b, a with
  | None, None => True
  | Some None, Some None => True
  | Some (Some b), Some (Some a) => brel h b a
  | _, _ => False
  end.

Definition owns (w : world) (i : nat) (id : nat) : Prop :=
  exists b, nth_error (w_bufs w) i = Some (Some b) /\ b_data b = Some id.

(** The non-null pointers handed to the caller. *)
Definition ids (l : list ptr) : list nat :=
  flat_map (fun p => match p with Some id => [id] | None => [] end) l.

Record Inv (w : world) (s : specs) : Prop := {
  inv_rel : forall i, orel (w_heap w) (nth_error (w_bufs w) i) (nth_error s i);
  inv_uniq : forall i j id, owns w i id -> owns w j id -> i = j;
  inv_out_live : forall id, In id (ids (w_out w)) -> exists bl, blk (w_heap w) id = Some (Some bl);
  inv_out_excl : forall id i, In id (ids (w_out w)) -> ~ owns w i id;
  inv_out_once : NoDup (ids (w_out w));
  inv_noleak : forall id bl, blk (w_heap w) id = Some (Some bl) ->
     (exists i, owns w i id) \/ In id (ids (w_out w)) }.

Lemma Inv_init limit : Inv (init limit) [].
Proof.
  constructor; cbn; intros; try tauto; try constructor.
  - destruct i; exact I.
  - destruct H as (b & Hb & _). destruct i; discriminate.
  - unfold blk in H. destruct id; discriminate.
Qed.

Lemma inv_buf w s i a : Inv w s -> live s i a ->
  exists b, nth_error (w_bufs w) i = Some (Some b) /\ brel (w_heap w) b a.
Proof.
  intros HI HL. pose proof (inv_rel _ _ HI i) as H. unfold live in HL. rewrite HL in H.
  destruct (nth_error (w_bufs w) i) as [[b|]|]; cbn in H; try tauto. eauto.
Qed.

Lemma inv_get w s i a : Inv w s -> live s i a ->
  exists b, nth_error (w_bufs w) i = Some (Some b) /\ get_buf w i = Ok b /\ brel (w_heap w) b a.
Proof.
  intros HI HL. destruct (inv_buf _ _ _ _ HI HL) as (b & Hb & Hr).
  exists b. unfold get_buf. rewrite Hb. auto.
Qed.

(** * Heap transitions made on behalf of one buffer *)

Record trans (h : heap) (b : buf) (h' : heap) (b' : buf) : Prop := {
  t_limit : h_limit h' = h_limit h;
  t_len : (length (h_blocks h) <= length (h_blocks h'))%nat;
  t_other : forall id, (id < length (h_blocks h))%nat -> b_data b <> Some id ->
     blk h' id = blk h id;
  t_new : forall id bl, (length (h_blocks h) <= id)%nat -> blk h' id = Some (Some bl) ->
     b_data b' = Some id;
  t_old : forall id, b_data b = Some id -> b_data b' = Some id \/ blk h' id = Some None;
  t_ptr : b_data b' = None \/ b_data b' = b_data b \/
     exists id, b_data b' = Some id /\ (length (h_blocks h) <= id)%nat }.

Lemma trans_refl h b b' : b_data b' = b_data b -> trans h b h b'.
Proof.
  intros E. constructor; auto.
  - intros id bl Hl Hb. apply nth_some_lt in Hb. lia.
  - intros id Hid. left. congruence.
Qed.

(** A buffer's own pointer, when it has one, is a live block. *)
Definition valid (h : heap) (b : buf) :=
  forall id, b_data b = Some id -> exists bl, blk h id = Some (Some bl).

Lemma brel_valid h b a : brel h b a -> valid h b.
Proof.
  unfold brel, valid. destruct (a_sto a).
  - intros (id & k & Hd & Hb & _) id' Hd'. eexists. rewrite Hd in Hd'. injection Hd' as <-. exact Hb.
  - intros (-> & _) id Hd. discriminate.
Qed.

Lemma trans_trans h1 b1 h2 b2 h3 b3 :
  trans h1 b1 h2 b2 -> trans h2 b2 h3 b3 -> trans h1 b1 h3 b3.
Proof.
  intros A B. pose proof (t_len _ _ _ _ A). pose proof (t_len _ _ _ _ B). constructor.
  - rewrite (t_limit _ _ _ _ B). apply (t_limit _ _ _ _ A).
  - lia.
  - intros id Hl Hn. rewrite (t_other _ _ _ _ B); [now apply (t_other _ _ _ _ A)| lia |].
    destruct (t_ptr _ _ _ _ A) as [E|[E|(i & E & Hi)]]; rewrite E; try congruence.
    intros [= ->]. lia.
  - intros id bl Hl Hb.
    destruct (le_lt_dec (length (h_blocks h2)) id) as [L|L].
    + exact (t_new _ _ _ _ B _ _ L Hb).
    + assert (D : b_data b2 = Some id \/ b_data b2 <> Some id).
      { destruct (b_data b2) as [i|]; [|right; congruence].
        destruct (Nat.eq_dec i id); [left|right]; congruence. }
      destruct D as [D|D].
      * destruct (t_old _ _ _ _ B _ D); [auto|congruence].
      * rewrite (t_other _ _ _ _ B _ L D) in Hb.
        pose proof (t_new _ _ _ _ A _ _ Hl Hb). contradiction.
  - intros id Hd. destruct (t_old _ _ _ _ A _ Hd) as [E|E].
    + exact (t_old _ _ _ _ B _ E).
    + assert (D : b_data b2 = Some id \/ b_data b2 <> Some id).
      { destruct (b_data b2) as [i|]; [|right; congruence].
        destruct (Nat.eq_dec i id); [left|right]; congruence. }
      destruct D as [D|D]; [exact (t_old _ _ _ _ B _ D)|].
      right. rewrite (t_other _ _ _ _ B); auto. now apply nth_some_lt in E.
  - destruct (t_ptr _ _ _ _ B) as [E|[E|(i & E & Hi)]]; auto.
    + rewrite E. apply (t_ptr _ _ _ _ A).
    + right. right. exists i. split; [auto|lia].
Qed.

Lemma brel_frame h h' b a :
  h_limit h' = h_limit h -> (forall id, b_data b = Some id -> blk h' id = blk h id) ->
  brel h b a -> brel h' b a.
Proof.
  unfold brel. intros HL HF. destruct (a_sto a); [|auto].
  intros (id & k & Hd & Hb & R). exists id, k. rewrite HL, HF by exact Hd. auto.
Qed.

(** The main update lemma: a transition on behalf of buffer [i] preserves the invariant. *)
Lemma Inv_put w s i b a h' b' a' :
  Inv w s -> nth_error (w_bufs w) i = Some (Some b) -> live s i a ->
  trans (w_heap w) b h' b' -> brel h' b' a' ->
  Inv (put w i (h', b')) (upd s i (Some a')).
Proof.
  intros HI Hb HL HT HR.
  pose proof (inv_buf _ _ _ _ HI HL) as (b0 & Hb0 & HR0).
  rewrite Hb in Hb0. injection Hb0 as <-.
  assert (Hi : (i < length (w_bufs w))%nat) by now apply nth_some_lt in Hb.
  assert (His : (i < length s)%nat) by now apply nth_some_lt in HL.
  assert (Hown : forall j id, j <> i -> owns (put w i (h', b')) j id <-> owns w j id).
  { intros j id Hj. unfold owns, put; cbn. now rewrite nth_set_nth_neq by auto. }
  assert (Howni : forall id, owns (put w i (h', b')) i id <-> b_data b' = Some id).
  { intros id. unfold owns, put; cbn. rewrite nth_set_nth_eq by auto. split.
    - intros (x & [= <-] & E); auto.
    - eauto. }
  assert (Hlive : forall j id, owns w j id -> exists bl, blk (w_heap w) id = Some (Some bl)).
  { intros j id (bj & Hbj & Hd). pose proof (inv_rel _ _ HI j) as R. rewrite Hbj in R.
    destruct (nth_error s j) as [[aj|]|]; cbn in R; try tauto.
    exact (brel_valid _ _ _ R _ Hd). }
  (* a pointer owned by someone else is neither old nor new pointer of i *)
  assert (Hoth : forall id, (exists j, j <> i /\ owns w j id) \/ In id (ids (w_out w)) ->
             b_data b <> Some id /\ b_data b' <> Some id /\ (id < length (h_blocks (w_heap w)))%nat).
  { intros id Ho.
    assert (Lt : (id < length (h_blocks (w_heap w)))%nat).
    { destruct Ho as [(j & _ & Ho)|Ho].
      - destruct (Hlive _ _ Ho) as (bl & E). now apply nth_some_lt in E.
      - destruct (inv_out_live _ _ HI _ Ho) as (bl & E). now apply nth_some_lt in E. }
    assert (Nb : b_data b <> Some id).
    { intros E. destruct Ho as [(j & Hj & Ho)|Ho].
      - apply Hj. apply (inv_uniq _ _ HI _ _ id); [auto|]. exists b; auto.
      - apply (inv_out_excl _ _ HI _ i Ho). exists b; auto. }
    split; [auto|]. split; [|auto].
    destruct (t_ptr _ _ _ _ HT) as [E|[E|(k & E & Hk)]]; rewrite E; try congruence.
    intros [= ->]. lia. }
  constructor.
  - intros j. cbn. destruct (Nat.eq_dec j i) as [->|Hj].
    + unfold upd. rewrite !nth_set_nth_eq by auto. exact HR.
    + unfold upd. rewrite !nth_set_nth_neq by auto.
      pose proof (inv_rel _ _ HI j) as R.
      destruct (nth_error (w_bufs w) j) as [[bj|]|] eqn:Ej, (nth_error s j) as [[aj|]|];
        cbn in *; try tauto.
      eapply brel_frame; [apply (t_limit _ _ _ _ HT)| |exact R].
      intros id Hd. destruct (Hoth id) as (N1 & N2 & N3).
      { left. exists j. split; auto. exists bj; auto. }
      now apply (t_other _ _ _ _ HT).
  - intros j k id Oj Ok.
    destruct (Nat.eq_dec j i) as [->|Hj], (Nat.eq_dec k i) as [->|Hk]; auto.
    + apply Howni in Oj. apply Hown in Ok; auto.
      destruct (Hoth id) as (_ & N & _); [eauto|contradiction].
    + apply Howni in Ok. apply Hown in Oj; auto.
      destruct (Hoth id) as (_ & N & _); [eauto|contradiction].
    + apply Hown in Oj, Ok; auto. eapply (inv_uniq _ _ HI); eauto.
  - cbn. intros id Hin. destruct (Hoth id) as (N1 & N2 & N3); [auto|].
    rewrite (t_other _ _ _ _ HT) by auto. now apply (inv_out_live _ _ HI).
  - cbn. intros id j Hin Oj. destruct (Nat.eq_dec j i) as [->|Hj].
    + apply Howni in Oj. destruct (Hoth id) as (_ & N & _); auto.
    + apply Hown in Oj; auto. exact (inv_out_excl _ _ HI _ _ Hin Oj).
  - exact (inv_out_once _ _ HI).
  - cbn. intros id bl Hbl.
    destruct (le_lt_dec (length (h_blocks (w_heap w))) id) as [L|L].
    + left. exists i. apply Howni. exact (t_new _ _ _ _ HT _ _ L Hbl).
    + assert (D : b_data b = Some id \/ b_data b <> Some id).
      { destruct (b_data b) as [k|]; [|right; congruence].
        destruct (Nat.eq_dec k id); [left|right]; congruence. }
      destruct D as [D|D].
      * destruct (t_old _ _ _ _ HT _ D) as [E|E]; [|congruence].
        left. exists i. now apply Howni.
      * rewrite (t_other _ _ _ _ HT _ L D) in Hbl.
        destruct (inv_noleak _ _ HI _ _ Hbl) as [(j & Oj)|O]; [|auto].
        left. exists j. destruct (Nat.eq_dec j i) as [->|Hj]; [|now apply Hown].
        destruct Oj as (x & Ex & Ed). rewrite Hb in Ex. injection Ex as <-. contradiction.
Qed.

(** Adding an object without storage. *)
Lemma nth_error_snoc {A} (l : list A) x i :
  nth_error (l ++ [x]) i =
  if (i <? length l)%nat then nth_error l i else if (i =? length l)%nat then Some x else None.
Proof.
  destruct (Nat.ltb_spec i (length l)) as [H|H]; [now apply nth_error_app1|].
  destruct (Nat.eqb_spec i (length l)) as [->|N]; [apply nth_app_end|].
  apply nth_error_None. rewrite app_length; cbn; lia.
Qed.

Lemma Inv_len w s : Inv w s -> length (w_bufs w) = length s.
Proof.
  intros HI.
  destruct (lt_eq_lt_dec (length (w_bufs w)) (length s)) as [[H|H]|H]; auto; exfalso.
  - pose proof (inv_rel _ _ HI (length (w_bufs w))) as R.
    assert (E : nth_error (w_bufs w) (length (w_bufs w)) = None) by (apply nth_error_None; lia).
    rewrite E in R. apply nth_error_Some in H. destruct (nth_error s _) as [[?|]|]; cbn in R; tauto.
  - pose proof (inv_rel _ _ HI (length s)) as R.
    assert (E : nth_error s (length s) = None) by (apply nth_error_None; lia).
    rewrite E in R. apply nth_error_Some in H.
    destruct (nth_error (w_bufs w) _) as [[?|]|]; cbn in R; tauto.
Qed.

Definition add_empty (w : world) : world :=
  mkWorld (w_heap w) (w_bufs w ++ [Some (mkBuf None 0 0)]) (w_out w).

Lemma Inv_add w s : Inv w s -> Inv (add_empty w) (s ++ [Some (mkA false [])]).
Proof.
  intros HI. pose proof (Inv_len _ _ HI) as HL.
  assert (Ho : forall j id, owns (add_empty w) j id <-> owns w j id).
  { intros j id. unfold owns, add_empty; cbn. rewrite nth_error_snoc. split.
    - intros (b & Hb & Hd). destruct (Nat.ltb_spec j (length (w_bufs w))); [eauto|].
      destruct (j =? length (w_bufs w))%nat; [|discriminate].
      injection Hb as <-. discriminate.
    - intros (b & Hb & Hd). pose proof (nth_some_lt _ _ _ Hb).
      destruct (Nat.ltb_spec j (length (w_bufs w))); [eauto|lia]. }
  constructor.
  - intros i. cbn. rewrite !nth_error_snoc, <- HL.
    destruct (i <? length (w_bufs w))%nat; [apply (inv_rel _ _ HI)|].
    destruct (i =? length (w_bufs w))%nat; cbn; auto.
  - intros i j id A B. apply Ho in A, B. eapply (inv_uniq _ _ HI); eauto.
  - exact (inv_out_live _ _ HI).
  - intros id i Hin O. apply Ho in O. exact (inv_out_excl _ _ HI _ _ Hin O).
  - exact (inv_out_once _ _ HI).
  - intros id bl Hb. destruct (inv_noleak _ _ HI _ _ Hb) as [(i & O)|O]; [|auto].
    left. exists i. now apply Ho.
Qed.

(** * Behaviour of the storage operations *)

Lemma blk_lt h id x : blk h id = Some x -> (id < length (h_blocks h))%nat.
Proof. apply nth_some_lt. Qed.

Lemma get_block_ok h id bl : blk h id = Some (Some bl) -> get_block h (Some id) = Ok bl.
Proof. unfold blk, get_block. now intros ->. Qed.

Lemma malloc_trans h n id h' :
  malloc h n = Some (id, h') ->
  forall b', b_data b' = Some id ->
  trans h (mkBuf None 0 0) h' b' /\ blk h' id = Some (Some (repeat None (Z.to_nat n))) /\ n <= h_limit h /\ h_limit h' = h_limit h /\ id = length (h_blocks h).
Proof.
  unfold malloc. destruct (Z.ltb_spec (h_limit h) n); [discriminate|].
  intros [= <- <-] b' Hb'. split; [|split; [apply nth_app_end|auto]].
  constructor; cbn; auto.
  - rewrite app_length; cbn; lia.
  - intros id Hl _. unfold blk; cbn. now rewrite nth_error_app1.
  - intros id bl Hl Hb. pose proof (nth_some_lt _ _ _ Hb) as L. cbn in L.
    rewrite app_length in L; cbn in L. rewrite Hb'. f_equal. lia.
  - discriminate.
  - right. right. exists (length (h_blocks h)). auto.
Qed.

Lemma malloc_fail h n : malloc h n = None -> h_limit h < n.
Proof. unfold malloc. destruct (Z.ltb_spec (h_limit h) n); [auto|discriminate]. Qed.

Lemma free_ok h id bl : blk h id = Some (Some bl) ->
  free h (Some id) = Ok (set_block h id None).
Proof. unfold blk, free. now intros ->. Qed.

Lemma blk_set_eq h id b : (id < length (h_blocks h))%nat -> blk (set_block h id b) id = Some b.
Proof. intros. unfold blk, set_block; cbn. now apply nth_set_nth_eq. Qed.

Lemma blk_set_neq h id b j : j <> id -> blk (set_block h id b) j = blk h j.
Proof. intros H. unfold blk, set_block; cbn. apply nth_set_nth_neq. congruence. Qed.

Lemma set_block_trans h id bl x b b' :
  blk h id = Some (Some bl) -> b_data b = Some id ->
  (x = None /\ b_data b' = None \/ b_data b' = Some id) ->
  trans h b (set_block h id x) b'.
Proof.
  intros Hb Hd Hx. pose proof (blk_lt _ _ _ Hb) as L. constructor; cbn [set_block h_blocks h_limit].
  - reflexivity.
  - now rewrite set_nth_length.
  - intros j _ N. apply blk_set_neq. congruence.
  - intros j bj Hj Hbj. apply blk_lt in Hbj. cbn in Hbj. rewrite set_nth_length in Hbj. lia.
  - intros j Hj. rewrite Hd in Hj. injection Hj as <-. destruct Hx as [(-> & _)|Hx]; [right|auto].
    now apply blk_set_eq.
  - destruct Hx as [(_ & Hx)|Hx]; [auto|]. right. left. congruence.
Qed.

(** What a resize of the capacity to [n] > 0 does: the new capacity is [n], the contents
    are cut to [n] cells. *)
Definition cut (n : Z) (a : abuf) : abuf := mkA true (firstn (Z.to_nat n) (a_cells a)).

Definition rsz (h : heap) (b : buf) (a : abuf) (n : Z) : Prop :=
  (resize_capacity h b n = Throw StdException /\ h_limit h < n) \/
  (exists h' b' , resize_capacity h b n = Ok (h', b') /\ trans h b h' b' /\
     b_size b' = b_size b /\ b_capa b' = n /\
     brel h' (mkBuf (b_data b') (alen (cut n a)) n) (cut n a)).

Lemma firstn_repeat {A} (x : A) n k : firstn n (repeat x k) = repeat x (Nat.min n k).
Proof. revert k; induction n; destruct k; cbn; try reflexivity. now rewrite IHn. Qed.

Lemma realloc_cells n cells k :
  firstn n (cells ++ repeat (@None Z) k) ++ repeat None (n - length (cells ++ repeat None k))
  = firstn n cells ++ repeat None (n - length cells).
Proof.
  rewrite firstn_app, firstn_repeat, app_length, repeat_length, <- app_assoc, <- repeat_app.
  do 2 f_equal. lia.
Qed.

Lemma resize_capacity_spec h b a n : brel h b a -> 0 < n -> rsz h b a n.
Proof.
  intros HR Hn. unfold rsz, resize_capacity, cut.
  destruct (Z.eqb_spec n (b_capa b)) as [->|Hne].
  { right. exists h, b. split; [reflexivity|]. split; [now apply trans_refl|].
    split; [reflexivity|]. split; [reflexivity|].
    unfold brel in *; cbn. destruct (a_sto a).
    - destruct HR as (id & k & Hd & Hb & Hc & Hlim & Hs).
      exists id, k. cbn. unfold alen in *; cbn.
      rewrite firstn_all2 by lia. repeat split; auto; lia.
    - destruct HR as (-> & _). cbn in Hn. lia. }
  destruct (Z.eqb_spec n 0); [lia|].
  unfold brel in HR. destruct (a_sto a).
  - destruct HR as (id & k & Hd & Hb & Hc & Hlim & Hs).
    unfold realloc. rewrite Hd. rewrite (get_block_ok _ _ _ Hb). cbn [bind].
    destruct (Z.ltb_spec (h_limit h) n) as [Hl|Hl]; [left; split; [reflexivity|exact Hl]|right].
    cbn [bind]. eexists _, _. split; [reflexivity|].
    assert (L : (id < length (h_blocks h))%nat) by now apply nth_some_lt in Hb.
    split; [|split; [reflexivity|split; [reflexivity|]]].
    + constructor; cbn.
      * reflexivity.
      * rewrite app_length, set_nth_length; cbn; lia.
      * intros j Hj N. unfold blk; cbn. rewrite nth_error_app1 by now rewrite set_nth_length.
        apply nth_set_nth_neq. congruence.
      * intros j bl Hj Hbl. apply nth_some_lt in Hbl. cbn in Hbl.
        rewrite app_length, set_nth_length in Hbl. cbn in Hbl. f_equal. lia.
      * intros j Hj. rewrite Hd in Hj. injection Hj as <-. right. unfold blk; cbn.
        rewrite nth_error_app1 by now rewrite set_nth_length. now apply nth_set_nth_eq.
      * right. right. eexists. split; [reflexivity|]. lia.
    + unfold brel, alen; cbn. exists (length (h_blocks h)).
      exists (Z.to_nat n - length (a_cells a))%nat.
      split; [reflexivity|]. rewrite firstn_length.
      split; [|repeat split; lia].
      unfold blk; cbn. rewrite realloc_cells.
      rewrite <- (set_nth_length id None (h_blocks h)). apply nth_app_end.
  - destruct HR as (-> & Hnil). cbn. rewrite Hnil.
    destruct (malloc h n) as [(id & h')|] eqn:Em; [right|left; split; [reflexivity|now apply malloc_fail]].
    cbn. eexists _, _. split; [reflexivity|].
    destruct (malloc_trans _ _ _ _ Em (mkBuf (Some id) 0 n) eq_refl) as (T & Hb & Hl & Hl' & _).
    split; [exact T|]. split; [reflexivity|]. split; [reflexivity|].
    unfold brel, alen; cbn. rewrite firstn_nil. exists id, (Z.to_nat n).
    split; [reflexivity|]. cbn. rewrite Hl'. repeat split; auto; lia.
Qed.

(** The largest allocation an append of [n] bytes may ask for. *)
Definition append_request (b : buf) (n : Z) : Z :=
  Z.max (b_size b + n) (Z.max 64 (2 * b_capa b)).

(** Growing: the contents stay, there is room, or std::bad_alloc. *)
Definition grown (a : abuf) (need : Z) : abuf := mkA (a_sto a || (0 <? need)) (a_cells a).

Lemma ensure_space_spec h b a n :
  brel h b a -> h_limit h < 2 ^ 62 -> 0 <= n < 2 ^ 62 ->
  (ensure_space h b n = Throw StdException /\ h_limit h < append_request b n) \/
  exists h' b', ensure_space h b n = Ok (h', b') /\ trans h b h' b' /\
     brel h' b' (grown a n) /\ b_size b' = b_size b /\
     b_size b' + n <= b_capa b'.
Proof.
  intros HR Hlim Hn. unfold ensure_space.
  assert (Hsz : b_size b = alen a /\ 0 <= alen a <= b_capa b /\ b_capa b <= Z.max 0 (h_limit h) /\
                (a_sto a = true -> 0 < b_capa b) /\
                (a_sto a = false -> b = mkBuf None 0 0 /\ a_cells a = [])).
  { unfold brel in HR. unfold alen in *. destruct (a_sto a).
    - destruct HR as (id & k & _ & _ & H). repeat split; try lia; try discriminate.
    - destruct HR as (-> & ->). cbn. repeat split; try lia; auto; discriminate. }
  destruct Hsz as (Hs & Hs2 & Hs3 & Hpos & Hzero).
  rewrite (Z.mod_small (b_size b + n)) by (unfold SIZE_MOD; lia).
  destruct (Z.ltb_spec (b_capa b) (b_size b + n)) as [Hg|Hg].
  2:{ right. exists h, b. split; [reflexivity|]. split; [now apply trans_refl|].
      split; [|split; [reflexivity|lia]]. unfold grown.
      destruct (a_sto a) eqn:E.
      - unfold brel in *; cbn in *. rewrite E in HR. exact HR.
      - destruct (Hzero eq_refl) as (-> & Hnil). cbn in Hg.
        assert (n = 0) as -> by lia. unfold brel; cbn. now rewrite Hnil. }
  set (cap := Z.max (b_size b + n) (if b_capa b =? 0 then DEFAULT_CAPACITY else b_capa b * 2)).
  assert (Hgc : grow_capacity h b (b_size b + n) = resize_capacity h b cap).
  { unfold grow_capacity, cap, ab_assert. destruct (Z.eqb_spec (b_capa b) 0) as [E|E].
    - destruct (a_sto a) eqn:Es; [specialize (Hpos eq_refl); lia|].
      destruct (Hzero eq_refl) as (-> & _). cbn. reflexivity.
    - destruct (a_sto a) eqn:Es; [|destruct (Hzero eq_refl) as (-> & _); cbn in E; lia].
      unfold brel in HR. rewrite Es in HR. destruct HR as (id & k & -> & _). cbn [is_null negb bind].
      destruct (Z.leb_spec (b_size b) (b_capa b)); [|lia]. cbn [bind].
      rewrite Z.mod_small by (unfold SIZE_MOD; lia). reflexivity. }
  rewrite Hgc.
  assert (Hcap : b_size b + n <= cap /\ 0 < cap /\ b_capa b <= cap).
  { unfold cap. destruct (Z.eqb_spec (b_capa b) 0); unfold DEFAULT_CAPACITY; lia. }
  destruct (resize_capacity_spec h b a cap HR ltac:(lia)) as [E|(h' & b' & E & T & E1 & E2 & R)];
    [left|right].
  { destruct E as (E & Hl). split; [exact E|]. eapply Z.lt_le_trans; [exact Hl|].
    unfold cap, append_request, DEFAULT_CAPACITY. destruct (b_capa b =? 0); lia. }
  exists h', b'. split; [exact E|]. split; [exact T|].
  assert (Hcut : cut cap a = grown a n).
  { unfold cut, grown. f_equal.
    - destruct (a_sto a) eqn:Es; [reflexivity|].
      destruct (Hzero eq_refl) as (-> & _). cbn in Hg. symmetry. apply Z.ltb_lt. lia.
    - apply firstn_all2. unfold alen in *. lia. }
  rewrite Hcut in R.
  replace (mkBuf (b_data b') (alen (grown a n)) cap) with b' in R.
  2:{ destruct b' as [d sz c]. cbn in *. subst. unfold alen in *; cbn. now rewrite Hs. }
  split; [exact R|]. split; [exact E1|]. rewrite E1, E2. lia.
Qed.

(** Storing after the end, and inside. *)
Lemma store_cells_ok h id bl o cs :
  blk h id = Some (Some bl) -> (o + length cs <= length bl)%nat -> cs <> [] ->
  store_cells h (Some id) (Z.of_nat o) cs =
  Ok (set_block h id (Some (firstn o bl ++ cs ++ skipn (o + length cs) bl))).
Proof.
  intros Hb Hl Hc. unfold store_cells. destruct cs as [|c cs]; [congruence|].
  rewrite (get_block_ok _ _ _ Hb). cbn [bind].
  destruct (Z.ltb_spec (Z.of_nat o) 0); [lia|].
  destruct (Z.ltb_spec (Z.of_nat (length bl)) (Z.of_nat o + Z.of_nat (length (c :: cs)))); [lia|].
  cbn [orb]. rewrite Nat2Z.id. reflexivity.
Qed.

Lemma load_cells_ok h id bl o n :
  blk h id = Some (Some bl) -> (o + n <= length bl)%nat ->
  load_cells h (Some id) (Z.of_nat o) (Z.of_nat n) = Ok (firstn n (skipn o bl)).
Proof.
  intros Hb Hl. unfold load_cells. destruct (Z.eqb_spec (Z.of_nat n) 0) as [E|E].
  - assert (n = 0%nat) as -> by lia. reflexivity.
  - rewrite (get_block_ok _ _ _ Hb). cbn [bind].
    destruct (Z.ltb_spec (Z.of_nat o) 0); [lia|].
    destruct (Z.ltb_spec (Z.of_nat n) 0); [lia|].
    destruct (Z.ltb_spec (Z.of_nat (length bl)) (Z.of_nat o + Z.of_nat n)); [lia|].
    cbn [orb]. now rewrite !Nat2Z.id.
Qed.

Definition appended (a : abuf) (cs : list cell) : abuf :=
  mkA (a_sto a || negb (length cs =? 0)%nat) (a_cells a ++ cs).

(** Storing [cs] at the end of a buffer with room. *)
Lemma store_end h b a cs :
  brel h b a -> (cs <> [] -> a_sto a = true) ->
  b_size b + Z.of_nat (length cs) <= b_capa b -> h_limit h < 2 ^ 62 ->
  exists h', store_cells h (b_data b) (b_size b) cs = Ok h' /\
    let b' := mkBuf (b_data b) ((b_size b + Z.of_nat (length cs)) mod SIZE_MOD) (b_capa b) in
    trans h b h' b' /\ brel h' b' (mkA (a_sto a) (a_cells a ++ cs)).
Proof.
  intros HR Hsto Hroom Hlim.
  destruct cs as [|c cs].
  - exists h. split; [reflexivity|]. cbn zeta.
    replace ((b_size b + Z.of_nat (length (@nil cell))) mod SIZE_MOD) with (b_size b).
    2:{ cbn. rewrite Z.add_0_r, Z.mod_small; [reflexivity|].
        unfold brel, alen in *. destruct (a_sto a).
        - destruct HR as (id & k & H). unfold SIZE_MOD. lia.
        - destruct HR as (-> & _). unfold SIZE_MOD. cbn. lia. }
    split; [now apply trans_refl|]. rewrite app_nil_r. destruct b, a. exact HR.
  - specialize (Hsto ltac:(discriminate)). remember (c :: cs) as l eqn:El.
    unfold brel in HR. rewrite Hsto in HR. destruct HR as (id & k & Hd & Hb & Hc & Hl & Hs).
    unfold alen in *. rewrite Hd, Hs.
    rewrite (store_cells_ok _ _ _ _ _ Hb); [|rewrite app_length, repeat_length; lia|subst; discriminate].
    eexists. split; [reflexivity|]. cbn zeta.
    split; [eapply set_block_trans; eauto|].
    unfold brel; cbn. rewrite Hsto.
    exists id, (k - length l)%nat. split; [reflexivity|].
    split.
    + rewrite blk_set_eq by now apply nth_some_lt in Hb.
      do 2 f_equal. rewrite firstn_app, Nat.sub_diag, firstn_all, firstn_O, app_nil_r.
      rewrite <- app_assoc. do 2 f_equal.
      rewrite skipn_app, skipn_all2 by lia. cbn [app].
      replace (length (a_cells a) + length l - length (a_cells a))%nat with (length l) by lia.
      clear. revert k; induction (length l); destruct k; cbn; auto.
    + unfold alen; cbn. rewrite app_length.
      rewrite Z.mod_small by (unfold SIZE_MOD; lia). repeat split; lia.
Qed.

Lemma trans_data_r h b h' b1 b2 : b_data b1 = b_data b2 -> trans h b h' b1 -> trans h b h' b2.
Proof.
  intros E T. destruct T. constructor; auto; rewrite <- E; auto.
Qed.

Lemma bb_append_spec h b a src :
  brel h b a -> h_limit h < 2 ^ 62 -> Z.of_nat (length src) < 2 ^ 62 ->
  (bb_append h b src = Throw StdException /\
     h_limit h < append_request b (Z.of_nat (length src))) \/
  exists h' b', bb_append h b src = Ok (h', b') /\ trans h b h' b' /\
    brel h' b' (appended a src).
Proof.
  intros HR Hlim Hn. unfold bb_append.
  destruct (ensure_space_spec h b a (Z.of_nat (length src)) HR Hlim ltac:(lia))
    as [E|(h1 & b1 & E & T1 & R1 & S1 & C1)].
  { left. destruct E as (E & Hl). rewrite E. auto. }
  right. rewrite E. cbn [bind].
  destruct (store_end h1 b1 _ src R1) as (h2 & E2 & T2 & R2).
  - intros Hne. unfold grown; cbn. destruct src; [congruence|]. cbn. now rewrite orb_true_r.
  - exact C1.
  - rewrite (t_limit _ _ _ _ T1). exact Hlim.
  - rewrite E2. cbn [bind]. eexists _, _. split; [reflexivity|].
    split; [eapply trans_trans; eauto|].
    unfold grown in R2; cbn in R2. unfold appended.
    replace (0 <? Z.of_nat (length src)) with (negb (length src =? 0)%nat) in R2; [exact R2|].
    destruct src; reflexivity.
Qed.

(** * The operations on the world *)

Lemma raw_ok w o r : raw_step w o = Ok r -> step w o = Ok r.
Proof. unfold step. now intros ->. Qed.

Lemma raw_throw w o e : raw_step w o = Throw e -> step w o = Ok (w, Threw).
Proof. unfold step. now intros ->. Qed.

(** The largest allocation an operation may ask for (0: it never fails). *)
Definition request (w : world) (o : op) : Z :=
  match o with
  | New n | Resize _ n | Reserve _ n => n
  | Append i src =>
      match get_buf w i with Ok b => append_request b (Z.of_nat (length src)) | _ => 0 end
  | AppendBuf i j =>
      match get_buf w i, get_buf w j with Ok b, Ok c => append_request b (b_size c) | _, _ => 0 end
  | _ => 0
  end.

Definition good (w : world) (s : specs) (o : op) : Prop :=
  exists w' x s', step w o = Ok (w', x) /\ spec_step s o x s' /\ Inv w' s' /\
    h_limit (w_heap w') = h_limit (w_heap w) /\
    (x = Threw -> h_limit (w_heap w) < request w o).

Lemma put_add w h b :
  put (add_empty w) (length (w_bufs w)) (h, b) = mkWorld h (w_bufs w ++ [Some b]) (w_out w).
Proof. unfold put, add_empty; cbn. now rewrite set_nth_app_end. Qed.

Lemma upd_add (s : specs) x a : upd (s ++ [x]) (length s) a = s ++ [a].
Proof. unfold upd. now rewrite set_nth_app_end. Qed.

Lemma Inv_push w s h' b' a' :
  Inv w s -> trans (w_heap w) (mkBuf None 0 0) h' b' -> brel h' b' a' ->
  Inv (mkWorld h' (w_bufs w ++ [Some b']) (w_out w)) (s ++ [Some a']).
Proof.
  intros HI T R. pose proof (Inv_len _ _ HI) as HL.
  rewrite <- put_add, <- (upd_add s (Some (mkA false [])) (Some a')), <- HL.
  eapply Inv_put with (a := mkA false []); eauto using Inv_add.
  - unfold add_empty; cbn. apply nth_app_end.
  - unfold live. rewrite HL. apply nth_app_end.
Qed.

Lemma good_new w s n : Inv w s -> 0 < n -> good w s (New n).
Proof.
  intros HI Hn. destruct (malloc (w_heap w) n) as [(id & h')|] eqn:Em.
  - destruct (malloc_trans _ _ _ _ Em (mkBuf (Some id) 0 n) eq_refl) as (T & Hb & Hl & Hl' & _).
    eexists _, _, _. split; [apply raw_ok; cbn; unfold bb_new; rewrite Em; reflexivity|].
    split; [apply sp_new|]. split; [|split; [exact Hl'|discriminate]].
    eapply Inv_push; eauto. unfold brel, alen; cbn. exists id, (Z.to_nat n).
    cbn. rewrite Hl'. repeat split; auto; lia.
  - eexists _, _, _. split; [eapply raw_throw; cbn; unfold bb_new; rewrite Em; reflexivity|].
    split; [apply sp_new_t|]. split; [auto|]. split; [auto|]. intros _. now apply malloc_fail.
Qed.

Definition small (w : world) : Prop := h_limit (w_heap w) < 2 ^ 62.

Lemma load_own h b a :
  brel h b a -> load_cells h (b_data b) 0 (b_size b) = Ok (a_cells a).
Proof.
  unfold brel. destruct (a_sto a).
  - intros (j & k & Hd & Hbj & Hc & Hlim & Hs). rewrite Hd, Hs. change 0 with (Z.of_nat 0).
    unfold alen. rewrite (load_cells_ok _ _ _ 0 _ Hbj) by (rewrite app_length; lia).
    cbn [skipn]. rewrite firstn_app, Nat.sub_diag, firstn_all, firstn_O, app_nil_r. reflexivity.
  - intros (-> & ->). reflexivity.
Qed.

Lemma good_copy w s i a :
  Inv w s -> small w -> live s i a -> a_sto a = true -> good w s (Copy i).
Proof.
  intros HI HSm HL Hsto. destruct (inv_get _ _ _ _ HI HL) as (b & Hb & Hg & HR).
  destruct (malloc (w_heap w) (b_capa b)) as [(id & h')|] eqn:Em.
  - destruct (malloc_trans _ _ _ _ Em (mkBuf (Some id) 0 (b_capa b)) eq_refl)
      as (T & Hbn & Hl & Hl' & Hid).
    assert (HR' : brel h' b a).
    { eapply brel_frame; [exact Hl'| |exact HR]. intros j Hj.
      destruct (brel_valid _ _ _ HR _ Hj) as (bl & E).
      apply (t_other _ _ _ _ T); [now apply blk_lt in E|discriminate]. }
    pose proof (load_own _ _ _ HR') as E1.
    unfold brel in HR. rewrite Hsto in HR. destruct HR as (j & k & Hd & Hbj & Hc & Hlim & Hs).
    destruct (store_end h' (mkBuf (Some id) 0 (b_capa b)) (mkA true []) (a_cells a))
      as (h2 & E2 & T2 & R2).
    + unfold brel, alen; cbn. exists id, (Z.to_nat (b_capa b)).
      cbn. rewrite Hl'. repeat split; auto; lia.
    + reflexivity.
    + cbn. unfold alen in *. lia.
    + rewrite Hl'. exact HSm.
    + cbv zeta in T2, R2. cbn [b_data b_size b_capa a_sto a_cells app] in E2, T2, R2. rewrite Z.add_0_l in T2, R2.
      assert (Hsz : Z.of_nat (length (a_cells a)) mod SIZE_MOD = b_size b).
      { unfold alen in *. rewrite Z.mod_small; [lia|]. unfold SIZE_MOD, small in *. lia. }
      rewrite Hsz in T2, R2.
      eexists _, _, _. split; [apply raw_ok; cbn; rewrite Hg; cbn; unfold bb_copy; rewrite Em, E1;
        cbn; rewrite E2; reflexivity|].
      split; [eapply sp_copy; eauto|].
      split; [|split; [cbn; rewrite (t_limit _ _ _ _ T2); exact Hl'|discriminate]].
      replace a with (mkA true (a_cells a)) at 1 by (destruct a; cbn in *; congruence).
      eapply Inv_push; eauto. eapply trans_trans; eauto.
  - apply malloc_fail in Em. unfold brel in HR. rewrite Hsto in HR.
    destruct HR as (j & k & Hd & Hbj & Hc & Hlim & Hs). lia.
Qed.

(** Lifting an operation on one buffer. *)
Lemma good_put w s i a b o r a' :
  Inv w s -> live s i a -> nth_error (w_bufs w) i = Some (Some b) ->
  raw_step w o = (do r <- r; Ok (put w i r, Done)) ->
  (forall h' b', r = Ok (h', b') -> trans (w_heap w) b h' b' /\ brel h' b' a') ->
  (exists h' b', r = Ok (h', b')) ->
  spec_step s o Done (upd s i (Some a')) ->
  good w s o.
Proof.
  intros HI HL Hb HE Hr (h' & b' & Er) Hsp. destruct (Hr _ _ Er) as (T & R).
  exists (put w i (h', b')), Done, (upd s i (Some a')).
  split; [apply raw_ok; rewrite HE, Er; reflexivity|]. split; [exact Hsp|].
  split; [eapply Inv_put; eauto|]. split; [cbn; apply (t_limit _ _ _ _ T)|discriminate].
Qed.

Lemma good_throw w s i a o e :
  Inv w s -> live s i a -> raw_step w o = Throw e -> spec_step s o Threw s ->
  h_limit (w_heap w) < request w o -> good w s o.
Proof.
  intros HI HL HE Hsp Hrq. exists w, Threw, s. split; [eapply raw_throw; eauto|]. auto.
Qed.

Lemma good_append w s i a src :
  Inv w s -> small w -> live s i a -> Z.of_nat (length src) < 2 ^ 62 -> good w s (Append i src).
Proof.
  intros HI HS HL Hn. destruct (inv_get _ _ _ _ HI HL) as (b & Hb & Hg & HR).
  assert (HE : raw_step w (Append i src) =
    (do r <- bb_append (w_heap w) b (map Some src); Ok (put w i r, Done))).
  { cbn. now rewrite Hg. }
  destruct (bb_append_spec (w_heap w) b a (map Some src) HR HS ltac:(rewrite map_length; lia))
    as [E|(h' & b' & E & T & R)].
  - destruct E as (E & Hrq). eapply good_throw; eauto; [rewrite HE, E; reflexivity|eapply sp_append_t; eauto|].
    cbn. rewrite Hg. rewrite map_length in Hrq. exact Hrq.
  - eapply good_put; eauto.
    + intros h2 b2 E2. rewrite E in E2. injection E2 as <- <-. eauto.
    + unfold appended. rewrite map_length. now apply sp_append.
Qed.

Lemma good_append_buf w s i j a c :
  Inv w s -> small w -> live s i a -> live s j c -> i <> j -> good w s (AppendBuf i j).
Proof.
  intros HI HS HL HLc Hij. destruct (inv_get _ _ _ _ HI HL) as (b & Hb & Hg & HR).
  destruct (inv_get _ _ _ _ HI HLc) as (bc & Hbc & Hgc & HRc).
  assert (HE : raw_step w (AppendBuf i j) =
    (do r <- bb_append_buf (w_heap w) b (b_data bc) (b_size bc); Ok (put w i r, Done))).
  { cbn. rewrite Hg; cbn. now rewrite Hgc. }
  assert (Hszc : b_size bc = Z.of_nat (length (a_cells c)) /\ b_size bc < 2 ^ 62).
  { unfold brel, alen, small in *. destruct (a_sto c).
    - destruct HRc as (id & k & _ & _ & H). lia.
    - destruct HRc as (-> & ->). cbn. lia. }
  destruct (ensure_space_spec (w_heap w) b a (b_size bc) HR HS ltac:(lia))
    as [E|(h1 & b1 & E & T1 & R1 & S1 & C1)].
  - destruct E as (E & Hrq). eapply good_throw; eauto;
      [rewrite HE; unfold bb_append_buf; rewrite E; reflexivity|eapply sp_appbuf_t; eauto|].
    cbn. rewrite Hg, Hgc. exact Hrq.
  - assert (HRc1 : brel h1 bc c).
    { eapply brel_frame; [apply (t_limit _ _ _ _ T1)| |exact HRc]. intros id Hid.
      destruct (brel_valid _ _ _ HRc _ Hid) as (bl & El).
      apply (t_other _ _ _ _ T1); [now apply blk_lt in El|].
      intros Hd. apply Hij. apply (inv_uniq _ _ HI _ _ id); [exists b|exists bc]; auto. }
    pose proof (load_own _ _ _ HRc1) as EL.
    destruct (store_end h1 b1 _ (a_cells c) R1) as (h2 & E2 & T2 & R2).
    + intros Hne. unfold grown; cbn. destruct Hszc as (Hszc & _). rewrite Hszc.
      destruct (a_cells c); [congruence|]. cbn. now rewrite orb_true_r.
    + lia.
    + rewrite (t_limit _ _ _ _ T1). exact HS.
    + assert (EA : bb_append_buf (w_heap w) b (b_data bc) (b_size bc) =
        Ok (h2, mkBuf (b_data b1) ((b_size b1 + Z.of_nat (length (a_cells c))) mod SIZE_MOD) (b_capa b1))).
      { unfold bb_append_buf. rewrite E. cbn [bind]. rewrite EL. cbn [bind]. rewrite E2. cbn [bind].
        destruct Hszc as (-> & _). reflexivity. }
      refine (good_put _ _ _ _ _ _ _ (mkA (a_sto (grown a (b_size bc))) (a_cells (grown a (b_size bc)) ++ a_cells c)) HI HL Hb HE _ (ex_intro _ _ (ex_intro _ _ EA)) _).
      * intros h' b' Er. rewrite EA in Er. injection Er as <- <-. split; [eapply trans_trans; eauto|exact R2].
      * unfold grown; cbn. destruct Hszc as (-> & _).
        replace (0 <? Z.of_nat (length (a_cells c))) with (negb (length (a_cells c) =? 0)%nat)
          by (destruct (a_cells c); reflexivity).
        now apply sp_appbuf.
Qed.

Lemma split_at {A} (l : list A) o n : (o + n <= length l)%nat ->
  exists pre mid post, l = pre ++ mid ++ post /\ length pre = o /\ length mid = n.
Proof.
  intros H. exists (firstn o l), (firstn n (skipn o l)), (skipn n (skipn o l)).
  rewrite !firstn_skipn. rewrite !firstn_length, skipn_length. repeat split; lia.
Qed.

Lemma good_write w s i a off src :
  Inv w s -> small w -> live s i a -> 0 <= off -> off + Z.of_nat (length src) <= alen a ->
  good w s (Write i off src).
Proof.
  intros HI HS HL Ho Hn. destruct (inv_get _ _ _ _ HI HL) as (b & Hb & Hg & HR).
  destruct (split_at (a_cells a) (Z.to_nat off) (length src)) as (pre & old & post & Ea & Lp & Lo).
  { unfold alen in Hn. lia. }
  assert (Hoff : off = Z.of_nat (length pre)) by lia. subst off.
  assert (HE : raw_step w (Write i (Z.of_nat (length pre)) src) =
    (do r <- bb_write (w_heap w) b (Z.of_nat (length pre)) (map Some src) (Z.of_nat (length src));
     Ok (put w i r, Done))).
  { cbn. now rewrite Hg. }
  assert (Hsz : b_size b = alen a /\ alen a < 2 ^ 62).
  { unfold brel, small in *. unfold alen in *. destruct (a_sto a).
    - destruct HR as (id & k & _ & _ & H). lia.
    - destruct HR as (-> & ->). cbn. lia. }
  destruct Hsz as (Hsz & Hsm).
  assert (EW : bb_write (w_heap w) b (Z.of_nat (length pre)) (map Some src) (Z.of_nat (length src)) =
     (do h <- store_cells (w_heap w) (b_data b) (Z.of_nat (length pre)) (map Some src); Ok (h, b))).
  { unfold bb_write. rewrite (Z.mod_small (Z.of_nat (length src))) by (unfold SIZE_MOD; lia).
    rewrite Z.mod_small by (unfold SIZE_MOD; lia). unfold ab_assert.
    destruct (Z.leb_spec (Z.of_nat (length pre) + Z.of_nat (length src)) (b_size b)); [|lia].
    cbn [bind]. rewrite map_length.
    destruct (Z.ltb_spec (Z.of_nat (length src)) (Z.of_nat (length src))); [lia|].
    rewrite Nat2Z.id, firstn_all2 by (rewrite map_length; lia). reflexivity. }
  destruct src as [|x src].
  - destruct old; [|discriminate]. cbn [app] in Ea.
    eapply good_put with (a' := mkA (a_sto a) (pre ++ map Some [] ++ post)); eauto.
    + intros h' b' E. rewrite EW in E. injection E as <- <-. split; [now apply trans_refl|].
      cbn. rewrite <- Ea. destruct a. exact HR.
    + rewrite EW. cbn. eauto.
    + eapply sp_write with (old := []); eauto.
  - remember (x :: src) as l eqn:El.
    assert (Hsto : a_sto a = true).
    { unfold brel in HR. destruct (a_sto a); [reflexivity|]. destruct HR as (_ & Hnil).
      rewrite Hnil in Ea. symmetry in Ea. apply app_eq_nil in Ea. destruct Ea as (_ & Ea).
      apply app_eq_nil in Ea. destruct Ea as (-> & _). subst. discriminate. }
    pose proof HR as HR0. unfold brel in HR. rewrite Hsto in HR.
    destruct HR as (id & k & Hd & Hbl & Hc & Hlim & Hs).
    assert (ES : store_cells (w_heap w) (b_data b) (Z.of_nat (length pre)) (map Some l) =
      Ok (set_block (w_heap w) id (Some ((pre ++ map Some l ++ post) ++ repeat None k)))).
    { rewrite Hd, (store_cells_ok _ _ _ _ _ Hbl).
      - do 3 f_equal. rewrite Ea, <- !app_assoc.
        rewrite firstn_app, Nat.sub_diag, firstn_all, firstn_O, app_nil_r. do 2 f_equal.
        rewrite map_length, skipn_app, skipn_all2 by lia. cbn [app].
        replace (length pre + length l - length pre)%nat with (length l) by lia.
        rewrite skipn_app, skipn_all2 by lia. rewrite Lo, Nat.sub_diag. reflexivity.
      - rewrite map_length, Ea, !app_length. lia.
      - subst. discriminate. }
    eapply good_put with (a' := mkA (a_sto a) (pre ++ map Some l ++ post)); eauto.
    + intros h' b' E. rewrite EW, ES in E. injection E as <- <-.
      split; [eapply set_block_trans; eauto|].
      unfold brel; cbn. rewrite Hsto. exists id, k. split; [exact Hd|].
      split; [apply blk_set_eq; now apply blk_lt in Hbl|].
      replace (alen _) with (alen a); [auto|]. unfold alen; cbn.
      rewrite Ea, !app_length, map_length, Lo. reflexivity.
    + rewrite EW, ES. cbn. eauto.
    + eapply sp_write; eauto.
Qed.

Lemma good_read w s i a off n :
  Inv w s -> small w -> live s i a -> 0 <= off -> 0 <= n -> off + n <= alen a ->
  good w s (Read i off n).
Proof.
  intros HI HS HL Ho Hn0 Hn. destruct (inv_get _ _ _ _ HI HL) as (b & Hb & Hg & HR).
  destruct (split_at (a_cells a) (Z.to_nat off) (Z.to_nat n)) as (pre & mid & post & Ea & Lp & Lo).
  { unfold alen in Hn. lia. }
  assert (Hoff : off = Z.of_nat (length pre)) by lia.
  assert (Hnn : n = Z.of_nat (length mid)) by lia. subst off n.
  assert (Hsz : b_size b = alen a /\ alen a < 2 ^ 62).
  { unfold brel, small in *. unfold alen in *. destruct (a_sto a).
    - destruct HR as (id & k & _ & _ & H). lia.
    - destruct HR as (-> & ->). cbn. lia. }
  destruct Hsz as (Hsz & Hsm).
  exists w, (Got mid), s. split; [|split; [eapply sp_read; eauto|split; [auto|split; [auto|discriminate]]]].
  apply raw_ok. cbn [raw_step]. rewrite Hg. cbn [bind]. unfold bb_read.
  rewrite Z.mod_small by (unfold SIZE_MOD; lia). unfold ab_assert.
  destruct (Z.leb_spec (Z.of_nat (length pre) + Z.of_nat (length mid)) (b_size b)); [|lia].
  cbn [bind]. unfold brel in HR. destruct (a_sto a).
  - destruct HR as (id & k & Hd & Hbl & Hc & Hlim & Hs).
    rewrite Hd, (load_cells_ok _ _ _ _ _ Hbl) by (rewrite Ea, !app_length; lia).
    cbn [bind]. do 3 f_equal. rewrite Ea, <- !app_assoc.
    rewrite skipn_app, skipn_all, Nat.sub_diag. cbn [skipn app].
    rewrite firstn_app, firstn_all, Nat.sub_diag, firstn_O, app_nil_r. reflexivity.
  - destruct HR as (-> & Hnil). rewrite Hnil in Ea. symmetry in Ea.
    apply app_eq_nil in Ea. destruct Ea as (-> & Ea).
    apply app_eq_nil in Ea. destruct Ea as (-> & _). reflexivity.
Qed.

Lemma free_own h b a : brel h b a ->
  exists h', free h (b_data b) = Ok h' /\ trans h b h' (mkBuf None 0 0).
Proof.
  unfold brel. destruct (a_sto a).
  - intros (id & k & Hd & Hbl & _). rewrite Hd. eexists. split; [eapply free_ok; eauto|].
    eapply set_block_trans; eauto.
  - intros (-> & _). exists h. split; [reflexivity|]. now apply trans_refl.
Qed.

Lemma good_clear w s i a : Inv w s -> live s i a -> good w s (Clear i).
Proof.
  intros HI HL. destruct (inv_get _ _ _ _ HI HL) as (b & Hb & Hg & HR).
  destruct (free_own _ _ _ HR) as (h' & E & T).
  eapply good_put with (a' := mkA false []) (r := bb_clear (w_heap w) b); eauto.
  - cbn. now rewrite Hg.
  - unfold bb_clear. rewrite E. cbn. intros ? ? [= <- <-]. split; [exact T|].
    split; reflexivity.
  - unfold bb_clear. rewrite E. cbn. eauto.
  - eapply sp_clear; eauto.
Qed.

Lemma good_destroy w s i a : Inv w s -> live s i a -> good w s (Destroy i).
Proof.
  intros HI HL. destruct (inv_get _ _ _ _ HI HL) as (b & Hb & Hg & HR).
  destruct (free_own _ _ _ HR) as (h' & E & T).
  exists (mkWorld h' (set_nth i None (w_bufs w)) (w_out w)), Done, (upd s i None).
  split; [apply raw_ok; cbn; rewrite Hg; cbn; unfold bb_destroy; rewrite E; reflexivity|].
  split; [eapply sp_destroy; eauto|].
  split; [|split; [cbn; apply (t_limit _ _ _ _ T)|discriminate]].
  assert (I2 : Inv (put w i (h', mkBuf None 0 0)) (upd s i (Some (mkA false [])))).
  { eapply Inv_put; eauto. split; reflexivity. }
  assert (Hi : (i < length (w_bufs w))%nat) by now apply nth_some_lt in Hb.
  assert (His : (i < length s)%nat) by now apply nth_some_lt in HL.
  assert (Ho : forall j id, owns (mkWorld h' (set_nth i None (w_bufs w)) (w_out w)) j id <->
                            owns (put w i (h', mkBuf None 0 0)) j id).
  { intros j id. unfold owns, put; cbn. destruct (Nat.eq_dec j i) as [->|N].
    - rewrite !nth_set_nth_eq by auto. split; intros (x & Hx & Hd); [discriminate|].
      injection Hx as <-. discriminate.
    - rewrite !nth_set_nth_neq by auto. tauto. }
  constructor.
  - intros j. pose proof (inv_rel _ _ I2 j) as R. cbn in *. unfold upd in *.
    destruct (Nat.eq_dec j i) as [->|N].
    + rewrite !nth_set_nth_eq by auto. exact I.
    + rewrite !nth_set_nth_neq in * by auto. exact R.
  - intros j k id A B. apply Ho in A, B. eapply (inv_uniq _ _ I2); eauto.
  - exact (inv_out_live _ _ I2).
  - intros id j Hin O. apply Ho in O. exact (inv_out_excl _ _ I2 _ _ Hin O).
  - exact (inv_out_once _ _ I2).
  - intros id bl Hbl. destruct (inv_noleak _ _ I2 _ _ Hbl) as [(j & O)|O]; [|auto].
    left. exists j. now apply Ho.
Qed.

Lemma good_resize w s i a n :
  Inv w s -> small w -> live s i a -> 0 <= n -> (0 < n \/ a_sto a = false) -> good w s (Resize i n).
Proof.
  intros HI HS HL Hn Hz. destruct (inv_get _ _ _ _ HI HL) as (b & Hb & Hg & HR).
  assert (HE : raw_step w (Resize i n) =
    (do r <- bb_resize (w_heap w) b n; Ok (put w i r, Done))).
  { cbn. now rewrite Hg. }
  assert (Hcase : n = 0 \/ 0 < n) by lia. destruct Hcase as [->|Hpos].
  - destruct Hz as [Hz|Hz]; [lia|]. unfold brel in HR. rewrite Hz in HR.
    destruct HR as (-> & Hnil).
    eapply good_put with (a' := mkA false []); eauto.
    + intros h' b'. cbn. intros [= <- <-]. split; [now apply trans_refl|split; reflexivity].
    + cbn. eauto.
    + pose proof (sp_resize_down s i a [] [] HL Hnil) as Hsp. exact Hsp.
  - destruct (resize_capacity_spec _ b a n HR Hpos) as [E|(h' & b' & E & T & E1 & E2 & R)].
    + destruct E as (E & Hrq). eapply good_throw; eauto;
        [rewrite HE; unfold bb_resize; rewrite E; reflexivity|eapply sp_resize_t; eauto].
    + destruct (Z_le_gt_dec n (alen a)) as [Hle|Hgt].
      * eapply good_put with (a' := cut n a); eauto.
        -- intros h2 b2 E3. unfold bb_resize in E3. rewrite E in E3. injection E3 as <- <-.
           split; [eapply trans_data_r; [|exact T]; reflexivity|].
           replace (mkBuf (b_data b') n (b_capa b')) with (mkBuf (b_data b') (alen (cut n a)) n); auto.
           unfold cut, alen in *; cbn. rewrite E2, firstn_length. f_equal. lia.
        -- unfold bb_resize. rewrite E. cbn. eauto.
        -- unfold cut. destruct (split_at (a_cells a) 0 (Z.to_nat n)) as (pre & mid & post & Ea & Lp & Lm).
           { unfold alen in Hle. lia. }
           destruct pre; [|discriminate]. cbn in Ea.
           pose proof (sp_resize_down s i a mid post HL Ea) as Hsp.
           rewrite Lm in Hsp. rewrite Z2Nat.id in Hsp by lia.
           destruct (Nat.eqb_spec (Z.to_nat n) 0); [lia|].
           rewrite Ea, firstn_app, Lm, Nat.sub_diag, firstn_O, app_nil_r.
           rewrite firstn_all2 by lia. exact Hsp.
      * set (more := (Z.to_nat (n - alen a))).
        eapply good_put with (a' := mkA true (a_cells a ++ repeat None more)); eauto.
        -- intros h2 b2 E3. unfold bb_resize in E3. rewrite E in E3. injection E3 as <- <-.
           split; [eapply trans_data_r; [|exact T]; reflexivity|].
           unfold brel, cut in R; cbn in R. destruct R as (id & k & Hd & Hbl & Hc & Hl & Hs).
           rewrite firstn_all2 in Hbl by (unfold alen in Hgt; lia).
           unfold alen in *; cbn in *. rewrite firstn_length in Hc.
           unfold brel, alen; cbn. exists id, 0%nat. rewrite app_length, repeat_length.
           assert (k = more) as -> by (unfold more; lia).
           cbn [repeat]. rewrite app_nil_r. split; [exact Hd|]. split; [exact Hbl|].
           rewrite E2. unfold more. repeat split; lia.
        -- unfold bb_resize. rewrite E. cbn. eauto.
        -- pose proof (sp_resize_up s i a more HL) as Hsp.
           assert (En : alen a + Z.of_nat more = n) by (unfold more; lia).
           rewrite En in Hsp.
           destruct (Nat.eqb_spec (length (a_cells a) + more) 0); [unfold alen in *; lia|]. exact Hsp.
Qed.

Lemma good_reserve w s i a n :
  Inv w s -> small w -> live s i a -> 0 <= n -> good w s (Reserve i n).
Proof.
  intros HI HS HL Hn. destruct (inv_get _ _ _ _ HI HL) as (b & Hb & Hg & HR).
  assert (HE : raw_step w (Reserve i n) =
    (do r <- bb_reserve (w_heap w) b n; Ok (put w i r, Done))).
  { cbn. now rewrite Hg. }
  unfold bb_reserve in HE. destruct (Z.ltb_spec (b_capa b) n) as [Hlt|Hge].
  - assert (Hca : alen a <= b_capa b /\ b_size b = alen a /\ 0 <= alen a).
    { unfold brel, alen in *. destruct (a_sto a).
      - destruct HR as (id & k & _ & _ & H). lia.
      - destruct HR as (-> & ->). cbn. lia. }
    destruct (resize_capacity_spec _ b a n HR ltac:(lia)) as [E|(h' & b' & E & T & E1 & E2 & R)].
    + destruct E as (E & Hrq). eapply good_throw; eauto; [rewrite HE, E; reflexivity|eapply sp_reserve_t; eauto].
    + eapply good_put; eauto.
      * intros h2 b2 E3. rewrite E in E3. injection E3 as <- <-. split; [exact T|].
        replace (mkBuf (b_data b') (alen (cut n a)) n) with b' in R; [exact R|].
        destruct b' as [d sz c]; cbn in *. subst. unfold cut, alen in *; cbn.
        rewrite firstn_length. f_equal. lia.
      * pose proof (sp_reserve s i a n HL) as Hsp. unfold cut.
        rewrite firstn_all2 by (unfold alen in *; lia).
        destruct (Z.ltb_spec 0 n); [|lia]. rewrite orb_true_r in Hsp. exact Hsp.
  - eapply good_put with (a' := a); eauto.
    + intros h2 b2 [= <- <-]. split; [now apply trans_refl|auto].
    + pose proof (sp_reserve s i a n HL) as Hsp.
      replace (a_sto a || (0 <? n)) with (a_sto a) in Hsp; [destruct a; exact Hsp|].
      unfold brel in HR. destruct (a_sto a); [reflexivity|].
      destruct HR as (-> & _). cbn in Hge. destruct (Z.ltb_spec 0 n); [lia|reflexivity].
Qed.

Lemma shrink_spec w s i a b :
  Inv w s -> small w -> live s i a -> nth_error (w_bufs w) i = Some (Some b) ->
  brel (w_heap w) b a -> (a_cells a <> [] \/ a_sto a = false) ->
  exists h' b', bb_shrink_to_fit (w_heap w) b = Ok (h', b') /\ trans (w_heap w) b h' b' /\
    brel h' b' (mkA (negb (alen a =? 0)) (a_cells a)).
Proof.
  intros HI HS HL Hb HR Hz. unfold bb_shrink_to_fit.
  destruct (a_sto a) eqn:Es.
  - destruct Hz as [Hz|Hz]; [|discriminate].
    assert (Hp : 0 < alen a /\ b_size b = alen a).
    { unfold brel in HR. rewrite Es in HR. destruct HR as (id & k & _ & _ & H).
      unfold alen in *. destruct (a_cells a); [congruence|cbn in *; lia]. }
    destruct Hp as (Hp & Hsz). rewrite Hsz.
    destruct (resize_capacity_spec _ b a (alen a) HR ltac:(lia)) as [(E & Hl)|(h' & b' & E & T & E1 & E2 & R)].
    { exfalso. unfold brel in HR. rewrite Es in HR. destruct HR as (id & k & _ & _ & H). lia. }
    exists h', b'. split; [exact E|]. split; [exact T|].
    destruct (Z.eqb_spec (alen a) 0); [lia|]. cbn [negb].
    unfold cut in R. rewrite firstn_all2 in R by (unfold alen; lia).
    replace b' with (mkBuf (b_data b') (alen (mkA true (a_cells a))) (alen a)); [exact R|].
    destruct b'; cbn in *. subst. unfold alen in *; cbn. congruence.
  - unfold brel in HR. rewrite Es in HR. destruct HR as (-> & Hnil).
    exists (w_heap w), (mkBuf None 0 0). split; [reflexivity|]. split; [now apply trans_refl|].
    unfold alen. rewrite Hnil. cbn. split; reflexivity.
Qed.

Lemma good_shrink w s i a :
  Inv w s -> small w -> live s i a -> (a_cells a <> [] \/ a_sto a = false) -> good w s (Shrink i).
Proof.
  intros HI HS HL Hz. destruct (inv_get _ _ _ _ HI HL) as (b & Hb & Hg & HR).
  assert (HE : raw_step w (Shrink i) =
    (do r <- bb_shrink_to_fit (w_heap w) b; Ok (put w i r, Done))).
  { cbn. now rewrite Hg. }
  destruct (shrink_spec _ _ _ _ _ HI HS HL Hb HR Hz) as (h' & b' & E & T & R).
  - eapply good_put; eauto.
    + intros h2 b2 E3. rewrite E in E3. injection E3 as <- <-. eauto.
    + now apply sp_shrink.
Qed.

(** Handing the storage to the caller. *)
Lemma Inv_release w s i a b :
  Inv w s -> live s i a -> nth_error (w_bufs w) i = Some (Some b) ->
  Inv (mkWorld (w_heap w) (set_nth i (Some (mkBuf None 0 0)) (w_bufs w)) (b_data b :: w_out w))
      (upd s i (Some (mkA false []))).
Proof.
  intros HI HL Hb.
  assert (Hi : (i < length (w_bufs w))%nat) by now apply nth_some_lt in Hb.
  assert (His : (i < length s)%nat) by now apply nth_some_lt in HL.
  destruct (inv_buf _ _ _ _ HI HL) as (b0 & Hb0 & HR). rewrite Hb in Hb0. injection Hb0 as <-.
  set (w' := mkWorld _ _ _).
  assert (Ho : forall j id, owns w' j id <-> owns w j id /\ j <> i).
  { intros j id. unfold owns, w'; cbn. destruct (Nat.eq_dec j i) as [->|N].
    - rewrite nth_set_nth_eq by auto. split; [|tauto].
      intros (x & [= <-] & Hd). discriminate.
    - rewrite nth_set_nth_neq by auto. tauto. }
  assert (Hin : forall id, In id (ids (w_out w')) <-> b_data b = Some id \/ In id (ids (w_out w))).
  { intros id. unfold w', ids; cbn. rewrite in_app_iff. destruct (b_data b); cbn.
    - split; intros [H|H]; auto; [destruct H as [->|[]]; auto|injection H as ->; auto].
    - split; intros [H|H]; auto; [tauto|discriminate]. }
  assert (Hown : forall id, b_data b = Some id -> owns w i id).
  { intros id Hd. exists b. auto. }
  constructor.
  - intros j. unfold w'; cbn. unfold upd. destruct (Nat.eq_dec j i) as [->|N].
    + rewrite !nth_set_nth_eq by auto. split; reflexivity.
    + rewrite !nth_set_nth_neq by auto. apply (inv_rel _ _ HI).
  - intros j k id A B. apply Ho in A, B. eapply (inv_uniq _ _ HI); [apply A|apply B].
  - intros id H. apply Hin in H. destruct H as [H|H]; [exact (brel_valid _ _ _ HR _ H)|].
    exact (inv_out_live _ _ HI _ H).
  - intros id j H O. apply Ho in O. apply Hin in H. destruct O as (O & N). destruct H as [H|H].
    + apply N. apply (inv_uniq _ _ HI _ _ id); auto.
    + exact (inv_out_excl _ _ HI _ _ H O).
  - unfold w', ids; cbn. destruct (b_data b) as [id|] eqn:Ed; cbn; [|exact (inv_out_once _ _ HI)].
    constructor; [|exact (inv_out_once _ _ HI)].
    intros H. exact (inv_out_excl _ _ HI _ _ H (Hown _ eq_refl)).
  - intros id bl Hbl. destruct (inv_noleak _ _ HI _ _ Hbl) as [(j & O)|O].
    + destruct (Nat.eq_dec j i) as [->|N].
      * right. apply Hin. left. destruct O as (x & Hx & Hd). congruence.
      * left. exists j. now apply Ho.
    + right. apply Hin. auto.
Qed.

Lemma good_release w s i a : Inv w s -> live s i a -> good w s (Release i).
Proof.
  intros HI HL. destruct (inv_get _ _ _ _ HI HL) as (b & Hb & Hg & HR).
  eexists _, _, _. split; [apply raw_ok; cbn; rewrite Hg; reflexivity|].
  split; [eapply sp_release; eauto|]. split; [eapply Inv_release; eauto|split; [reflexivity|discriminate]].
Qed.

Lemma good_release_span w s i a :
  Inv w s -> small w -> live s i a -> (a_cells a <> [] \/ a_sto a = false) ->
  good w s (ReleaseSpan i).
Proof.
  intros HI HS HL Hz. destruct (inv_get _ _ _ _ HI HL) as (b & Hb & Hg & HR).
  destruct (shrink_spec _ _ _ _ _ HI HS HL Hb HR Hz) as (h' & b' & E & T & R).
  - pose proof (load_own _ _ _ R) as EL. cbn in EL.
    assert (I2 : Inv (put w i (h', b')) (upd s i (Some (mkA (negb (alen a =? 0)) (a_cells a))))).
    { eapply Inv_put; eauto. }
    assert (Hi : (i < length (w_bufs w))%nat) by now apply nth_some_lt in Hb.
    assert (His : (i < length s)%nat) by now apply nth_some_lt in HL.
    pose proof (Inv_release (put w i (h', b')) _ i (mkA (negb (alen a =? 0)) (a_cells a)) b' I2) as I3.
    unfold live, upd, put in I3; cbn in I3. rewrite !nth_set_nth_eq in I3 by auto.
    specialize (I3 eq_refl eq_refl).
    assert (Hss : forall A (l : list A) n x y, set_nth n x (set_nth n y l) = set_nth n x l).
    { clear. intros A l; induction l; destruct n; cbn; intros; congruence. }
    rewrite !Hss in I3.
    eexists _, _, _. split.
    + apply raw_ok. cbn. rewrite Hg. cbn. unfold bb_release_span. rewrite E. cbn.
      unfold span_cells. rewrite EL. reflexivity.
    + split; [eapply sp_relspan; eauto|]. split; [exact I3|]. split; [cbn; apply (t_limit _ _ _ _ T)|discriminate].
Qed.

Lemma good_move w s i a : Inv w s -> live s i a -> good w s (Move i).
Proof.
  intros HI HL. destruct (inv_get _ _ _ _ HI HL) as (b & Hb & Hg & HR).
  assert (Hi : (i < length (w_bufs w))%nat) by now apply nth_some_lt in Hb.
  assert (His : (i < length s)%nat) by now apply nth_some_lt in HL.
  pose proof (Inv_len _ _ HI) as Hlen.
  set (w' := mkWorld (w_heap w) (set_nth i (Some (mkBuf None 0 0)) (w_bufs w) ++ [Some b]) (w_out w)).
  exists w', Done, (upd s i (Some (mkA false [])) ++ [Some a]).
  split; [apply raw_ok; cbn; rewrite Hg; cbn; destruct b; reflexivity|].
  split; [eapply sp_move; eauto|]. split; [|split; [reflexivity|discriminate]].
  set (n := length (w_bufs w)).
  assert (Hn : forall j, nth_error (w_bufs w') j =
      if (j =? n)%nat then Some (Some b) else if (j =? i)%nat then Some (Some (mkBuf None 0 0))
      else nth_error (w_bufs w) j).
  { intros j. unfold w'; cbn. rewrite nth_error_snoc, set_nth_length. fold n.
    destruct (Nat.ltb_spec j n), (Nat.eqb_spec j n), (Nat.eqb_spec j i); try lia; try reflexivity.
    - subst. now apply nth_set_nth_eq.
    - apply nth_set_nth_neq; congruence.
    - symmetry. apply nth_error_None. fold n. lia. }
  assert (Hs : forall j, nth_error (upd s i (Some (mkA false [])) ++ [Some a]) j =
      if (j =? n)%nat then Some (Some a) else if (j =? i)%nat then Some (Some (mkA false []))
      else nth_error s j).
  { intros j. unfold upd. rewrite nth_error_snoc, set_nth_length, <- Hlen. fold n.
    destruct (Nat.ltb_spec j n), (Nat.eqb_spec j n), (Nat.eqb_spec j i); try lia; try reflexivity.
    - subst. now apply nth_set_nth_eq.
    - apply nth_set_nth_neq; congruence.
    - symmetry. apply nth_error_None. unfold n in *. lia. }
  assert (Ho : forall j id, owns w' j id <->
      (j = n /\ owns w i id) \/ (j <> i /\ j <> n /\ owns w j id)).
  { intros j id. unfold owns. rewrite Hn. destruct (Nat.eqb_spec j n) as [->|N].
    - split.
      + intros (x & [= <-] & Hd). left. eauto.
      + intros [(_ & x & Hx & Hd)|(_ & N & _)]; [|congruence].
        rewrite Hb in Hx. injection Hx as <-. eauto.
    - destruct (Nat.eqb_spec j i) as [->|N2].
      + split; [intros (x & [= <-] & Hd); discriminate|]. intros [(-> & _)|(? & _)]; congruence.
      + split; [intros H; right; auto|]. intros [(? & _)|(_ & _ & H)]; [congruence|auto]. }
  assert (Hcase : forall j id, owns w' j id -> exists k, owns w k id /\
       (k = i -> j = n) /\ (k <> i -> j = k)).
  { intros j id O. apply Ho in O. destruct O as [(-> & O)|(N1 & N2 & O)].
    - exists i. split; auto. split; [auto|congruence].
    - exists j. split; auto. split; [congruence|auto]. }
  constructor.
  - intros j. rewrite Hn, Hs. unfold w'; cbn [w_heap].
    destruct (j =? n)%nat; [exact HR|]. destruct (j =? i)%nat; [split; reflexivity|].
    apply (inv_rel _ _ HI).
  - intros j k id A B. apply Hcase in A, B. destruct A as (j' & A & A1 & A2), B as (k' & B & B1 & B2).
    assert (j' = k') by (eapply (inv_uniq _ _ HI); eauto). subst k'.
    destruct (Nat.eq_dec j' i) as [E|N]; [rewrite (A1 E), (B1 E)|rewrite (A2 N), (B2 N)]; reflexivity.
  - exact (inv_out_live _ _ HI).
  - intros id j Hin O. apply Hcase in O. destruct O as (k & O & _).
    exact (inv_out_excl _ _ HI _ _ Hin O).
  - exact (inv_out_once _ _ HI).
  - intros id bl Hbl. destruct (inv_noleak _ _ HI _ _ Hbl) as [(j & O)|O]; [|auto].
    left. destruct (Nat.eq_dec j i) as [->|N].
    + exists n. apply Ho. auto.
    + exists j. apply Ho. right. split; auto. split; auto.
      destruct O as (x & Hx & _). apply nth_some_lt in Hx. fold n in Hx. lia.
Qed.

Lemma good_step w s o : Inv w s -> small w -> allowed s o -> good w s o.
Proof.
  intros HI HS HA. destruct o; cbn in HA.
  - now apply good_new.
  - destruct HA as (a & HL & H). now apply (good_copy _ _ _ a).
  - destruct HA as (a & HL). now apply (good_move _ _ _ a).
  - destruct HA as (a & HL). now apply (good_destroy _ _ _ a).
  - destruct HA as (a & HL & H). now apply (good_append _ _ _ a).
  - destruct HA as ((a & HL) & (c & HC) & H). now apply (good_append_buf _ _ _ _ a c).
  - destruct HA as (a & HL & H1 & H2). now apply (good_write _ _ _ a).
  - destruct HA as (a & HL & H1 & H2 & H3). now apply (good_read _ _ _ a).
  - destruct HA as (a & HL). now apply (good_clear _ _ _ a).
  - destruct HA as (a & HL & H1 & H2). now apply (good_resize _ _ _ a).
  - destruct HA as (a & HL & H1). now apply (good_reserve _ _ _ a).
  - destruct HA as (a & HL & H1). now apply (good_shrink _ _ _ a).
  - destruct HA as (a & HL). now apply (good_release _ _ _ a).
  - destruct HA as (a & HL & H1). now apply (good_release_span _ _ _ a).
Qed.

Lemma good_run p : forall w s, Inv w s -> small w -> allowed_run s p ->
  exists w' xs s', run w p = Ok (w', xs) /\ spec_run s p xs s' /\ Inv w' s' /\
    h_limit (w_heap w') = h_limit (w_heap w).
Proof.
  induction p as [|o k IH]; intros w s HI HS HA.
  - exists w, [], s. split; [reflexivity|]. split; [constructor|auto].
  - inversion HA as [|? ? ? Ho Hr]; subst.
    destruct (good_step _ _ _ HI HS Ho) as (w1 & x & s1 & E & Sp & I1 & L1 & _).
    destruct (IH x w1 s1 I1) as (w2 & xs & s2 & E2 & Sp2 & I2 & L2).
    + unfold small in *. congruence.
    + exact (Hr _ _ Sp).
    + exists w2, (x :: xs), s2. cbn. rewrite E. cbn. rewrite E2. cbn.
      split; [reflexivity|]. split; [econstructor; eauto|]. split; [auto|congruence].
Qed.

Lemma reach_inv w p w' p' : reach w p w' p' -> forall s, Inv w s -> small w -> allowed_run s p ->
  exists s', Inv w' s' /\ allowed_run s' p' /\ h_limit (w_heap w') = h_limit (w_heap w).
Proof.
  induction 1 as [w p|w o k w1 x w2 p E R IH]; intros s HI HS HA; [eauto|].
  inversion HA as [|? ? ? Ho Hr]; subst.
  destruct (good_step _ _ _ HI HS Ho) as (w1' & x' & s1 & E' & Sp & I1 & L1 & _).
  rewrite E in E'. injection E' as <- <-.
  destruct (IH s1 I1) as (s2 & A & B & C).
  - unfold small in *. congruence.
  - exact (Hr _ _ Sp).
  - exists s2. split; [auto|]. split; [auto|congruence].
Qed.

(** * Deciding [allowed_run] for straight-line programs *)

Definition next1 (a : abuf) (o : op) : option abuf :=
  match o with
  | Append _ src => Some (mkA (a_sto a || negb (length src =? 0)%nat) (a_cells a ++ map Some src))
  | Write _ off src =>
      let o := Z.to_nat off in
      Some (mkA (a_sto a) (firstn o (a_cells a) ++ map Some src ++ skipn (o + length src) (a_cells a)))
  | Read _ _ _ => Some a
  | Clear _ | Release _ | ReleaseSpan _ | Move _ => Some (mkA false [])
  | Destroy _ => None
  | Resize _ n =>
      let k := Z.to_nat n in
      Some (mkA (negb (k =? 0)%nat)
        (firstn k (a_cells a) ++ repeat None (k - length (a_cells a))))
  | Reserve _ n => Some (mkA (a_sto a || (0 <? n)) (a_cells a))
  | Shrink _ => Some (mkA (negb (alen a =? 0)) (a_cells a))
  | _ => Some a
  end.

Definition op_index (o : op) : nat :=
  match o with
  | New _ => 0 | Copy i | Move i | Destroy i | Append i _ | AppendBuf i _ | Write i _ _
  | Read i _ _ | Clear i | Resize i _ | Reserve i _ | Shrink i | Release i | ReleaseSpan i => i
  end.

Definition look (s : specs) (i : nat) : option abuf :=
  match nth_error s i with Some (Some a) => Some a | _ => None end.

Definition next (s : specs) (o : op) : specs :=
  match o with
  | New _ => s ++ [Some (mkA true [])]
  | AppendBuf i j =>
      match look s i, look s j with
      | Some a, Some c =>
          upd s i (Some (mkA (a_sto a || negb (length (a_cells c) =? 0)%nat) (a_cells a ++ a_cells c)))
      | _, _ => s
      end
  | _ =>
      match look s (op_index o) with
      | Some a => match o with
                  | Copy _ => s ++ [Some a]
                  | Move i => upd s i (next1 a o) ++ [Some a]
                  | Read _ _ _ => s
                  | _ => upd s (op_index o) (next1 a o)
                  end
      | None => s
      end
  end.

Lemma next_correct s o x s' : spec_step s o x s' -> x <> Threw -> s' = next s o.
Proof.
  assert (HL : forall i a, live s i a -> look s i = Some a).
  { intros i a. unfold live, look. now intros ->. }
  intros H Hx. destruct H; try congruence; cbn [next op_index];
    repeat match goal with H : live _ _ _ |- _ => rewrite (HL _ _ H); clear H end;
    cbn [next1]; try reflexivity.
  - do 3 f_equal. rewrite H0, Nat2Z.id, firstn_app, Nat.sub_diag, firstn_all, firstn_O, app_nil_r.
    do 2 f_equal. rewrite skipn_app, skipn_all2 by lia. cbn [app].
    replace (length pre + length src - length pre)%nat with (length old) by lia.
    now rewrite skipn_app, skipn_all, Nat.sub_diag.
  - rewrite Nat2Z.id. do 3 f_equal. rewrite H0, app_length.
    replace (length keep - (length keep + length drop))%nat with 0%nat by lia.
    cbn [repeat]. now rewrite app_nil_r, firstn_app, Nat.sub_diag, firstn_all, firstn_O, app_nil_r.
  - unfold alen. rewrite <- Nat2Z.inj_add, Nat2Z.id. do 3 f_equal.
    rewrite firstn_all2 by lia. do 2 f_equal. lia.
Qed.

Definition allowedb (s : specs) (o : op) : bool :=
  match o with
  | New n => 0 <? n
  | AppendBuf i j =>
      match look s i, look s j with Some _, Some _ => negb (i =? j)%nat | _, _ => false end
  | _ =>
      match look s (op_index o) with
      | None => false
      | Some a =>
        match o with
        | Copy _ => a_sto a
        | Append _ src => Z.of_nat (length src) <? 2 ^ 62
        | Write _ off src => (0 <=? off) && (off + Z.of_nat (length src) <=? alen a)
        | Read _ off n => (0 <=? off) && (0 <=? n) && (off + n <=? alen a)
        | Resize _ n => (0 <=? n) && ((0 <? n) || negb (a_sto a))
        | Reserve _ n => 0 <=? n
        | Shrink _ | ReleaseSpan _ => (negb (length (a_cells a) =? 0)%nat) || negb (a_sto a)
        | _ => true
        end
      end
  end.

Lemma allowedb_correct s o : allowedb s o = true -> allowed s o.
Proof.
  assert (HL : forall i a, look s i = Some a -> live s i a).
  { intros i a. unfold live, look. destruct (nth_error s i) as [[b|]|]; congruence. }
  destruct o; cbn [allowedb allowed op_index]; intros H;
    repeat match goal with
    | H : context[look s ?i] |- _ => let E := fresh "E" in destruct (look s i) as [?a|] eqn:E; [|discriminate];
        apply HL in E
    end; eauto; try (eexists; split; [eassumption|]); try lia; try (repeat split; lia).
  - repeat split; eauto. lia.
  - destruct (a_sto a); [left|right; reflexivity]. intros En. rewrite En in H. discriminate.
  - destruct (a_sto a); [left|right; reflexivity]. intros En. rewrite En in H. discriminate.
Qed.

Fixpoint checked (s : specs) (ops : list op) : bool :=
  match ops with
  | [] => true
  | o :: ops => allowedb s o && checked (next s o) ops
  end.

Lemma checked_correct ops : forall s, checked s ops = true -> allowed_run s (straight ops).
Proof.
  induction ops as [|o ops IH]; cbn [checked straight]; intros s H; [constructor|].
  apply andb_prop in H. destruct H as (H1 & H2).
  constructor; [now apply allowedb_correct|].
  intros x s' Hs. assert (D : x = Threw \/ x <> Threw) by (destruct x; (now left) || (right; congruence)).
  destruct D as [->|D]; [constructor|].
  rewrite (next_correct _ _ _ _ Hs D) in *.
  destruct x; try congruence; now apply IH.
Qed.
