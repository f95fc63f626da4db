From Coq Require Import List Arith Bool Lia Permutation.
From Verif Require Import Outcome RcModel RcSpec RcProofs.
Import ListNotations.
Local Open Scope nat_scope.

(** * The state of a program: counts exact (with loose handles [R], in temporaries), contents as in the world *)
Definition counted (h : heap) : Prop := forall a o, live h a o -> 0 < count o.
Record SIR (p : prog) (w : world) (R : list nat) : Prop := mkSIR {
  si_vars : locals p = vars w;
  si_len : length (mem p) = length (objs w);
  si_objs : forall a o, live (mem p) a o -> nth_error (objs w) a = Some (fields o);
  si_inv : Inv (mem p) (R ++ local_handles (locals p));
  si_counted : counted (mem p) }.

Definition lh (x : option (option nat)) : list nat := match x with Some (Some a) => [a] | _ => [] end.
Lemma local_put ls i x y : nth_error ls i = Some x -> forall a,
  cnt (local_handles (put ls i y)) a + cnt (lh x) a = cnt (local_handles ls) a + cnt (lh y) a.
Proof.
  revert i. induction ls as [|z ls IH]; intros [|i] H a; try discriminate; cbn [put nth_error] in *; unfold local_handles in *; cbn [flat_map];
    rewrite !cnt_app.
  - injection H as ->. unfold lh. destruct x as [[?|]|], y as [[?|]|]; lia.
  - specialize (IH i H a). lia.
Qed.
Lemma local_in ls i a : nth_error ls i = Some (Some (Some a)) -> In a (local_handles ls).
Proof. intros H. unfold local_handles. apply in_flat_map. exists (Some (Some a)). split; [eapply nth_error_In; eauto|now left]. Qed.
Lemma inv_cnt h R R' : (forall a, cnt R a = cnt R' a) -> Inv h R -> Inv h R'.
Proof. intros E [I1 I2]. split; intros a; rewrite <- E; auto. Qed.

(** * Places *)
Definition held (p : prog) (l : place) : Prop := match l with Local _ => True | Member a _ => exists o, live (mem p) a o end.
Lemma place_dec (p q : place) : {p = q} + {p <> q}.
Proof. decide equality; apply Nat.eq_dec. Qed.

Lemma get_ok p w R l v : SIR p w R -> at_place w l = Some v -> held p l -> get p l = Ok v.
Proof.
  intros S A H. destruct l as [i|a k]; cbn in *.
  - rewrite (si_vars _ _ _ S). destruct (nth_error (vars w) i) as [x|]; [|discriminate]. subst x. reflexivity.
  - destruct H as (o & L). unfold get_field. rewrite (load_live _ _ _ L). cbn [bind]. rewrite (si_objs _ _ _ S _ _ L) in A. now rewrite A.
Qed.
Lemma handle_live p w R l a : SIR p w R -> at_place w l = Some (Some a) -> held p l -> exists o, live (mem p) a o.
Proof.
  intros S A H. destruct l as [i|b k]; cbn in *.
  - destruct (nth_error (vars w) i) as [x|] eqn:E; [|discriminate]. subst x. rewrite <- (si_vars _ _ _ S) in E.
    destruct (inv_root _ _ a (si_inv _ _ _ S)) as (o & L & _); [apply in_or_app; right; eapply local_in; eauto|]. eauto.
  - destruct H as (o & L). rewrite (si_objs _ _ _ S _ _ L) in A.
    destruct (inv_kid _ _ _ _ a (si_inv _ _ _ S) L (si_counted _ _ _ S _ _ L)) as (oa & La & _); [apply okids_in; eauto|]. eauto.
Qed.
Lemma via_end w l ks ps l' : via w l ks ps l' -> exists v, at_place w l' = Some v.
Proof. induction 1; eauto. Qed.
Lemma walk_ok p w R l ks ps l' : SIR p w R -> via w l ks ps l' -> held p l -> walk p l ks = Ok l' /\ held p l'.
Proof.
  intros S V. induction V as [l v A|l a k ks ps l' A V IH]; intros H; cbn [walk]; [auto|].
  rewrite (get_ok _ _ _ _ _ S A H). cbn [bind]. apply IH. cbn. eapply handle_live; eauto.
Qed.
Lemma eval_ok p w R x ps l : SIR p w R -> denotes w x ps l -> eval p x = Ok l /\ held p l.
Proof. intros S D. eapply walk_ok; eauto. exact I. Qed.
(** There is a way to a place that does not read it *)
Lemma via_shortcut w l0 ks ps l : via w l0 ks ps l -> exists ks' ps', via w l0 ks' ps' l /\ ~ In l ps'.
Proof.
  induction 1 as [l v A|l0 a k ks ps l A V (ks' & ps' & V' & N)].
  - exists [], []. split; [econstructor; eauto|auto].
  - destruct (place_dec l0 l) as [->|Ne].
    + exists [], []. split; [econstructor; eauto|auto].
    + exists (k :: ks'), (l0 :: ps'). split; [econstructor; eauto|]. intros [E|E]; auto.
Qed.

(** * Writing in the world *)
Lemma at_write_same w l v x : at_place w l = Some v -> at_place (write w l x) l = Some x.
Proof.
  destruct l as [i|a k]; cbn.
  - destruct (nth_error (vars w) i) as [y|] eqn:E; [|discriminate]. intros _. cbn. rewrite nth_put by (apply nth_error_Some; congruence).
    now rewrite Nat.eqb_refl.
  - destruct (nth_error (objs w) a) as [fs|] eqn:E; [|discriminate]. intros F. cbn. rewrite nth_put by (apply nth_error_Some; congruence).
    rewrite Nat.eqb_refl. rewrite nth_put by (apply nth_error_Some; congruence). now rewrite Nat.eqb_refl.
Qed.
Lemma at_write_other w l r x : r <> l -> at_place (write w l x) r = at_place w r.
Proof.
  intros N. destruct l as [i|a k], r as [j|b m]; cbn; auto.
  - destruct (Nat.lt_ge_cases i (length (vars w))); [|now rewrite put_out]. rewrite nth_put by auto. destruct (Nat.eqb_spec j i); [congruence|auto].
  - now destruct (nth_error (objs w) a).
  - destruct (nth_error (objs w) a) as [fs|] eqn:E; auto. cbn. rewrite nth_put by (apply nth_error_Some; congruence).
    destruct (Nat.eqb_spec b a) as [->|]; auto. rewrite E. destruct (Nat.lt_ge_cases k (length fs)); [|now rewrite put_out].
    rewrite nth_put by auto. destruct (Nat.eqb_spec m k); [congruence|auto].
Qed.
Lemma write_write w l x y : write (write w l x) l y = write w l y.
Proof.
  destruct l as [i|a k]; cbn; [now rewrite put_put|]. destruct (nth_error (objs w) a) as [fs|] eqn:E; cbn; [|now rewrite E].
  rewrite nth_put by (apply nth_error_Some; congruence). rewrite Nat.eqb_refl. now rewrite !put_put.
Qed.
Lemma write_same w l v : at_place w l = Some v -> write w l v = w.
Proof.
  destruct w as [vs os], l as [i|a k]; cbn.
  - destruct (nth_error vs i) as [y|] eqn:E; [|discriminate]. intros ->. now rewrite put_same.
  - destruct (nth_error os a) as [fs|] eqn:E; [|discriminate]. intros F. rewrite (put_same fs) by auto. now rewrite put_same.
Qed.
Lemma write_comm w l r x y : l <> r -> write (write w l x) r y = write (write w r y) l x.
Proof.
  intros N. destruct l as [i|a k], r as [j|b m]; cbn [write vars objs].
  - f_equal. apply put_comm. congruence.
  - now destruct (nth_error (objs w) b).
  - now destruct (nth_error (objs w) a).
  - destruct (Nat.eq_dec a b) as [->|Nb].
    + destruct (nth_error (objs w) b) as [fs|] eqn:E; cbn [vars objs]; [|now rewrite E].
      rewrite !nth_put by (apply nth_error_Some; congruence). rewrite Nat.eqb_refl. rewrite !put_put. do 2 f_equal. apply put_comm. congruence.
    + destruct (nth_error (objs w) a) as [fs|] eqn:E, (nth_error (objs w) b) as [gs|] eqn:E'; cbn [vars objs]; rewrite ?E, ?E'; auto.
      * rewrite !nth_put by (apply nth_error_Some; congruence). destruct (Nat.eqb_spec b a); [congruence|]. destruct (Nat.eqb_spec a b); [congruence|].
        rewrite E, E'. f_equal. now apply put_comm.
      * rewrite nth_put by (apply nth_error_Some; congruence). destruct (Nat.eqb_spec b a); [congruence|]. now rewrite E'.
      * rewrite nth_put by (apply nth_error_Some; congruence). destruct (Nat.eqb_spec a b); [congruence|]. now rewrite E.
Qed.
Lemma via_write w l x l0 ks ps r : via w l0 ks ps r -> ~ In l ps -> l <> r -> via (write w l x) l0 ks ps r.
Proof.
  induction 1 as [r v A|l0 a k ks ps r A V IH]; intros N1 N2.
  - econstructor. rewrite at_write_other; eauto.
  - econstructor; [rewrite at_write_other; eauto; intros ->; apply N1; now left|]. apply IH; auto. intros H. apply N1. now right.
Qed.
Lemma via_write_self w l x l0 ks ps : via w l0 ks ps l -> ~ In l ps -> via (write w l x) l0 ks ps l.
Proof.
  intros V. remember l as r eqn:E in V. revert E. induction V as [r v A|l0 a k ks ps r A V IH]; intros -> N1.
  - econstructor. eapply at_write_same; eauto.
  - econstructor; [rewrite at_write_other; eauto; intros ->; apply N1; now left|]. apply IH; auto. intros H. apply N1. now right.
Qed.

(** * Taking the value out of a handle *)
Definition unset (p : prog) (l : place) : prog :=
  match l with
  | Local i => mkProg (mem p) (put (locals p) i (Some None))
  | Member a k => mkProg (setf (mem p) a k None) (locals p)
  end.
Definition fill (p : prog) (l : place) (x : option nat) : prog :=
  match l with
  | Local i => mkProg (mem p) (put (locals p) i (Some x))
  | Member a k => mkProg (setf (mem p) a k x) (locals p)
  end.
Lemma set_fill p w R l v x : SIR p w R -> at_place w l = Some v -> held p l -> set p l x = Ok (fill p l x).
Proof.
  intros S A H. destruct l as [i|a k]; cbn in *.
  - rewrite (si_vars _ _ _ S) in *. destruct (nth_error (vars w) i) as [y|]; [|discriminate]. subst y. reflexivity.
  - destruct H as (o & L). unfold set_field. rewrite (load_live _ _ _ L). cbn [bind]. rewrite (si_objs _ _ _ S _ _ L) in A.
    assert (k < length (fields o)) by (apply nth_error_Some; congruence). destruct (Nat.ltb_spec k (length (fields o))); [|lia].
    cbn [bind]. now rewrite (setf_live _ _ _ _ _ L).
Qed.
Lemma set_there p l v x : get p l = Ok v -> set p l x = Ok (fill p l x).
Proof.
  destruct l as [i|a k]; cbn.
  - destruct (nth_error (locals p) i) as [[y|]|]; try discriminate. reflexivity.
  - unfold get_field, set_field. destruct (load (mem p) a) as [o| | | |] eqn:E; try discriminate. cbn [bind].
    destruct (nth_error (fields o) k) eqn:F; try discriminate. intros _. assert (k < length (fields o)) by (apply nth_error_Some; congruence).
    destruct (Nat.ltb_spec k (length (fields o))); [|lia]. cbn [bind]. apply load_inv in E. now rewrite (setf_live _ _ _ _ _ E).
Qed.
Lemma get_fill_same p l v x : get p l = Ok v -> get (fill p l x) l = Ok x.
Proof.
  destruct l as [i|a k]; cbn.
  - destruct (nth_error (locals p) i) as [[y|]|] eqn:E; try discriminate. rewrite nth_put by (apply nth_error_Some; congruence). now rewrite Nat.eqb_refl.
  - unfold get_field. destruct (load (mem p) a) as [o| | | |] eqn:E; try discriminate. cbn [bind]. apply load_inv in E.
    destruct (nth_error (fields o) k) eqn:F; try discriminate. intros _.
    rewrite (setf_live _ _ _ _ _ E), (load_live _ _ _ (live_put_same _ _ _ _ E)). cbn [bind fields].
    rewrite nth_put by (apply nth_error_Some; congruence). now rewrite Nat.eqb_refl.
Qed.
Lemma get_fill_other p l r x : r <> l -> get (fill p l x) r = get p r.
Proof.
  intros N. destruct l as [i|a k], r as [j|b m]; cbn; auto.
  - destruct (Nat.lt_ge_cases i (length (locals p))); [|now rewrite put_out]. rewrite nth_put by auto. destruct (Nat.eqb_spec j i); [congruence|auto].
  - unfold get_field. destruct (Nat.eq_dec b a) as [->|Nb]; [|now rewrite setf_load_other].
    unfold load, setf. destruct (nth_error (mem p) a) as [[o|]|] eqn:E; rewrite ?E; auto.
    rewrite nth_put by (apply nth_error_Some; congruence). rewrite Nat.eqb_refl. cbn [bind fields].
    destruct (Nat.lt_ge_cases k (length (fields o))); [|now rewrite put_out]. rewrite nth_put by auto. destruct (Nat.eqb_spec m k); [congruence|auto].
Qed.
Lemma setf_comm h a k x b m y : (a, k) <> (b, m) -> setf (setf h a k x) b m y = setf (setf h b m y) a k x.
Proof.
  intros N. destruct (Nat.eq_dec a b) as [->|Nb].
  - destruct (nth_error h b) as [[o|]|] eqn:E.
    + change (live h b o) in E. rewrite !(setf_live _ _ _ _ _ E), !(setf_live _ _ _ _ _ (live_put_same _ _ _ _ E)). cbn [count fields].
      rewrite !put_put. rewrite put_comm by congruence. reflexivity.
    + unfold setf. now rewrite !E.
    + unfold setf. now rewrite !E.
  - destruct (nth_error h a) as [[o|]|] eqn:E.
    + change (live h a o) in E. rewrite (setf_live _ _ _ _ _ E). rewrite setf_put_other by auto.
      assert (E' : live (setf h b m y) a o) by (unfold live; rewrite setf_other; auto). now rewrite (setf_live _ _ _ _ _ E').
    + assert (Q : setf h a k x = h) by (unfold setf; now rewrite E). rewrite Q. unfold setf at 2. now rewrite setf_other, E.
    + assert (Q : setf h a k x = h) by (unfold setf; now rewrite E). rewrite Q. unfold setf at 2. now rewrite setf_other, E.
Qed.
Lemma fill_comm p l r x y : l <> r -> fill (fill p l x) r y = fill (fill p r y) l x.
Proof.
  intros N. destruct l as [i|a k], r as [j|b m]; cbn [fill mem locals]; auto; f_equal.
  - apply put_comm. congruence.
  - apply setf_comm. congruence.
Qed.
Lemma setf_setf h c k x y o : live h c o -> setf (setf h c k x) c k y = setf h c k y.
Proof.
  intros L. rewrite (setf_live _ _ _ _ _ L). rewrite (setf_live _ _ _ _ _ (live_put_same _ _ _ _ L)). cbn [count fields].
  now rewrite !put_put, (setf_live _ _ _ _ _ L).
Qed.
Lemma fill_fill p l x y : held p l -> fill (fill p l x) l y = fill p l y.
Proof.
  destruct l as [i|a k]; cbn [fill mem locals]; [now rewrite put_put|]. intros (o & L). f_equal. eapply setf_setf; eauto.
Qed.
Lemma setf_same h c k v o : live h c o -> nth_error (fields o) k = Some v -> setf h c k v = h.
Proof. intros L E. rewrite (setf_live _ _ _ _ _ L), (put_same (fields o)) by auto. apply put_same. destruct o; exact L. Qed.
Lemma fill_same p w R l v : SIR p w R -> at_place w l = Some v -> held p l -> fill p l v = p.
Proof.
  intros S A H. destruct p as [h ls], l as [i|a k]; cbn in *.
  - pose proof (si_vars _ _ _ S) as Ev. cbn in Ev. subst ls. destruct (nth_error (vars w) i) as [y|] eqn:E; [|discriminate]. subst y. now rewrite put_same.
  - destruct H as (o & L). f_equal. pose proof (si_objs _ _ _ S _ _ L) as F. cbn [mem] in F. rewrite F in A. eapply setf_same; eauto.
Qed.
Lemma unset_fill p l : unset p l = fill p l None.
Proof. destruct l; reflexivity. Qed.
Lemma held_fill p l x r : held p r -> held (fill p l x) r.
Proof.
  destruct r as [j|b m]; cbn; auto. intros (o & L). destruct l as [i|a k]; cbn [fill mem]; eauto.
  destruct (Nat.eq_dec b a) as [->|N]; [rewrite (setf_live _ _ _ _ _ L); eexists; eapply live_put_same; eauto|].
  exists o. unfold live. now rewrite setf_other.
Qed.

(** Storing [x] in a handle that holds [v]: [x] is no longer loose, [v] is *)
Lemma fill_ok p w R R' l v x : SIR p w R -> at_place w l = Some v -> held p l ->
  (forall a, cnt R' a + cnt (oh x) a = cnt R a + cnt (oh v) a) -> SIR (fill p l x) (write w l x) R'.
Proof.
  intros S A H E. destruct l as [i|a k]; cbn [at_place held fill write] in *.
  - destruct (nth_error (vars w) i) as [y|] eqn:N; [|discriminate]. subst y. split; cbn [mem locals vars objs]; try apply S.
    + now rewrite (si_vars _ _ _ S).
    + rewrite <- (si_vars _ _ _ S) in N. eapply inv_cnt; [|apply S]. intros a. rewrite !cnt_app. specialize (E a).
      pose proof (local_put _ _ _ (Some x) N a) as Q. destruct v, x; cbn [lh oh] in *; lia.
  - destruct H as (o & L). pose proof (si_objs _ _ _ S _ _ L) as F. rewrite F in *. rewrite (setf_live _ _ _ _ _ L).
    assert (Hl : a < length (mem p)) by (eapply live_lt; eauto).
    split; cbn [mem locals vars objs]; try apply S.
    + rewrite !put_length. apply S.
    + intros b ob Lb. rewrite nth_put by (rewrite <- (si_len _ _ _ S); auto). destruct (Nat.eqb_spec b a) as [->|Nb].
      * pose proof (live_fun _ _ _ _ Lb (live_put_same _ _ _ (mkObj (count o) (put (fields o) k x)) L)) as ->. reflexivity.
      * apply live_put_other in Lb; auto. eapply si_objs; eauto.
    + eapply inv_member; eauto; [apply S| |].
      * eapply si_counted; eauto.
      * intros b. rewrite !cnt_app. specialize (E b). lia.
    + intros b ob Lb. destruct (Nat.eq_dec b a) as [->|Nb].
      * pose proof (live_fun _ _ _ _ Lb (live_put_same _ _ _ (mkObj (count o) (put (fields o) k x)) L)) as ->. cbn [count]. eapply si_counted; eauto.
      * apply live_put_other in Lb; auto. eapply si_counted; eauto.
Qed.
(** Giving up a loose handle *)
Lemma release_ok p w R v : SIR p w (oh v ++ R) -> exists h, xdecref (mem p) v = Ok h /\ SIR (in_mem p h) w R.
Proof.
  intros S. pose proof (si_inv _ _ _ S) as I. rewrite <- app_assoc in I. destruct (xdecref_ok _ _ _ I) as (h & E & I' & (Kl & K & Z)).
  exists h. split; auto. split; cbn [in_mem mem locals]; try apply S; auto.
  - rewrite Kl. apply S.
  - intros a o L. destruct (K a o) as (o0 & L0 & Ef & _); [discriminate|auto|]. rewrite Ef. eapply si_objs; eauto.
  - intros a o L. destruct (K a o) as (o0 & L0 & _ & P); [discriminate|auto|]. apply P. eapply si_counted; eauto.
Qed.
Lemma xdecref_keeps_live h v h' a : xdecref h v = Ok h' -> (exists o, live h' a o) -> exists o, live h a o.
Proof. destruct v as [b|]; cbn [xdecref]; intros E (o & L); [eapply decref_back; eauto|]. injection E as <-. eauto. Qed.

(** The first half of every assignment: xdecref of the old value while the handle still has it *)
Lemma drop_ok p w R i ks ps l v : SIR p w R -> via w (Local i) ks ps l -> at_place w l = Some v ->
  exists h, xdecref (mem p) v = Ok h /\
    let q := unset (in_mem p h) l in
    SIR q (write w l None) R /\ held q l /\ get (in_mem p h) l = Ok v /\
    (forall r, r <> l -> get (in_mem p h) r = get q r) /\
    (forall x, set (in_mem p h) l x = set q l x) /\
    (forall x, fill (in_mem p h) l x = fill q l x).
Proof.
  intros S V A. destruct (walk_ok _ _ _ _ _ _ _ S V I) as [_ H].
  assert (S1 : SIR (fill p l None) (write w l None) (oh v ++ R)).
  { eapply fill_ok; eauto. intros a. rewrite cnt_app. cbn. lia. }
  destruct (release_ok _ _ _ _ S1) as (hq & Eq & Sq).
  destruct (via_shortcut _ _ _ _ _ V) as (ks' & ps' & V' & N').
  pose proof (via_write_self _ _ None _ _ _ V' N') as V1. destruct (walk_ok _ _ _ _ _ _ _ Sq V1 I) as [_ Hq].
  destruct l as [j|c k]; cbn [fill in_mem mem locals held] in *.
  - exists hq. split; [exact Eq|]. cbn zeta. cbn [unset in_mem mem locals]. conjs; auto.
    + cbn [get at_place in_mem locals] in *. rewrite (si_vars _ _ _ S). destruct (nth_error (vars w) j); [|discriminate]. now subst.
    + intros [m|b m] Nr; cbn [get in_mem mem locals]; auto. destruct (Nat.lt_ge_cases j (length (locals p))); [|now rewrite put_out].
      rewrite nth_put by auto. destruct (Nat.eqb_spec m j); [congruence|auto].
    + intros x. cbn [set in_mem mem locals]. cbn [at_place] in A. rewrite <- (si_vars _ _ _ S) in A. destruct (nth_error (locals p) j) as [y|] eqn:E; [|discriminate].
      subst y. rewrite nth_put by (apply nth_error_Some; congruence). rewrite Nat.eqb_refl. now rewrite put_put.
    + intros x. cbn [fill in_mem mem locals]. now rewrite put_put.
  - destruct Hq as (oq & Lq). destruct H as (o & L). pose proof (si_objs _ _ _ S _ _ L) as F. cbn [at_place] in A. rewrite F in A.
    exists (setf hq c k v). split.
    { rewrite <- (setf_same _ _ _ _ _ L A) at 1. rewrite <- (setf_setf (mem p) c k None v o L). eapply xdecref_frame; eauto. }
    cbn zeta. cbn [unset in_mem mem locals]. rewrite (setf_setf _ _ _ _ _ _ Lq).
    assert (Fq : nth_error (objs (write w (Member c k) None)) c = Some (fields oq)) by (apply (si_objs _ _ _ Sq); exact Lq).
    assert (Aq : nth_error (fields oq) k = Some None).
    { assert (Q : at_place (write w (Member c k) None) (Member c k) = Some None) by (eapply at_write_same; cbn; rewrite F; eauto).
      cbn [at_place] in Q. now rewrite Fq in Q. }
    rewrite (setf_same _ _ _ _ _ Lq Aq). conjs; auto.
    + exists oq. exact Lq.
    + cbn [get in_mem mem]. unfold get_field. rewrite (setf_live _ _ _ _ _ Lq), (load_live _ _ _ (live_put_same _ _ _ _ Lq)). cbn [bind fields].
      rewrite nth_put by (apply nth_error_Some; congruence). now rewrite Nat.eqb_refl.
    + intros [m|b m] Nr; cbn [get in_mem mem locals]; auto. unfold get_field. destruct (Nat.eq_dec b c) as [->|Nb].
      * rewrite (setf_live _ _ _ _ _ Lq). rewrite (load_live _ _ _ (live_put_same _ _ _ _ Lq)), (load_live _ _ _ Lq). cbn [bind fields].
        rewrite nth_put by (apply nth_error_Some; congruence). destruct (Nat.eqb_spec m k); [congruence|auto].
      * now rewrite setf_load_other.
    + intros x. cbn [set in_mem mem locals]. unfold set_field. rewrite (setf_live _ _ _ _ _ Lq).
      rewrite (load_live _ _ _ (live_put_same _ _ _ _ Lq)), (load_live _ _ _ Lq). cbn [bind fields count].
      rewrite !put_length, !put_put. reflexivity.
    + intros x. cbn [fill in_mem mem locals]. now rewrite (setf_setf _ _ _ _ _ _ Lq).
Qed.

(** * New references *)
Lemma inc_ok p w R b l : SIR p w R -> at_place w l = Some (Some b) -> held p l ->
  exists h, incref (mem p) b = Ok h /\ SIR (in_mem p h) w (b :: R).
Proof.
  intros S A H. destruct (handle_live _ _ _ _ _ S A H) as (o & L). pose proof (si_counted _ _ _ S _ _ L) as P.
  exists (recount (mem p) b o (Datatypes.S (count o))). split.
  - unfold incref. now rewrite (load_live _ _ _ L).
  - assert (Hl : b < length (mem p)) by (eapply live_lt; eauto). unfold recount.
    split; cbn [in_mem mem locals]; try apply S.
    + rewrite put_length. apply S.
    + intros a oa La. destruct (Nat.eq_dec a b) as [->|N].
      * pose proof (live_fun _ _ _ _ La (live_put_same _ _ _ (mkObj (Datatypes.S (count o)) (fields o)) L)) as ->. cbn [fields]. eapply si_objs; eauto.
      * apply live_put_other in La; auto. eapply si_objs; eauto.
    + eapply inv_inc; eauto. apply S.
    + intros a oa La. destruct (Nat.eq_dec a b) as [->|N].
      * pose proof (live_fun _ _ _ _ La (live_put_same _ _ _ (mkObj (Datatypes.S (count o)) (fields o)) L)) as ->. cbn [count]. lia.
      * apply live_put_other in La; auto. eapply si_counted; eauto.
Qed.
Lemma xinc_ok p w R v l : SIR p w R -> at_place w l = Some v -> held p l ->
  exists h, xincref (mem p) v = Ok h /\ SIR (in_mem p h) w (oh v ++ R).
Proof.
  intros S A H. destruct v as [b|]; cbn [xincref oh app]; [eapply inc_ok; eauto|]. exists (mem p). split; auto. destruct p. exact S.
Qed.
Lemma incref_frame c k x h b h' o : incref h b = Ok h' -> live h c o -> incref (setf h c k x) b = Ok (setf h' c k x).
Proof.
  unfold incref. intros E L. destruct (load h b) as [ob| | | |] eqn:El; try discriminate. cbn [bind] in E. injection E as <-. apply load_inv in El.
  destruct (Nat.eq_dec b c) as [->|N].
  - pose proof (live_fun _ _ _ _ El L) as ->. rewrite (setf_live _ _ _ _ _ L), (load_live _ _ _ (live_put_same _ _ _ _ L)). cbn [bind count fields].
    rewrite (setf_live _ _ _ _ _ (live_put_same _ _ _ _ L)). cbn [count fields]. now rewrite !put_put.
  - rewrite setf_load_other by auto. rewrite (load_live _ _ _ El). cbn [bind]. now rewrite setf_put_other.
Qed.
Lemma xincref_fill p l x v h : xincref (mem p) v = Ok h -> held p l -> xincref (mem (fill p l x)) v = Ok (mem (fill (in_mem p h) l x)).
Proof.
  intros E H. destruct l as [i|c k]; cbn [fill mem in_mem]; auto. destruct H as (o & L). destruct v as [b|]; cbn [xincref] in *.
  - eapply incref_frame; eauto.
  - now injection E as <-.
Qed.
Lemma held_in_mem p h l : (forall a o, live (mem p) a o -> exists o', live h a o') -> held p l -> held (in_mem p h) l.
Proof. destruct l as [i|a k]; cbn; auto. intros K (o & L). eauto. Qed.
Lemma xincref_keeps h v h' : xincref h v = Ok h' -> forall a o, live h a o -> exists o', live h' a o'.
Proof.
  destruct v as [b|]; cbn [xincref]; [|intros E; injection E as <-; eauto]. unfold incref. destruct (load h b) as [ob| | | |] eqn:El; try discriminate.
  cbn [bind]. intros E. injection E as <-. apply load_inv in El. intros a o L. destruct (Nat.eq_dec a b) as [->|N].
  - eexists. eapply live_put_same; eauto.
  - exists o. apply live_put_other; eauto using live_lt.
Qed.

Lemma new_ok p w n R : SIR p w R ->
  exists h, xincref (snd (new_obj (mem p) n)) (Some (fst (new_obj (mem p) n))) = Ok h /\ SIR (in_mem p h) (add_obj w n) (length (objs w) :: R).
Proof.
  intros S. cbn [new_obj fst snd xincref]. exists (mem p ++ [Some (mkObj 1 (repeat None n))]). split.
  - unfold incref, load. rewrite nth_error_app2 by auto. rewrite Nat.sub_diag. cbn [nth_error bind count fields]. f_equal.
    generalize (mkObj 0 (repeat None n)) (mkObj 1 (repeat None n)). intros o1 o2. induction (mem p) as [|x h IH]; cbn; auto. now rewrite IH.
  - assert (Lc : forall a o, live (mem p ++ [Some (mkObj 1 (repeat None n))]) a o -> live (mem p) a o \/ (a = length (mem p) /\ o = mkObj 1 (repeat None n))).
    { intros a o L. unfold live in L. destruct (Nat.lt_ge_cases a (length (mem p))) as [H|H].
      - rewrite nth_error_app1 in L by auto. auto.
      - rewrite nth_error_app2 in L by auto. destruct (a - length (mem p)) as [|k] eqn:E.
        + cbn in L. injection L as <-. right. split; [lia|auto].
        + cbn in L. destruct k; discriminate. }
    split; cbn [in_mem mem locals add_obj vars objs]; try apply S.
    + rewrite !app_length, (si_len _ _ _ S). reflexivity.
    + intros a o L. destruct (Lc _ _ L) as [H|[-> ->]].
      * rewrite nth_error_app1; [eapply si_objs; eauto|]. rewrite <- (si_len _ _ _ S). eapply live_lt; eauto.
      * rewrite (si_len _ _ _ S), nth_error_app2 by auto. now rewrite Nat.sub_diag.
    + rewrite <- (si_len _ _ _ S). apply inv_new, S.
    + intros a o L. destruct (Lc _ _ L) as [H|[-> ->]]; [eapply si_counted; eauto|cbn; lia].
Qed.
Lemma local_handles_app l l' : local_handles (l ++ l') = local_handles l ++ local_handles l'.
Proof. apply flat_map_app. Qed.
Lemma declare_ok p w i v : SIR p w (oh v) -> fresh_var w i -> exists q, declare p (mem p) i v = Ok q /\ SIR q (add_var w i v) [].
Proof.
  intros S F. unfold declare, add_var. rewrite (si_vars _ _ _ S). destruct F as [F| ->].
  - rewrite F. assert (H : i < length (vars w)) by (apply nth_error_Some; congruence). destruct (Nat.ltb_spec i (length (vars w))); [|lia].
    eexists. split; [reflexivity|]. split; cbn [mem locals vars objs]; try apply S; auto.
    eapply inv_cnt; [|apply S]. intros a. pose proof (local_put _ _ _ (Some v) F a) as Q. rewrite !cnt_app, (si_vars _ _ _ S) in *.
    destruct v; cbn [lh oh app] in *; change (cnt [] a) with 0 in *; lia.
  - rewrite (proj2 (nth_error_None _ _)) by auto. rewrite Nat.eqb_refl, Nat.ltb_irrefl.
    eexists. split; [reflexivity|]. split; cbn [mem locals vars objs]; try apply S; auto.
    eapply inv_cnt; [|apply S]. intros a. rewrite (si_vars _ _ _ S), local_handles_app, !cnt_app.
    destruct v; unfold local_handles at 3; cbn [flat_map oh app]; change (cnt [] a) with 0; lia.
Qed.

Lemma clear_ok p w i ks ps l : SIR p w [] -> via w (Local i) ks ps l -> exists q, clear p l = Ok q /\ SIR q (write w l None) [].
Proof.
  intros S V. destruct (via_end _ _ _ _ _ V) as (v & A). destruct (walk_ok _ _ _ _ _ _ _ S V I) as [_ H].
  unfold clear. rewrite (get_ok _ _ _ _ _ S A H). cbn [bind]. destruct v as [a|].
  - destruct (drop_ok _ _ _ _ _ _ _ _ S V A) as (h & E & Sq & Hq & _ & _ & St & _). rewrite E. cbn [bind]. rewrite St.
    rewrite (set_fill _ _ _ _ None None Sq) by (eauto using at_write_same). eexists. split; [reflexivity|].
    rewrite (fill_same _ _ _ _ _ Sq) by (eauto using at_write_same). exact Sq.
  - exists p. split; auto. now rewrite write_same.
Qed.

Lemma SIR_in_mem p w R : SIR p w R -> SIR (in_mem p (mem p)) w R.
Proof. now destruct p. Qed.
Lemma via_add_obj w n l ks ps r : via w l ks ps r -> via (add_obj w n) l ks ps r.
Proof.
  assert (K : forall l v, at_place w l = Some v -> at_place (add_obj w n) l = Some v).
  { intros [i|a k] v; cbn; auto. destruct (nth_error (objs w) a) as [fs|] eqn:E; [|discriminate].
    rewrite nth_error_app1 by (apply nth_error_Some; congruence). now rewrite E. }
  induction 1; econstructor; eauto.
Qed.

Lemma step_ok p w o w' : SIR p w [] -> means w o w' -> exists q, do_op p o = Ok q /\ SIR q w' [].
Proof.
  intros S M. destruct M as [w i F|w i n F|w i x ps l v F D A|w i x ps l v F D A|w x ps l D|w x n ps l D|w x y ps l qs r v D Dy A N1 N2
    |w x y ps l qs r v D Dy A N1 N2|w x y ps l qs r v D Dy A N1 N2|w x y ps l qs D Dy|w i v A]; cbn [do_op].
  - apply declare_ok; auto.
  - destruct (new_ok _ _ n _ S) as (h & E & S1). cbn [new_obj fst snd] in *. rewrite E. cbn [bind].
    rewrite <- (si_len _ _ _ S) in S1 |- *. destruct (declare_ok (in_mem p h) (add_obj w n) i (Some (length (mem p))) S1) as (q & E' & S'); [exact F|].
    exists q. split; [|exact S']. exact E'.
  - destruct (eval_ok _ _ _ _ _ _ S D) as [E H]. rewrite E. cbn [bind]. rewrite (get_ok _ _ _ _ _ S A H). cbn [bind].
    destruct (xinc_ok _ _ _ _ _ S A H) as (h & Eh & Sh). rewrite Eh. cbn [bind]. rewrite app_nil_r in Sh.
    destruct (declare_ok _ _ i v Sh F) as (q & E' & S'). exists q. auto.
  - destruct (eval_ok _ _ _ _ _ _ S D) as [E H]. rewrite E. cbn [bind]. rewrite (get_ok _ _ _ _ _ S A H). cbn [bind].
    destruct (xinc_ok _ _ _ _ _ S A H) as (h & Eh & Sh). rewrite Eh. cbn [bind]. rewrite app_nil_r in Sh.
    destruct (declare_ok _ _ i v Sh F) as (q & E' & S'). exists q. auto.
  - destruct (eval_ok _ _ _ _ _ _ S D) as [E H]. rewrite E. cbn [bind]. eapply clear_ok; eauto.
  - (* x = mkrc() *)
    destruct (new_ok _ _ n _ S) as (h & E & S1). cbn [new_obj fst snd] in *. rewrite E. cbn [bind].
    pose proof (via_add_obj _ n _ _ _ _ D) as D1. destruct (eval_ok _ _ _ _ _ _ S1 D1) as [E1 H1]. rewrite E1. cbn [bind].
    destruct (via_end _ _ _ _ _ D1) as (v & A1). rewrite (get_ok _ _ _ _ _ S1 A1 H1). cbn [bind].
    destruct (drop_ok _ _ _ _ _ _ _ _ S1 D1 A1) as (h2 & E2 & Sq & Hq & _ & _ & St & _). rewrite E2. cbn [bind]. rewrite St.
    rewrite (si_len _ _ _ S). rewrite (set_fill _ _ _ _ None (Some (length (objs w))) Sq) by (eauto using at_write_same). eexists. split; [reflexivity|].
    rewrite <- (write_write (add_obj w n) l None). eapply fill_ok; [exact Sq|eapply at_write_same; eauto|exact Hq|].
    intros a. rewrite (cnt_cons []). cbn [oh]. rewrite (cnt_cons []). change (cnt [] a) with 0. lia.
  - (* x = y *)
    destruct (eval_ok _ _ _ _ _ _ S Dy) as [Ey Hy]. rewrite Ey. cbn [bind]. destruct (eval_ok _ _ _ _ _ _ S D) as [E H]. rewrite E. cbn [bind].
    destruct (via_end _ _ _ _ _ D) as (old & A0). rewrite (get_ok _ _ _ _ _ S A0 H). cbn [bind].
    destruct (drop_ok _ _ _ _ _ _ _ _ S D A0) as (h & E2 & Sq & Hq & Gl & Gt & St & Fl). rewrite E2. cbn [bind].
    assert (Vr : via (write w l None) (Local (fst y)) (snd y) qs r) by (apply via_write; auto).
    destruct (walk_ok _ _ _ _ _ _ _ Sq Vr I) as [_ Hr].
    assert (Ar : at_place (write w l None) r = Some v) by (rewrite at_write_other; auto).
    rewrite (Gt r) by auto. rewrite (get_ok _ _ _ _ _ Sq Ar Hr). cbn [bind]. rewrite St.
    rewrite (set_fill _ _ _ _ None v Sq) by (eauto using at_write_same). cbn [bind].
    destruct (xinc_ok _ _ _ _ _ Sq Ar Hr) as (h3 & E3 & S3). rewrite (xincref_fill _ l v _ _ E3 Hq). cbn [bind].
    eexists. split; [reflexivity|]. rewrite <- (write_write w l None).
    assert (S4 : SIR (fill (in_mem (unset (in_mem p h) l) h3) l v) (write (write w l None) l v) []).
    { eapply fill_ok; [exact S3|eapply at_write_same; eauto| |].
      - eapply held_in_mem; eauto. eapply xincref_keeps; eauto.
      - intros a. rewrite app_nil_r. cbn [oh]. lia. }
    destruct l; exact S4.
  - (* x = y.get() *)
    destruct (eval_ok _ _ _ _ _ _ S Dy) as [Ey Hy]. rewrite Ey. cbn [bind]. rewrite (get_ok _ _ _ _ _ S A Hy). cbn [bind].
    destruct (eval_ok _ _ _ _ _ _ S D) as [E H]. rewrite E. cbn [bind].
    destruct (via_end _ _ _ _ _ D) as (old & A0). rewrite (get_ok _ _ _ _ _ S A0 H). cbn [bind].
    destruct (drop_ok _ _ _ _ _ _ _ _ S D A0) as (h & E2 & Sq & Hq & Gl & Gt & St & Fl). rewrite E2. cbn [bind].
    assert (Vr : via (write w l None) (Local (fst y)) (snd y) qs r) by (apply via_write; auto).
    destruct (walk_ok _ _ _ _ _ _ _ Sq Vr I) as [_ Hr].
    assert (Ar : at_place (write w l None) r = Some v) by (rewrite at_write_other; auto).
    rewrite St. rewrite (set_fill _ _ _ _ None v Sq) by (eauto using at_write_same). cbn [bind].
    destruct (xinc_ok _ _ _ _ _ Sq Ar Hr) as (h3 & E3 & S3). rewrite (xincref_fill _ l v _ _ E3 Hq). cbn [bind].
    eexists. split; [reflexivity|]. rewrite <- (write_write w l None).
    assert (S4 : SIR (fill (in_mem (unset (in_mem p h) l) h3) l v) (write (write w l None) l v) []).
    { eapply fill_ok; [exact S3|eapply at_write_same; eauto| |].
      - eapply held_in_mem; eauto. eapply xincref_keeps; eauto.
      - intros a. rewrite app_nil_r. cbn [oh]. lia. }
    destruct l; exact S4.
  - (* x = move(y) *)
    destruct (eval_ok _ _ _ _ _ _ S Dy) as [Ey Hy]. rewrite Ey. cbn [bind]. destruct (eval_ok _ _ _ _ _ _ S D) as [E H]. rewrite E. cbn [bind].
    destruct (via_end _ _ _ _ _ D) as (old & A0). rewrite (get_ok _ _ _ _ _ S A0 H). cbn [bind].
    destruct (drop_ok _ _ _ _ _ _ _ _ S D A0) as (h & E2 & Sq & Hq & Gl & Gt & St & Fl). rewrite E2. cbn [bind].
    assert (Vr : via (write w l None) (Local (fst y)) (snd y) qs r) by (apply via_write; auto).
    destruct (walk_ok _ _ _ _ _ _ _ Sq Vr I) as [_ Hr].
    assert (Ar : at_place (write w l None) r = Some v) by (rewrite at_write_other; auto).
    rewrite (Gt r) by auto. rewrite (get_ok _ _ _ _ _ Sq Ar Hr). cbn [bind]. rewrite St.
    rewrite (set_fill _ _ _ _ None v Sq) by (eauto using at_write_same). cbn [bind].
    set (q := unset (in_mem p h) l) in *.
    assert (Gr : get (fill q l v) r = Ok v) by (rewrite get_fill_other by auto; eapply get_ok; eauto).
    rewrite (set_there _ _ _ None Gr). eexists. split; [reflexivity|]. rewrite fill_comm by auto.
    assert (S3 : SIR (fill q r None) (write (write w l None) r None) (oh v)).
    { eapply fill_ok; eauto. }
    assert (S4 : SIR (fill (fill q r None) l v) (write (write (write w l None) r None) l v) []).
    { eapply fill_ok; [exact S3| |now apply held_fill|].
      - rewrite at_write_other by auto. eapply at_write_same; eauto.
      - intros a. cbn [oh]. change (cnt [] a) with 0. lia. }
    rewrite (write_comm (write w l None) r l) in S4 by auto. rewrite write_write in S4. exact S4.
  - (* x = move(x) *)
    destruct (eval_ok _ _ _ _ _ _ S Dy) as [Ey Hy]. rewrite Ey. cbn [bind]. destruct (eval_ok _ _ _ _ _ _ S D) as [E H]. rewrite E. cbn [bind].
    destruct (via_end _ _ _ _ _ D) as (old & A0). rewrite (get_ok _ _ _ _ _ S A0 H). cbn [bind].
    destruct (drop_ok _ _ _ _ _ _ _ _ S D A0) as (h & E2 & Sq & Hq & Gl & Gt & St & Fl). rewrite E2. cbn [bind].
    rewrite Gl. cbn [bind]. rewrite (set_there _ _ _ old Gl). cbn [bind]. rewrite (set_there _ _ _ None (get_fill_same _ _ _ old Gl)).
    eexists. split; [reflexivity|]. rewrite Fl. rewrite fill_fill by auto.
    rewrite (fill_same _ _ _ _ _ Sq) by (eauto using at_write_same). exact Sq.
  - (* out of scope *)
    assert (V : via w (Local i) [] [] (Local i)) by (econstructor; eauto).
    destruct (clear_ok _ _ _ _ _ _ S V) as (q & E & Sq). rewrite E. cbn [bind]. eexists. split; [reflexivity|].
    pose proof (at_write_same _ _ _ None A) as An. cbn [write at_place vars] in *.
    split; cbn [mem locals vars objs]; try apply Sq.
    + rewrite (si_vars _ _ _ Sq). cbn [vars]. now rewrite put_put.
    + eapply inv_cnt; [|apply Sq]. intros a. cbn [app]. rewrite (si_vars _ _ _ Sq). cbn [vars].
      destruct (nth_error (put (vars w) i (Some None)) i) as [z|] eqn:Z; [|discriminate]. subst z.
      pose proof (local_put _ _ _ None Z a) as Q. cbn [lh] in Q. lia.
Qed.
Lemma start_ok : SIR start nothing [].
Proof.
  split; cbn; auto.
  - intros [|a] o L; discriminate L.
  - split; [intros [|a] o L; discriminate L|]. intros a H. cbn in H. lia.
  - intros [|a] o L; discriminate L.
Qed.
Lemma run_ok os : forall p w w', SIR p w [] -> runs w os w' -> exists q, run p os = Ok q /\ SIR q w' [].
Proof.
  induction os as [|o os IH]; intros p w w' S R; inversion R; subst; cbn [run]; [eauto|].
  destruct (step_ok _ _ _ _ S H2) as (q & E & Sq). rewrite E. cbn [bind]. eapply IH; eauto.
Qed.
