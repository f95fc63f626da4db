(** Refinement of the intrusive list to a sequence. *)

From Coq Require Import ZArith List Bool Lia.
From Verif Require Import Outcome IListModel IListSpec.
Import ListNotations.
Local Open Scope Z_scope.

(** [lseg h p c l]: starting at [c] whose predecessor is [p], the next pointers spell [l] and
    end in NULL. *)
Fixpoint lseg (h : heap) (p c : ptr) (l : list ptr) : Prop :=
  match l with
  | [] => c = NULL
  | e :: l => c = e /\ e <> NULL /\ exists n, h e = Some (mkNode p n) /\ lseg h e n l
  end.

Definition repr (h : heap) (root : ptr) (l : list ptr) : Prop := lseg h NULL root l /\ NoDup l.

Lemma hset_same h p n : hset h p n p = Some n.
Proof. unfold hset. now rewrite Z.eqb_refl. Qed.
Lemma hset_other h p n q : q <> p -> hset h p n q = h q.
Proof. unfold hset. destruct (Z.eqb_spec q p); congruence. Qed.

Lemma node_at_ok h p n : p <> NULL -> h p = Some n -> node_at h p = Ok n.
Proof. intros Hp Hn. unfold node_at. destruct (Z.eqb_spec p NULL); [contradiction|]. now rewrite Hn. Qed.

Lemma lseg_frame h h' l : forall p c, (forall e, In e l -> h' e = h e) -> lseg h p c l -> lseg h' p c l.
Proof.
  induction l as [|e l IH]; intros p c F H; cbn [lseg] in *; auto.
  destruct H as (-> & Hn & n & He & H). repeat split; auto. exists n. rewrite F by (left; auto).
  split; auto. apply IH; auto. intros x Hx. apply F. right; auto.
Qed.

Lemma lseg_nonnull h l : forall p c e, lseg h p c l -> In e l -> e <> NULL.
Proof.
  induction l as [|x l IH]; intros p c e H Hi; cbn [lseg] in *; [contradiction|].
  destruct H as (-> & Hn & n & He & H). destruct Hi as [->|Hi]; eauto.
Qed.

Lemma lseg_live h l : forall p c e, lseg h p c l -> In e l -> h e <> None.
Proof.
  induction l as [|x l IH]; intros p c e H Hi; cbn [lseg] in *; [contradiction|].
  destruct H as (-> & Hn & n & He & H). destruct Hi as [->|Hi]; [congruence|eauto].
Qed.

Lemma lseg_root h p c l : lseg h p c l -> c = hd NULL l.
Proof. destruct l; cbn; [auto|]. now intros (-> & _). Qed.

(** Changing the predecessor of the first element. *)
Lemma lseg_reprev h p q c l :
  lseg h p c l -> NoDup l -> c <> NULL ->
  exists n, h c = Some (mkNode p n) /\ lseg (hset h c (mkNode q n)) q c l.
Proof.
  destruct l as [|e l]; cbn [lseg]; [contradiction|]. intros (-> & Hn & n & He & H) ND _.
  exists n. split; auto. repeat split; auto. exists n. rewrite hset_same. split; auto.
  inversion ND; subst. eapply lseg_frame; [|exact H]. intros x Hx. apply hset_other. congruence.
Qed.

Lemma add_ok h root l e : repr h root l -> h e <> None -> e <> NULL -> ~ In e l ->
  exists h', il_add h root e = Ok (h', e) /\ repr h' e (e :: l) /\
             (forall q, q <> e -> q <> hd NULL l -> h' q = h q) /\
             (forall q, h q <> None <-> h' q <> None).
Proof.
  intros [HL ND] Hlive Hn Hni. unfold il_add, node_at.
  destruct (Z.eqb_spec e NULL) as [|_]; [contradiction|].
  destruct (h e) as [n0|] eqn:He; [|congruence]. cbn [bind].
  pose proof (lseg_root _ _ _ _ HL) as Hroot.
  set (h1 := hset h e (mkNode NULL root)).
  assert (HL1 : lseg h1 NULL root l).
  { eapply lseg_frame; [|exact HL]. intros x Hx. apply hset_other. congruence. }
  destruct (Z.eqb_spec root NULL) as [E|NE]; cbn [negb].
  - assert (l = []) as ->. { destruct l; auto. cbn in HL. destruct HL as (-> & ? & _). contradiction. }
    cbn [bind]. exists h1. split; auto. split; [|split].
    + split; [|constructor; auto; constructor]. cbn [lseg]. repeat split; auto.
      exists root. split; [apply hset_same|auto].
    + intros q Hq _. apply hset_other; auto.
    + intros q. destruct (Z.eq_dec q e) as [->|]; [unfold h1; rewrite hset_same, He; split; congruence|].
      unfold h1. rewrite hset_other by auto. reflexivity.
  - destruct (lseg_reprev h1 NULL e root l HL1 ND NE) as (n & Hr & HL2).
    unfold set_prev. rewrite (node_at_ok _ _ _ NE Hr). cbn [bind next].
    assert (Hre : root <> e).
    { intros ->. apply Hni. destruct l; cbn in Hroot; [contradiction|]. subst. left; auto. }
    eexists. split; [reflexivity|]. split; [|split].
    + split; [|constructor; auto]. cbn [lseg]. repeat split; auto. exists root. split; auto.
      rewrite hset_other by congruence. apply hset_same.
    + intros q Hq Hq2. rewrite hset_other by congruence. unfold h1. apply hset_other; auto.
    + intros q. destruct (Z.eq_dec q root) as [->|].
      * rewrite hset_same. split; [congruence|]. intros _. eapply lseg_live; [exact HL|].
        destruct l; cbn in Hroot; [contradiction|]. subst; left; auto.
      * rewrite hset_other by auto. destruct (Z.eq_dec q e) as [->|].
        -- unfold h1. rewrite hset_same, He. split; congruence.
        -- unfold h1. rewrite hset_other by auto. reflexivity.
Qed.

Lemma last_cons_default {A} (a : list A) x d d' : last (x :: a) d = last (x :: a) d'.
Proof. revert x; induction a as [|y a IH]; intros x; auto. cbn [last] in *. apply IH. Qed.

(** Splitting a segment at an element. *)
Lemma lseg_split h a : forall p c e b, lseg h p c (a ++ e :: b) ->
  exists n, h e = Some (mkNode (last a p) n) /\ lseg h e n b /\ e <> NULL /\
            (a = [] -> c = e).
Proof.
  induction a as [|x a IH]; intros p c e b H; cbn [app lseg] in H.
  - destruct H as (-> & Hn & n & He & H). exists n. cbn. repeat split; auto.
  - destruct H as (-> & Hn & n & Hx & H). destruct (IH _ _ _ _ H) as (n' & He & Hb & Hen & _).
    exists n'. repeat split; auto; [|discriminate].
    destruct a as [|y a]; auto. rewrite He. cbn [last]. do 2 f_equal. apply (last_cons_default a y).
Qed.

(** Taking an element out: its predecessor's next and its successor's prev are redirected. *)
Lemma lseg_unlink a : forall h h' p c e b n,
  lseg h p c (a ++ e :: b) -> NoDup (a ++ e :: b) -> a <> [] ->
  h e = Some (mkNode (last a p) n) ->
  (forall q, q <> last a p -> q <> hd NULL b -> q <> e -> h' q = h q) ->
  (forall m, h (last a p) = Some m -> h' (last a p) = Some (mkNode (prev m) n)) ->
  (forall m, b <> [] -> h (hd NULL b) = Some m -> h' (hd NULL b) = Some (mkNode (last a p) (next m))) ->
  lseg h' p c (a ++ b).
Proof.
  induction a as [|x a IH]; intros h h' p c e b n H ND Ha He HF H1 H2; [contradiction|].
  cbn [app lseg] in H. destruct H as (-> & Hxn & nx & Hx & H).
  inversion ND as [|? ? Hni ND']; subst.
  cbn [app lseg]. repeat split; auto.
  destruct a as [|y a].
  - cbn [app last] in *. cbn [lseg] in H. destruct H as (-> & Hen & n' & He' & Hb).
    assert (n' = n) as -> by congruence.
    exists n. split. { rewrite (H1 _ Hx). reflexivity. }
    destruct b as [|z b]; [exact Hb|]. cbn [lseg hd] in *. destruct Hb as (-> & Hzn & nz & Hz & Hb).
    repeat split; auto. exists nz. split. { rewrite (H2 _ ltac:(discriminate) Hz). reflexivity. }
    eapply lseg_frame; [|exact Hb]. intros q Hq. apply HF.
    + intros ->. apply Hni. right. right. exact Hq.
    + intros ->. apply NoDup_cons_iff in ND' as [_ ND']. inversion ND'; subst; contradiction.
    + intros ->. apply NoDup_cons_iff in ND' as [Hn' _]. apply Hn'. right; exact Hq.
  - assert (EL : last (x :: y :: a) p = last (y :: a) x).
    { cbn [last]. apply (last_cons_default a y p x). }
    assert (Hxl : x <> last (y :: a) x).
    { intros E. apply Hni. apply in_or_app. left. rewrite E.
      destruct (exists_last (l:=y :: a)) as (l' & z & El); [discriminate|]. rewrite El.
      rewrite last_last. apply in_or_app. right; left; auto. }
    exists nx. split.
    + rewrite HF; auto.
      * rewrite EL. exact Hxl.
      * intros E. apply Hni. apply in_or_app. right. right. rewrite E. destruct b; [cbn in E; congruence|left; auto].
      * intros ->. apply Hni. apply in_or_app. right; left; auto.
    + rewrite EL in *.
      eapply (IH h h' x nx e b n); auto; try congruence.
Qed.

Lemma remove_split (a : list ptr) e b : ~ In e a -> ~ In e b -> List.remove Z.eq_dec e (a ++ e :: b) = a ++ b.
Proof.
  intros Ha Hb. rewrite remove_app. cbn [List.remove]. destruct (Z.eq_dec e e); [|congruence].
  rewrite !notin_remove by assumption. reflexivity.
Qed.

Lemma remove_ok h root l e : repr h root l -> In e l ->
  exists h' root', il_remove h root e = Ok (h', root') /\ repr h' root' (List.remove Z.eq_dec e l) /\
    h' e = Some (mkNode NULL NULL) /\
    (forall a b, l = a ++ e :: b -> forall q, q <> e -> (a <> [] -> q <> last a NULL) ->
                                    (b <> [] -> q <> hd NULL b) -> h' q = h q) /\
    (forall q, h q <> None <-> h' q <> None).
Proof.
  intros [HL ND] Hin. destruct (in_split _ _ Hin) as (a & b & ->).
  assert (Hab : ~ In e a /\ ~ In e b).
  { apply NoDup_remove_2 in ND. split; intros H; apply ND; apply in_or_app; auto. }
  destruct Hab as [Hea Heb].
  rewrite (remove_split a e b Hea Heb).
  assert (Uniq : forall a' b', a ++ e :: b = a' ++ e :: b' -> a' = a /\ b' = b).
  { clear -Hea Heb. revert Hea. induction a as [|x a IH]; intros Hea a' b' E.
    - destruct a' as [|y a']; cbn in E; [split; congruence|]. injection E as -> ->.
      exfalso. apply Heb. apply in_or_app. right; left; auto.
    - destruct a' as [|y a']; cbn in E.
      + injection E as -> _. exfalso. apply Hea. left; auto.
      + injection E as -> E. destruct (IH ltac:(intros H; apply Hea; right; auto) _ _ E) as [-> ->]; auto. }
  destruct (lseg_split _ _ _ _ _ _ HL) as (n & He & Hb & Hen & Hroot).
  assert (NDab : NoDup (a ++ b)) by (eapply NoDup_remove_1; eauto).
  assert (Hn : n = hd NULL b) by (eapply lseg_root; eauto).
  assert (NDb : NoDup b).
  { clear -ND. induction a as [|x a IH]; cbn in ND.
    - inversion ND; auto. - inversion ND; auto. }
  unfold il_remove. rewrite (node_at_ok _ _ _ Hen He). cbn [bind next prev].
  destruct (Z.eqb_spec e root) as [Er|Er].
  - (* the first element *)
    assert (a = []) as ->.
    { destruct a as [|x a]; auto. cbn in HL. destruct HL as (-> & _). exfalso. apply Hea. left; auto. }
    cbn [app last] in *. 
    destruct (Z.eqb_spec n NULL) as [E0|E0]; cbn [negb].
    + cbn [bind]. rewrite (node_at_ok _ _ _ Hen He). cbn [bind].
      assert (b = []) as ->. { destruct b; auto. cbn in Hb. destruct Hb as (-> & ? & _). contradiction. }
      do 2 eexists. split; [reflexivity|]. conjs.
      * split; [reflexivity|constructor].
      * apply hset_same.
      * intros a' b' Ea q Hq _ _. apply hset_other; auto.
      * intros q. destruct (Z.eq_dec q e) as [->|]; [rewrite hset_same, He; split; congruence|].
        rewrite hset_other by auto. reflexivity.
    + destruct (lseg_reprev h e NULL n b Hb NDb E0) as (n2 & Hn2 & Hb2).
      unfold set_prev. rewrite (node_at_ok _ _ _ E0 Hn2). cbn [bind next].
      assert (Hne : e <> n).
      { intros E. apply Heb. rewrite E. destruct b; cbn in Hn; [contradiction|]. subst; left; auto. }
      assert (He2 : hset h n (mkNode NULL n2) e = Some (mkNode NULL n)) by (rewrite hset_other; auto).
      rewrite (node_at_ok _ _ _ Hen He2). cbn [bind next].
      rewrite (node_at_ok _ _ _ Hen He2). cbn [bind].
      do 2 eexists. split; [reflexivity|]. conjs.
      * split; auto. eapply lseg_frame; [|exact Hb2]. intros x Hx. apply hset_other. congruence.
      * apply hset_same.
      * intros a' b' Ea q Hq _ Hq3. destruct (Uniq _ _ Ea) as [-> ->].
        rewrite !hset_other; auto. rewrite Hn. apply Hq3. destruct b; [cbn in Hn; contradiction|discriminate].
      * intros q. destruct (Z.eq_dec q e) as [->|]; [rewrite hset_same, He; split; congruence|].
        rewrite hset_other by auto.
        destruct (Z.eq_dec q n) as [->|]; [rewrite hset_same, Hn2; split; congruence|].
        rewrite hset_other by auto. reflexivity.
  - (* further back *)
    assert (Ha : a <> []).
    { intros ->. apply Er. symmetry. apply Hroot. reflexivity. }
    assert (Hlast : In (last a NULL) a).
    { destruct (exists_last Ha) as (l' & z & El). rewrite El, last_last. apply in_or_app. right; left; auto. }
    assert (HlastN : last a NULL <> NULL).
    { eapply lseg_nonnull; [exact HL|]. apply in_or_app; left; auto. }
    assert (Hle : last a NULL <> e) by congruence.
    destruct (h (last a NULL)) as [m|] eqn:Hm.
    2:{ exfalso. eapply lseg_live; [exact HL| |exact Hm]. apply in_or_app; left; auto. }
    unfold set_next, set_prev. rewrite (node_at_ok _ _ _ HlastN Hm). cbn [bind prev].
    set (h1 := hset h (last a NULL) (mkNode (prev m) n)).
    assert (He1 : h1 e = Some (mkNode (last a NULL) n)) by (unfold h1; rewrite hset_other; auto).
    rewrite (node_at_ok _ _ _ Hen He1). cbn [bind next prev].
    destruct (Z.eqb_spec n NULL) as [E0|E0]; cbn [negb].
    + cbn [bind]. rewrite (node_at_ok _ _ _ Hen He1). cbn [bind].
      assert (b = []) as ->. { destruct b; auto. cbn in Hb. destruct Hb as (-> & ? & _). contradiction. }
      do 2 eexists. split; [reflexivity|]. conjs.
      * split; auto. eapply (lseg_unlink a h _ NULL root e [] n); eauto.
        -- intros q H1 _ H3. rewrite hset_other by auto. unfold h1. apply hset_other; auto.
        -- intros m' Hm'. rewrite hset_other by auto. unfold h1. rewrite hset_same. congruence.
        -- congruence.
      * apply hset_same.
      * intros a' b' Ea q Hq Hq2 _. destruct (Uniq _ _ Ea) as [-> ->].
        rewrite hset_other by auto. unfold h1. apply hset_other; auto.
      * intros q. destruct (Z.eq_dec q e) as [->|]; [rewrite hset_same, He; split; congruence|].
        rewrite hset_other by auto. unfold h1.
        destruct (Z.eq_dec q (last a NULL)) as [->|]; [rewrite hset_same, Hm; split; congruence|].
        rewrite hset_other by auto. reflexivity.
    + assert (Hnb : In n b). { destruct b; cbn in Hn; [contradiction|]. subst; left; auto. }
      assert (Hnl : n <> last a NULL).
      { intros E. rewrite E in Hnb. clear -NDab Hnb Hlast.
        revert Hnb Hlast. generalize (last a NULL) as z. intros z Hz.
        induction a as [|x a IH]; cbn in *; intros H; [contradiction|].
        inversion NDab as [|? ? Hx NDr]; subst. destruct H as [->|H]; auto.
        apply Hx. apply in_or_app; right; auto. }
      assert (Hne : n <> e) by congruence.
      destruct (h n) as [mn|] eqn:Hmn.
      2:{ exfalso. eapply lseg_live; [exact Hb|exact Hnb|exact Hmn]. }
      assert (Hmn1 : h1 n = Some mn) by (unfold h1; rewrite hset_other; auto).
      rewrite (node_at_ok _ _ _ E0 Hmn1). cbn [bind].
      set (h2 := hset h1 n (mkNode (last a NULL) (next mn))).
      assert (He2 : h2 e = Some (mkNode (last a NULL) n)) by (unfold h2; rewrite hset_other; auto).
      rewrite (node_at_ok _ _ _ Hen He2). cbn [bind].
      do 2 eexists. split; [reflexivity|]. conjs.
      * split; auto. eapply (lseg_unlink a h _ NULL root e b n); eauto.
        -- intros q H1 H2 H3. rewrite hset_other by auto. unfold h2. rewrite hset_other by congruence.
           unfold h1. apply hset_other; auto.
        -- intros m' Hm'. rewrite hset_other by auto. unfold h2. rewrite hset_other by congruence.
           unfold h1. rewrite hset_same. congruence.
        -- intros m' _ Hm'. rewrite <- Hn in *. rewrite hset_other by auto. unfold h2. rewrite hset_same. congruence.
      * apply hset_same.
      * intros a' b' Ea q Hq Hq2 Hq3. destruct (Uniq _ _ Ea) as [-> ->].
        rewrite hset_other by auto. unfold h2. rewrite hset_other. { unfold h1. apply hset_other; auto. }
        rewrite Hn. apply Hq3. destruct b; [cbn in Hn; contradiction|discriminate].
      * intros q. destruct (Z.eq_dec q e) as [->|]; [rewrite hset_same, He; split; congruence|].
        rewrite hset_other by auto. unfold h2.
        destruct (Z.eq_dec q n) as [->|]; [rewrite hset_same, Hmn; split; congruence|].
        rewrite hset_other by auto. unfold h1.
        destruct (Z.eq_dec q (last a NULL)) as [->|]; [rewrite hset_same, Hm; split; congruence|].
        rewrite hset_other by auto. reflexivity.
Qed.

Lemma walk_ok h l : forall p c fuel, lseg h p c l -> (length l <= fuel)%nat -> il_walk fuel h c = Ok l.
Proof.
  induction l as [|e l IH]; intros p c fuel H Hf; cbn [lseg length] in *.
  - subst. destruct fuel; cbn [il_walk]; now rewrite Z.eqb_refl.
  - destruct H as (-> & Hn & n & He & H). destruct fuel as [|fuel]; [lia|]. cbn [il_walk].
    destruct (Z.eqb_spec e NULL); [contradiction|]. rewrite (node_at_ok _ _ _ Hn He). cbn [bind next].
    rewrite (IH e n fuel H) by lia. reflexivity.
Qed.

(** Walking from a cell whose predecessors spell [a] backwards. *)
Lemma walk_back_ok h root l : lseg h NULL root l ->
  forall a b e, l = a ++ e :: b -> forall fuel, (length a < fuel)%nat ->
  il_walk_back fuel h e = Ok (e :: rev a).
Proof.
  intros HL a. induction a as [|y a' IH] using rev_ind; intros b e El fuel Hf.
  - subst l. destruct (lseg_split _ _ _ _ _ _ HL) as (n & He & _ & Hen & _).
    destruct fuel as [|fuel]; [cbn in Hf; lia|]. cbn [il_walk_back].
    destruct (Z.eqb_spec e NULL); [contradiction|]. rewrite (node_at_ok _ _ _ Hen He).
    cbn [bind prev last]. destruct fuel; cbn [il_walk_back]; rewrite Z.eqb_refl; reflexivity.
  - rewrite app_length in Hf. cbn [length] in Hf. subst l.
    destruct (lseg_split _ _ _ _ _ _ HL) as (n & He & _ & Hen & _).
    destruct fuel as [|fuel]; [lia|]. cbn [il_walk_back].
    destruct (Z.eqb_spec e NULL); [contradiction|]. rewrite (node_at_ok _ _ _ Hen He).
    cbn [bind prev]. rewrite last_last.
    rewrite (IH (e :: b) y) by (rewrite <- ?app_assoc; cbn; auto; lia).
    cbn [bind]. rewrite rev_app_distr. reflexivity.
Qed.

Lemma run_ok ops : forall h root l, repr h root l -> well_used (fun e => h e <> None) l ops ->
  exists h' root', il_run (h, root) ops = Ok (h', root') /\ repr h' root' (spec_run l ops) /\
                   (forall q, h q <> None <-> h' q <> None).
Proof.
  induction ops as [|o ops IH]; intros h root l R W.
  - exists h, root. cbn. split; auto. split; auto. reflexivity.
  - cbn [well_used] in W. destruct W as [Wo W].
    assert (Ext : forall (P Q : ptr -> Prop) ops l, (forall e, P e <-> Q e) -> well_used P l ops -> well_used Q l ops).
    { clear. intros P Q ops. induction ops as [|o ops IH]; cbn; auto. intros l E [H1 H2]. split; eauto.
      destruct o; auto. rewrite <- E. exact H1. }
    destruct o as [e|e]; cbn [il_run il_step fst snd spec_run spec_step] in *.
    + destruct Wo as (Hl & Hn & Hni).
      destruct (add_ok h root l e R Hl Hn Hni) as (h1 & E1 & R1 & _ & L1). rewrite E1. cbn [bind].
      destruct (IH h1 e (e :: l) R1) as (h2 & r2 & E2 & R2 & L2).
      { eapply Ext; [|exact W]. exact L1. }
      exists h2, r2. split; auto. split; auto. intros q. now rewrite L1.
    + destruct (remove_ok h root l e R Wo) as (h1 & r1 & E1 & R1 & _ & _ & L1). rewrite E1. cbn [bind].
      destruct (IH h1 r1 _ R1) as (h2 & r2 & E2 & R2 & L2).
      { eapply Ext; [|exact W]. exact L1. }
      exists h2, r2. split; auto. split; auto. intros q. now rewrite L1.
Qed.

(** * Contexts *)

(** Moving from the most recently registered context makes the moved-to context's destructor
    follow a null pointer. *)
Lemma cx_move_head_bad h root l c d : repr h root (c :: l) -> h d = None -> d <> NULL ->
  exists st, cx_move (h, root) d c = Ok st /\ cx_destroy st d = UB NullDeref.
Proof.
  intros [HL ND] Hd HdN. cbn [lseg] in HL. destruct HL as (-> & Hn & n & Hc & HL).
  unfold cx_move. cbn [fst snd]. rewrite (node_at_ok _ _ _ Hn Hc). cbn [bind].
  eexists. split; [reflexivity|]. unfold cx_destroy. cbn [fst snd]. unfold il_remove.
  rewrite (node_at_ok _ d (mkNode NULL n)) by (auto using hset_same). cbn [bind prev next].
  destruct (Z.eqb_spec d c) as [->|_]; [congruence|]. unfold set_next.
  change (node_at _ NULL) with (@UB node NullDeref). reflexivity.
Qed.

(** ... also when the context moved from was destroyed before. *)
Lemma cx_move_head_bad2 h root l c d : repr h root (c :: l) -> ~ In d (c :: l) -> d <> NULL ->
  exists st st1, cx_move (h, root) d c = Ok st /\ cx_destroy st c = Ok st1 /\ cx_destroy st1 d = UB NullDeref.
Proof.
  intros R Hd HdN. pose proof R as [HL ND]. cbn [lseg] in HL. destruct HL as (-> & Hn & n & Hc & HL).
  unfold cx_move. cbn [fst snd]. rewrite (node_at_ok _ _ _ Hn Hc). cbn [bind].
  set (h0 := hset h d (mkNode NULL n)).
  assert (Hcd : c <> d) by (intros ->; apply Hd; left; auto).
  assert (R0 : repr h0 c (c :: l)).
  { split; auto. eapply lseg_frame; [|exact (proj1 R)]. intros e He. apply hset_other. congruence. }
  destruct (remove_ok h0 c (c :: l) c R0) as (h1 & r1 & E1 & R1 & _ & F & _); [left; auto|].
  eexists. eexists. split; [reflexivity|]. unfold cx_destroy at 1. cbn [fst snd]. rewrite E1. cbn [bind]. split; [reflexivity|].
  assert (Ed : hfree h1 c d = Some (mkNode NULL n)).
  { unfold hfree. destruct (Z.eqb_spec d c); [congruence|]. rewrite (F [] l eq_refl).
    - unfold h0. apply hset_same.
    - congruence.
    - congruence.
    - intros Hl E. apply Hd. right. destruct l; [congruence|]. cbn in E. left. auto. }
  unfold cx_destroy. cbn [fst snd]. unfold il_remove. rewrite (node_at_ok _ d (mkNode NULL n)) by auto. cbn [bind prev next].
  assert (d <> r1) as Hr.
  { intros ->. destruct R1 as [R1 _]. rewrite (lseg_root _ _ _ _ R1) in *. cbn [List.remove] in *.
    destruct (Z.eq_dec c c) as [_|]; [|congruence].
    rewrite notin_remove in * by (inversion ND; auto). destruct l as [|y l]; cbn in *; tauto. }
  destruct (Z.eqb_spec d r1) as [|_]; [contradiction|]. unfold set_next.
  change (node_at _ NULL) with (@UB node NullDeref). reflexivity.
Qed.

(** What removing an element does whose node says it is between [pr] and [n]. *)
Lemma remove_between h root d pr n m :
  d <> NULL -> d <> root -> pr <> NULL -> pr <> d -> n <> d -> n <> pr ->
  h d = Some (mkNode pr n) -> h pr = Some m -> (n <> NULL -> h n <> None) ->
  exists h', il_remove h root d = Ok (h', root) /\ h' d = Some (mkNode NULL NULL) /\
    h' pr = Some (mkNode (prev m) n) /\
    (n <> NULL -> forall mn, h n = Some mn -> h' n = Some (mkNode pr (next mn))) /\
    (forall q, q <> d -> q <> pr -> (n <> NULL -> q <> n) -> h' q = h q).
Proof.
  intros Hd Hr Hp Hpd Hnd Hnp Ed Ep En. unfold il_remove. rewrite (node_at_ok _ _ _ Hd Ed). cbn [bind prev next].
  destruct (Z.eqb_spec d root) as [|_]; [contradiction|].
  unfold set_next. rewrite (node_at_ok _ _ _ Hp Ep). cbn [bind].
  set (h1 := hset h pr (mkNode (prev m) n)).
  assert (E1 : h1 d = Some (mkNode pr n)) by (unfold h1; rewrite hset_other; auto).
  rewrite (node_at_ok _ _ _ Hd E1). cbn [bind prev next].
  destruct (Z.eqb_spec n NULL) as [E0|E0]; cbn [negb].
  - cbn [bind]. rewrite (node_at_ok _ _ _ Hd E1). cbn [bind]. eexists. split; [reflexivity|].
    split; [apply hset_same|]. split; [rewrite hset_other by auto; unfold h1; apply hset_same|].
    split; [congruence|]. intros q Q1 Q2 _. rewrite hset_other by auto. unfold h1. now apply hset_other.
  - destruct (h n) as [mn|] eqn:Emn; [|now elim En].
    unfold set_prev. assert (Emn1 : h1 n = Some mn) by (unfold h1; rewrite hset_other; auto).
    rewrite (node_at_ok _ _ _ E0 Emn1). cbn [bind].
    assert (E2 : hset h1 n (mkNode pr (next mn)) d = Some (mkNode pr n)) by (rewrite hset_other; auto).
    rewrite (node_at_ok _ _ _ Hd E2). cbn [bind]. eexists. split; [reflexivity|].
    split; [apply hset_same|].
    split; [rewrite hset_other by auto; rewrite hset_other by auto; unfold h1; apply hset_same|].
    split.
    + intros _ mn' [= <-]. rewrite hset_other by auto. apply hset_same.
    + intros q Q1 Q2 Q3. rewrite !hset_other by auto. unfold h1. now apply hset_other.
Qed.

(** A context that is neither the newest nor moved: moving from it and destroying both, in either
    order. *)
Lemma last_in (a : list ptr) : a <> [] -> In (last a NULL) a.
Proof. intros Ha. destruct (exists_last Ha) as (l' & z & El). rewrite El, last_last. apply in_or_app. right; left; auto. Qed.

Lemma adjacent h root a b : repr h root (a ++ b) -> a <> [] ->
  last a NULL <> NULL /\ (exists p, h (last a NULL) = Some (mkNode p (hd NULL b))) /\
  (b <> [] -> hd NULL b <> NULL /\ exists x, h (hd NULL b) = Some (mkNode (last a NULL) x)) /\
  ~ In (hd NULL b) a.
Proof.
  intros [HL ND] Ha. destruct (exists_last Ha) as (a' & z & ->). rewrite last_last.
  rewrite <- app_assoc in HL. cbn [app] in HL.
  destruct (lseg_split _ _ _ _ _ _ HL) as (n & Ez & Hb & Hz & _).
  pose proof (lseg_root _ _ _ _ Hb) as ->.
  split; [auto|]. split; [eauto|]. split.
  - destruct b as [|y b]; [congruence|]. intros _. cbn [lseg hd] in *. destruct Hb as (_ & Hy & x & Ey & _). eauto.
  - destruct b as [|y b]; cbn [hd].
    + intros Hin. eapply lseg_nonnull; [exact HL| |reflexivity]. rewrite app_nil_r in ND.
      apply in_app_or in Hin. apply in_or_app. cbn. tauto.
    + intros Hin. apply NoDup_remove_2 in ND. apply ND. apply in_or_app. auto.
Qed.

Lemma stale_removed h root a b d : repr h root (a ++ b) -> a <> [] -> d <> NULL -> ~ In d (a ++ b) ->
  h d = Some (mkNode (last a NULL) (hd NULL b)) ->
  exists h', il_remove h root d = Ok (h', root) /\ repr h' root (a ++ b) /\ forall q, q <> d -> h' q = h q.
Proof.
  intros R Ha Hd Hni Ed. destruct (adjacent _ _ _ _ R Ha) as (Hl & (p & El) & Hb & Hh). destruct R as [HL ND].
  pose proof (last_in a Ha) as Hla.
  assert (Hroot : d <> root).
  { intros ->. apply Hni. rewrite (lseg_root _ _ _ _ HL). destruct a; [congruence|]. left. reflexivity. }
  assert (Hld : last a NULL <> d) by (intros E; apply Hni; apply in_or_app; left; congruence).
  assert (Hhd : hd NULL b <> d).
  { intros E. destruct b as [|y b]; cbn in E; [congruence|]. apply Hni. apply in_or_app. right. left. auto. }
  assert (Hnl : hd NULL b <> last a NULL) by congruence.
  destruct (remove_between h root d (last a NULL) (hd NULL b) (mkNode p (hd NULL b)))
    as (h' & E & _ & E1 & E2 & E3); auto.
  { intros H. destruct b as [|y b]; [now elim H|]. destruct (Hb ltac:(discriminate)) as (_ & x & Ex). rewrite Ex. discriminate. }
  assert (F : forall q, q <> d -> h' q = h q).
  { intros q Hq. destruct (Z.eq_dec q (last a NULL)) as [->|N1]; [rewrite E1, El; reflexivity|].
    destruct (Z.eq_dec q (hd NULL b)) as [->|N2]; [|auto].
    destruct b as [|y b]; [apply E3; auto; intros H; now elim H|].
    destruct (Hb ltac:(discriminate)) as (H0 & x & Ex). rewrite (E2 H0 _ Ex), Ex. reflexivity. }
  exists h'. split; [exact E|]. split; [|exact F]. split; [|exact ND].
  eapply lseg_frame; [|exact HL]. intros e He. apply F. intros ->. contradiction.
Qed.

Lemma copy_removed h root a b c d : repr h root (a ++ c :: b) -> a <> [] -> d <> NULL -> ~ In d (a ++ c :: b) ->
  h d = h c ->
  exists h', il_remove h root d = Ok (h', root) /\ repr h' root (a ++ b) /\
    h' c = Some (mkNode (last a NULL) (hd NULL b)) /\ forall q, q <> d -> (h q <> None <-> h' q <> None).
Proof.
  intros R Ha Hd Hni Ed. pose proof R as [HL ND].
  destruct (adjacent _ _ _ _ R Ha) as (Hl & (p & El) & Hb & _).
  destruct (lseg_split _ _ _ _ _ _ HL) as (n & Ec & Hbs & Hc & _).
  pose proof (lseg_root _ _ _ _ Hbs) as En.
  pose proof (last_in a Ha) as Hla.
  assert (Hca : ~ In c a /\ ~ In c b).
  { apply NoDup_remove_2 in ND. split; intros H; apply ND; apply in_or_app; auto. }
  assert (Hroot : d <> root).
  { intros ->. apply Hni. rewrite (lseg_root _ _ _ _ HL). destruct a; [congruence|]. left. reflexivity. }
  assert (Hld : last a NULL <> d) by (intros E; apply Hni; apply in_or_app; left; congruence).
  assert (Hnd : n <> d).
  { intros E. rewrite En in E. destruct b as [|y b]; cbn in E; [congruence|].
    apply Hni. apply in_or_app. right. right. left. auto. }
  assert (Hnb : n <> NULL -> In n b).
  { intros H. destruct b as [|y b]; cbn in En; [congruence|]. left; auto. }
  assert (Hnl : n <> last a NULL).
  { intros E. destruct (Z.eq_dec n NULL) as [->|N0]; [congruence|]. specialize (Hnb N0). rewrite E in Hnb.
    clear - ND Hnb Hla. revert Hnb Hla. generalize (last a NULL) as z. intros z Hz H.
    induction a as [|x a IH]; cbn in *; [contradiction|]. inversion ND; subst.
    destruct H as [->|H]; auto. apply H2. apply in_or_app; right; right; auto. }
  assert (Hlive : n <> NULL -> h n <> None) by (intros H; eapply lseg_live; [exact Hbs|auto]).
  destruct (remove_between h root d (last a NULL) n (mkNode p (hd NULL (c :: b))))
    as (h' & E & E0 & E1 & E2 & E3); auto; [congruence|].
  assert (NULLsame : n = NULL -> h' NULL = h NULL) by (intros N0; apply E3; auto; intros X; contradiction).
  assert (Hcl : c <> last a NULL) by (intros X; apply (proj1 Hca); congruence).
  assert (Hcn : c <> n).
  { intros X. destruct (Z.eq_dec n NULL) as [N0|N0]; [congruence|]. apply (proj2 Hca). rewrite X. auto. }
  assert (Hcd : c <> d).
  { intros X. apply Hni. apply in_or_app. right. left. auto. }
  exists h'. split; [exact E|]. split; [|split].
  - split; [|eapply NoDup_remove_1; eauto].
    destruct (Z.eq_dec n NULL) as [N0|N0].
    + eapply (lseg_unlink a (fun q => if q =? d then h' d else h q) h' NULL root c b n); auto.
      * eapply lseg_frame; [|exact HL]. intros e He. cbn. destruct (Z.eqb_spec e d) as [->|]; [contradiction|auto].
      * destruct (Z.eqb_spec c d); [congruence|exact Ec].
      * intros q Q1 Q2 Q3. destruct (Z.eqb_spec q d) as [->|Qd]; [auto|].
        apply E3; auto.
      * intros m. destruct (Z.eqb_spec (last a NULL) d); [congruence|]. rewrite El. intros [= <-]. exact E1.
      * intros m Hbb. destruct b as [|y b]; [congruence|]. cbn in En.
        exfalso. eapply lseg_nonnull; [exact Hbs|left; reflexivity|]. congruence.
    + eapply (lseg_unlink a (fun q => if q =? d then h' d else h q) h' NULL root c b n); auto.
      * eapply lseg_frame; [|exact HL]. intros e He. cbn. destruct (Z.eqb_spec e d) as [->|]; [contradiction|auto].
      * destruct (Z.eqb_spec c d); [congruence|exact Ec].
      * intros q Q1 Q2 Q3. destruct (Z.eqb_spec q d) as [->|Qd]; [auto|]. apply E3; auto. intros _. rewrite En. exact Q2.
      * intros m. destruct (Z.eqb_spec (last a NULL) d); [congruence|]. rewrite El. intros [= <-]. exact E1.
      * intros m _. rewrite <- En. destruct (Z.eqb_spec n d); [congruence|]. intros Hm. auto.
  - rewrite E3; auto. rewrite Ec, En. reflexivity.
  - intros q Qd. destruct (Z.eq_dec q (last a NULL)) as [->|Q1]; [rewrite E1, El; split; discriminate|].
    destruct (Z.eq_dec q n) as [->|Q2]; [|rewrite E3 by auto; reflexivity].
    destruct (Z.eq_dec n NULL) as [N0|N0]; [subst n; rewrite N0 in *; rewrite NULLsame by auto; reflexivity|].
    destruct (h n) as [mn|] eqn:Emn; [|now elim (Hlive N0)]. rewrite (E2 N0 _ eq_refl). split; discriminate.
Qed.

Lemma repr_free h root l c : repr h root l -> ~ In c l -> repr (hfree h c) root l.
Proof.
  intros [HL ND] Hni. split; auto. eapply lseg_frame; [|exact HL]. intros e He. unfold hfree.
  destruct (Z.eqb_spec e c) as [->|]; [contradiction|auto].
Qed.

Lemma remove_mid (a : list ptr) c b : NoDup (a ++ c :: b) -> List.remove Z.eq_dec c (a ++ c :: b) = a ++ b.
Proof.
  intros ND. apply NoDup_remove_2 in ND. rewrite remove_app. cbn [List.remove].
  destruct (Z.eq_dec c c) as [_|N]; [|congruence].
  rewrite !notin_remove; auto; intros H; apply ND; apply in_or_app; auto.
Qed.

(** Moving from a context that is not the newest; then both are destroyed, in either order. *)
Lemma cx_move_inner h root a b c d : repr h root (a ++ c :: b) -> a <> [] -> d <> NULL -> ~ In d (a ++ c :: b) ->
  exists st0, cx_move (h, root) d c = Ok st0 /\
    (exists st1 h2 r2, cx_destroy st0 c = Ok st1 /\ cx_destroy st1 d = Ok (h2, r2) /\ repr h2 r2 (a ++ b)) /\
    (exists st1 h2 r2, cx_destroy st0 d = Ok st1 /\ cx_destroy st1 c = Ok (h2, r2) /\ repr h2 r2 (a ++ b)).
Proof.
  intros R Ha Hd Hni. pose proof R as [HL ND].
  destruct (lseg_split _ _ _ _ _ _ HL) as (n & Ec & Hbs & Hc & _).
  pose proof (lseg_root _ _ _ _ Hbs) as En.
  assert (Hcd : c <> d). { intros X. apply Hni. apply in_or_app. right. left. auto. }
  assert (Hcab : ~ In c (a ++ b)) by (now apply NoDup_remove_2).
  assert (Hdab : ~ In d (a ++ b)).
  { intros H. apply Hni. apply in_app_or in H. apply in_or_app. cbn. tauto. }
  unfold cx_move. cbn [fst snd]. rewrite (node_at_ok _ _ _ Hc Ec). cbn [bind].
  set (h0 := hset h d (mkNode (last a NULL) n)).
  assert (R0 : repr h0 root (a ++ c :: b)).
  { split; auto. eapply lseg_frame; [|exact HL]. intros e He. apply hset_other. congruence. }
  eexists. split; [reflexivity|]. split.
  - destruct (remove_ok h0 root _ c R0) as (h1 & r1 & E1 & R1 & _ & F & _); [apply in_or_app; cbn; auto|].
    rewrite remove_mid in R1 by auto.
    unfold cx_destroy. cbn [fst snd]. rewrite E1. cbn [bind]. eexists. 
    assert (Ed : h1 d = Some (mkNode (last a NULL) (hd NULL b))).
    { rewrite (F a b eq_refl).
      - unfold h0. rewrite hset_same. congruence.
      - congruence.
      - intros _ ->. apply Hdab. apply in_or_app. left. now apply last_in.
      - intros Hb X. apply Hdab. apply in_or_app. right. destruct b; [congruence|]. cbn in X. left; auto. }
    assert (R1' : repr (hfree h1 c) r1 (a ++ b)) by (now apply repr_free).
    destruct (stale_removed (hfree h1 c) r1 a b d R1' Ha Hd Hdab) as (h2 & E2 & R2 & _).
    { unfold hfree. destruct (Z.eqb_spec d c); [congruence|exact Ed]. }
    exists (hfree h2 d), r1. split; [reflexivity|]. cbn [fst snd]. rewrite E2. cbn [bind]. split; [reflexivity|].
    now apply repr_free.
  - destruct (copy_removed h0 root a b c d R0 Ha Hd Hni) as (h1 & E1 & R1 & Ecl & _).
    { unfold h0. rewrite hset_same, hset_other by auto. congruence. }
    unfold cx_destroy. cbn [fst snd]. rewrite E1. cbn [bind]. eexists.
    assert (R1' : repr (hfree h1 d) root (a ++ b)) by (now apply repr_free).
    destruct (stale_removed (hfree h1 d) root a b c R1' Ha Hc Hcab) as (h2 & E2 & R2 & _).
    { unfold hfree. destruct (Z.eqb_spec c d); [congruence|exact Ecl]. }
    exists (hfree h2 c), root. split; [reflexivity|]. cbn [fst snd]. rewrite E2. cbn [bind]. split; [reflexivity|].
    now apply repr_free.
Qed.

(** * Contexts with their stacks *)

Lemma without_fst c l : map fst (without c l) = List.remove Z.eq_dec c (map fst l).
Proof.
  induction l as [|[x y] l IH]; cbn; [reflexivity|].
  destruct (Z.eq_dec c x) as [->|N]; [rewrite Z.eqb_refl; cbn; exact IH|].
  destruct (Z.eqb_spec x c); [congruence|]. cbn. unfold without in IH. now rewrite IH.
Qed.
Lemma without_in c l p : In p (without c l) -> In p l /\ fst p <> c.
Proof. unfold without. rewrite filter_In. intros (H & E). apply negb_true_iff in E. apply Z.eqb_neq in E. auto. Qed.
Lemma without_snd l c b : NoDup (map fst l) -> NoDup (map snd l) -> In (c, b) l ->
  map snd (without c l) = List.remove Z.eq_dec b (map snd l).
Proof.
  induction l as [|[x y] l IH]; cbn [map fst snd In without filter List.remove]; [contradiction|].
  intros N1 N2 H. inversion N1 as [|? ? A1 B1]; inversion N2 as [|? ? A2 B2]; subst.
  destruct (Z.eqb_spec x c) as [->|N]; cbn [negb].
  - destruct H as [[= ->]|H]; [|elim A1; apply (in_map fst) in H; exact H].
    destruct (Z.eq_dec b b) as [_|]; [|congruence]. rewrite notin_remove by auto.
    clear - A1. induction l as [|[u v] l IH]; cbn in *; [reflexivity|].
    destruct (Z.eqb_spec u c); [subst; tauto|]. cbn. now rewrite IH by tauto.
  - destruct H as [[= -> ->]|H]; [congruence|].
    destruct (Z.eq_dec b y) as [->|_]; [elim A2; apply (in_map snd) in H; exact H|].
    cbn [map snd]. f_equal. apply IH; auto.
Qed.

(** The state in which exactly these contexts live, each with its own stack. *)
Record holds (st : ctxs) (l : list (ptr * ptr)) : Prop := {
  ho_links : repr (fst (x_links st)) (snd (x_links st)) (map fst l);
  ho_live : forall q, fst (x_links st) q <> None <-> In q (map fst l);
  ho_stack : forall c b, In (c, b) l -> x_stack st c = b /\ b <> NULL;
  ho_blocks : x_blocks st = map snd l;
  ho_own : NoDup (map snd l) }.

Lemma holds_none : holds no_ctxs [].
Proof.
  constructor; cbn; auto; try contradiction; [split; [reflexivity|constructor]|intros q; split; [congruence|contradiction]|constructor].
Qed.

Lemma holds_create st l c b : holds st l -> c <> NULL -> ~ In c (map fst l) -> b <> NULL -> ~ In b (map snd l) ->
  exists st', ctx_create st c b = Ok st' /\ holds st' ((c, b) :: l).
Proof.
  intros [R L K B O] Hc Hni Hb Hbn. destruct st as [[h root] sk bl]. cbn [x_links x_stack x_blocks fst snd] in *.
  unfold ctx_create, cx_create. cbn [x_links fst snd].
  set (h0 := hset h c (mkNode NULL NULL)).
  assert (R0 : repr h0 root (map fst l)).
  { destruct R as [HL ND]. split; auto. eapply lseg_frame; [|exact HL]. intros e He. apply hset_other. congruence. }
  destruct (add_ok h0 root (map fst l) c R0) as (h1 & E1 & R1 & _ & L1); auto.
  { unfold h0. rewrite hset_same. discriminate. }
  rewrite E1. cbn [bind]. eexists. split; [reflexivity|].
  constructor; cbn [x_links x_stack x_blocks fst snd map]; auto.
  - intros q. rewrite <- L1. unfold h0. destruct (Z.eq_dec q c) as [->|Hq].
    + rewrite hset_same. split; [left; auto|discriminate].
    + rewrite hset_other by auto. rewrite L. cbn. split; [auto|]. intros [E|]; [congruence|auto].
  - intros c' b' [[= -> ->]|H]; unfold set_stack; [rewrite Z.eqb_refl; auto|].
    destruct (Z.eqb_spec c' c) as [->|]; [|auto]. elim Hni. apply (in_map fst) in H. exact H.
  - now rewrite B.
  - constructor; auto.
Qed.

Lemma deletes bl b : b <> NULL -> In b bl -> delete_block bl b = Ok (List.remove Z.eq_dec b bl).
Proof.
  intros Hb H. unfold delete_block. destruct (Z.eqb_spec b NULL); [contradiction|].
  replace (existsb (Z.eqb b) bl) with true; [reflexivity|]. symmetry. apply existsb_exists. exists b. split; [auto|apply Z.eqb_refl].
Qed.
Lemma deletes_again bl b : b <> NULL -> ~ In b bl -> delete_block bl b = UB DoubleFree.
Proof.
  intros Hb H. unfold delete_block. destruct (Z.eqb_spec b NULL); [contradiction|].
  replace (existsb (Z.eqb b) bl) with false; [reflexivity|]. symmetry. apply not_true_is_false. intros E.
  apply existsb_exists in E as (x & Hx & E). apply Z.eqb_eq in E. subst x. contradiction.
Qed.

Lemma holds_destroy st l c : holds st l -> In c (map fst l) ->
  exists st', ctx_destroy st c = Ok st' /\ holds st' (without c l).
Proof.
  intros [R L K B O] Hin. destruct st as [[h root] sk bl]. cbn [x_links x_stack x_blocks fst snd] in *.
  unfold ctx_destroy, cx_destroy. cbn [x_links x_stack x_blocks fst snd].
  destruct (remove_ok h root (map fst l) c R Hin) as (h1 & r1 & E1 & R1 & _ & _ & L1). rewrite E1. cbn [bind].
  apply in_map_iff in Hin as ([c' b] & <- & Hin). cbn [fst] in *. rename c' into c.
  destruct (K c b Hin) as (-> & Hb).
  rewrite deletes; [|exact Hb|rewrite B; apply (in_map snd) in Hin; exact Hin]. cbn [bind].
  eexists. split; [reflexivity|]. pose proof (proj2 R) as ND.
  assert (Hnr : ~ In c (List.remove Z.eq_dec c (map fst l))) by apply remove_In.
  constructor; cbn [x_links x_stack x_blocks fst snd].
  - rewrite without_fst. destruct R1 as [HL ND1]. split; auto. eapply lseg_frame; [|exact HL]. intros e He. unfold hfree.
    destruct (Z.eqb_spec e c); [congruence|auto].
  - intros q. rewrite without_fst. unfold hfree. destruct (Z.eqb_spec q c) as [->|Hq].
    + split; [congruence|contradiction].
    + rewrite <- L1, L. split; [intros; now apply in_in_remove|]. intros H. now apply in_remove in H.
  - intros c' b' H. apply without_in in H as (H & _). auto.
  - rewrite B. symmetry. now apply without_snd.
  - rewrite (without_snd l c b) by auto. clear - O. revert O. generalize (map snd l) as m. intros m O.
    induction O as [|x m Hx O IH]; cbn; [constructor|]. destruct (Z.eq_dec b x); [auto|].
    constructor; [|auto]. intros H. apply in_remove in H. tauto.
Qed.

Lemma cx_run_ok ops : forall st l, holds st l -> cx_used_well l ops ->
  exists st', cx_run st ops = Ok st' /\ holds st' (live_contexts l ops).
Proof.
  induction ops as [|o ops IH]; intros st l H W; [exists st; cbn; auto|].
  destruct o as [c b|c|d c]; cbn [cx_used_well live_contexts cx_run cx_step] in *; [| |contradiction].
  - destruct W as (W1 & W2 & W3 & W4 & W). destruct (holds_create st l c b H W1 W2 W3 W4) as (st1 & E & H1).
    rewrite E. cbn [bind]. now apply IH.
  - destruct W as (W1 & W). destruct (holds_destroy st l c H W1) as (st1 & E & H1). rewrite E. cbn [bind]. now apply IH.
Qed.

Lemma cx_run_app ops ops2 : forall st st', cx_run st ops = Ok st' -> cx_run st (ops ++ ops2) = cx_run st' ops2.
Proof.
  induction ops as [|o ops IH]; intros st st' H; cbn [app cx_run] in *; [congruence|].
  apply bind_ok in H. destruct H as (st1 & -> & H). cbn [bind]. eauto.
Qed.
