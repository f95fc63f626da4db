(** The nodes the parser builds show the trees its tokens spell. *)

From Coq Require Import String ZArith List Bool Lia Permutation SpecFloat.
From Verif Require Import Outcome HashModel TablesModel TablesProofs IrModel IrSpec IrProofs IrProps
  LexModel LexSpec LexProofs LexRun LexTiles ParseModel ParseUnfold ParseSpec ParseProofs.
Import ListNotations.
Local Open Scope Z_scope.
Local Open Scope list_scope.

(** * Trees *)

Section TreeInd.
Context (P : tree -> Prop).
Context (Hnil : P TNil) (Hbool : forall b, P (TBool b)) (Hint : forall v, P (TInt v)) (Hreal : forall x, P (TReal x))
  (Hsym : forall i, P (TSym i)) (Hstr : forall s, P (TStr s))
  (Hlist : forall l, Forall P l -> P (TList l)) (Hvec : forall l, Forall P l -> P (TVec l))
  (Hmap : forall es, Forall (fun kv => P (fst kv) /\ P (snd kv)) es -> P (TMap es)).
Fixpoint tree_rec2 (n : tree) : P n :=
  let all := fix all (l : list tree) : Forall P l :=
    match l with [] => Forall_nil _ | x :: l => Forall_cons _ (tree_rec2 x) (all l) end in
  let alle := fix alle (l : list (tree * tree)) : Forall (fun kv => P (fst kv) /\ P (snd kv)) l :=
    match l with
    | [] => Forall_nil _
    | (k, v) :: l => Forall_cons (k, v) (conj (tree_rec2 k) (tree_rec2 v)) (alle l)
    end in
  match n with
  | TNil => Hnil | TBool b => Hbool b | TInt v => Hint v | TReal x => Hreal x | TSym i => Hsym i
  | TStr s => Hstr s
  | TList l => Hlist l (all l) | TVec l => Hvec l (all l) | TMap es => Hmap es (alle es)
  end.
End TreeInd.

Definition shows2 (st : symtab) (kv : node * node) (tt : tree * tree) : Prop :=
  shows st (fst kv) (fst tt) /\ shows st (snd kv) (snd tt).

Lemma shows_list st l : forall l',
  (fix go (l : list tree) (l' : list node) := match l, l' with
      | [], [] => True
      | t :: l, n :: l' => shows st n t /\ go l l'
      | _, _ => False end) l l' <-> Forall2 (shows st) l' l.
Proof.
  induction l as [|t l IH]; intros [|n l']; split; intros H; try easy; try (inversion H; fail).
  - destruct H as [A B]. constructor; auto. now apply IH.
  - inversion H; subst. split; auto. now apply IH.
Qed.
Lemma shows_entries st l : forall l',
  (fix go (es : list (tree * tree)) (es' : list (node * node)) := match es, es' with
      | [], [] => True
      | (k, v) :: es, (k', v') :: es' => (shows st k' k /\ shows st v' v) /\ go es es'
      | _, _ => False end) l l' <-> Forall2 (shows2 st) l' l.
Proof.
  induction l as [|[k v] l IH]; intros [|[k' v'] l']; split; intros H; try easy; try (inversion H; fail).
  - destruct H as [A B]. constructor; auto. now apply IH.
  - inversion H; subst. split; auto. now apply IH.
Qed.
Lemma shows_NList st l l' : shows st (NList l') (TList l) <-> Forall2 (shows st) l' l.
Proof. apply shows_list. Qed.
Lemma shows_NVector st l l' : shows st (NVector l') (TVec l) <-> Forall2 (shows st) l' l.
Proof. apply shows_list. Qed.
Lemma shows_NMap st es es' : shows st (NMap es') (TMap es) <-> exists es'', Permutation es' es'' /\ Forall2 (shows2 st) es'' es.
Proof.
  cbn [shows]. split; intros (es'' & Pm & H); exists es''; split; auto; now apply shows_entries.
Qed.

(** Names once interned keep their meaning. *)
Lemma shows_grow st l st' m : srep st l -> srep st' (l ++ m) -> forall t n, shows st n t -> shows st' n t.
Proof.
  intros R R'. induction t as [|b|v|x|s|s|l0 IH|l0 IH|es IH] using tree_rec2; intros n H; destruct n as [|b'|v'|x'|i|i|c'|s'|l'|l'|es'|]; try easy.
  - destruct H as [A B]. destruct (proj1 (sym_id_spec st l s R) i) as [F _]. destruct (F B) as (k & -> & Hk).
    assert (nth_error (l ++ m) k = Some s).
    { rewrite nth_error_app1; auto. apply nth_error_Some. congruence. }
    split.
    + eapply sym_string_spec; eauto.
    + apply (sym_id_spec st' (l ++ m) s R'). eauto.
  - apply shows_NList. apply shows_NList in H. induction H; inversion IH; subst; constructor; auto.
  - apply shows_NVector. apply shows_NVector in H. induction H; inversion IH; subst; constructor; auto.
  - apply shows_NMap. apply shows_NMap in H as (es'' & Pm & H). exists es''. split; auto. clear Pm.
    induction H as [|[k v] [k' v'] es1 es2 [A B] F IH1]; inversion IH as [|? ? [I1 I2]]; subst; constructor; auto.
    split; cbn [fst snd] in *; auto.
Qed.

Lemma shows_grow_all st l st' m : srep st l -> srep st' (l ++ m) -> forall ts ns, Forall2 (shows st) ns ts -> Forall2 (shows st') ns ts.
Proof. intros R R' ts ns H. induction H; constructor; auto; eapply shows_grow; [exact R|exact R'|assumption]. Qed.
Lemma shows2_grow_all st l st' m : srep st l -> srep st' (l ++ m) -> forall ts ns, Forall2 (shows2 st) ns ts -> Forall2 (shows2 st') ns ts.
Proof. intros R R' ts ns H. induction H as [|? ? ? ? [A B] ]; constructor; auto; split; (eapply shows_grow; [exact R|exact R'|assumption]). Qed.

(** Trees without maps. *)
Lemma tsimple_list l : (fix go (l : list tree) := match l with [] => True | x :: l => tsimple x /\ go l end) l <-> Forall tsimple l.
Proof. induction l as [|x l IH]; [split; auto|]. rewrite IH. split; [intros [A B]; now constructor|intros H; inversion H; auto]. Qed.
Lemma tgood_list l : (fix go (l : list tree) := match l with [] => True | x :: l => tgood x /\ go l end) l <-> Forall tgood l.
Proof. induction l as [|x l IH]; [split; auto|]. rewrite IH. split; [intros [A B]; now constructor|intros H; inversion H; auto]. Qed.
Lemma tgood_entries l : (fix go (es : list (tree * tree)) := match es with
      | [] => True | (k, v) :: es => (tsimple k /\ tgood v) /\ go es end) l <-> Forall (fun kv => tsimple (fst kv) /\ tgood (snd kv)) l.
Proof. induction l as [|[k v] l IH]; [split; auto|]. rewrite IH. split; [intros [A B]; now constructor|intros H; inversion H; auto]. Qed.
Lemma tsame_list l : forall r, (fix go (l r : list tree) := match l, r with
      | [], [] => True | x :: l, y :: r => tsame x y /\ go l r | _, _ => False end) l r <-> Forall2 tsame l r.
Proof.
  induction l as [|x l IH]; intros [|y r]; split; intros H; try easy; try (inversion H; fail).
  - destruct H. constructor; auto. now apply IH.
  - inversion H; subst. split; auto. now apply IH.
Qed.

Lemma tsimple_tgood t : tsimple t -> tgood t.
Proof.
  induction t as [| | | | | |l IH|l IH|es IH] using tree_rec2; cbn [tsimple tgood]; intros H; auto; try easy.
  - apply tsimple_list in H. apply tgood_list. induction IH; inversion H; constructor; auto.
  - apply tsimple_list in H. apply tgood_list. induction IH; inversion H; constructor; auto.
Qed.

Lemma shows_simple st t : forall n, shows st n t -> tsimple t -> simple n.
Proof.
  induction t as [| | | | | |l IH|l IH|es IH] using tree_rec2; intros n H S; destruct n; try easy.
  - cbn in *. congruence.
  - apply simple_list. apply shows_NList in H. cbn in S. apply tsimple_list in S.
    induction H; inversion IH; inversion S; subst; constructor; auto.
  - apply simple_list. apply shows_NVector in H. cbn in S. apply tsimple_list in S.
    induction H; inversion IH; inversion S; subst; constructor; auto.
Qed.

Lemma shows_same st l t : srep st l -> tsimple t -> forall n t' n', shows st n t -> shows st n' t' -> same n n' -> tsame t t'.
Proof.
  intros R. induction t as [|b|v|x|s|s|l0 IH|l0 IH|es IH] using tree_rec2; intros Si n t' n' H H' E; try easy;
    destruct n as [|b1|v1|x1|i1|i1|c1|s1|l1|l1|es1|]; try easy; destruct n' as [|b2|v2|x2|i2|i2|c2|s2|l2|l2|es2|]; try easy;
    destruct t' as [|b3|v3|x3|s3|s3|l3|l3|es3]; try easy; cbn in H, H', E |- *; try congruence.
  - destruct H as [A _], H' as [A' _]. rewrite E in A. congruence.
  - apply same_NList in E. apply shows_NList in H, H'. apply tsame_list. cbn [tsimple] in Si. apply tsimple_list in Si.
    revert l2 l3 H' E. induction H as [|n t ns ts Hn F IHF]; intros ns' ts' H' E; inversion E; subst; inversion H'; subst;
      inversion IH; subst; inversion Si; subst; constructor; eauto.
  - apply same_NVector in E. apply shows_NVector in H, H'. apply tsame_list. cbn [tsimple] in Si. apply tsimple_list in Si.
    revert l2 l3 H' E. induction H as [|n t ns ts Hn F IHF]; intros ns' ts' H' E; inversion E; subst; inversion H'; subst;
      inversion IH; subst; inversion Si; subst; constructor; eauto.
Qed.

Lemma tsame_shows st l t : srep st l -> tsimple t -> forall n t' n', shows st n t -> shows st n' t' -> tsame t t' -> same n n'.
Proof.
  intros R. induction t as [|b|v|x|s|s|l0 IH|l0 IH|es IH] using tree_rec2; intros Si n t' n' H H' E; try easy;
    destruct t' as [|b3|v3|x3|s3|s3|l3|l3|es3]; try easy;
    destruct n as [|b1|v1|x1|i1|i1|c1|s1|l1|l1|es1|]; try easy; destruct n' as [|b2|v2|x2|i2|i2|c2|s2|l2|l2|es2|]; try easy;
    cbn in H, H', E |- *; try congruence.
  - destruct H as [_ A], H' as [_ A']. congruence.
  - apply same_NList. apply shows_NList in H, H'. cbn [tsimple] in Si. apply tsimple_list in Si. apply tsame_list in E.
    revert l2 l3 H' E. induction H as [|n t ns ts Hn F IHF]; intros ns' ts' H' E; inversion E; subst; inversion H'; subst;
      inversion IH; subst; inversion Si; subst; constructor; eauto.
  - apply same_NVector. apply shows_NVector in H, H'. cbn [tsimple] in Si. apply tsimple_list in Si. apply tsame_list in E.
    revert l2 l3 H' E. induction H as [|n t ns ts Hn F IHF]; intros ns' ts' H' E; inversion E; subst; inversion H'; subst;
      inversion IH; subst; inversion Si; subst; constructor; eauto.
Qed.

Lemma tkeyed_list l : (fix go (l : list tree) := match l with [] => True | x :: l => tkeyed x /\ go l end) l <-> Forall tkeyed l.
Proof. induction l as [|x l IH]; [split; auto|]. rewrite IH. split; [intros [A B]; now constructor|intros H; inversion H; auto]. Qed.
Lemma tkeyed_entries l : (fix go (es : list (tree * tree)) := match es with
      | [] => True | (k, v) :: es => (tsimple k /\ tkeyed v) /\ go es end) l <-> Forall (fun kv => tsimple (fst kv) /\ tkeyed (snd kv)) l.
Proof. induction l as [|[k v] l IH]; [split; auto|]. rewrite IH. split; [intros [A B]; now constructor|intros H; inversion H; auto]. Qed.

Lemma tdistinct_snoc l k v : tdistinct l -> (forall k' v', In (k', v') l -> ~ tsame k' k) -> tdistinct (l ++ [(k, v)]).
Proof.
  induction l as [|[k0 v0] l IH]; cbn [app tdistinct]; intros D H; [split; auto|]. destruct D as [A B]. split.
  - intros k' v' I. apply in_app_or in I as [I|[E|[]]]; [eauto|]. injection E as <- <-. apply (H k0 v0). now left.
  - apply IH; auto. intros k' v' I. apply (H k' v'). now right.
Qed.

Lemma Forall2_in_right {A B} (R : A -> B -> Prop) l r y : Forall2 R l r -> In y r -> exists x, In x l /\ R x y.
Proof. induction 1 as [|a b l r H F IH]; intros I; [easy|]. destruct I as [->|I]; [exists a; split; auto; now left|].
  destruct (IH I) as (x & Ix & Rx). exists x. split; auto. now right. Qed.

(** * Reading only what is spelled *)

Section Shown.
Context (pow10 : Z -> spec_float) (sh : std_hash)
        (place : node * node -> list (node * node) -> list (node * node)).
Context (text : list Z) (e : token) (lxe : lexer).
Context (place_perm : forall x es, Permutation (place x es) (x :: es)) (sh_ok : hash_respects_reals sh).

Notation feed := (feed pow10 text e lxe).
Notation pnode := (parse_node pow10 sh place).
Notation lloop := (list_loop pow10 sh place).
Notation vloop := (vector_loop pow10 sh place).
Notation mloop := (map_loop pow10 sh place).
Notation pmk := (parse_map_k pow10 sh place).
Notation pmv := (parse_map_v pow10 sh place).
Notation spells := (spells text).
Notation spells_all := (spells_all text).

Lemma spells_snoc_all l1 p1 l2 p2 : spells_all l1 p1 -> spells_all l2 p2 -> spells_all (l1 ++ l2) (p1 ++ p2).
Proof. induction 1 as [|t ts l us A B IH]; intros H; cbn [app]; auto. rewrite <- app_assoc. constructor; auto. Qed.

(** From [s] with [ts] to come to [s'] having read a beginning of [ts]; if nothing was logged, [Q] holds of what was read. *)
Definition went (s : pstate) (ts : list token) (l : list name) (s' : pstate) (Q : list token -> Prop) : Prop :=
  exists pre ts' extra m, ts = pre ++ ts' /\ feed s' ts' /\ ps_log s' = ps_log s ++ extra /\
    srep (ps_syms s') (l ++ m) /\ (length m <= length pre)%nat /\ (extra = [] -> Q pre).

Definition room (l : list name) (ts : list token) : Prop := Z.of_nat (length l) + Z.of_nat (length ts) < 2 ^ 64.

Lemma went_step s ts l s1 (Q1 : list token -> Prop) s' (Q : list token -> Prop) :
  room l ts -> went s ts l s1 Q1 ->
  (forall pre ts1 m, ts = pre ++ ts1 -> feed s1 ts1 -> srep (ps_syms s1) (l ++ m) -> room (l ++ m) ts1 ->
    went s1 ts1 (l ++ m) s' (fun pre' => Q1 pre -> Q (pre ++ pre'))) ->
  went s ts l s' Q.
Proof.
  intros Rm (pre & ts1 & x1 & m1 & E & F & L & R & B & H1) G.
  assert (Rm' : room (l ++ m1) ts1).
  { unfold room in *. subst ts. rewrite app_length in *. lia. }
  destruct (G pre ts1 m1 E F R Rm') as (pre2 & ts2 & x2 & m2 & E2 & F2 & L2 & R2 & B2 & H2).
  exists (pre ++ pre2), ts2, (x1 ++ x2), (m1 ++ m2). conjs; auto.
  - subst. now rewrite app_assoc.
  - rewrite L2, L. now rewrite app_assoc.
  - now rewrite app_assoc.
  - rewrite !app_length. lia.
  - intros X. apply app_eq_nil in X as (-> & ->). auto.
Qed.

Lemma went_log s ts l t msg s1 (Q : list token -> Prop) : feed s ts -> srep (ps_syms s) l -> log_error s t msg = Ok s1 -> went s ts l s1 Q.
Proof.
  unfold log_error. destruct (fmt_format msg); cbn [bind]; try discriminate. intros F R E. injection E as <-.
  exists [], ts, [mkError (tk_begin t) (tk_end t) a], []. cbn. rewrite app_nil_r. conjs; auto; try lia. discriminate.
Qed.

Lemma went_consume s t ts l s1 (Q : list token -> Prop) : feed s (t :: ts) -> srep (ps_syms s) l -> consume pow10 s = Ok s1 ->
  (feed s1 ts -> Q [t]) -> went s (t :: ts) l s1 Q.
Proof.
  intros F R E H. destruct (consume_feed _ _ _ _ _ _ _ F) as (s' & C & F' & L & Sy). rewrite C in E. injection E as <-.
  exists [t], ts, [], []. rewrite !app_nil_r. cbn [app length]. rewrite Sy. conjs; auto; lia.
Qed.

Lemma went_nil s ts l (Q : list token -> Prop) : feed s ts -> srep (ps_syms s) l -> Q [] -> went s ts l s Q.
Proof. intros F R H. exists [], ts, [], []. rewrite !app_nil_r. cbn. conjs; auto. Qed.

Lemma went_weaken s ts l s' (Q Q' : list token -> Prop) : went s ts l s' Q -> (forall pre, Q pre -> Q' pre) -> went s ts l s' Q'.
Proof. intros (p & t & x & m & H) G. exists p, t, x, m. repeat split; try apply H. intros X. apply G. now apply H. Qed.

Lemma went_false s ts l s' (Q Q' : list token -> Prop) : went s ts l s' Q -> (forall pre, ~ Q pre) -> went s ts l s' Q'.
Proof. intros H G. eapply went_weaken; eauto. intros pre q. now apply G in q. Qed.

Lemma feed_text s t ts : feed s (t :: ts) -> cur_text s = text_of text t.
Proof. intros (T & E & _). unfold cur_text, strv, text_of. now rewrite T, E. Qed.

Definition got (st : symtab) (r : option node) (pre : list token) : Prop :=
  exists n tr, r = Some n /\ spells tr pre /\ shows st n tr /\ (tkeyed tr -> tgood tr).
Definition got_list (st : symtab) (acc : list node) (r : option node) (pre : list token) : Prop :=
  exists ns trs pre0 c, r = Some (NList (acc ++ ns)) /\ pre = pre0 ++ [c] /\ tk_data c = TkRParen /\
    spells_all trs pre0 /\ Forall2 (shows st) ns trs /\ Forall (fun tr => tkeyed tr -> tgood tr) trs.
Definition got_vec (st : symtab) (acc : list node) (r : option node) (pre : list token) : Prop :=
  exists ns trs pre0 c, r = Some (NVector (acc ++ ns)) /\ pre = pre0 ++ [c] /\ tk_data c = TkRBracket /\
    spells_all trs pre0 /\ Forall2 (shows st) ns trs /\ Forall (fun tr => tkeyed tr -> tgood tr) trs.
Definition got_map (st : symtab) (acc : list (node * node)) (r : option node) (pre : list token) : Prop :=
  exists es ns trs pre0 c, r = Some (NMap es) /\ Permutation es (acc ++ ns) /\ pre = pre0 ++ [c] /\ tk_data c = TkRBrace /\
    spells_all (flat trs) pre0 /\ Forall2 (shows2 st) ns trs /\
    Forall (fun kv => tkeyed (snd kv) -> tgood (snd kv)) trs /\
    (forall nacc tacc, Permutation acc nacc -> Forall2 (shows2 st) nacc tacc ->
       Forall (fun kv => tsimple (fst kv)) (tacc ++ trs) -> distinct_keys acc -> tdistinct tacc -> tdistinct (tacc ++ trs)).

Definition node_sound f := forall s t ts l r s', feed s (t :: ts) -> srep (ps_syms s) l -> room l (t :: ts) ->
  pnode f s = Ok (r, s') -> went s (t :: ts) l s' (got (ps_syms s') r).
Definition list_sound f := forall s ts l acc r s', feed s ts -> srep (ps_syms s) l -> room l ts ->
  lloop f s acc = Ok (r, s') -> went s ts l s' (got_list (ps_syms s') acc r).
Definition vec_sound f := forall s ts l acc r s', feed s ts -> srep (ps_syms s) l -> room l ts ->
  vloop f s acc = Ok (r, s') -> went s ts l s' (got_vec (ps_syms s') acc r).
Definition map_sound f := forall s ts l acc r s', feed s ts -> srep (ps_syms s) l -> room l ts ->
  mloop f s acc = Ok (r, s') -> went s ts l s' (got_map (ps_syms s') acc r).

Lemma bind_ok {A B} (m : outcome A) (k : A -> outcome B) b : bind m k = Ok b -> exists a, m = Ok a /\ k a = Ok b.
Proof. destruct m; cbn; try discriminate. eauto. Qed.

Lemma one_token s t ts l r s' (n : node) tr : feed s (t :: ts) -> srep (ps_syms s) l ->
  (do s <- consume pow10 s; Ok (Some n, s)) = Ok (r, s') -> spells tr [t] -> (forall st, shows st n tr) -> tgood tr ->
  went s (t :: ts) l s' (got (ps_syms s') r).
Proof.
  intros F R E Sp Sh Tg. apply bind_ok in E as (s1 & C & E). injection E as <- <-.
  eapply went_consume; eauto. intros _. exists n, tr. auto.
Qed.

Lemma node_sound_step f : list_sound f -> vec_sound f -> map_sound f -> node_sound (S f).
Proof.
  intros SL SV SM s t ts l r s' F R Rm E. rewrite parse_node_S in E. pose proof (feed_kind _ _ _ _ _ _ F) as K. cbn iota in K.
  rewrite K in E.
  assert (Op : forall s1, consume pow10 s = Ok s1 -> feed s1 ts /\ room l ts /\ srep (ps_syms s1) l /\ ps_log s1 = ps_log s).
  { intros s1 C. destruct (consume_feed _ _ _ _ _ _ _ F) as (s2 & C' & F' & L & Sy). rewrite C' in C. injection C as <-.
    conjs; auto; [|congruence]. unfold room in *. cbn [length] in Rm. lia. }
  assert (Cl : forall m, (do s1 <- consume pow10 s; do s2 <- log_error s1 (ps_tok s) m; Ok (None, s2)) = Ok (r, s') ->
    went s (t :: ts) l s' (got (ps_syms s') r)).
  { intros m H. apply bind_ok in H as (s1 & C & H). apply bind_ok in H as (s2 & Lg & H). injection H as <- <-.
    destruct (Op s1 C) as (F1 & Rm1 & R1 & L1).
    eapply (went_step _ _ _ s1 (fun _ => True)); eauto; [eapply went_consume; eauto|].
    intros pre ts1 m1 Ets F2 R2 Rm2. eapply went_log; eauto. }
  assert (Sy : (let str := cur_text s in do s1 <- consume pow10 s;
      let (st, id) := intern (ps_syms s1) str in Ok (Some (NSymbol id), mkP (ps_lx s1) (ps_tok s1) (ps_log s1) st)) = Ok (r, s') ->
      tk_data t = TkSymbol \/ tk_data t = TkKeyword -> went s (t :: ts) l s' (got (ps_syms s') r)).
  { intros H D. cbn zeta in H. apply bind_ok in H as (s1 & C & H). destruct (Op s1 C) as (F1 & Rm1 & R1 & L1).
    unfold room in Rm. cbn [length] in Rm.
    destruct (intern_spec (ps_syms s1) l (cur_text s) R1 ltac:(lia)) as (t' & k & I & R' & N). rewrite I in H. injection H as <- <-.
    assert (exists m, add_name l (cur_text s) = l ++ m /\ (length m <= 1)%nat) as (m & Em & Lm).
    { unfold add_name. destruct (in_dec _ _ _); [exists []|exists [cur_text s]]; rewrite ?app_nil_r; cbn; auto. }
    rewrite Em in R', N.
    exists [t], ts, [], m. cbn [ps_log ps_syms length]. rewrite app_nil_r. conjs; auto.
    intros _. exists (NSymbol (Z.of_nat k)), (TSym (text_of text t)). split; [reflexivity|]. split; [apply sp_sym; exact D|]. split; [|intros _; exact Logic.I].
    rewrite <- (feed_text _ _ _ F). cbn [shows]. split; [eapply sym_string_spec; eauto|].
    apply (sym_id_spec t' (l ++ m) _ R'). eauto. }
  destruct (tk_data t) eqn:D.
  - exfalso. destruct F as (_ & _ & N & _). congruence.
  - eapply (one_token _ _ _ _ _ _ _ TNil); eauto; [now constructor|now cbn|exact I].
  - eapply (one_token _ _ _ _ _ _ _ (TBool b)); eauto; [now constructor|now cbn|exact I].
  - (* string *) unfold parse_string in E. cbn zeta in E.
    eapply (one_token _ _ _ _ _ _ _ (TStr (text_of text t))); eauto; [now constructor| |exact I].
    intros st. cbn [shows]. eapply feed_text; eauto.
  - apply Sy; auto.
  - apply Sy; auto.
  - eapply (one_token _ _ _ _ _ _ _ (TInt v)); eauto; [now constructor|now cbn|exact I].
  - eapply (one_token _ _ _ _ _ _ _ (TReal x)); eauto; [now constructor|now cbn|exact I].
  - apply bind_ok in E as (s1 & C & E). destruct (Op s1 C) as (F1 & Rm1 & R1 & L1).
    eapply (went_step _ _ _ s1 (fun p => p = [t])); eauto; [eapply went_consume; eauto|].
    intros pre ts1 m Ets F2 R2 Rm2. eapply went_weaken; [eapply SL; eauto|].
    intros pre' (ns & trs & pre0 & c & -> & -> & Dc & Sp & Sh & Tg) ->. exists (NList ([] ++ ns)), (TList trs). conjs; auto.
    + cbn [app]. now constructor.
    + cbn [app]. now apply shows_NList.
    + cbn [tkeyed tgood]. rewrite tkeyed_list, tgood_list. intros H. clear - Tg H. induction Tg; inversion H; subst; constructor; auto.
  - eapply Cl; eauto.
  - apply bind_ok in E as (s1 & C & E). destruct (Op s1 C) as (F1 & Rm1 & R1 & L1).
    eapply (went_step _ _ _ s1 (fun p => p = [t])); eauto; [eapply went_consume; eauto|].
    intros pre ts1 m Ets F2 R2 Rm2. eapply went_weaken; [eapply SV; eauto|].
    intros pre' (ns & trs & pre0 & c & -> & -> & Dc & Sp & Sh & Tg) ->. exists (NVector ([] ++ ns)), (TVec trs). conjs; auto.
    + cbn [app]. now constructor.
    + cbn [app]. now apply shows_NVector.
    + cbn [tkeyed tgood]. rewrite tkeyed_list, tgood_list. intros H. clear - Tg H. induction Tg; inversion H; subst; constructor; auto.
  - eapply Cl; eauto.
  - apply bind_ok in E as (s1 & C & E). destruct (Op s1 C) as (F1 & Rm1 & R1 & L1).
    eapply (went_step _ _ _ s1 (fun p => p = [t])); eauto; [eapply went_consume; eauto|].
    intros pre ts1 m Ets F2 R2 Rm2. eapply went_weaken; [eapply SM; eauto|].
    intros pre' (es & ns & trs & pre0 & c & -> & Pm & -> & Dc & Sp & Sh & Tg & Td) ->. exists (NMap es), (TMap trs). conjs; auto.
    + cbn [app]. now constructor.
    + apply shows_NMap. exists ns. auto.
    + cbn [tkeyed tgood]. rewrite tkeyed_entries, tgood_entries. intros H. split.
      * apply (Td [] []); try easy. cbn [app]. eapply Forall_impl; [|exact H]. cbn. tauto.
      * clear - Tg H. induction Tg; inversion H as [|? ? [A B]]; subst; constructor; auto.
  - eapply Cl; eauto.
Qed.

(** An erroneous closer: logged, then skipped. *)
Lemma went_closer s t ts l msg (n : node) r s' (Q : list token -> Prop) : feed s (t :: ts) -> srep (ps_syms s) l -> room l (t :: ts) ->
  (do s <- log_error s (ps_tok s) msg; do s <- consume pow10 s; Ok (Some n, s)) = Ok (r, s') -> went s (t :: ts) l s' Q.
Proof.
  intros F R Rm E. apply bind_ok in E as (s1 & Lg & E). apply bind_ok in E as (s2 & C & E). injection E as <- <-.
  eapply (went_step _ _ _ s1 (fun _ => False)); eauto; [eapply went_log; eauto|].
  intros pre ts1 m Ets F1 R1 Rm1. destruct ts1 as [|t1 ts1].
  - exfalso. unfold consume in C. unfold log_error in Lg. destruct (fmt_format msg); cbn [bind] in Lg; try discriminate.
    injection Lg as <-. destruct F1 as (_ & A & B & _). destruct F as (_ & A2 & B2 & _). cbn in *. congruence.
  - eapply went_consume; eauto. intros _ [].
Qed.
Lemma went_closer_none s t ts l msg r s' (Q : list token -> Prop) : feed s (t :: ts) -> srep (ps_syms s) l -> room l (t :: ts) ->
  (do s <- log_error s (ps_tok s) msg; do s <- consume pow10 s; Ok (@None node, s)) = Ok (r, s') -> went s (t :: ts) l s' Q.
Proof.
  intros F R Rm E. eapply (went_closer s t ts l msg NNil (Some NNil)); eauto.
  apply bind_ok in E as (s1 & -> & E). cbn [bind]. apply bind_ok in E as (s2 & -> & E). cbn [bind]. now injection E as <- <-.
Qed.

Lemma list_sound_step f : node_sound f -> list_sound f -> list_sound (S f).
Proof.
  intros SN SL s ts l acc r s' F R Rm E. rewrite list_loop_S in E. pose proof (feed_kind _ _ _ _ _ _ F) as K. rewrite K in E.
  destruct ts as [|t ts].
  - apply bind_ok in E as (s1 & Lg & E). injection E as <- <-. eapply went_log; eauto.
  - assert (Go : (do (n, s) <- pnode f s; lloop f s (match n with Some n => acc ++ [n] | None => acc end)) = Ok (r, s') ->
      went s (t :: ts) l s' (got_list (ps_syms s') acc r)).
    { intros H. apply bind_ok in H as ([n s1] & H1 & H2).
      eapply went_step; [exact Rm|eapply SN; eauto|]. intros pre ts1 m Ets F1 R1 Rm1.
      pose proof (SL _ _ _ _ _ _ F1 R1 Rm1 H2) as W. destruct W as (p & ts2 & x & m2 & E2 & F2 & L2 & R2 & B2 & H3).
      exists p, ts2, x, m2. conjs; auto. intros X (n0 & tr & -> & Sp & Sh & Tg).
      destruct (H3 X) as (ns & trs & pre0 & c & -> & -> & Dc & Sps & Shs & Tgs).
      exists (n0 :: ns), (tr :: trs), (pre ++ pre0), c. rewrite <- !app_assoc. cbn [app]. conjs; auto.
      - now constructor.
      - constructor; auto. eapply shows_grow; [exact R1|exact R2|exact Sh]. }
    destruct (tk_data t) eqn:D; try (exact (Go E)).
    + exfalso. destruct F as (_ & _ & N & _). congruence.
    + apply bind_ok in E as (s1 & C & E). injection E as <- <-. eapply went_consume; eauto. intros _.
      exists [], [], [], t. rewrite app_nil_r. conjs; auto; constructor.
    + eapply went_closer; eauto.
    + eapply went_closer; eauto.
Qed.

Lemma vec_sound_step f : node_sound f -> vec_sound f -> vec_sound (S f).
Proof.
  intros SN SL s ts l acc r s' F R Rm E. rewrite vector_loop_S in E. pose proof (feed_kind _ _ _ _ _ _ F) as K. rewrite K in E.
  destruct ts as [|t ts].
  - apply bind_ok in E as (s1 & Lg & E). injection E as <- <-. eapply went_log; eauto.
  - assert (Go : (do (n, s) <- pnode f s; vloop f s (match n with Some n => acc ++ [n] | None => acc end)) = Ok (r, s') ->
      went s (t :: ts) l s' (got_vec (ps_syms s') acc r)).
    { intros H. apply bind_ok in H as ([n s1] & H1 & H2).
      eapply went_step; [exact Rm|eapply SN; eauto|]. intros pre ts1 m Ets F1 R1 Rm1.
      pose proof (SL _ _ _ _ _ _ F1 R1 Rm1 H2) as W. destruct W as (p & ts2 & x & m2 & E2 & F2 & L2 & R2 & B2 & H3).
      exists p, ts2, x, m2. conjs; auto. intros X (n0 & tr & -> & Sp & Sh & Tg).
      destruct (H3 X) as (ns & trs & pre0 & c & -> & -> & Dc & Sps & Shs & Tgs).
      exists (n0 :: ns), (tr :: trs), (pre ++ pre0), c. rewrite <- !app_assoc. cbn [app]. conjs; auto.
      - now constructor.
      - constructor; auto. eapply shows_grow; [exact R1|exact R2|exact Sh]. }
    destruct (tk_data t) eqn:D; try (exact (Go E)).
    + exfalso. destruct F as (_ & _ & N & _). congruence.
    + eapply went_closer; eauto.
    + apply bind_ok in E as (s1 & C & E). injection E as <- <-. eapply went_consume; eauto. intros _.
      exists [], [], [], t. rewrite app_nil_r. conjs; auto; constructor.
    + eapply went_closer; eauto.
Qed.

Lemma map_k_sound f : node_sound f -> forall s ts l r s', feed s ts -> srep (ps_syms s) l -> room l ts ->
  pmk (S f) s = Ok (r, s') -> went s ts l s' (got (ps_syms s') r).
Proof.
  intros SN s ts l r s' F R Rm E. rewrite parse_map_k_S in E. pose proof (feed_kind _ _ _ _ _ _ F) as K. rewrite K in E.
  destruct ts as [|t ts].
  - apply bind_ok in E as (s1 & Lg & E). injection E as <- <-. eapply went_log; eauto.
  - destruct (tk_data t) eqn:D; try (exact (SN _ _ _ _ _ _ F R Rm E)).
    + exfalso. destruct F as (_ & _ & N & _). congruence.
    + eapply went_closer_none; eauto.
    + eapply went_closer_none; eauto.
Qed.
Lemma map_v_sound f : node_sound f -> forall s ts l r s', feed s ts -> srep (ps_syms s) l -> room l ts ->
  pmv (S f) s = Ok (r, s') -> went s ts l s' (got (ps_syms s') r).
Proof.
  intros SN s ts l r s' F R Rm E. rewrite parse_map_v_S in E. pose proof (feed_kind _ _ _ _ _ _ F) as K. rewrite K in E.
  destruct ts as [|t ts].
  - apply bind_ok in E as (s1 & Lg & E). injection E as <- <-. eapply went_log; eauto.
  - destruct (tk_data t) eqn:D; try (exact (SN _ _ _ _ _ _ F R Rm E)).
    + exfalso. destruct F as (_ & _ & N & _). congruence.
    + eapply went_closer_none; eauto.
    + eapply went_closer_none; eauto.
Qed.

Lemma map_sound_step f : (forall f', (f' < f)%nat -> node_sound f') -> map_sound f -> map_sound (S f).
Proof.
  intros SN SL s ts l acc r s' F R Rm E. rewrite map_loop_S in E. pose proof (feed_kind _ _ _ _ _ _ F) as K. rewrite K in E.
  assert (Go : (do (k, s) <- pmk f s;
          match k with
          | None => do s <- log_error s (ps_tok s) "failed to parse map key"; mloop f s acc
          | Some k =>
              do (v, s) <- pmv f s;
              match v with
              | None => do s <- log_error s (ps_tok s) "key not followed by value in map"; mloop f s acc
              | Some v =>
                  do fd <- map_find sh acc k;
                  do s <- (match fd with
                           | Some _ => log_error s (ps_tok s) "duplicate key discovered in map"
                           | None => Ok s end);
                  do es <- map_insert sh place acc k v;
                  mloop f s es
              end
          end) = Ok (r, s') -> went s ts l s' (got_map (ps_syms s') acc r)).
  { destruct f as [|f]; [cbn; discriminate|]. specialize (SN f ltac:(lia)).
    intros H. apply bind_ok in H as ([k s1] & H1 & H).
    eapply went_step; [exact Rm|eapply map_k_sound; eauto|]. intros pre1 ts1 m1 -> F1 R1 Rm1.
    destruct k as [k|].
    - apply bind_ok in H as ([v s2] & H2 & H).
      eapply went_step; [exact Rm1|eapply map_v_sound; eauto|]. intros pre2 ts2 m2 -> F2 R2 Rm2.
      destruct v as [v|].
      + apply bind_ok in H as (fd & Hf & H). apply bind_ok in H as (s3 & Hl & H). apply bind_ok in H as (es & Hi & H).
        assert (W : went s2 ts2 ((l ++ m1) ++ m2) s3 (fun p => p = [] /\ s3 = s2 /\ fd = None)).
        { destruct fd as [old|]; [eapply went_log; eauto|]. injection Hl as <-. apply went_nil; auto. }
        eapply went_step; [exact Rm2|exact W|]. intros pre3 ts3 m3 -> F3 R3 Rm3.
        destruct (SL _ _ _ _ _ _ F3 R3 Rm3 H) as (p & ts4 & x & m4 & E4 & F4 & L4 & R4 & B4 & H4).
        exists p, ts4, x, m4. conjs; auto. intros X (-> & -> & ->) (v0 & tv & Ev & Spv & Shv & Tgv) (k0 & tk & Ek & Spk & Shk & Tgk).
        injection Ev as <-. injection Ek as <-. unfold map_insert in Hi. rewrite Hf in Hi. cbn [bind] in Hi. injection Hi as <-.
        destruct (H4 X) as (es & ns & trs & pre0 & c & -> & Pm & -> & Dc & Sps & Shs & Tgs & Tds).
        assert (Shk' : shows (ps_syms s') k tk).
        { eapply shows_grow; [exact R1| |exact Shk]. rewrite <- !app_assoc in R4. rewrite <- app_assoc. exact R4. }
        assert (Shv' : shows (ps_syms s') v tv).
        { eapply shows_grow; [exact R2| |exact Shv]. rewrite <- !app_assoc in R4. rewrite <- !app_assoc. exact R4. }
        exists es, ((k, v) :: ns), ((tk, tv) :: trs), (pre1 ++ pre2 ++ pre0), c. cbn [app flat]. rewrite <- !app_assoc. conjs; auto.
        * rewrite Pm. rewrite (place_perm (k, v) acc). cbn [app]. apply Permutation_middle.
        * constructor; auto. constructor; auto.
        * constructor; auto. split; auto.
        * intros nacc tacc Pa Sa Si Dk Td.
          assert (Sit : Forall (fun kv => tsimple (fst kv)) tacc) by (apply Forall_app in Si; tauto).
          assert (Stk : tsimple tk) by (apply Forall_app in Si as (_ & Si); inversion Si; auto).
          assert (Simp : Forall (fun kv => simple (fst kv)) acc).
          { apply (Permutation_Forall (Permutation_sym Pa)). clear - Sa Sit. induction Sa as [|[a b] [ta tb] ? ? [A B] ? IHs]; [constructor|].
            inversion Sit; subst. constructor; auto. cbn [fst snd] in *. eapply shows_simple; eauto. }
          destruct (map_find_ok sh acc k sh_ok (shows_simple _ _ _ Shk' Stk) Simp Dk) as (fd & Ef & Hfd).
          rewrite Hf in Ef. injection Ef as <-.
          assert (Fresh : forall k' v', In (k', v') acc -> ~ same k k').
          { intros k' v' I S. assert (@None node = Some v') by (apply Hfd; eauto). discriminate. }
          replace (tacc ++ (tk, tv) :: trs) with ((tacc ++ [(tk, tv)]) ++ trs) in * by now rewrite <- app_assoc.
          apply (Tds (nacc ++ [(k, v)])); auto.
          -- rewrite (place_perm (k, v) acc), Pa. apply Permutation_cons_append.
          -- apply Forall2_app; auto. constructor; auto. split; auto.
          -- eapply distinct_perm; [symmetry; apply place_perm|]. split; auto.
          -- apply tdistinct_snoc; auto. intros tk' tv' I S.
             destruct (Forall2_in_right _ _ _ _ Sa I) as ([k' v'] & I' & [Sh' _]). cbn [fst] in Sh'.
             apply (Fresh k' v'); [apply (Permutation_in _ (Permutation_sym Pa)); auto|].
             apply same_sym. eapply tsame_shows; [exact R4| |exact Sh'|exact Shk'|exact S].
             rewrite Forall_forall in Sit. apply (Sit _ I).
      + apply bind_ok in H as (s3 & Hl & H).
        eapply (went_step _ _ _ s3 (fun _ => False)); [exact Rm2|eapply went_log; eauto|]. intros pre3 ts3 m3 -> F3 R3 Rm3.
        eapply went_weaken; [eapply SL; eauto|]. intros p _ [].
    - apply bind_ok in H as (s2 & Hl & H).
      eapply (went_step _ _ _ s2 (fun _ => False)); [exact Rm1|eapply went_log; eauto|]. intros pre3 ts3 m3 -> F3 R3 Rm3.
      eapply went_weaken; [eapply SL; eauto|]. intros p _ []. }
  destruct ts as [|t ts]; [now apply Go|].
  destruct (tk_data t) eqn:D; try (exact (Go E)).
  + eapply went_closer; eauto.
  + eapply went_closer; eauto.
  + apply bind_ok in E as (s1 & C & E). injection E as <- <-. eapply went_consume; eauto. intros _.
    exists acc, [], [], [], t. rewrite app_nil_r. conjs; auto; try constructor. intros. now rewrite app_nil_r.
Qed.

Lemma sounds f : node_sound f /\ list_sound f /\ vec_sound f /\ map_sound f.
Proof.
  induction f as [f IH] using lt_wf_ind. destruct f as [|f].
  - conjs; intros until 4; cbn; intros; discriminate.
  - destruct (IH f ltac:(lia)) as (N & L & V & M). conjs.
    + now apply node_sound_step.
    + now apply list_sound_step.
    + now apply vec_sound_step.
    + apply map_sound_step; auto. intros f' L'. apply (IH f'). lia.
Qed.

Lemma parse_loop_sound f : forall s ts l nodes nodes' s', feed s ts -> srep (ps_syms s) l -> room l ts ->
  parse_loop pow10 sh place f s nodes = Ok (nodes', s') ->
  went s ts l s' (fun pre => pre = ts /\ exists trs ns, nodes' = nodes ++ ns /\ spells_all trs pre /\ Forall2 (shows (ps_syms s')) ns trs /\
    Forall (fun tr => tkeyed tr -> tgood tr) trs).
Proof.
  induction f as [|f IH]; intros s ts l nodes nodes' s' F R Rm E; [discriminate|]. rewrite parse_loop_S in E.
  pose proof (feed_kind _ _ _ _ _ _ F) as K. rewrite K in E. destruct ts as [|t ts].
  - injection E as <- <-. apply went_nil; auto. split; auto. exists [], []. rewrite app_nil_r. conjs; auto; constructor.
  - assert (H : (do (n, s) <- pnode f s; parse_loop pow10 sh place f s (match n with Some n => nodes ++ [n] | None => nodes end)) = Ok (nodes', s')).
    { destruct (tk_data t) eqn:D; auto. exfalso. destruct F as (_ & _ & N & _). congruence. }
    clear E. apply bind_ok in H as ([n s1] & H1 & H2).
    eapply went_step; [exact Rm|eapply (proj1 (sounds f)); eauto|]. intros pre ts1 m Ets F1 R1 Rm1.
    destruct (IH _ _ _ _ _ _ F1 R1 Rm1 H2) as (p & ts2 & x & m2 & E2 & F2 & L2 & R2 & B2 & H3).
    exists p, ts2, x, m2. conjs; auto. intros X (n0 & tr & -> & Sp & Sh & Tg).
    destruct (H3 X) as (-> & trs & ns & -> & Sps & Shs & Tgs). split; auto.
    exists (tr :: trs), (n0 :: ns). rewrite <- app_assoc. cbn [app]. conjs; auto.
    + now constructor.
    + constructor; auto. eapply shows_grow; [exact R1|exact R2|exact Sh].
Qed.

End Shown.
