From Coq Require Import String ZArith List Bool Lia Permutation SpecFloat.
From Verif Require Import Outcome HashModel TablesModel IrModel IrSpec IrProofs LexModel LexSpec LexProofs LexRun LexTiles ParseModel ParseUnfold ParseSpec.
Import ListNotations.
Local Open Scope Z_scope.
Local Open Scope list_scope.

(** * Induction on nodes *)

Section NodeInd.
Context (P : node -> Prop).
Context (Hnil : P NNil) (Hbool : forall b, P (NBool b)) (Hint : forall v, P (NInteger v)) (Hreal : forall x, P (NReal x))
  (Hsym : forall i, P (NSymbol i)) (Hkey : forall i, P (NKeyword i)) (Hchr : forall c, P (NCharacter c))
  (Hstr : forall s, P (NString s)) (Hlist : forall l, Forall P l -> P (NList l)) (Hvec : forall l, Forall P l -> P (NVector l))
  (Hmap : forall es, Forall (fun kv => P (fst kv) /\ P (snd kv)) es -> P (NMap es)) (Hset : P NSet).
Fixpoint node_rec2 (n : node) : P n :=
  let all := fix all (l : list node) : Forall P l :=
    match l with [] => Forall_nil _ | x :: l => Forall_cons _ (node_rec2 x) (all l) end in
  let alle := fix alle (l : list (node * node)) : Forall (fun kv => P (fst kv) /\ P (snd kv)) l :=
    match l with
    | [] => Forall_nil _
    | (k, v) :: l => Forall_cons (k, v) (conj (node_rec2 k) (node_rec2 v)) (alle l)
    end in
  match n with
  | NNil => Hnil | NBool b => Hbool b | NInteger v => Hint v | NReal x => Hreal x | NSymbol i => Hsym i
  | NKeyword i => Hkey i | NCharacter c => Hchr c | NString s => Hstr s
  | NList l => Hlist l (all l) | NVector l => Hvec l (all l) | NMap es => Hmap es (alle es) | NSet => Hset
  end.
End NodeInd.

(** Nodes without sets and characters: hashing and comparing them always succeeds. *)
Fixpoint plain (n : node) : Prop :=
  match n with
  | NList l | NVector l => (fix go (l : list node) := match l with [] => True | x :: l => plain x /\ go l end) l
  | NMap es => (fix go (es : list (node * node)) := match es with
      | [] => True | (k, v) :: es => (plain k /\ plain v) /\ go es end) es
  | NSet | NCharacter _ => False
  | _ => True
  end.
Lemma plain_list l : (fix go (l : list node) := match l with [] => True | x :: l => plain x /\ go l end) l <-> Forall plain l.
Proof. induction l as [|x l IH]; [split; auto|]. rewrite IH. split; [intros [A B]; now constructor|intros H; inversion H; auto]. Qed.
Lemma plain_entries l : (fix go (es : list (node * node)) := match es with
      | [] => True | (k, v) :: es => (plain k /\ plain v) /\ go es end) l <-> Forall (fun kv => plain (fst kv) /\ plain (snd kv)) l.
Proof. induction l as [|[k v] l IH]; [split; auto|]. rewrite IH. split; [intros [A B]; now constructor|intros H; inversion H; auto]. Qed.

Section Plain.
Context (sh : std_hash).

Lemma plain_hash n : plain n -> exists h, node_hash sh n = Ok h.
Proof.
  assert (G : forall l, Forall (fun n => plain n -> exists h, node_hash sh n = Ok h) l -> Forall plain l ->
    forall h, exists h', hash_list (node_hash sh) h l = Ok h').
  { clear n. induction 1 as [|x l Hx F IH]; intros P h; cbn [hash_list]; [eauto|]. inversion P; subst.
    destruct (Hx H1) as (hx & ->). cbn [bind]. now apply IH. }
  induction n as [| | | | | | | |l IH|l IH|es IH|] using node_rec2; cbn [plain node_hash]; intros H; try easy; eauto.
  - apply plain_list in H. now apply G.
  - apply plain_list in H. now apply G.
  - apply plain_entries in H. generalize HASH_SEED.
    induction IH as [|[k v] es [Hk Hv] F IH]; intros h; cbn [hash_entries]; [eauto|]. inversion H as [|? ? [Pk Pv] Pe]; subst.
    cbn [fst snd] in *. destruct (Hk Pk) as (hk & ->). destruct (Hv Pv) as (hv & ->). cbn [bind]. now apply IH.
Qed.

Lemma plain_find k es : (forall r, plain r -> exists e, node_eq sh k r = Ok e) ->
  Forall (fun kv => plain (fst kv) /\ plain (snd kv)) es ->
  forall hk, exists s, find_entry sh (node_eq sh k) hk es = Ok s /\ (forall v, s = Some v -> plain v).
Proof.
  intros Hk F hk. induction F as [|[k' v'] es [Pk Pv] F IH]; cbn [find_entry fst snd] in *.
  - exists None. easy.
  - destruct (plain_hash k' Pk) as (h & ->). cbn [bind]. destruct (h =? hk); auto.
    destruct (Hk k' Pk) as (e & ->). cbn [bind]. destruct e; auto.
    exists (Some v'). split; auto. intros v E. now injection E as <-.
Qed.

Lemma plain_eq n : plain n -> forall r, plain r -> exists e, node_eq sh n r = Ok e.
Proof.
  assert (G : forall l, Forall (fun n => plain n -> forall r, plain r -> exists e, node_eq sh n r = Ok e) l -> Forall plain l ->
    forall r, Forall plain r -> length l = length r -> exists e, list_eq (node_eq sh) l r = Ok e).
  { clear n. induction 1 as [|x l Hx F IH]; intros P r Pr L; cbn [list_eq]; [eauto|]. destruct r as [|y r]; [discriminate|].
    inversion P; inversion Pr; subst. destruct (Hx H1 y H5) as (e & ->). cbn [bind]. destruct e; [|eauto]. apply IH; auto. }
  induction n as [| | | | | | | |l IH|l IH|es IH|] using node_rec2; intros H [] Hr; cbn [node_eq]; eauto; try easy.
  - destruct (Nat.eqb_spec (length l) (length l0)) as [E|]; cbn [negb]; [|eauto].
    apply plain_list in H, Hr. now apply G.
  - destruct (Nat.eqb_spec (length l) (length l0)) as [E|]; cbn [negb]; [|eauto].
    apply plain_list in H, Hr. now apply G.
  - destruct (Nat.eqb_spec (length es) (length es0)) as [E|]; cbn [negb]; [|eauto]. clear E.
    cbn [plain] in H, Hr. apply plain_entries in H, Hr.
    induction IH as [|[k v] es [Hk Hv] F IH]; cbn [map_eq]; [eauto|]. inversion H as [|? ? [Pk Pv] Pe]; subst. cbn [fst snd] in *.
    destruct (plain_hash k Pk) as (hk & ->). cbn [bind].
    destruct (plain_find k es0 (Hk Pk) Hr hk) as (s & -> & Hs). cbn [bind]. destruct s as [rv|]; [|eauto].
    destruct (Hv Pv rv (Hs rv eq_refl)) as (e & ->). cbn [bind]. destruct e; [|eauto]. now apply IH.
Qed.

Lemma plain_map_find es k : Forall (fun kv => plain (fst kv) /\ plain (snd kv)) es -> plain k ->
  exists s, map_find sh es k = Ok s.
Proof.
  intros F P. unfold map_find. destruct (plain_hash k P) as (h & ->). cbn [bind].
  destruct (plain_find k es (plain_eq k P) F h) as (s & E & _). eauto.
Qed.
End Plain.

(** * Feeding tokens *)

Section Feed.
Context (pow10 : Z -> spec_float) (sh : std_hash)
        (place : node * node -> list (node * node) -> list (node * node)).
Context (text : list Z) (e : token) (lxe : lexer).

(** The tokens still to come, the current one first. *)
Definition feed (s : pstate) (ts : list token) : Prop :=
  lx_text (ps_lx s) = text /\
  match ts with
  | [] => ps_tok s = e /\ tk_data e = TkEnd /\ ps_lx s = lxe
  | t :: ts => ps_tok s = t /\ tk_data t <> TkEnd /\ streams pow10 (ps_lx s) ts e lxe
  end.

Lemma lex_exec_text fuel : forall lx t lx', lex_exec pow10 fuel lx = Ok (t, lx') -> lx_text lx' = lx_text lx.
Proof.
  induction fuel as [|fuel IH]; intros lx t lx' H; cbn [lex_exec] in H; [discriminate|].
  destruct (scan start_state 0 None (lx_lines lx) (Z.of_nat (lx_p lx)) (lx_rest lx)) as [[n last] li].
  destruct last as [[r m]|].
  - destruct (action pow10 r (firstn m (lx_rest lx))) as [[d|]| | | |]; cbn [bind] in H; try discriminate.
    + injection H as <- <-. reflexivity.
    + apply IH in H. exact H.
  - injection H as <- <-. reflexivity.
Qed.

Lemma next_text lx t lx' : next pow10 lx = Ok (t, lx') -> lx_text lx' = lx_text lx.
Proof.
  unfold next. destruct (lx_rest lx); [intros H; now injection H as <- <-|].
  destruct (lx_error lx); [intros H; now injection H as <- <-|]. apply lex_exec_text.
Qed.

Lemma consume_feed s t ts : feed s (t :: ts) ->
  exists s', consume pow10 s = Ok s' /\ feed s' ts /\ ps_log s' = ps_log s /\ ps_syms s' = ps_syms s.
Proof.
  intros (T & E & N & S). unfold consume. inversion S as [lx e0 lx' Hn He|lx t0 lx1 ts0 e0 lx' Hn He St]; subst.
  - rewrite Hn. cbn [bind]. eexists. split; [reflexivity|]. split; [|split; reflexivity].
    split; cbn; [apply next_text in Hn; congruence|]. auto.
  - rewrite Hn. cbn [bind]. eexists. split; [reflexivity|]. split; [|split; reflexivity].
    split; cbn; [apply next_text in Hn; congruence|]. auto.
Qed.

Lemma feed_kind s ts : feed s ts -> tk_data (ps_tok s) = match ts with [] => TkEnd | t :: _ => tk_data t end.
Proof. intros (_ & H). destruct ts; destruct H as (-> & H & _); auto. Qed.

Lemma feed_log s ts l st : feed s ts -> feed (mkP (ps_lx s) (ps_tok s) l st) ts.
Proof. intros H. exact H. Qed.

(** * Settling *)

Definition settles {A} (P : nat -> outcome A) (b : nat) (m : outcome A) : Prop :=
  forall f, P f = m \/ ((f < b)%nat /\ P f = OutOfFuel).
Definition hangs {A} (P : nat -> outcome A) : Prop := forall f, P f = OutOfFuel.

Lemma settles_now {A} (P : nat -> outcome A) (Q : nat -> outcome A) b b' m :
  P O = OutOfFuel -> (forall f, P (S f) = Q f) -> settles Q b m -> (b < b')%nat -> settles P b' m.
Proof.
  intros H0 H1 HQ L [|f]; [right; split; [lia|auto]|]. rewrite H1. destruct (HQ f) as [E|(Lf & E)]; [now left|right; split; [lia|auto]].
Qed.
Lemma hangs_now {A} (P : nat -> outcome A) (Q : nat -> outcome A) :
  P O = OutOfFuel -> (forall f, P (S f) = Q f) -> hangs Q -> hangs P.
Proof. intros H0 H1 HQ [|f]; auto. rewrite H1. apply HQ. Qed.
Lemma settles_const {A} (m : outcome A) b : settles (fun _ => m) b m.
Proof. intros f. now left. Qed.

Lemma settles_bind {A B} (P : nat -> outcome A) (Q : nat -> A -> outcome B) b a m :
  settles P b (Ok a) -> settles (fun f => Q f a) b m -> settles (fun f => bind (P f) (Q f)) b m.
Proof.
  intros HP HQ f. destruct (HP f) as [->|(L & ->)]; cbn [bind]; [|now right]. exact (HQ f).
Qed.
Lemma settles_throw {A B} (P : nat -> outcome A) (Q : nat -> A -> outcome B) b x :
  settles P b (Throw x) -> settles (fun f => bind (P f) (Q f)) b (Throw x).
Proof. intros HP f. destruct (HP f) as [->|(L & ->)]; cbn [bind]; auto. Qed.
Lemma hangs_bind {A B} (P : nat -> outcome A) (Q : nat -> A -> outcome B) :
  hangs P -> hangs (fun f => bind (P f) (Q f)).
Proof. intros HP f. now rewrite (HP f). Qed.
Lemma hangs_bind_ok {A B} (P : nat -> outcome A) (Q : nat -> A -> outcome B) b a :
  settles P b (Ok a) -> hangs (fun f => Q f a) -> hangs (fun f => bind (P f) (Q f)).
Proof. intros HP HQ f. destruct (HP f) as [->|(L & ->)]; cbn [bind]; [apply HQ|auto]. Qed.
Lemma settles_weaken {A} (P : nat -> outcome A) b b' m : settles P b m -> (b <= b')%nat -> settles P b' m.
Proof. intros H L f. destruct (H f) as [|(Lf & E)]; auto. right. split; auto. lia. Qed.

(** * What the brackets say about how parsing ends *)

Inductive ending := EOk | EThrow | EHang.
Definition verdict (st : list frame) (ts : list token) : ending :=
  match brackets st (map tk_data ts) with
  | None => EThrow
  | Some st' => if map_open st' then EHang else EOk
  end.

Definition after (r : option node) (st : list frame) : list frame :=
  match r with
  | Some _ => filled st
  | None => match st with FVal :: st => FKey :: st | _ => st end
  end.

(** A parsing function started on [ts] with the brackets [st] open ends as the brackets say. *)
Definition ends_as (P : nat -> outcome (option node * pstate)) (b : nat) (v : ending)
    (st' : option node -> list frame) (n : nat) : Prop :=
  (exists r s' ts', settles P b (Ok (r, s')) /\ feed s' ts' /\ (length ts' <= n)%nat /\
     (forall x, r = Some x -> plain x) /\ v = verdict (st' r) ts')
  \/ (settles P b (Throw StdException) /\ v = EThrow)
  \/ (hangs P /\ v = EHang).

Definition is_closer (d : token_data) : bool := match d with TkRParen | TkRBracket | TkRBrace => true | _ => false end.
Definition node_here (st : list frame) (d : token_data) : bool :=
  negb (is_closer d) || match st, d with [], _ => true | FVal :: _, TkRBracket => true | _, _ => false end.

Lemma map_open_filled st : map_open (filled st) = map_open st.
Proof. destruct st as [|[] st]; reflexivity. Qed.

Context (place_perm : forall x es, Permutation (place x es) (x :: es)).

Notation pnode := (parse_node pow10 sh place).
Notation lloop := (list_loop pow10 sh place).
Notation vloop := (vector_loop pow10 sh place).
Notation mloop := (map_loop pow10 sh place).
Notation pmk := (parse_map_k pow10 sh place).
Notation pmv := (parse_map_v pow10 sh place).

Lemma verdict_cons st t ts : verdict st (t :: ts) =
  match bracket_step st (tk_data t) with Some st' => verdict st' ts | None => EThrow end.
Proof. unfold verdict. cbn [map brackets]. destruct (bracket_step st (tk_data t)); reflexivity. Qed.

(** One token that is a node by itself. *)
Lemma ends_atom s t ts st b (g : pstate -> outcome (option node * pstate)) :
  feed s (t :: ts) ->
  (forall s', ps_log s' = ps_log s -> exists r s'', g s' = Ok (r, s'') /\ (forall ts', feed s' ts' -> feed s'' ts') /\
     (forall x, r = Some x -> plain x) /\ bracket_step st (tk_data t) = Some (after r st)) ->
  forall P : nat -> outcome (option node * pstate),
  P O = OutOfFuel -> (forall f, P (S f) = do s <- consume pow10 s; g s) -> (1 <= b)%nat ->
  ends_as P b (verdict st (t :: ts)) (fun r => after r st) (length ts).
Proof.
  intros F G P P0 PS Lb. destruct (consume_feed s t ts F) as (s1 & C & F1 & Lg & _).
  destruct (G s1 Lg) as (r & s2 & E & K & Pl & Br). left. exists r, s2, ts. split; [|conjs].
  - intros [|f]; [right; split; [lia|auto]|]. left. rewrite PS, C. cbn [bind]. exact E.
  - now apply K.
  - lia.
  - exact Pl.
  - rewrite verdict_cons, Br. reflexivity.
Qed.

Lemma log_ok s t msg m : fmt_format msg = Ok m ->
  log_error s t msg = Ok (mkP (ps_lx s) (ps_tok s) (ps_log s ++ [mkError (tk_begin t) (tk_end t) m]) (ps_syms s)).
Proof. unfold log_error. now intros ->. Qed.
Lemma log_throw s t msg : fmt_format msg = Throw StdException -> log_error s t msg = Throw StdException.
Proof. unfold log_error. now intros ->. Qed.

Lemma mk_fmt_ok : fmt_format "Unexpected end of file while parsing map key" = Ok "Unexpected end of file while parsing map key"%string
  /\ fmt_format "failed to parse map key" = Ok "failed to parse map key"%string.
Proof. split; vm_compute; reflexivity. Qed.

(** At the end of the tokens a map never ends. *)
Lemma map_hangs f : forall s es, feed s [] -> mloop f s es = OutOfFuel.
Proof.
  induction f as [|f IH]; intros s es F; [reflexivity|]. rewrite map_loop_S.
  pose proof (feed_kind s [] F) as K. rewrite K.
  destruct f as [|f]; [reflexivity|]. rewrite parse_map_k_S. rewrite K.
  rewrite (log_ok _ _ _ _ (proj1 mk_fmt_ok)). cbn [bind].
  rewrite (log_ok _ _ _ _ (proj2 mk_fmt_ok)). cbn [bind]. apply IH. exact F.
Qed.

Definition node_claim (n : nat) : Prop := forall s t ts st, (length (t :: ts) <= n)%nat -> feed s (t :: ts) ->
  node_here st (tk_data t) = true ->
  ends_as (fun f => pnode f s) (3 * length (t :: ts) + 2) (verdict st (t :: ts)) (fun r => after r st) (length ts).
Definition list_claim (n : nat) : Prop := forall s ts st l, (length ts <= n)%nat -> feed s ts -> Forall plain l ->
  ends_as (fun f => lloop f s l) (3 * length ts + 4) (verdict (FList :: st) ts) (fun r => after r st) (length ts).
Definition vec_claim (n : nat) : Prop := forall s ts st l, (length ts <= n)%nat -> feed s ts -> Forall plain l ->
  ends_as (fun f => vloop f s l) (3 * length ts + 4) (verdict (FVec :: st) ts) (fun r => after r st) (length ts).
Definition map_claim (n : nat) : Prop := forall s ts st es, (length ts <= n)%nat -> feed s ts ->
  Forall (fun kv => plain (fst kv) /\ plain (snd kv)) es ->
  ends_as (fun f => mloop f s es) (3 * length ts + 4) (verdict (FKey :: st) ts) (fun r => after r st) (length ts).

Lemma ends_weaken P b b' v st n n' : ends_as P b v st n -> (b <= b')%nat -> (n <= n')%nat -> ends_as P b' v st n'.
Proof.
  intros [(r & s' & ts' & H1 & H2 & H3 & H4 & H5)|[(H1 & H2)|(H1 & H2)]] L L'.
  - left. exists r, s', ts'. conjs; auto; [eapply settles_weaken; eauto|lia].
  - right. left. split; auto. eapply settles_weaken; eauto.
  - right. right. auto.
Qed.

(** Entering a bracket. *)
Lemma ends_open (P Q : nat -> outcome (option node * pstate)) b b' v st n :
  P O = OutOfFuel -> (forall f, P (S f) = Q f) -> ends_as Q b v st n -> (b < b')%nat -> ends_as P b' v st n.
Proof.
  intros P0 PS H L. destruct H as [(r & s' & ts' & H1 & H2)|[(H1 & H2)|(H1 & H2)]].
  - left. exists r, s', ts'. split; auto. eapply settles_now; eauto.
  - right. left. split; auto. eapply settles_now; eauto.
  - right. right. split; auto. eapply hangs_now; eauto.
Qed.

(** Reading one node and going on. *)
Lemma ends_bind (P : nat -> outcome (option node * pstate)) (Q : nat -> option node * pstate -> outcome (option node * pstate))
    b v st1 st n n' :
  ends_as P b v st1 n ->
  (forall r s' ts', feed s' ts' -> (length ts' <= n)%nat -> (forall x, r = Some x -> plain x) ->
     ends_as (fun f => Q f (r, s')) b (verdict (st1 r) ts') st n') ->
  ends_as (fun f => bind (P f) (Q f)) b v st n'.
Proof.
  intros [(r & s' & ts' & H1 & H2 & H3 & H4 & ->)|[(H1 & ->)|(H1 & ->)]] G.
  - destruct (G r s' ts' H2 H3 H4) as [(r2 & s2 & ts2 & I1 & I2)|[(I1 & I2)|(I1 & I2)]].
    + left. exists r2, s2, ts2. split; auto. eapply settles_bind; eauto.
    + right. left. split; auto. eapply settles_bind; eauto.
    + right. right. split; auto. eapply hangs_bind_ok; eauto.
  - right. left. split; auto. now apply settles_throw.
  - right. right. split; auto. now apply hangs_bind.
Qed.

Lemma ends_ret s' ts' (r : option node) b st n v :
  feed s' ts' -> (length ts' <= n)%nat -> (forall x, r = Some x -> plain x) -> v = verdict (st r) ts' ->
  ends_as (fun _ => Ok (r, s')) b v st n.
Proof. intros F L Pl V. left. exists r, s', ts'. conjs; auto. apply settles_const. Qed.

Lemma ends_throw b st n : ends_as (fun _ => Throw StdException) b EThrow st n.
Proof. right. left. split; auto. apply settles_const. Qed.

Lemma ends_ext P Q b v st n : (forall f, P f = Q f) -> ends_as Q b v st n -> ends_as P b v st n.
Proof.
  intros E [(r & s' & ts' & H1 & H2)|[(H1 & H2)|(H1 & H2)]].
  - left. exists r, s', ts'. split; auto. intros f. rewrite E. apply H1.
  - right. left. split; auto. intros f. rewrite E. apply H1.
  - right. right. split; auto. intros f. rewrite E. apply H1.
Qed.

Lemma intern_feed s str id st ts : intern (ps_syms s) str = (st, id) -> feed s ts -> feed (mkP (ps_lx s) (ps_tok s) (ps_log s) st) ts.
Proof. intros _ H. exact H. Qed.

Lemma node_from n : list_claim n -> vec_claim n -> map_claim n -> node_claim (S n).
Proof.
  intros CL CV CM s t ts st L F NH. cbn [length] in L.
  assert (Fk := feed_kind _ _ F). cbn iota in Fk.
  destruct (consume_feed _ _ _ F) as (s1 & C & F1 & Lg & _).
  assert (At : forall g, (forall s', exists r s'', g s' = Ok (r, s'') /\ (forall ts', feed s' ts' -> feed s'' ts') /\
     (forall x, r = Some x -> plain x) /\ bracket_step st (tk_data t) = Some (after r st)) ->
     (forall f, pnode (S f) s = do s <- consume pow10 s; g s) ->
     ends_as (fun f => pnode f s) (3 * length (t :: ts) + 2) (verdict st (t :: ts)) (fun r => after r st) (length ts)).
  { intros g G PS. apply (ends_atom s t ts st _ g F); auto. lia. }
  assert (Op : forall (Q : nat -> outcome (option node * pstate)) fr, bracket_step st (tk_data t) = Some (fr :: st) ->
     (forall f, pnode (S f) s = Q f) ->
     ends_as Q (3 * length ts + 4) (verdict (fr :: st) ts) (fun r => after r st) (length ts) ->
     ends_as (fun f => pnode f s) (3 * length (t :: ts) + 2) (verdict st (t :: ts)) (fun r => after r st) (length ts)).
  { intros Q fr Br PS H. rewrite verdict_cons, Br. eapply ends_open; eauto. cbn [length]. lia. }
  destruct (tk_data t) eqn:D.
  - exfalso. destruct F as (_ & _ & N & _). congruence.
  - apply (At (fun s => Ok (Some NNil, s))); [|intros f; rewrite parse_node_S; now rewrite Fk].
    intros s'. exists (Some NNil), s'. conjs; auto. intros x E. now injection E as <-.
  - apply (At (fun s => Ok (Some (NBool b), s))); [|intros f; rewrite parse_node_S; now rewrite Fk].
    intros s'. exists (Some (NBool b)), s'. conjs; auto. intros x E. now injection E as <-.
  - (* string *)
    apply (At (fun s2 => Ok (Some (NString (cur_text s)), s2))); [|intros f; rewrite parse_node_S; rewrite Fk; reflexivity].
    intros s'. exists (Some (NString (cur_text s))), s'. conjs; auto. intros x E. now injection E as <-.
  - (* keyword *)
    apply (At (fun s2 => let (st, id) := intern (ps_syms s2) (cur_text s) in
                         Ok (Some (NSymbol id), mkP (ps_lx s2) (ps_tok s2) (ps_log s2) st))); [|intros f; rewrite parse_node_S; rewrite Fk; reflexivity].
    intros s'. destruct (intern (ps_syms s') (cur_text s)) as [st1 id].
    eexists (Some (NSymbol id)), _. split; [reflexivity|]. conjs; auto. intros x E. now injection E as <-.
  - (* symbol *)
    apply (At (fun s2 => let (st, id) := intern (ps_syms s2) (cur_text s) in
                         Ok (Some (NSymbol id), mkP (ps_lx s2) (ps_tok s2) (ps_log s2) st))); [|intros f; rewrite parse_node_S; rewrite Fk; reflexivity].
    intros s'. destruct (intern (ps_syms s') (cur_text s)) as [st1 id].
    eexists (Some (NSymbol id)), _. split; [reflexivity|]. conjs; auto. intros x E. now injection E as <-.
  - apply (At (fun s => Ok (Some (NInteger v), s))); [|intros f; rewrite parse_node_S; now rewrite Fk].
    intros s'. exists (Some (NInteger v)), s'. conjs; auto. intros x E. now injection E as <-.
  - apply (At (fun s => Ok (Some (NReal x), s))); [|intros f; rewrite parse_node_S; now rewrite Fk].
    intros s'. exists (Some (NReal x)), s'. conjs; auto. intros y E. now injection E as <-.
  - apply (Op (fun f => lloop f s1 []) FList); [reflexivity| |].
    + intros f. rewrite parse_node_S. rewrite Fk, C. reflexivity.
    + apply CL; auto. lia.
  - (* RParen *) apply (At (fun s2 => do s <- log_error s2 t "unexepected closing delimiter."; Ok (None, s)));
      [|intros f; rewrite parse_node_S; rewrite Fk; destruct F as (_ & -> & _); reflexivity].
    intros s'. rewrite (log_ok s' t "unexepected closing delimiter." "unexepected closing delimiter.") by (vm_compute; reflexivity).
    eexists None, _. split; [reflexivity|]. conjs; auto; [easy|]. cbn in NH. destruct st as [|[] st]; try discriminate; reflexivity.
  - apply (Op (fun f => vloop f s1 []) FVec); [reflexivity| |].
    + intros f. rewrite parse_node_S. rewrite Fk, C. reflexivity.
    + apply CV; auto. lia.
  - apply (At (fun s2 => do s <- log_error s2 t "unexepected closing delimiter."; Ok (None, s)));
      [|intros f; rewrite parse_node_S; rewrite Fk; destruct F as (_ & -> & _); reflexivity].
    intros s'. rewrite (log_ok s' t "unexepected closing delimiter." "unexepected closing delimiter.") by (vm_compute; reflexivity).
    eexists None, _. split; [reflexivity|]. conjs; auto; [easy|]. cbn in NH. destruct st as [|[] st]; try discriminate; reflexivity.
  - apply (Op (fun f => mloop f s1 []) FKey); [reflexivity| |].
    + intros f. rewrite parse_node_S. rewrite Fk, C. reflexivity.
    + apply CM; auto. lia.
  - apply (At (fun s2 => do s <- log_error s2 t "unexepected closing delimiter."; Ok (None, s)));
      [|intros f; rewrite parse_node_S; rewrite Fk; destruct F as (_ & -> & _); reflexivity].
    intros s'. rewrite (log_ok s' t "unexepected closing delimiter." "unexepected closing delimiter.") by (vm_compute; reflexivity).
    eexists None, _. split; [reflexivity|]. conjs; auto; [easy|]. cbn in NH. destruct st as [|[] st]; try discriminate; reflexivity.
Qed.

Lemma plain_NList l : plain (NList l) <-> Forall plain l.
Proof. apply plain_list. Qed.

Lemma list_from n : node_claim n -> (forall k, (k < n)%nat -> list_claim k) -> list_claim n.
Proof.
  intros CN CL s ts st l L F Pl.
  assert (Pn : forall x, Some (NList l) = Some x -> plain x) by (intros x E; injection E as <-; now apply plain_NList).
  assert (Fk := feed_kind _ _ F). destruct ts as [|t ts].
  - apply (ends_open _ (fun _ => do s0 <- log_error s (ps_tok s) "Unexpected end of file while parsing list"; Ok (Some (NList l), s0)) 0); auto; try lia.
    + intros f. rewrite list_loop_S. now rewrite Fk.
    + rewrite (log_ok _ _ _ "Unexpected end of file while parsing list") by (vm_compute; reflexivity). cbn [bind].
      apply ends_ret with (ts' := []); auto. unfold verdict. cbn. now rewrite map_open_filled.
  - destruct (consume_feed _ _ _ F) as (s1 & C & F1 & Lg & _).
    assert (El : (forall f, lloop (S f) s l = do (n, s0) <- pnode f s; lloop f s0 (match n with Some n => l ++ [n] | None => l end)) ->
      is_closer (tk_data t) = false ->
      ends_as (fun f => lloop f s l) (3 * length (t :: ts) + 4) (verdict (FList :: st) (t :: ts)) (fun r => after r st) (length (t :: ts))).
    { intros E NC. eapply ends_open with (b := (3 * length (t :: ts) + 2)%nat); [reflexivity|exact E| |lia].
      eapply ends_bind; [apply (CN s t ts (FList :: st)); auto; unfold node_here; now rewrite NC|].
      intros r s' ts' F' L' Pr. cbn beta iota. cbn [length] in *.
      assert (Eaf : after r (FList :: st) = FList :: st) by (destruct r; reflexivity). rewrite Eaf.
      eapply ends_weaken; [apply (CL (length ts')); auto; try lia|lia|lia].
      destruct r as [x|]; auto. apply Forall_app. auto. }
    destruct (tk_data t) eqn:D; try (apply El; [intros f; rewrite list_loop_S; now rewrite Fk|reflexivity]).
    + exfalso. destruct F as (_ & _ & N & _). congruence.
    + (* RParen *) apply (ends_open _ (fun _ => Ok (Some (NList l), s1)) 0); auto; try (cbn; lia).
      * intros f. rewrite list_loop_S. rewrite Fk, C. reflexivity.
      * apply ends_ret with (ts' := ts); auto; [cbn [length]; lia|]. rewrite verdict_cons, D. reflexivity.
    + (* RBracket *)
      apply (ends_open _ (fun _ => do s <- log_error s (ps_tok s) "Unexpected ']' terminating list"; do s <- consume pow10 s; Ok (Some (NList l), s)) 0); auto; try (cbn; lia).
      * intros f. rewrite list_loop_S. now rewrite Fk.
      * rewrite (log_ok _ _ _ "Unexpected ']' terminating list") by (vm_compute; reflexivity). cbn [bind].
        destruct (consume_feed _ _ _ (feed_log _ _ (ps_log s ++ [mkError (tk_begin (ps_tok s)) (tk_end (ps_tok s)) "Unexpected ']' terminating list"]) (ps_syms s) F)) as (s2 & C2 & F2 & _).
        rewrite C2. cbn [bind]. apply ends_ret with (ts' := ts); auto; [cbn [length]; lia|]. rewrite verdict_cons, D. reflexivity.
    + (* RBrace *)
      apply (ends_open _ (fun _ => Throw StdException) 0); auto; try (cbn; lia).
      * intros f. rewrite list_loop_S. rewrite Fk. now rewrite log_throw by (vm_compute; reflexivity).
      * rewrite verdict_cons, D. apply ends_throw.
Qed.

Lemma vec_from n : node_claim n -> (forall k, (k < n)%nat -> vec_claim k) -> vec_claim n.
Proof.
  intros CN CL s ts st l L F Pl.
  assert (Pn : forall x, Some (NVector l) = Some x -> plain x) by (intros x E; injection E as <-; now apply plain_NList).
  assert (Fk := feed_kind _ _ F). destruct ts as [|t ts].
  - apply (ends_open _ (fun _ => do s0 <- log_error s (ps_tok s) "Unexpected end of file while parsing vector"; Ok (Some (NVector l), s0)) 0); auto; try lia.
    + intros f. rewrite vector_loop_S. now rewrite Fk.
    + rewrite (log_ok _ _ _ "Unexpected end of file while parsing vector") by (vm_compute; reflexivity). cbn [bind].
      apply ends_ret with (ts' := []); auto. unfold verdict. cbn. now rewrite map_open_filled.
  - destruct (consume_feed _ _ _ F) as (s1 & C & F1 & Lg & _).
    assert (El : (forall f, vloop (S f) s l = do (n, s0) <- pnode f s; vloop f s0 (match n with Some n => l ++ [n] | None => l end)) ->
      is_closer (tk_data t) = false ->
      ends_as (fun f => vloop f s l) (3 * length (t :: ts) + 4) (verdict (FVec :: st) (t :: ts)) (fun r => after r st) (length (t :: ts))).
    { intros E NC. eapply ends_open with (b := (3 * length (t :: ts) + 2)%nat); [reflexivity|exact E| |lia].
      eapply ends_bind; [apply (CN s t ts (FVec :: st)); auto; unfold node_here; now rewrite NC|].
      intros r s' ts' F' L' Pr. cbn beta iota. cbn [length] in *.
      assert (Eaf : after r (FVec :: st) = FVec :: st) by (destruct r; reflexivity). rewrite Eaf.
      eapply ends_weaken; [apply (CL (length ts')); auto; try lia|lia|lia].
      destruct r as [x|]; auto. apply Forall_app. auto. }
    destruct (tk_data t) eqn:D; try (apply El; [intros f; rewrite vector_loop_S; now rewrite Fk|reflexivity]).
    + exfalso. destruct F as (_ & _ & N & _). congruence.
    + (* RParen *)
      apply (ends_open _ (fun _ => do s <- log_error s (ps_tok s) "Unexpected ')' terminating vector"; do s <- consume pow10 s; Ok (Some (NVector l), s)) 0); auto; try (cbn; lia).
      * intros f. rewrite vector_loop_S. now rewrite Fk.
      * rewrite (log_ok _ _ _ "Unexpected ')' terminating vector") by (vm_compute; reflexivity). cbn [bind].
        destruct (consume_feed _ _ _ (feed_log _ _ (ps_log s ++ [mkError (tk_begin (ps_tok s)) (tk_end (ps_tok s)) "Unexpected ')' terminating vector"]) (ps_syms s) F)) as (s2 & C2 & F2 & _).
        rewrite C2. cbn [bind]. apply ends_ret with (ts' := ts); auto; [cbn [length]; lia|]. rewrite verdict_cons, D. reflexivity.
    + (* RBracket *) apply (ends_open _ (fun _ => Ok (Some (NVector l), s1)) 0); auto; try (cbn; lia).
      * intros f. rewrite vector_loop_S. rewrite Fk, C. reflexivity.
      * apply ends_ret with (ts' := ts); auto; [cbn [length]; lia|]. rewrite verdict_cons, D. reflexivity.
    + (* RBrace *)
      apply (ends_open _ (fun _ => Throw StdException) 0); auto; try (cbn; lia).
      * intros f. rewrite vector_loop_S. rewrite Fk. now rewrite log_throw by (vm_compute; reflexivity).
      * rewrite verdict_cons, D. apply ends_throw.
Qed.

Lemma map_from n : node_claim n -> (forall k, (k < n)%nat -> map_claim k) -> map_claim n.
Proof.
  intros CN CM s ts st es L F Pe.
  assert (Pn : forall x, Some (NMap es) = Some x -> plain x) by (intros x E; injection E as <-; now apply plain_entries).
  assert (Fk := feed_kind _ _ F). destruct ts as [|t ts].
  - right. right. split; [intros f; now apply map_hangs|reflexivity].
  - destruct (consume_feed _ _ _ F) as (s1 & C & F1 & Lg & _).
    (* the rest of an iteration once the key is read *)
    assert (Go : forall s' ts' es', feed s' ts' -> (length ts' <= length ts)%nat ->
      Forall (fun kv => plain (fst kv) /\ plain (snd kv)) es' ->
      ends_as (fun f => mloop f s' es') (3 * length (t :: ts) + 3) (verdict (FKey :: st) ts') (fun r => after r st) (length (t :: ts))).
    { intros s' ts' es' F' L' P'. cbn [length] in *. eapply ends_weaken; [apply (CM (length ts')); auto; try lia|lia|lia]. }
    assert (El : (forall f, mloop (S f) s es =
          (do (k, s) <- pmk f s;
          match k with
          | None => do s <- log_error s (ps_tok s) "failed to parse map key"; mloop f s es
          | Some k =>
              do (v, s) <- pmv f s;
              match v with
              | None => do s <- log_error s (ps_tok s) "key not followed by value in map"; mloop f s es
              | Some v =>
                  do f0 <- map_find sh es k;
                  do s <- (match f0 with
                           | Some _ => log_error s (ps_tok s) "duplicate key discovered in map"
                           | None => Ok s end);
                  do es <- map_insert sh place es k v;
                  mloop f s es
              end
          end)) ->
      is_closer (tk_data t) = false ->
      ends_as (fun f => mloop f s es) (3 * length (t :: ts) + 4) (verdict (FKey :: st) (t :: ts)) (fun r => after r st) (length (t :: ts))).
    { intros E NC. eapply ends_open with (b := (3 * length (t :: ts) + 3)%nat); [reflexivity|exact E| |lia].
      eapply ends_bind with (st1 := fun r => after r (FKey :: st)) (n := length ts).
      - (* the key *)
        eapply ends_open with (P := fun f => pmk f s) (Q := fun f => pnode f s) (b := (3 * length (t :: ts) + 2)%nat); [reflexivity| | |lia].
        + intros f. rewrite parse_map_k_S. rewrite Fk. destruct (tk_data t) eqn:D; try reflexivity; try discriminate.
          exfalso. destruct F as (_ & _ & N & _). congruence.
        + apply CN; auto. unfold node_here. now rewrite NC.
      - intros [k|] s' ts' F' L' Pk; cbn [after filled].
        + (* the value *)
          specialize (Pk k eq_refl).
          eapply ends_bind with (st1 := fun _ => FKey :: st) (n := length ts).
          * assert (Fk' := feed_kind _ _ F'). destruct ts' as [|t' ts'].
            -- left. exists None. eexists. exists []. split; [|conjs].
               ++ intros [|f]; [right; split; [lia|reflexivity]|]. left. rewrite parse_map_v_S. rewrite Fk'.
                  rewrite (log_ok _ _ _ "Unexpected end of file while parsing map value") by (vm_compute; reflexivity).
                  reflexivity.
               ++ exact F'.
               ++ cbn. lia.
               ++ discriminate.
               ++ reflexivity.
            -- destruct (is_closer (tk_data t')) eqn:NC'.
               ++ destruct (tk_data t') eqn:D'; try discriminate.
                  ** apply (ends_open _ (fun _ => Throw StdException) 0); [reflexivity| | |lia].
                     --- intros f. rewrite parse_map_v_S. rewrite Fk'. now rewrite log_throw by (vm_compute; reflexivity).
                     --- rewrite verdict_cons, D'. apply ends_throw.
                  ** eapply ends_open with (Q := fun f => pnode f s') (b := (3 * length (t' :: ts') + 2)%nat); [reflexivity| | |cbn [length] in *; lia].
                     --- intros f. rewrite parse_map_v_S. now rewrite Fk'.
                     --- pose proof (CN s' t' ts' (FVal :: st)) as HN. rewrite D' in HN. cbn [length] in *.
                         destruct (HN ltac:(lia) F' eq_refl) as [(r & s2 & ts2 & H1 & H2 & H3 & H4 & H5)|[(H1 & H2)|(H1 & H2)]].
                         +++ left. exists r, s2, ts2. conjs; auto; try lia. rewrite H5. destruct r; reflexivity.
                         +++ right. left. auto.
                         +++ right. right. auto.
                  ** apply (ends_open _ (fun _ => Throw StdException) 0); [reflexivity| | |lia].
                     --- intros f. rewrite parse_map_v_S. rewrite Fk'. now rewrite log_throw by (vm_compute; reflexivity).
                     --- rewrite verdict_cons, D'. apply ends_throw.
               ++ eapply ends_open with (Q := fun f => pnode f s') (b := (3 * length (t' :: ts') + 2)%nat); [reflexivity| | |cbn [length] in *; lia].
                  ** intros f. rewrite parse_map_v_S. rewrite Fk'. destruct (tk_data t') eqn:D'; try reflexivity; try discriminate.
                     exfalso. destruct F' as (_ & _ & N & _). congruence.
                  ** pose proof (CN s' t' ts' (FVal :: st)) as HN. unfold node_here in HN. rewrite NC' in HN. cbn [length] in *.
                     destruct (HN ltac:(lia) F' eq_refl) as [(r & s2 & ts2 & H1 & H2 & H3 & H4 & H5)|[(H1 & H2)|(H1 & H2)]].
                     +++ left. exists r, s2, ts2. conjs; auto; try lia. rewrite H5. destruct r; reflexivity.
                     +++ right. left. auto.
                     +++ right. right. auto.
          * intros [v|] s2 ts2 F2 L2 Pv; cbn beta iota.
            -- specialize (Pv v eq_refl). destruct (plain_map_find sh es k Pe Pk) as (fd & Ef). rewrite Ef. cbn [bind].
               unfold map_insert. rewrite Ef. cbn [bind]. destruct fd as [old|].
               ++ rewrite (log_ok _ _ _ "duplicate key discovered in map") by (vm_compute; reflexivity). cbn [bind]. apply Go; auto.
               ++ cbn [bind]. apply Go; auto. eapply Permutation_Forall; [symmetry; apply place_perm|]. constructor; auto.
            -- rewrite (log_ok _ _ _ "key not followed by value in map") by (vm_compute; reflexivity). cbn [bind]. apply Go; auto.
        + rewrite (log_ok _ _ _ "failed to parse map key") by (vm_compute; reflexivity). cbn [bind]. apply Go; auto. }
    destruct (tk_data t) eqn:D; try (apply El; [intros f; rewrite map_loop_S; now rewrite Fk|reflexivity]).
    + (* RParen *)
      apply (ends_open _ (fun _ => do s <- log_error s (ps_tok s) "Unexpected ')' terminating map"; do s <- consume pow10 s; Ok (Some (NMap es), s)) 0); auto; try (cbn; lia).
      * intros f. rewrite map_loop_S. now rewrite Fk.
      * rewrite (log_ok _ _ _ "Unexpected ')' terminating map") by (vm_compute; reflexivity). cbn [bind].
        destruct (consume_feed _ _ _ (feed_log _ _ (ps_log s ++ [mkError (tk_begin (ps_tok s)) (tk_end (ps_tok s)) "Unexpected ')' terminating map"]) (ps_syms s) F)) as (s2 & C2 & F2 & _).
        rewrite C2. cbn [bind]. apply ends_ret with (ts' := ts); auto; [cbn [length]; lia|]. rewrite verdict_cons, D. reflexivity.
    + (* RBracket *)
      apply (ends_open _ (fun _ => do s <- log_error s (ps_tok s) "Unexpected ']' terminating vector"; do s <- consume pow10 s; Ok (Some (NMap es), s)) 0); auto; try (cbn; lia).
      * intros f. rewrite map_loop_S. now rewrite Fk.
      * rewrite (log_ok _ _ _ "Unexpected ']' terminating vector") by (vm_compute; reflexivity). cbn [bind].
        destruct (consume_feed _ _ _ (feed_log _ _ (ps_log s ++ [mkError (tk_begin (ps_tok s)) (tk_end (ps_tok s)) "Unexpected ']' terminating vector"]) (ps_syms s) F)) as (s2 & C2 & F2 & _).
        rewrite C2. cbn [bind]. apply ends_ret with (ts' := ts); auto; [cbn [length]; lia|]. rewrite verdict_cons, D. reflexivity.
    + (* RBrace *) apply (ends_open _ (fun _ => Ok (Some (NMap es), s1)) 0); auto; try (cbn; lia).
      * intros f. rewrite map_loop_S. rewrite Fk, C. reflexivity.
      * apply ends_ret with (ts' := ts); auto; [cbn [length]; lia|]. rewrite verdict_cons, D. reflexivity.
Qed.

Lemma claims n : node_claim n /\ list_claim n /\ vec_claim n /\ map_claim n.
Proof.
  induction n as [n IH] using lt_wf_ind.
  assert (CN : node_claim n).
  { destruct n as [|n].
    - intros s t ts st L. cbn in L. lia.
    - apply node_from; apply (IH n); lia. }
  split; [exact CN|]. split; [|split].
  - apply list_from; auto. intros k Hk. apply (IH k Hk).
  - apply vec_from; auto. intros k Hk. apply (IH k Hk).
  - apply map_from; auto. intros k Hk. apply (IH k Hk).
Qed.

(** The whole parse. *)
Lemma parse_loop_ends n : forall s ts nodes, (length ts <= n)%nat -> feed s ts ->
  let P := fun f => parse_loop pow10 sh place f s nodes in
  match verdict [] ts with
  | EOk => exists nodes' s', settles P (3 * length ts + 4) (Ok (nodes', s')) /\ feed s' []
  | EThrow => settles P (3 * length ts + 4) (Throw StdException)
  | EHang => hangs P
  end.
Proof.
  induction n as [|n IH]; intros s ts nodes L F P; subst P; assert (Fk := feed_kind _ _ F); destruct ts as [|t ts]; cbn [length] in L; try lia.
  - cbn. exists nodes, s. split; auto. intros [|f]; [right; split; [lia|reflexivity]|]. left. rewrite parse_loop_S. now rewrite Fk.
  - cbn. exists nodes, s. split; auto. intros [|f]; [right; split; [lia|reflexivity]|]. left. rewrite parse_loop_S. now rewrite Fk.
  - assert (E : forall f, parse_loop pow10 sh place (S f) s nodes =
        do (n, s) <- pnode f s; parse_loop pow10 sh place f s (match n with Some n => nodes ++ [n] | None => nodes end)).
    { intros f. rewrite parse_loop_S. rewrite Fk. destruct (tk_data t) eqn:D; auto. exfalso. destruct F as (_ & _ & N & _). congruence. }
    assert (H0 : parse_loop pow10 sh place 0 s nodes = OutOfFuel) by reflexivity.
    destruct (claims (S n)) as (CN & _).
    assert (NH : node_here [] (tk_data t) = true) by (unfold node_here; now rewrite orb_true_r).
    destruct (CN s t ts [] ltac:(cbn; lia) F NH) as [(r & s' & ts' & H1 & H2 & H3 & H4 & H5)|[(H1 & H2)|(H1 & H2)]].
    + rewrite H5. assert (after r [] = []) as -> by (destruct r; reflexivity).
      specialize (IH s' ts' (match r with Some n => nodes ++ [n] | None => nodes end) ltac:(lia) H2). cbn zeta in IH.
      destruct (verdict [] ts').
      * destruct IH as (nodes' & s2 & S2 & F2). exists nodes', s2. split; auto.
        eapply settles_now with (b := (3 * length (t :: ts) + 2)%nat); [exact H0|exact E| |lia].
        eapply settles_bind; [exact H1|]. cbn beta iota. eapply settles_weaken; eauto. cbn [length]; lia.
      * eapply settles_now with (b := (3 * length (t :: ts) + 2)%nat); [exact H0|exact E| |lia].
        eapply settles_bind; [exact H1|]. cbn beta iota. eapply settles_weaken; eauto. cbn [length]; lia.
      * eapply hangs_now; [exact H0|exact E|]. eapply hangs_bind_ok; [exact H1|]. exact IH.
    + rewrite H2. eapply settles_now with (b := (3 * length (t :: ts) + 2)%nat); [exact H0|exact E|now apply settles_throw|lia].
    + rewrite H2. eapply hangs_now; [exact H0|exact E|]. now apply hangs_bind.
Qed.

End Feed.
