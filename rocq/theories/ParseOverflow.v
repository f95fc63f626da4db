(** Parsing a text in which a number is too large (for C28). *)
From Coq Require Import String ZArith List Bool Lia Permutation Arith.
From Coq Require SpecFloat.
From Verif Require Import Outcome HashModel TablesModel IrModel IrSpec IrProofs TablesSpec LexModel LexSpec LexProofs LexRun LexTiles ParseModel ParseSpec ParseUnfold ParseProofs.
Import ListNotations.
Local Open Scope Z_scope.
Local Open Scope list_scope.

(** * Which texts these are *)
Definition too_large (pow10 : Z -> SpecFloat.spec_float) (r : rule) (w : list Z) : Prop :=
  (r = RuInteger /\ exists v, int_value w v /\ ~ (- 2 ^ 63 < v < 2 ^ 63)) \/
  (r = RuReal /\ parse_real pow10 w = UB SignedOverflow).
(** [text] consists of [toks] and gaps up to a number that is too large. *)
Inductive tiles_up_to (pow10 : Z -> SpecFloat.spec_float) : nat -> list Z -> list token -> Prop :=
| u_bad pos w text r : longest (w ++ text) w r -> too_large pow10 r w -> tiles_up_to pow10 pos (w ++ text) []
| u_gap pos w text r toks :
    longest (w ++ text) w r -> is_gap r ->
    tiles_up_to pow10 (pos + length w) text toks -> tiles_up_to pow10 pos (w ++ text) toks
| u_tok pos w text r d toks :
    longest (w ++ text) w r -> LexSpec.stands_for pow10 r w d ->
    tiles_up_to pow10 (pos + length w) text toks -> tiles_up_to pow10 pos (w ++ text) (mkTok d pos (pos + length w) :: toks).

Lemma too_large_action pow10 r w : too_large pow10 r w -> action pow10 r w = UB SignedOverflow.
Proof.
  intros [(-> & v & V & N)|(-> & E)]; cbn [action]; [|now rewrite E].
  rewrite (parse_integer_spec w v V). destruct ((- 2 ^ 63 <? v) && (v <? 2 ^ 63)) eqn:B; [|reflexivity].
  apply andb_prop in B as [B1 B2]. apply Z.ltb_lt in B1, B2. now destruct N.
Qed.
Lemma action_too_large pow10 r w : matches r w -> action pow10 r w = UB SignedOverflow -> too_large pow10 r w.
Proof.
  intros M E. pose proof (action_spec pow10 r w M) as A. rewrite E in A. destruct A as [-> | ->].
  - left. split; [reflexivity|]. destruct (integer_has_value w M) as (v & V). exists v. split; [exact V|]. intros B.
    cbn [action] in E. rewrite (parse_integer_spec w v V) in E. destruct B as [B1 B2]. apply Z.ltb_lt in B1, B2. rewrite B1, B2 in E. discriminate.
  - right. split; [reflexivity|]. cbn [action] in E. destruct (parse_real pow10 w) as [x| | |u|]; cbn [bind] in E; congruence.
Qed.
(** Every text is of one of the two sorts. *)
Lemma tiles_or_up_to pow10 : forall n pos text, (length text <= n)%nat ->
  (exists ts tail, tiles pow10 pos text ts tail) \/ (exists ts, tiles_up_to pow10 pos text ts).
Proof.
  induction n as [|n IH]; intros pos text Ln.
  - destruct text; [|cbn in Ln; lia]. left. exists [], []. constructor. apply no_match_nil.
  - destruct (scan start_state 0 None [] 0 text) as [[k last] li'] eqn:Es.
    pose proof (scan_longest _ _ _ _ _ _ Es) as SL. destruct last as [[r m]|]; [|left; exists [], text; now constructor].
    destruct SL as (Bm & L). pose proof (firstn_skipn m text) as Et.
    remember (firstn m text) as w eqn:Ew. remember (skipn m text) as rest eqn:Er.
    assert (Lw : (0 < length w)%nat) by (rewrite Ew, firstn_length; lia).
    rewrite <- Et in *. clear Et Ew Er Es. rewrite app_length in Ln.
    assert (M : matches r w) by apply L. pose proof (action_spec pow10 r w M) as Ac.
    destruct (IH (pos + length w)%nat rest ltac:(lia)) as [(ts & tail & Ht)|(ts & Hu)];
      destruct (action pow10 r w) as [[d|]| | |u|] eqn:Ea; try easy;
      try (destruct u; try easy; right; exists []; eapply u_bad; [exact L|]; now apply action_too_large).
    + left. exists (mkTok d pos (pos + length w) :: ts), tail. eapply t_tok; [exact L|apply Ac|exact Ht].
    + left. exists ts, tail. eapply t_gap; [exact L|exact Ac|exact Ht].
    + right. exists (mkTok d pos (pos + length w) :: ts). eapply u_tok; [exact L|apply Ac|exact Hu].
    + right. exists ts. eapply u_gap; [exact L|exact Ac|exact Hu].
Qed.

(** * The lexer on them *)
Inductive streams_up_to (pow10 : Z -> SpecFloat.spec_float) : lexer -> list token -> Prop :=
| su_bad lx : next pow10 lx = UB SignedOverflow -> streams_up_to pow10 lx []
| su_tok lx t lx1 ts : next pow10 lx = Ok (t, lx1) -> tk_data t <> TkEnd -> streams_up_to pow10 lx1 ts -> streams_up_to pow10 lx (t :: ts).
Lemma up_to_nonempty pow10 pos text ts : tiles_up_to pow10 pos text ts -> text <> [].
Proof. intros H. destruct H as [pos w text r L _|pos w text r toks L _ _|pos w text r d toks L _ _]; (assert (N : w <> []) by apply L); intros E; apply app_eq_nil in E as [-> _]; congruence. Qed.
Lemma up_to_streams pow10 pos text ts : tiles_up_to pow10 pos text ts -> forall lx, at_text lx pos text -> streams_up_to pow10 lx ts.
Proof.
  induction 1 as [pos w text r L B|pos w text r toks L G H IH|pos w text r d toks L S H IH]; intros lx A.
  - apply su_bad. unfold next. pose proof A as (P & R & E & T & L1). rewrite R, E. destruct (w ++ text) as [|c x] eqn:Ewr.
    { assert (N : w <> []) by apply L. apply app_eq_nil in Ewr as (-> & _). congruence. }
    rewrite (lex_exec_match pow10 _ lx w text r); rewrite ?R, <- ?Ewr in *; auto. now rewrite too_large_action.
  - destruct (at_text_shift lx pos w text (breaks_of (lx_lines lx) (Z.of_nat pos) w) A) as (A1 & _). specialize (IH _ A1).
    destruct (next_gap pow10 lx pos w text r A L G) as [En|(-> & _)]; [|now apply up_to_nonempty in H].
    inversion IH; subst; [apply su_bad; congruence|eapply su_tok; eauto; congruence].
  - destruct (at_text_shift lx pos w text (lx_lines lx) A) as (A1 & _).
    eapply su_tok; [eapply next_token; eauto| |now apply IH]. cbn. intros ->. now apply stands_for_not_end in S.
Qed.

(** * The parser on them *)
Section Feed.
Context (pow10 : Z -> SpecFloat.spec_float) (sh : std_hash) (place : node * node -> list (node * node) -> list (node * node)).
Context (place_perm : forall x es, Permutation (place x es) (x :: es)).
Notation pnode := (parse_node pow10 sh place).
Notation lloop := (list_loop pow10 sh place).
Notation vloop := (vector_loop pow10 sh place).
Notation mloop := (map_loop pow10 sh place).
Notation pmk := (parse_map_k pow10 sh place).
Notation pmv := (parse_map_v pow10 sh place).

(** The current token [t], then [ts], then the overflow *)
Definition fed (s : pstate) (t : token) (ts : list token) : Prop :=
  ps_tok s = t /\ tk_data t <> TkEnd /\ streams_up_to pow10 (ps_lx s) ts.
Lemma fed_log s t ts l st : fed s t ts -> fed (mkP (ps_lx s) (ps_tok s) l st) t ts.
Proof. intros H. exact H. Qed.

(** What the brackets say: an exception, or the overflow *)
Definition says {A} (st : list frame) (ts : list token) : outcome A :=
  match brackets st (map tk_data ts) with None => Throw StdException | Some _ => UB SignedOverflow end.
Lemma says_cons {A} st t ts : says (A := A) st (t :: ts) =
  match bracket_step st (tk_data t) with Some st' => says st' ts | None => Throw StdException end.
Proof. unfold says. cbn [map brackets]. destruct (bracket_step st (tk_data t)); reflexivity. Qed.
Definition ends_up_to (P : nat -> outcome (option node * pstate)) (b : nat) (st : list frame) (ts : list token)
    (st' : option node -> list frame) (n : nat) : Prop :=
  (exists r s' t' ts', settles P b (Ok (r, s')) /\ fed s' t' ts' /\ (length (t' :: ts') <= n)%nat /\
     (forall x, r = Some x -> plain x) /\ brackets st (map tk_data ts) = brackets (st' r) (map tk_data (t' :: ts')))
  \/ settles P b (says st ts).

Lemma up_weaken P b b' st ts st' n n' : ends_up_to P b st ts st' n -> (b <= b')%nat -> (n <= n')%nat -> ends_up_to P b' st ts st' n'.
Proof.
  intros [(r & s' & t' & ts' & H1 & H2 & H3 & H4 & H5)|H] L L'.
  - left. exists r, s', t', ts'. conjs; auto; [eapply settles_weaken; eauto|lia].
  - right. eapply settles_weaken; eauto.
Qed.
Lemma up_open (P Q : nat -> outcome (option node * pstate)) b b' st ts st' n :
  P O = OutOfFuel -> (forall f, P (S f) = Q f) -> ends_up_to Q b st ts st' n -> (b < b')%nat -> ends_up_to P b' st ts st' n.
Proof.
  intros P0 PS [(r & s' & t' & ts' & H1 & H2)|H] L.
  - left. exists r, s', t', ts'. split; auto. eapply settles_now; eauto.
  - right. eapply settles_now; eauto.
Qed.
Lemma up_brackets P b st ts st1 ts1 st' n : brackets st (map tk_data ts) = brackets st1 (map tk_data ts1) ->
  ends_up_to P b st1 ts1 st' n -> ends_up_to P b st ts st' n.
Proof.
  intros E [(r & s' & t' & ts' & H1 & H2 & H3 & H4 & H5)|H].
  - left. exists r, s', t', ts'. conjs; auto. congruence.
  - right. unfold says in *. now rewrite E.
Qed.
Lemma settles_ub {A B} (P : nat -> outcome A) (Q : nat -> A -> outcome B) b st ts :
  settles P b (says st ts) -> settles (fun f => bind (P f) (Q f)) b (says st ts).
Proof. unfold says. intros HP f. destruct (brackets st (map tk_data ts)); destruct (HP f) as [->|(L & ->)]; cbn [bind]; auto. Qed.
Lemma up_bind (P : nat -> outcome (option node * pstate)) (Q : nat -> option node * pstate -> outcome (option node * pstate)) b st ts st1 st' n n' :
  ends_up_to P b st ts st1 n ->
  (forall r s' t' ts', fed s' t' ts' -> (length (t' :: ts') <= n)%nat -> (forall x, r = Some x -> plain x) ->
     ends_up_to (fun f => Q f (r, s')) b (st1 r) (t' :: ts') st' n') ->
  ends_up_to (fun f => bind (P f) (Q f)) b st ts st' n'.
Proof.
  intros [(r & s' & t' & ts' & H1 & H2 & H3 & H4 & H5)|H] G.
  - eapply up_brackets; [exact H5|]. destruct (G r s' t' ts' H2 H3 H4) as [(r2 & s2 & t2 & ts2 & I1 & I2)|I].
    + left. exists r2, s2, t2, ts2. split; auto. eapply settles_bind; eauto.
    + right. eapply settles_bind; eauto.
  - right. now apply settles_ub.
Qed.
(** Going past the current token *)
Lemma up_consume s t ts st st1 (Q : nat -> pstate -> outcome (option node * pstate)) b st' n :
  fed s t ts -> bracket_step st (tk_data t) = Some st1 ->
  (forall s1 t1 ts1, ts = t1 :: ts1 -> fed s1 t1 ts1 -> ends_up_to (fun f => Q f s1) b st1 (t1 :: ts1) st' n) ->
  ends_up_to (fun f => do s <- consume pow10 s; Q f s) b st (t :: ts) st' n.
Proof.
  intros (E & N & S) B G. unfold consume. inversion S as [lx Hn|lx t1 lx1 ts1 Hn Ht St]; subst.
  - right. intros f. left. rewrite says_cons, B, Hn. reflexivity.
  - rewrite Hn. cbn [bind]. apply (up_brackets _ _ _ _ st1 (t1 :: ts1)); [cbn [map brackets]; now rewrite B|].
    eapply (G _ t1 ts1 eq_refl). split; [reflexivity|]. split; [exact Ht|exact St].
Qed.
Lemma up_ret s' t' ts' (r : option node) b st st' n :
  fed s' t' ts' -> (length (t' :: ts') <= n)%nat -> (forall x, r = Some x -> plain x) -> st = st' r ->
  ends_up_to (fun _ => Ok (r, s')) b st (t' :: ts') st' n.
Proof. intros F L Pl ->. left. exists r, s', t', ts'. conjs; auto. apply settles_const. Qed.
Lemma up_throw t ts b st st' n : bracket_step st (tk_data t) = None -> ends_up_to (fun _ => Throw StdException) b st (t :: ts) st' n.
Proof. intros B. right. rewrite says_cons, B. apply settles_const. Qed.

Definition node_claim (n : nat) : Prop := forall s t ts st, (length (t :: ts) <= n)%nat -> fed s t ts ->
  node_here st (tk_data t) = true ->
  ends_up_to (fun f => pnode f s) (3 * length (t :: ts) + 2) st (t :: ts) (fun r => after r st) (length ts).
Definition loop_claim (loop : nat -> pstate -> list node -> outcome (option node * pstate)) (fr : frame) (n : nat) : Prop :=
  forall s t ts st l, (length (t :: ts) <= n)%nat -> fed s t ts -> Forall plain l ->
  ends_up_to (fun f => loop f s l) (3 * length (t :: ts) + 4) (fr :: st) (t :: ts) (fun r => after r st) (length (t :: ts)).
Definition map_claim (n : nat) : Prop := forall s t ts st es, (length (t :: ts) <= n)%nat -> fed s t ts ->
  Forall (fun kv => plain (fst kv) /\ plain (snd kv)) es ->
  ends_up_to (fun f => mloop f s es) (3 * length (t :: ts) + 4) (FKey :: st) (t :: ts) (fun r => after r st) (length (t :: ts)).

Lemma node_from n : loop_claim lloop FList n -> loop_claim vloop FVec n -> map_claim n -> node_claim (S n).
Proof.
  intros CL CV CM s t ts st L F NH. cbn [length] in L.
  assert (Fk : tk_data (ps_tok s) = tk_data t) by (now destruct F as (-> & _)).
  assert (At : forall g : pstate -> outcome (option node * pstate),
     (forall s', exists r s'', g s' = Ok (r, s'') /\ (forall t' ts', fed s' t' ts' -> fed s'' t' ts') /\
       (forall x, r = Some x -> plain x) /\ bracket_step st (tk_data t) = Some (after r st)) ->
     (forall f, pnode (S f) s = do s <- consume pow10 s; g s) ->
     ends_up_to (fun f => pnode f s) (3 * length (t :: ts) + 2) st (t :: ts) (fun r => after r st) (length ts)).
  { intros g G PS. destruct (G s) as (r0 & _ & _ & _ & _ & Br).
    apply (up_open _ (fun _ => do s <- consume pow10 s; g s) 0); [reflexivity|exact PS| |lia].
    eapply up_consume; [exact F|exact Br|]. intros s1 t1 ts1 -> F1. destruct (G s1) as (r & s2 & E & K & Pl & Br'). rewrite E.
    apply up_ret; auto. rewrite Br in Br'. congruence. }
  assert (Op : forall (Q : nat -> pstate -> outcome (option node * pstate)) fr, bracket_step st (tk_data t) = Some (fr :: st) ->
     (forall f, pnode (S f) s = do s <- consume pow10 s; Q f s) ->
     (forall s1 t1 ts1, ts = t1 :: ts1 -> fed s1 t1 ts1 ->
        ends_up_to (fun f => Q f s1) (3 * length ts + 4) (fr :: st) (t1 :: ts1) (fun r => after r st) (length ts)) ->
     ends_up_to (fun f => pnode f s) (3 * length (t :: ts) + 2) st (t :: ts) (fun r => after r st) (length ts)).
  { intros Q fr Br PS H. apply (up_open _ (fun f => do s <- consume pow10 s; Q f s) (3 * length ts + 4)); [reflexivity|exact PS| |cbn [length]; lia].
    eapply up_consume; [exact F|exact Br|exact H]. }
  destruct (tk_data t) eqn:D.
  - exfalso. destruct F as (_ & N & _). congruence.
  - apply (At (fun s => Ok (Some NNil, s))); [|intros f; rewrite parse_node_S; now rewrite Fk].
    intros s'. exists (Some NNil), s'. conjs; auto. intros x E. now injection E as <-.
  - apply (At (fun s => Ok (Some (NBool b), s))); [|intros f; rewrite parse_node_S; now rewrite Fk].
    intros s'. exists (Some (NBool b)), s'. conjs; auto. intros x E. now injection E as <-.
  - apply (At (fun s2 => Ok (Some (NString (cur_text s)), s2))); [|intros f; rewrite parse_node_S; rewrite Fk; reflexivity].
    intros s'. exists (Some (NString (cur_text s))), s'. conjs; auto. intros x E. now injection E as <-.
  - apply (At (fun s2 => let (st, id) := intern (ps_syms s2) (cur_text s) in
                         Ok (Some (NSymbol id), mkP (ps_lx s2) (ps_tok s2) (ps_log s2) st))); [|intros f; rewrite parse_node_S; rewrite Fk; reflexivity].
    intros s'. destruct (intern (ps_syms s') (cur_text s)) as [st1 id].
    eexists (Some (NSymbol id)), _. split; [reflexivity|]. conjs; auto. intros x E. now injection E as <-.
  - apply (At (fun s2 => let (st, id) := intern (ps_syms s2) (cur_text s) in
                         Ok (Some (NSymbol id), mkP (ps_lx s2) (ps_tok s2) (ps_log s2) st))); [|intros f; rewrite parse_node_S; rewrite Fk; reflexivity].
    intros s'. destruct (intern (ps_syms s') (cur_text s)) as [st1 id].
    eexists (Some (NSymbol id)), _. split; [reflexivity|]. conjs; auto. intros x E. now injection E as <-.
  - apply (At (fun s => Ok (Some (NInteger v), s))); [|intros f; rewrite parse_node_S; now rewrite Fk].
    intros s'. exists (Some (NInteger v)), s'. conjs; auto. intros x E. now injection E as <-.
  - apply (At (fun s => Ok (Some (NReal x), s))); [|intros f; rewrite parse_node_S; now rewrite Fk].
    intros s'. exists (Some (NReal x)), s'. conjs; auto. intros y E. now injection E as <-.
  - apply (Op (fun f s => lloop f s []) FList); [reflexivity|intros f; rewrite parse_node_S; now rewrite Fk|].
    intros s1 t1 ts1 -> F1. apply CL; auto. lia.
  - apply (At (fun s2 => do s <- log_error s2 t "unexepected closing delimiter."; Ok (None, s)));
      [|intros f; rewrite parse_node_S; rewrite Fk; destruct F as (-> & _); reflexivity].
    intros s'. rewrite (log_ok s' t "unexepected closing delimiter." "unexepected closing delimiter.") by (vm_compute; reflexivity).
    eexists None, _. split; [reflexivity|]. conjs; auto; [easy|]. cbn in NH. destruct st as [|[] st]; try discriminate; reflexivity.
  - apply (Op (fun f s => vloop f s []) FVec); [reflexivity|intros f; rewrite parse_node_S; now rewrite Fk|].
    intros s1 t1 ts1 -> F1. apply CV; auto. lia.
  - apply (At (fun s2 => do s <- log_error s2 t "unexepected closing delimiter."; Ok (None, s)));
      [|intros f; rewrite parse_node_S; rewrite Fk; destruct F as (-> & _); reflexivity].
    intros s'. rewrite (log_ok s' t "unexepected closing delimiter." "unexepected closing delimiter.") by (vm_compute; reflexivity).
    eexists None, _. split; [reflexivity|]. conjs; auto; [easy|]. cbn in NH. destruct st as [|[] st]; try discriminate; reflexivity.
  - apply (Op (fun f s => mloop f s []) FKey); [reflexivity|intros f; rewrite parse_node_S; now rewrite Fk|].
    intros s1 t1 ts1 -> F1. apply CM; auto. lia.
  - apply (At (fun s2 => do s <- log_error s2 t "unexepected closing delimiter."; Ok (None, s)));
      [|intros f; rewrite parse_node_S; rewrite Fk; destruct F as (-> & _); reflexivity].
    intros s'. rewrite (log_ok s' t "unexepected closing delimiter." "unexepected closing delimiter.") by (vm_compute; reflexivity).
    eexists None, _. split; [reflexivity|]. conjs; auto; [easy|]. cbn in NH. destruct st as [|[] st]; try discriminate; reflexivity.
Qed.

(** The end of a list, a vector or a map *)
Lemma up_close (P : nat -> outcome (option node * pstate)) s t ts st fr x b :
  P O = OutOfFuel -> fed s t ts -> bracket_step (fr :: st) (tk_data t) = Some (filled st) -> plain x ->
  ((forall f, P (S f) = do s <- consume pow10 s; Ok (Some x, s)) \/
   (exists msg m, fmt_format msg = Ok m /\ forall f, P (S f) = do s <- log_error s (ps_tok s) msg; do s <- consume pow10 s; Ok (Some x, s))) ->
  (0 < b)%nat -> ends_up_to P b (fr :: st) (t :: ts) (fun r => after r st) (length (t :: ts)).
Proof.
  intros P0 F B Px [E|(msg & m & Fm & E)] Lb.
  - apply (up_open _ _ 0 _ _ _ _ _ P0 E); [|exact Lb]. eapply up_consume; [exact F|exact B|]. intros s1 t1 ts1 -> F1.
    apply up_ret; auto; [cbn [length]; lia|]. intros y Ey. now injection Ey as <-.
  - apply (up_open _ _ 0 _ _ _ _ _ P0 E); [|exact Lb]. rewrite (log_ok _ _ _ _ Fm). cbn [bind].
    eapply up_consume; [exact (fed_log _ _ _ _ _ F)|exact B|]. intros s1 t1 ts1 -> F1.
    apply up_ret; auto; [cbn [length]; lia|]. intros y Ey. now injection Ey as <-.
Qed.
Lemma up_refuse (P : nat -> outcome (option node * pstate)) s t ts st st' n msg k b :
  P O = OutOfFuel -> fmt_format msg = Throw StdException -> bracket_step st (tk_data t) = None ->
  (forall f, P (S f) = do s <- log_error s (ps_tok s) msg; k s) -> (0 < b)%nat ->
  ends_up_to P b st (t :: ts) st' n.
Proof.
  intros P0 Fm B E Lb. apply (up_open _ (fun _ => Throw StdException) 0 _ _ _ _ _ P0); [|now apply up_throw|exact Lb].
  intros f. now rewrite E, log_throw.
Qed.

Lemma list_from n : node_claim n -> (forall k, (k < n)%nat -> loop_claim lloop FList k) -> loop_claim lloop FList n.
Proof.
  intros CN CL s t ts st l L F Pl. assert (Fk : tk_data (ps_tok s) = tk_data t) by (now destruct F as (-> & _)).
  assert (Px : plain (NList l)) by (now apply plain_NList).
  assert (El : (forall f, lloop (S f) s l = do (n, s0) <- pnode f s; lloop f s0 (match n with Some n => l ++ [n] | None => l end)) ->
      is_closer (tk_data t) = false ->
      ends_up_to (fun f => lloop f s l) (3 * length (t :: ts) + 4) (FList :: st) (t :: ts) (fun r => after r st) (length (t :: ts))).
  { intros E NC. eapply up_open with (b := (3 * length (t :: ts) + 2)%nat); [reflexivity|exact E| |lia].
    eapply up_bind; [apply (CN s t ts (FList :: st)); auto; unfold node_here; now rewrite NC|].
    intros r s' t' ts' F' L' Pr. cbn beta iota.
    assert (Eaf : after r (FList :: st) = FList :: st) by (destruct r; reflexivity). rewrite Eaf.
    eapply up_weaken; [apply (CL (length (t' :: ts'))); auto; try (cbn [length] in *; lia)|cbn [length] in *; lia|cbn [length] in *; lia].
    destruct r as [x|]; auto. apply Forall_app. auto. }
  destruct (tk_data t) eqn:D; try (apply El; [intros f; rewrite list_loop_S; now rewrite Fk|reflexivity]).
  - exfalso. destruct F as (_ & N & _). congruence.
  - eapply up_close with (x := NList l); [reflexivity|exact F|rewrite D; reflexivity|exact Px| |cbn; lia].
    left. intros f. rewrite list_loop_S. now rewrite Fk.
  - eapply up_close with (x := NList l); [reflexivity|exact F|rewrite D; reflexivity|exact Px| |cbn; lia].
    right. exists "Unexpected ']' terminating list"%string. eexists. split; [vm_compute; reflexivity|]. intros f. rewrite list_loop_S. now rewrite Fk.
  - eapply up_refuse with (s := s) (msg := "Unexpected '}' terminating list"%string); [reflexivity|vm_compute; reflexivity|rewrite D; reflexivity| |cbn; lia].
    intros f. rewrite list_loop_S. rewrite Fk. reflexivity.
Qed.
Lemma vec_from n : node_claim n -> (forall k, (k < n)%nat -> loop_claim vloop FVec k) -> loop_claim vloop FVec n.
Proof.
  intros CN CL s t ts st l L F Pl. assert (Fk : tk_data (ps_tok s) = tk_data t) by (now destruct F as (-> & _)).
  assert (Px : plain (NVector l)) by (now apply plain_NList).
  assert (El : (forall f, vloop (S f) s l = do (n, s0) <- pnode f s; vloop f s0 (match n with Some n => l ++ [n] | None => l end)) ->
      is_closer (tk_data t) = false ->
      ends_up_to (fun f => vloop f s l) (3 * length (t :: ts) + 4) (FVec :: st) (t :: ts) (fun r => after r st) (length (t :: ts))).
  { intros E NC. eapply up_open with (b := (3 * length (t :: ts) + 2)%nat); [reflexivity|exact E| |lia].
    eapply up_bind; [apply (CN s t ts (FVec :: st)); auto; unfold node_here; now rewrite NC|].
    intros r s' t' ts' F' L' Pr. cbn beta iota.
    assert (Eaf : after r (FVec :: st) = FVec :: st) by (destruct r; reflexivity). rewrite Eaf.
    eapply up_weaken; [apply (CL (length (t' :: ts'))); auto; try (cbn [length] in *; lia)|cbn [length] in *; lia|cbn [length] in *; lia].
    destruct r as [x|]; auto. apply Forall_app. auto. }
  destruct (tk_data t) eqn:D; try (apply El; [intros f; rewrite vector_loop_S; now rewrite Fk|reflexivity]).
  - exfalso. destruct F as (_ & N & _). congruence.
  - eapply up_close with (x := NVector l); [reflexivity|exact F|rewrite D; reflexivity|exact Px| |cbn; lia].
    right. exists "Unexpected ')' terminating vector"%string. eexists. split; [vm_compute; reflexivity|]. intros f. rewrite vector_loop_S. now rewrite Fk.
  - eapply up_close with (x := NVector l); [reflexivity|exact F|rewrite D; reflexivity|exact Px| |cbn; lia].
    left. intros f. rewrite vector_loop_S. now rewrite Fk.
  - eapply up_refuse with (s := s) (msg := "Unexpected '}' terminating vector"%string); [reflexivity|vm_compute; reflexivity|rewrite D; reflexivity| |cbn; lia].
    intros f. rewrite vector_loop_S. rewrite Fk. reflexivity.
Qed.
Lemma map_from n : node_claim n -> (forall k, (k < n)%nat -> map_claim k) -> map_claim n.
Proof.
  intros CN CM s t ts st es L F Pe. assert (Fk : tk_data (ps_tok s) = tk_data t) by (now destruct F as (-> & _)).
  assert (Px : plain (NMap es)) by (now apply plain_entries).
  assert (Go : forall s' t' ts' es', fed s' t' ts' -> (length (t' :: ts') <= length ts)%nat ->
      Forall (fun kv => plain (fst kv) /\ plain (snd kv)) es' ->
      ends_up_to (fun f => mloop f s' es') (3 * length (t :: ts) + 3) (FKey :: st) (t' :: ts') (fun r => after r st) (length (t :: ts))).
  { intros s' t' ts' es' F' L' P'. eapply up_weaken; [apply (CM (length (t' :: ts'))); auto; cbn [length] in *; lia| |]; cbn [length] in *; lia. }
  assert (El : (forall f, mloop (S f) s es =
          (do (k, s) <- pmk f s;
          match k with
          | None => do s <- log_error s (ps_tok s) "failed to parse map key"; mloop f s es
          | Some k =>
              do (v, s) <- pmv f s;
              match v with
              | None => do s <- log_error s (ps_tok s) "key not followed by value in map"; mloop f s es
              | Some v =>
                  do f0 <- map_find sh es k;
                  do s <- (match f0 with
                           | Some _ => log_error s (ps_tok s) "duplicate key discovered in map"
                           | None => Ok s end);
                  do es <- map_insert sh place es k v;
                  mloop f s es
              end
          end)) ->
      is_closer (tk_data t) = false ->
      ends_up_to (fun f => mloop f s es) (3 * length (t :: ts) + 4) (FKey :: st) (t :: ts) (fun r => after r st) (length (t :: ts))).
  { intros E NC. eapply up_open with (b := (3 * length (t :: ts) + 3)%nat); [reflexivity|exact E| |lia].
    eapply up_bind with (st1 := fun r => after r (FKey :: st)) (n := length ts).
    - eapply up_open with (P := fun f => pmk f s) (Q := fun f => pnode f s) (b := (3 * length (t :: ts) + 2)%nat); [reflexivity| | |lia].
      + intros f. rewrite parse_map_k_S. rewrite Fk. destruct (tk_data t) eqn:D; try reflexivity; try discriminate.
        exfalso. destruct F as (_ & N & _). congruence.
      + apply CN; auto. unfold node_here. now rewrite NC.
    - intros [k|] s' t' ts' F' L' Pk; cbn [after filled].
      + specialize (Pk k eq_refl). assert (Fk' : tk_data (ps_tok s') = tk_data t') by (now destruct F' as (-> & _)).
        assert (HN : node_here (FVal :: st) (tk_data t') = true -> (forall f, pmv (S f) s' = pnode f s') ->
           ends_up_to (fun f => pmv f s') (3 * length (t :: ts) + 3) (FVal :: st) (t' :: ts') (fun _ => FKey :: st) (length ts)).
        { intros NH E'. eapply up_open with (Q := fun f => pnode f s') (b := (3 * length (t' :: ts') + 2)%nat); [reflexivity|exact E'| |cbn [length] in *; lia].
          destruct (CN s' t' ts' (FVal :: st) ltac:(cbn [length] in *; lia) F' NH) as [(r & s2 & t2 & ts2 & H1 & H2 & H3 & H4 & H5)|H].
          - left. exists r, s2, t2, ts2. conjs; auto; try (cbn [length] in *; lia). rewrite H5. destruct r; reflexivity.
          - right. exact H. }
        eapply up_bind with (st1 := fun _ => FKey :: st) (n := length ts).
        * destruct (is_closer (tk_data t')) eqn:NC'.
          -- destruct (tk_data t') eqn:D'; try discriminate.
             ++ eapply up_refuse with (s := s') (msg := "Unexpected '}' while parsing map value"%string); [reflexivity|vm_compute; reflexivity|rewrite D'; reflexivity| |lia].
                intros f. rewrite parse_map_v_S. rewrite Fk'. reflexivity.
             ++ apply HN; [reflexivity|]. intros f. rewrite parse_map_v_S. now rewrite Fk'.
             ++ eapply up_refuse with (s := s') (msg := "Unexpected '}' while parsing map value"%string); [reflexivity|vm_compute; reflexivity|rewrite D'; reflexivity| |lia].
                intros f. rewrite parse_map_v_S. rewrite Fk'. reflexivity.
          -- apply HN; [unfold node_here; now rewrite NC'|]. intros f. rewrite parse_map_v_S. rewrite Fk'.
             destruct (tk_data t') eqn:D'; try reflexivity; try discriminate. exfalso. destruct F' as (_ & N & _). congruence.
        * intros [v|] s2 t2 ts2 F2 L2 Pv; cbn beta iota.
          -- specialize (Pv v eq_refl). destruct (plain_map_find sh es k Pe Pk) as (fd & Ef). rewrite Ef. cbn [bind].
             unfold map_insert. rewrite Ef. cbn [bind]. destruct fd as [old|].
             ++ rewrite (log_ok _ _ _ "duplicate key discovered in map") by (vm_compute; reflexivity). cbn [bind]. apply Go; auto.
             ++ cbn [bind]. apply Go; auto. eapply Permutation_Forall; [symmetry; apply place_perm|]. constructor; auto.
          -- rewrite (log_ok _ _ _ "key not followed by value in map") by (vm_compute; reflexivity). cbn [bind]. apply Go; auto.
      + rewrite (log_ok _ _ _ "failed to parse map key") by (vm_compute; reflexivity). cbn [bind]. apply Go; auto. }
  destruct (tk_data t) eqn:D; try (apply El; [intros f; rewrite map_loop_S; now rewrite Fk|reflexivity]).
  - eapply up_close with (x := NMap es); [reflexivity|exact F|rewrite D; reflexivity|exact Px| |cbn; lia].
    right. exists "Unexpected ')' terminating map"%string. eexists. split; [vm_compute; reflexivity|]. intros f. rewrite map_loop_S. now rewrite Fk.
  - eapply up_close with (x := NMap es); [reflexivity|exact F|rewrite D; reflexivity|exact Px| |cbn; lia].
    right. exists "Unexpected ']' terminating vector"%string. eexists. split; [vm_compute; reflexivity|]. intros f. rewrite map_loop_S. now rewrite Fk.
  - eapply up_close with (x := NMap es); [reflexivity|exact F|rewrite D; reflexivity|exact Px| |cbn; lia].
    left. intros f. rewrite map_loop_S. now rewrite Fk.
Qed.
Lemma claims n : node_claim n /\ loop_claim lloop FList n /\ loop_claim vloop FVec n /\ map_claim n.
Proof.
  induction n as [n IH] using lt_wf_ind.
  assert (CN : node_claim n).
  { destruct n as [|n].
    - intros s t ts st L. cbn in L. lia.
    - apply node_from; apply (IH n); lia. }
  split; [exact CN|]. split; [|split].
  - apply list_from; auto. intros k Hk. apply (IH k Hk).
  - apply vec_from; auto. intros k Hk. apply (IH k Hk).
  - apply map_from; auto. intros k Hk. apply (IH k Hk).
Qed.

Lemma parse_loop_up_to n : forall s t ts nodes, (length (t :: ts) <= n)%nat -> fed s t ts ->
  settles (fun f => parse_loop pow10 sh place f s nodes) (3 * length (t :: ts) + 4) (says [] (t :: ts)).
Proof.
  induction n as [|n IH]; intros s t ts nodes L F; [cbn in L; lia|]. assert (Fk : tk_data (ps_tok s) = tk_data t) by (now destruct F as (-> & _)).
  assert (E : forall f, parse_loop pow10 sh place (S f) s nodes =
        do (n, s) <- pnode f s; parse_loop pow10 sh place f s (match n with Some n => nodes ++ [n] | None => nodes end)).
  { intros f. rewrite parse_loop_S. rewrite Fk. destruct (tk_data t) eqn:D; auto. exfalso. destruct F as (_ & N & _). congruence. }
  eapply settles_now with (b := (3 * length (t :: ts) + 2)%nat); [reflexivity|exact E| |lia].
  destruct (claims (S n)) as (CN & _). assert (NH : node_here [] (tk_data t) = true) by (unfold node_here; now rewrite orb_true_r).
  destruct (CN s t ts [] L F NH) as [(r & s' & t' & ts' & H1 & H2 & H3 & H4 & H5)|H].
  - eapply settles_bind; [exact H1|]. cbn beta iota. replace (after r []) with (@nil frame) in H5 by (destruct r; reflexivity).
    unfold says. rewrite H5. fold (@says (list node * pstate) [] (t' :: ts')). cbn [length] in *.
    eapply settles_weaken; [apply IH; [cbn [length]; lia|exact H2]|cbn [length]; lia].
  - apply settles_ub. exact H.
Qed.

Lemma parse_up_to syms text ts : tiles_up_to pow10 0 text ts ->
  forall fuel, (3 * length ts + 4 <= fuel)%nat -> parse pow10 sh place fuel syms text = says [] ts.
Proof.
  intros T fuel L. pose proof (up_to_streams _ _ _ _ T _ (at_text_new new_line_info text)) as S. unfold parse.
  inversion S as [lx Hn|lx t lx1 ts1 Hn Ht St]; subst; rewrite Hn; [reflexivity|]. cbn [bind].
  assert (F : fed (mkP lx1 t [] syms) t ts1) by (split; [reflexivity|split; assumption]).
  destruct (parse_loop_up_to _ _ _ _ [] (le_n _) F fuel) as [E|(Lf & _)]; [|lia]. rewrite E. unfold says.
  destruct (brackets [] (map tk_data (t :: ts1))); reflexivity.
Qed.
End Feed.
