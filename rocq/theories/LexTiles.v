From Coq Require Import ZArith List Bool Lia.
From Verif Require Import Outcome TablesModel TablesSpec LexModel LexSpec LexProofs LexRun.
Import ListNotations.
Local Open Scope Z_scope.

(** * Line breaks *)

Lemma breaks_of_app u : forall li pos v, breaks_of li pos (u ++ v) = breaks_of (breaks_of li pos u) (pos + Z.of_nat (length u)) v.
Proof.
  induction u as [|c u IH]; intros li pos v; cbn [app breaks_of length].
  - now rewrite Z.add_0_r.
  - rewrite IH. f_equal. lia.
Qed.

Lemma breaks_of_none u : forall li pos, ~ In 10 u -> breaks_of li pos u = li.
Proof.
  induction u as [|c u IH]; intros li pos H; cbn [breaks_of]; auto.
  destruct (Z.eqb_spec c 10) as [->|]; [exfalso; apply H; now left|]. apply IH. intros I. apply H. now right.
Qed.

Lemma in_gap_advance c s : in_gap (advance c s) =
  existsb (fun x => match fst x with RuWhitespace | RuComment => negb (dead (deriv c (snd x))) | _ => false end) s.
Proof.
  unfold in_gap, advance. induction s as [|[r re] s IH]; cbn [map filter existsb fst snd]; auto.
  destruct (dead (deriv c re)); cbn [negb existsb fst]; rewrite IH; destruct r; reflexivity.
Qed.

Lemma in_gap_advance_false c s : in_gap s = false -> in_gap (advance c s) = false.
Proof.
  rewrite in_gap_advance. unfold in_gap. induction s as [|[r re] s IH]; cbn [existsb fst snd]; auto.
  intros H. apply orb_false_iff in H as [A B]. rewrite (IH B). destruct r; try discriminate; reflexivity.
Qed.

Lemma in_gap_start c : in_gap (advance c start_state) = is_ws c || (c =? 59).
Proof.
  rewrite in_gap_advance. cbn [start_state map rules existsb fst snd orb pattern re_whitespace re_comment plus deriv nullable ch].
  destruct (is_ws c), (c =? 59); reflexivity.
Qed.

Lemma scan_no_gap rest : forall s n last li pos, in_gap s = false ->
  snd (scan s n last li pos rest) = li.
Proof.
  induction rest as [|c rest IH]; intros s n last li pos H; cbn [scan]; auto.
  pose proof (in_gap_advance_false c s H) as H'. destruct (advance c s) as [|x s'] eqn:E; auto.
  rewrite H', andb_false_r. now apply IH.
Qed.

Definition ws_state : scan_state := [(RuWhitespace, RStar (RChr is_ws))].
Lemma advance_ws c : advance c ws_state = if is_ws c then ws_state else [].
Proof. unfold advance, ws_state. cbn [map deriv fst snd filter]. destruct (is_ws c); reflexivity. Qed.

Lemma scan_ws rest : forall n li pos, exists k, (k <= length rest)%nat /\
  scan ws_state n (Some (RuWhitespace, n)) li pos rest
  = ((n + k)%nat, Some (RuWhitespace, (n + k)%nat), breaks_of li pos (firstn k rest)).
Proof.
  induction rest as [|c rest IH]; intros n li pos; cbn [scan].
  - exists O. rewrite Nat.add_0_r. split; auto.
  - rewrite advance_ws. destruct (is_ws c).
    + unfold ws_state at 1. cbn iota. replace (in_gap ws_state) with true by reflexivity. rewrite andb_true_r.
      replace (accepts ws_state) with (Some RuWhitespace) by reflexivity. cbn iota.
      destruct (IH (S n) (if c =? 10 then record_br li (pos + 1) else li) (pos + 1)) as (k & L & E).
      exists (S k). split; [cbn; lia|]. rewrite E. replace (n + S k)%nat with (S n + k)%nat by lia. reflexivity.
    + exists O. rewrite Nat.add_0_r. split; [lia|reflexivity].
Qed.

Definition comment_state : scan_state := [(RuComment, RCat (RStar (RChr (fun c => negb (c =? 10)))) (ch 10))].
Lemma advance_comment c : advance c comment_state = if c =? 10 then [(RuComment, REps)] else comment_state.
Proof. unfold advance, comment_state, ch. cbn [map deriv fst snd filter nullable]. destruct (c =? 10); reflexivity. Qed.

Lemma scan_comment rest : forall n li pos,
  (exists n', scan comment_state n None li pos rest = (n', None, li)) \/
  (exists k, (k <= length rest)%nat /\
     scan comment_state n None li pos rest = ((n + k)%nat, Some (RuComment, (n + k)%nat), breaks_of li pos (firstn k rest))).
Proof.
  induction rest as [|c rest IH]; intros n li pos; cbn [scan].
  - left. eauto.
  - rewrite advance_comment. destruct (Z.eqb_spec c 10) as [->|N].
    + right. exists 1%nat. split; [cbn; lia|]. cbn [andb in_gap existsb fst orb accepts find nullable snd option_map firstn breaks_of].
      rewrite Z.eqb_refl. replace (n + 1)%nat with (S n) by lia.
      destruct rest; reflexivity.
    + unfold comment_state at 1 4. cbn iota. cbn [andb].
      replace (accepts comment_state) with (@None rule) by reflexivity. cbn iota.
      destruct (IH (S n) li (pos + 1)) as [(n' & E)|(k & L & E)].
      * left. exists n'. exact E.
      * right. exists (S k). split; [cbn; lia|]. rewrite E. cbn [firstn breaks_of].
        destruct (Z.eqb_spec c 10); [easy|]. replace (n + S k)%nat with (S n + k)%nat by lia. reflexivity.
Qed.

Lemma start_ws c : is_ws c = true -> advance c start_state = ws_state.
Proof.
  unfold is_ws. rewrite !orb_true_iff, !Z.eqb_eq. intros [[[->| ->]| ->]| ->]; vm_compute; reflexivity.
Qed.
Lemma start_comment : advance 59 start_state = comment_state.
Proof. vm_compute. reflexivity. Qed.

Lemma gap_first r w : is_gap r -> matches r w -> exists c u, w = c :: u /\ (is_ws c = true \/ c = 59).
Proof.
  intros [->| ->] H; unfold matches, pattern, re_whitespace, re_comment in H.
  - apply lang_plus_chr in H as (N & F). destruct w as [|c w]; [easy|]. inversion F; subst. eauto.
  - apply lang_cat in H as (u & v & -> & A & _). apply lang_ch in A as ->. cbn. eauto.
Qed.

Lemma is_gap_dec r : {is_gap r} + {~ is_gap r}.
Proof. destruct r; try (right; intros [H|H]; discriminate); left; [now left|now right]. Defined.

Lemma scan_lines li pos text n last li' :
  scan start_state 0 None li pos text = (n, last, li') ->
  match last with
  | Some (r, m) => li' = if is_gap_dec r then breaks_of li pos (firstn m text) else li
  | None => li' = li
  end.
Proof.
  intros E. pose proof (scan_longest li pos text n last li' E) as L.
  destruct text as [|c text]; [cbn [scan] in E; injection E as <- <- <-; easy|].
  cbn [scan] in E. pose proof (in_gap_start c) as G. pose proof (scan_no_gap text (advance c start_state)) as NG.
  destruct (is_ws c) eqn:W; cbn [orb] in G.
  - rewrite (start_ws c W) in E. unfold ws_state at 1 in E. cbn iota in E.
    replace (in_gap ws_state) with true in E by reflexivity. rewrite andb_true_r in E.
    replace (accepts ws_state) with (Some RuWhitespace) in E by reflexivity. cbn iota in E.
    destruct (scan_ws text 1 (if c =? 10 then record_br li (pos + 1) else li) (pos + 1)) as (k & Lk & E').
    rewrite E' in E. injection E as <- <- <-. destruct (is_gap_dec RuWhitespace) as [|N]; [|exfalso; apply N; now left].
    reflexivity.
  - destruct (Z.eqb_spec c 59) as [->|Nc].
    + rewrite start_comment in E. unfold comment_state at 1 in E. cbn iota in E. cbn [Z.eqb Pos.eqb andb] in E.
      replace (accepts comment_state) with (@None rule) in E by reflexivity. cbn iota in E.
      destruct (scan_comment text 1 li (pos + 1)) as [(n' & E')|(k & Lk & E')]; rewrite E' in E; injection E as <- <- <-; auto.
    + assert (Hl : li' = li).
      { destruct (advance c start_state) as [|x s'] eqn:Ea; [injection E as <- <- <-; easy|]. rewrite G, andb_false_r in E.
        match type of E with scan ?s ?n0 ?l ?li0 ?p ?t = _ => specialize (NG n0 l li0 p G) end.
        rewrite E in NG. exact NG. }
      destruct last as [[r m]|]; auto. destruct (is_gap_dec r) as [Gr|]; auto. exfalso.
      destruct L as (Bm & _ & _ & M & _). destruct (gap_first r _ Gr M) as (c' & u & E' & [H|H]);
        destruct m as [|m]; try (cbn in Bm; lia); cbn [firstn] in E'; injection E' as <- _; congruence.
Qed.

(** * One call of next *)

Definition shift_lexer (lx : lexer) (w rest : list Z) (li : line_info) : lexer :=
  mkLexer (lx_text lx) (lx_p lx + length w) rest false li.

Lemma lex_exec_match pow10 fuel lx w rest r :
  longest (lx_rest lx) w r -> lx_rest lx = w ++ rest ->
  lex_exec pow10 (S fuel) lx =
  do a <- action pow10 r w;
  let lx' := shift_lexer lx w rest (if is_gap_dec r then breaks_of (lx_lines lx) (Z.of_nat (lx_p lx)) w else lx_lines lx) in
  match a with
  | Some d => Ok (mkTok d (lx_p lx) (lx_p lx + length w), lx')
  | None => lex_exec pow10 fuel lx'
  end.
Proof.
  intros L E. cbn [lex_exec].
  destruct (scan start_state 0 None (lx_lines lx) (Z.of_nat (lx_p lx)) (lx_rest lx)) as [[n last] li'] eqn:Es.
  pose proof (scan_longest _ _ _ _ _ _ Es) as SL. pose proof (scan_lines _ _ _ _ _ _ Es) as SN.
  destruct last as [[r' m]|].
  - destruct SL as (Bm & SL). destruct (longest_unique _ _ _ _ _ L SL) as (Ew & <-).
    assert (m = length w) as ->. { rewrite Ew, firstn_length. lia. }
    assert (Es' : skipn (length w) (lx_rest lx) = rest).
    { rewrite E, skipn_app, skipn_all, Nat.sub_diag. reflexivity. }
    rewrite Es', SN, <- Ew. reflexivity.
  - exfalso. destruct L as (N & (x & E') & M & _). now apply (SL w x r).
Qed.

Lemma lex_exec_none pow10 fuel lx : no_match (lx_rest lx) ->
  exists n, (n <= length (lx_rest lx))%nat /\
  lex_exec pow10 (S fuel) lx =
  Ok (end_token (lx_p lx + n), mkLexer (lx_text lx) (lx_p lx + n) (skipn n (lx_rest lx)) (Nat.ltb n (length (lx_rest lx))) (lx_lines lx)).
Proof.
  intros N. cbn [lex_exec].
  destruct (scan start_state 0 None (lx_lines lx) (Z.of_nat (lx_p lx)) (lx_rest lx)) as [[n last] li'] eqn:Es.
  pose proof (scan_longest _ _ _ _ _ _ Es) as SL. pose proof (scan_lines _ _ _ _ _ _ Es) as SN.
  destruct last as [[r' m]|].
  - exfalso. destruct SL as (Bm & Nw & (x & E) & M & _). exact (N _ x r' E Nw M).
  - exists n. subst li'. split; auto.
    pose proof (scan_spec (lx_rest lx) start_state [] None (lx_lines lx) (Z.of_nat (lx_p lx)) n None (lx_lines lx) start_ok) as SS.
    cbn [app length] in SS. apply SS; auto. cbn. lia.
Qed.

(** * The stream of tokens *)

(** Successive calls of next give [ts] and then the end token [e]; [lx'] is the lexer then. *)
Inductive streams (pow10 : Z -> SpecFloat.spec_float) : lexer -> list token -> token -> lexer -> Prop :=
| s_end lx e lx' : next pow10 lx = Ok (e, lx') -> tk_data e = TkEnd -> streams pow10 lx [] e lx'
| s_tok lx t lx1 ts e lx' :
    next pow10 lx = Ok (t, lx1) -> tk_data t <> TkEnd -> streams pow10 lx1 ts e lx' ->
    streams pow10 lx (t :: ts) e lx'.

Lemma streams_lex_all pow10 lx ts e lx' : streams pow10 lx ts e lx' ->
  forall fuel, (length ts < fuel)%nat -> lex_all pow10 fuel lx = Ok (ts, e, lx').
Proof.
  induction 1 as [lx e lx' H E|lx t lx1 ts e lx' H E _ IH]; intros [|fuel] L; cbn [length] in L; try lia; cbn [lex_all].
  - rewrite H. cbn [bind]. now rewrite E.
  - rewrite H. cbn [bind]. rewrite IH by lia. destruct (tk_data t); try easy; reflexivity.
Qed.

Definition at_text (lx : lexer) (pos : nat) (text : list Z) : Prop :=
  lx_p lx = pos /\ lx_rest lx = text /\ lx_error lx = false /\ lx_text lx = firstn pos (lx_text lx) ++ text /\
  (pos <= length (lx_text lx))%nat.

Lemma at_text_shift lx pos w text li : at_text lx pos (w ++ text) ->
  at_text (shift_lexer lx w text li) (pos + length w) text /\ lx_text (shift_lexer lx w text li) = lx_text lx.
Proof.
  intros (P & R & E & T & L). unfold at_text, shift_lexer. cbn [lx_p lx_rest lx_error lx_text]. split; [|reflexivity]. conjs; auto.
  - assert (H : length (firstn pos (lx_text lx)) = pos) by (rewrite firstn_length; lia).
    revert T H. generalize (firstn pos (lx_text lx)) as pre. intros pre T H. rewrite T.
    rewrite app_assoc, firstn_app, firstn_all2 by (rewrite app_length; lia).
    rewrite app_length, H. replace (pos + length w - (pos + length w))%nat with O by lia. cbn [firstn].
    rewrite app_nil_r. reflexivity.
  - rewrite T, app_length, firstn_length, app_length. lia.
Qed.

(** Going through gaps does not show in next. *)
Lemma next_gap pow10 lx pos w text r :
  at_text lx pos (w ++ text) -> longest (w ++ text) w r -> is_gap r ->
  next pow10 lx = next pow10 (shift_lexer lx w text (breaks_of (lx_lines lx) (Z.of_nat pos) w))
  \/ (text = [] /\ next pow10 lx = Ok (end_token (pos + length w), shift_lexer lx w text (breaks_of (lx_lines lx) (Z.of_nat pos) w))).
Proof.
  intros (P & R & E & T & L0) L G.
  assert (N : w <> []) by apply L. destruct w as [|c w]; [easy|].
  assert (En : next pow10 lx = lex_exec pow10 (length (c :: w ++ text)) (shift_lexer lx (c :: w) text (breaks_of (lx_lines lx) (Z.of_nat pos) (c :: w)))).
  { unfold next. rewrite R, E. cbn [app].
    rewrite (lex_exec_match pow10 _ lx (c :: w) text r) by (rewrite R; auto).
    rewrite (action_gap pow10 r (c :: w) G). cbn [bind]. destruct (is_gap_dec r); [|easy]. now rewrite P. }
  rewrite En. destruct text as [|c' text].
  - right. split; auto. rewrite app_nil_r. cbn [length].
    set (lx' := shift_lexer lx (c :: w) [] (breaks_of (lx_lines lx) (Z.of_nat pos) (c :: w))).
    destruct (lex_exec_none pow10 (length w) lx') as (n & Ln & En').
    + intros u x r' Eu Nu. cbn in Eu. symmetry in Eu. apply app_eq_nil in Eu. tauto.
    + cbn in Ln. assert (n = O) as -> by lia. rewrite En'. unfold lx', shift_lexer. cbn. rewrite P, !Nat.add_0_r. reflexivity.
  - left. unfold next, shift_lexer at 2 3. cbn [lx_rest lx_error].
    (* enough fuel either way *)
    assert (F : forall f1 f2 lx, (length (lx_rest lx) < f1)%nat -> (length (lx_rest lx) < f2)%nat ->
      lex_exec pow10 f1 lx = lex_exec pow10 f2 lx).
    { clear. induction f1 as [|f1 IH]; intros [|f2] lx H1 H2; try lia. cbn [lex_exec].
      destruct (scan start_state 0 None (lx_lines lx) (Z.of_nat (lx_p lx)) (lx_rest lx)) as [[n last] li'] eqn:Es.
      pose proof (scan_longest _ _ _ _ _ _ Es) as SL. destruct last as [[r m]|]; auto. destruct SL as (B & _).
      destruct (action pow10 r (firstn m (lx_rest lx))) as [[d|]| | | |]; cbn [bind]; auto.
      apply IH; cbn [lx_rest]; rewrite skipn_length; lia. }
    unfold shift_lexer. rewrite P. apply F; cbn [lx_rest length]; rewrite ?app_length; cbn [length]; lia.
Qed.

Lemma next_token pow10 lx pos w text r d :
  at_text lx pos (w ++ text) -> longest (w ++ text) w r -> stands_for pow10 r w d ->
  next pow10 lx = Ok (mkTok d pos (pos + length w), shift_lexer lx w text (lx_lines lx)).
Proof.
  intros (P & R & E & T & L0) L G. unfold next. rewrite R, E.
  assert (N : w <> []) by apply L. destruct w as [|c w]; [easy|]. cbn [app].
  rewrite (lex_exec_match pow10 _ lx (c :: w) text r) by (rewrite R; auto).
  rewrite (action_stands_for pow10 r (c :: w) d G). cbn [bind].
  destruct (is_gap_dec r) as [[->| ->]|]; [destruct G|destruct G|]. now rewrite P.
Qed.

Lemma next_end pow10 lx pos text : at_text lx pos text -> no_match text ->
  exists n lx', (n <= length text)%nat /\ next pow10 lx = Ok (end_token (pos + n), lx') /\
    lx_lines lx' = lx_lines lx /\ next pow10 lx' = Ok (end_token (pos + n), lx') /\ lx_text lx' = lx_text lx.
Proof.
  intros (P & R & E & T & L0) N. unfold next. rewrite R, E. destruct text as [|c text].
  - exists O, lx. rewrite Nat.add_0_r, P. conjs; auto. now rewrite R.
  - destruct (lex_exec_none pow10 (length (c :: text)) lx) as (n & Ln & En); [now rewrite R|].
    rewrite R in *. rewrite P in En. exists n. eexists. split; [easy|]. split; [exact En|]. cbn [lx_lines lx_rest lx_error lx_p lx_text].
    split; [reflexivity|]. split; [|reflexivity].
    destruct (skipn n (c :: text)) as [|z l] eqn:Es; auto.
    destruct (Nat.ltb_spec n (length (c :: text))); auto. rewrite skipn_all2 in Es by lia. discriminate.
Qed.

(** The text of a token. *)
Definition token_text (text : list Z) (t : token) : list Z := firstn (tk_end t - tk_begin t) (skipn (tk_begin t) text).

Lemma no_match_nil : no_match [].
Proof. intros u x r E N. symmetry in E. apply app_eq_nil in E. tauto. Qed.

Lemma tiles_tail pow10 pos text ts tail : tiles pow10 pos text ts tail ->
  exists u, text = u ++ tail.
Proof.
  induction 1 as [pos text N|pos w text r ts tail L G _ (u & ->)|pos w text r d ts tail L G _ (u & ->)].
  - now exists [].
  - exists (w ++ u). apply app_assoc.
  - exists (w ++ u). apply app_assoc.
Qed.

Lemma tiles_length pow10 pos text ts tail : tiles pow10 pos text ts tail -> (length ts + length tail <= length text)%nat.
Proof.
  induction 1 as [pos text N|pos w text r ts tail L G _ IH|pos w text r d ts tail L G _ IH]; rewrite ?app_length; cbn [length]; try lia.
  destruct L as (Nw & _). destruct w; [easy|]. cbn [length]. lia.
Qed.

Lemma firstn_drop_tail (w u tail : list Z) :
  firstn (length (w ++ u ++ tail) - length tail) (w ++ u ++ tail) = w ++ firstn (length (u ++ tail) - length tail) (u ++ tail).
Proof.
  rewrite !app_length. replace (length w + (length u + length tail) - length tail)%nat with (length w + length u)%nat by lia.
  replace (length u + length tail - length tail)%nat with (length u) by lia.
  rewrite firstn_app_2. reflexivity.
Qed.

Lemma streams_none pow10 lx lx1 e lx' ts : next pow10 lx = next pow10 lx1 -> streams pow10 lx1 ts e lx' -> streams pow10 lx ts e lx'.
Proof.
  intros E S. inversion S; subst.
  - apply s_end; congruence.
  - eapply s_tok; eauto. congruence.
Qed.

(** A tiled text is streamed. *)
Lemma tiles_streams pow10 pos text ts tail : tiles pow10 pos text ts tail ->
  forall lx, at_text lx pos text ->
  exists e lx', streams pow10 lx ts e lx' /\ lx_text lx' = lx_text lx /\
    (length (lx_text lx) - length tail <= tk_begin e <= length (lx_text lx))%nat /\ e = end_token (tk_begin e) /\
    next pow10 lx' = Ok (e, lx') /\
    (Forall (fun t => ~ In 10 (token_text (lx_text lx) t)) ts ->
     lx_lines lx' = breaks_of (lx_lines lx) (Z.of_nat pos) (firstn (length text - length tail) text)).
Proof.
  induction 1 as [pos text N|pos w text r ts tail L G Ht IH|pos w text r d ts tail L G Ht IH]; intros lx A.
  - destruct (next_end pow10 lx pos text A N) as (n & lx' & Ln & En & El & Es & Et).
    exists (end_token (pos + n)), lx'. cbn [tk_begin end_token].
    assert (length (lx_text lx) = pos + length text)%nat.
    { destruct A as (_ & _ & _ & T & L). rewrite T, app_length, firstn_length. lia. }
    conjs; auto; try lia.
    + eapply s_end; eauto.
    + intros _. rewrite Nat.sub_diag. cbn. exact El.
  - destruct (at_text_shift lx pos w text (breaks_of (lx_lines lx) (Z.of_nat pos) w) A) as (A1 & T1).
    destruct (IH _ A1) as (e & lx' & S & Tx & B & Ee & Nx & Br). rewrite T1 in *.
    destruct (tiles_tail _ _ _ _ _ Ht) as (u & ->). rewrite firstn_drop_tail, breaks_of_app.
    replace (Z.of_nat pos + Z.of_nat (length w)) with (Z.of_nat (pos + length w)) by lia.
    destruct (next_gap pow10 lx pos w (u ++ tail) r A L G) as [En|(Eu & En)].
    + exists e, lx'. conjs; auto; try lia. eapply streams_none; eauto.
    + apply app_eq_nil in Eu as (-> & ->). cbn [app] in *.
      assert (ts = []) as ->.
      { apply tiles_length in Ht. cbn in Ht. destruct ts; [easy|cbn in Ht; lia]. }
      exists (end_token (pos + length w)), (shift_lexer lx w [] (breaks_of (lx_lines lx) (Z.of_nat pos) w)).
      assert (length (lx_text lx) = pos + length w)%nat.
      { destruct A as (_ & _ & _ & T & L1). rewrite T, app_length, app_nil_r, firstn_length. lia. }
      cbn [tk_begin end_token length firstn Nat.sub]. conjs; auto; try lia.
      * eapply s_end; eauto.
      * unfold next, shift_lexer. cbn [lx_rest lx_p]. destruct A as (-> & _). reflexivity.
  - destruct (at_text_shift lx pos w text (lx_lines lx) A) as (A1 & T1).
    destruct (IH _ A1) as (e & lx' & S & Tx & B & Ee & Nx & Br). rewrite T1 in *.
    destruct (tiles_tail _ _ _ _ _ Ht) as (u & ->). rewrite firstn_drop_tail, breaks_of_app.
    replace (Z.of_nat pos + Z.of_nat (length w)) with (Z.of_nat (pos + length w)) by lia.
    pose proof (next_token pow10 lx pos w (u ++ tail) r d A L G) as En.
    exists e, lx'. conjs; auto; try lia.
    + eapply s_tok; eauto. cbn. intros ->. now apply stands_for_not_end in G.
    + intros F. inversion F as [|t0 ts0 F1 F2]; subst. rewrite Br by auto. f_equal.
      rewrite breaks_of_none; auto. unfold token_text in F1. cbn [tk_begin tk_end] in F1.
      replace (pos + length w - pos)%nat with (length w) in F1 by lia.
      destruct A as (_ & _ & _ & T & L1). rewrite T in F1.
      rewrite skipn_app, skipn_all2 in F1 by (rewrite firstn_length; lia).
      replace (pos - length (firstn pos (lx_text lx)))%nat with O in F1 by (rewrite firstn_length; lia).
      cbn [skipn app] in F1. rewrite firstn_app, firstn_all, Nat.sub_diag in F1. cbn in F1.
      now rewrite app_nil_r in F1.
Qed.

(** Every text is tiled, unless a number overflows. *)
Lemma lex_total pow10 : forall n lx pos text, (length text <= n)%nat -> at_text lx pos text ->
  (exists ts tail, tiles pow10 pos text ts tail) \/
  (forall fuel, (length text < fuel)%nat -> lex_all pow10 fuel lx = UB SignedOverflow).
Proof.
  induction n as [|n IH]; intros lx pos text Ln A.
  - destruct text; [|cbn in Ln; lia]. left. exists [], []. constructor. apply no_match_nil.
  - destruct (scan start_state 0 None [] 0 text) as [[k last] li'] eqn:Es.
    pose proof (scan_longest _ _ _ _ _ _ Es) as SL. destruct last as [[r m]|]; [|left; exists [], text; now constructor].
    destruct SL as (Bm & L). pose proof (firstn_skipn m text) as Et.
    remember (firstn m text) as w eqn:Ew. remember (skipn m text) as rest eqn:Er.
    assert (Lw : (0 < length w)%nat) by (rewrite Ew, firstn_length; lia).
    rewrite <- Et in *. clear Et Ew Er Es. rewrite app_length in Ln.
    assert (M : matches r w) by apply L.
    pose proof (action_spec pow10 r w M) as Ac.
    destruct (is_gap_dec r) as [G|G].
    + set (li2 := breaks_of (lx_lines lx) (Z.of_nat pos) w).
      destruct (at_text_shift lx pos w rest li2 A) as (A1 & T1).
      destruct (IH (shift_lexer lx w rest li2) (pos + length w)%nat rest) as [(ts & tail & Ht)|H]; auto; try lia.
      * left. exists ts, tail. eapply t_gap; eauto.
      * destruct (next_gap pow10 lx pos w rest r A L G) as [En|(-> & En)].
        -- right. intros [|fuel] Lf; rewrite app_length in Lf; [lia|]. cbn [lex_all]. rewrite En. fold li2.
           specialize (H (S fuel) ltac:(lia)). cbn [lex_all] in H. exact H.
        -- left. exists [], []. apply (t_gap pow10 pos w [] r); auto. constructor. apply no_match_nil.
    + destruct (action pow10 r w) as [[d|]| | |[]|] eqn:Ea; try easy.
      * destruct Ac as (Sf & _). set (li2 := lx_lines lx).
        destruct (at_text_shift lx pos w rest li2 A) as (A1 & T1).
        destruct (IH (shift_lexer lx w rest li2) (pos + length w)%nat rest) as [(ts & tail & Ht)|H]; auto; try lia.
        -- left. exists (mkTok d pos (pos + length w) :: ts), tail. eapply t_tok; eauto.
        -- right. intros [|fuel] Lf; rewrite app_length in Lf; [lia|]. cbn [lex_all].
           rewrite (next_token pow10 lx pos w rest r d A L Sf). cbn [bind tk_data]. fold li2.
           rewrite H by lia. destruct d; try reflexivity. now apply stands_for_not_end in Sf.
      * right. intros [|fuel] Lf; [lia|]. cbn [lex_all]. unfold next.
        destruct A as (P & R & E & T & L1). rewrite R, E. destruct (w ++ rest) as [|c x] eqn:Ewr.
        { apply app_eq_nil in Ewr as (-> & _). cbn in Lw. lia. }
        rewrite (lex_exec_match pow10 _ lx w rest r); rewrite ?R, <- ?Ewr in *; auto. rewrite Ea. reflexivity.
Qed.

Lemma at_text_new li text : at_text (new_lexer li text) 0 text.
Proof. unfold at_text. cbn. conjs; auto; lia. Qed.
