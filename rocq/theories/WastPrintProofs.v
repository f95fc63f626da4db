(** How the scanner that prints runs. *)

From Coq Require Import String Ascii ZArith List Bool Lia ZifyBool.
From Verif Require Import Outcome LexModel LexSpec LexProofs SpellSpec SpellProps WastModel WastSpec WastProofs CmdModel AsmModel AsmSpec AsmProofs
  WastPrintModel WastPrintSpec.
Import ListNotations.
Local Open Scope Z_scope.

(** * Without the text it is the scanner of WastModel *)

Definition unprinted (o : outcome plexer) : outcome wlexer := do px <- o; Ok (fst px).

Lemma pemit_same mem r te lx out : unprinted (pemit mem r te (lx, out)) = wemit r te lx.
Proof.
  unfold pemit, unprinted. cbn [fst snd].
  destruct r; cbn [action_text wemit]; try reflexivity; destruct (ptr_diff te (wl_ts lx)); reflexivity.
Qed.

Lemma ptake_same mem f p c s lx out : unprinted (ptake mem f p c s (lx, out)) = wtake f p c s lx.
Proof.
  unfold ptake, wtake.
  match goal with |- unprinted (do l <- ?X; _) = _ => destruct X as [l| | | |] end; cbn [bind unprinted]; try reflexivity.
  destruct (waccepts s); [|reflexivity]. destruct (finished s); [|reflexivity]. apply pemit_same.
Qed.

Lemma pfirst_same mem p c lx out : unprinted (pfirst mem p c (lx, out)) = wfirst p c lx.
Proof. unfold pfirst, wfirst. destruct (wadvance c wstart); [reflexivity|]. apply ptake_same. Qed.

Lemma pstep_same mem p c lx out : unprinted (pstep mem p c (lx, out)) = wstep p c lx.
Proof.
  unfold pstep, wstep. destruct (wl_mode lx) as [|s|]; [apply pfirst_same| |reflexivity].
  destruct (wadvance c s); [|apply ptake_same]. destruct (waccepts s) as [r|].
  - rewrite <- (pemit_same mem r p lx out). destruct (pemit mem r p (lx, out)) as [[lx' o']| | | |]; cbn [bind unprinted fst]; try reflexivity.
    apply pfirst_same.
  - destruct (wl_last lx); reflexivity.
Qed.

Lemma prun_same mem text : forall p lx out, unprinted (prun mem p text (lx, out)) = wrun p text lx.
Proof.
  induction text as [|c text IH]; intros p lx out; [reflexivity|]. cbn [prun wrun]. rewrite <- (pstep_same mem p c lx out).
  destruct (pstep mem p c (lx, out)) as [[lx' o']| | | |]; cbn [bind unprinted fst]; try reflexivity. apply IH.
Qed.

Lemma pfinish_same mem p lx out : unprinted (pfinish mem p (lx, out)) = wfinish p lx.
Proof.
  unfold pfinish, wfinish. destruct (wl_mode lx) as [|s|]; try reflexivity. destruct (waccepts s); [apply pemit_same|].
  destruct (wl_last lx); reflexivity.
Qed.

Lemma plex_same mem p text eof lx out : unprinted (plex mem p text eof (lx, out)) = wlex p text eof lx.
Proof.
  unfold plex, wlex. rewrite <- (prun_same mem text p lx out).
  destruct (prun mem p text (lx, out)) as [[lx' o']| | | |]; cbn [bind unprinted fst]; try reflexivity.
  destruct eof; [|reflexivity]. apply pfinish_same.
Qed.

(** * The text *)

Definition piece_text (x : piece * list Z * list Z) : str :=
  let '(p, past, n) := x in
  match p with
  | Word KLParen => lit "(lparen :start " ++ loc_text (location_after (past ++ n)) ++ lit ")" ++ [NL]
  | Word KRParen => lit "(rparen :start " ++ loc_text (location_after (past ++ n)) ++ lit ")" ++ [NL]
  | Word KName => lit "(name " ++ byte_text n ++ lit " :start " ++ loc_text (location_after past) ++ lit " :end " ++
      loc_text (location_after (past ++ n)) ++ lit ")" ++ [NL]
  | Word KIdentifier => lit "(indentifier " ++ byte_text n ++ lit " :start " ++ loc_text (location_after past) ++ lit " :end " ++
      loc_text (location_after (past ++ n)) ++ lit ")" ++ [NL]
  | Line => lit "(new-line :start)" ++ [NL]
  | Blank => lit "(whitespace)" ++ [NL]
  end.

Section Text.
Variables (b : Z) (full : list Z).
Hypothesis Sm : small full.
Let mem := mapped full.

Lemma small_full past n rest : past ++ n ++ rest = full -> small (past ++ n).
Proof. intros E. apply (small_prefix _ rest). now rewrite <- app_assoc, E. Qed.

Lemma view_full past n rest : past ++ n ++ rest = full ->
  view mem (at_off b past) (Z.of_nat (length (past ++ n)) - Z.of_nat (length past)) = byte_text n.
Proof.
  intros E. unfold view. f_equal.
  assert (Z.to_nat (Z.of_nat (length (past ++ n)) - Z.of_nat (length past)) = length n) as -> by (rewrite app_length; lia).
  apply (nth_ext _ _ 0 0); [now rewrite map_length, seq_length|].
  intros i Hi. rewrite map_length, seq_length in Hi.
  rewrite (nth_indep _ 0 (mem (fst (at_off b past), snd (at_off b past) + Z.of_nat 0))) by now rewrite map_length, seq_length.
  rewrite (map_nth (fun i => mem (fst (at_off b past), snd (at_off b past) + Z.of_nat i)) (seq 0 (length n)) 0%nat i), seq_nth by exact Hi.
  unfold mem, mapped, at_off. cbn [fst snd]. rewrite <- E.
  replace (Z.to_nat (Z.of_nat (length past) + Z.of_nat (0 + i))) with (length past + i)%nat by lia.
  rewrite app_nth2_plus, app_nth1; auto.
Qed.

(** Between pieces, or at the end of one whose action is still to be run; with it the text is [out]. *)
Inductive holds (past : list Z) (out : str) : option wset -> plexer -> Prop :=
| ho_start lx : wl_mode lx = AtStart -> wl_loc lx = location_after past -> holds past out None (lx, out)
| ho_in s r lx o t lx' : wl_mode lx = Inside s -> waccepts s = Some r -> wl_loc lx = location_after past ->
    action_text mem r (at_off b past) lx = Ok t -> out = o ++ t ->
    wemit r (at_off b past) lx = Ok lx' -> wl_loc lx' = location_after past ->
    holds past out (Some s) (lx, o).

Lemma holds_step past out os px c : holds past out os px -> (forall s, os = Some s -> wadvance c s = []) ->
  exists lx, pstep mem (at_off b past) c px = pfirst mem (at_off b past) c (lx, out) /\ wl_loc lx = location_after past.
Proof.
  intros H St. destruct H as [lx M L|s r lx o t lx' M A L T -> E L'].
  - exists lx. unfold pstep. rewrite M. auto.
  - exists lx'. unfold pstep. rewrite M, (St s eq_refl), A. unfold pemit. cbn [fst snd]. rewrite T, E. auto.
Qed.

Lemma holds_finish past out os px : holds past out os px -> exists lx, pfinish mem (at_off b past) px = Ok (lx, out).
Proof.
  intros H. destruct H as [lx M L|s r lx o t lx' M A L T -> E L'].
  - exists lx. unfold pfinish. rewrite M. reflexivity.
  - exists lx'. unfold pfinish. rewrite M, A. unfold pemit. cbn [fst snd]. rewrite T, E. reflexivity.
Qed.

Lemma prun_cons p c w px : prun mem p (c :: w) px = do px <- pstep mem p c px; prun mem (next_ptr p) w px.
Proof. reflexivity. Qed.
Lemma prun_app p w v px : prun mem p (w ++ v) px =
  do px <- prun mem p w px; prun mem (fst p, snd p + Z.of_nat (length w)) v px.
Proof.
  revert p px. induction w as [|c w IH]; intros p px.
  - cbn [app prun bind length]. rewrite Z.add_0_r. now destruct p.
  - rewrite <- app_comm_cons, !prun_cons. destruct (pstep mem p c px) as [px'| | | |]; cbn [bind]; auto.
    rewrite IH. unfold next_ptr. cbn [fst snd length]. destruct (prun mem _ w px') as [px''| | | |]; cbn [bind]; auto.
    f_equal. f_equal. lia.
Qed.
Lemma prun_app_at past w v px : prun mem (at_off b past) (w ++ v) px =
  do px <- prun mem (at_off b past) w px; prun mem (at_off b (past ++ w)) v px.
Proof. rewrite prun_app. unfold at_off. cbn [fst snd]. now rewrite app_length, Nat2Z.inj_add. Qed.
Lemma prun_failed p w lx out : wl_mode lx = Failed -> prun mem p w (lx, out) = Ok (lx, out).
Proof. intros M. revert p. induction w as [|c w IH]; intros p; auto. rewrite prun_cons. unfold pstep. rewrite M. cbn [bind]. auto. Qed.

(** The rest of a run of one kind of character. *)
Definition star (s : wset) : Prop := s = s_name \/ s = s_ident \/ s = s_space.
Lemma run_star s m : star s -> forall past n rest ts last st toks out,
  past ++ (n ++ m) ++ rest = full -> Forall (fun c => wadvance c s = s) m ->
  exists last', prun mem (at_off b (past ++ n)) m (mkWLexer (Inside s) ts last st (location_after (past ++ n)) toks, out) =
    Ok (mkWLexer (Inside s) ts last' st (location_after (past ++ n ++ m)) toks, out).
Proof.
  intros S. induction m as [|c m IH]; intros past n rest ts last st toks out E F.
  { exists last. rewrite app_nil_r. reflexivity. }
  pose proof (Forall_inv F) as Hc; pose proof (Forall_inv_tail F) as F'; cbn beta in Hc. rewrite prun_cons. unfold pstep. cbn [wl_mode]. rewrite Hc.
  assert (E1 : past ++ ((n ++ [c]) ++ m) ++ rest = full) by (rewrite <- E, <- !app_assoc; reflexivity).
  assert (Sc : small ((past ++ n) ++ [c])).
  { apply (small_prefix _ (m ++ rest)). rewrite <- E1 in Sm. rewrite <- !app_assoc in *. exact Sm. }
  assert (Ex : exists r s', s = r :: s') by (destruct S as [->|[->| ->]]; eexists; eexists; reflexivity).
  destruct Ex as (r & s' & Es). revert S Hc F'. rewrite Es. intros S Hc F'. cbn iota. revert S Hc F'. rewrite <- Es. intros S Hc F'. clear Es r s'.
  unfold ptake. cbn [andb].
  assert (existsb (fun x => tracks (fst x)) s = true) as -> by (destruct S as [->|[->| ->]]; reflexivity).
  assert (finished s = false) as -> by (destruct S as [->|[->| ->]]; reflexivity). cbn [wl_loc wl_last wl_out wl_ts wl_start].
  rewrite track_ok by exact Sc. cbn [bind].
  destruct (IH past (n ++ [c]) rest ts (match waccepts s with Some r => Some r | None => last end) st toks out E1 F') as (last' & G).
  exists last'. rewrite <- !app_assoc in *. cbn [app] in *. rewrite <- G. rewrite (next_at b (past ++ n) c), <- app_assoc.
  destruct (waccepts s); reflexivity.
Qed.

(** Pieces from where [pfirst] starts. *)
Lemma piece_paren past k c w lx out : past ++ c :: w = full -> wl_loc lx = location_after past ->
  k = KLParen /\ c = 40 \/ k = KRParen /\ c = 41 ->
  exists px, pfirst mem (at_off b past) c (lx, out) = Ok px /\ holds (past ++ [c]) (out ++ piece_text (Word k, past, [c])) None px.
Proof.
  intros E L K. assert (Sc : small (past ++ [c])) by (apply (small_mid _ c w); now rewrite E).
  pose proof (track_ok c past Sc) as T. rewrite <- L in T. unfold pfirst. rewrite first_set.
  destruct K as [(-> & ->)|(-> & ->)]; cbn [Z.eqb Pos.eqb]; unfold ptake;
    cbn [existsb marks tracks fst snd orb andb wl_loc wl_out wl_ts wl_start]; rewrite T; cbn [bind waccepts find snd nullable option_map finished forallb andb fst];
    unfold pemit; cbn [fst snd action_text wemit bind wl_loc]; (eexists; split; [reflexivity|]); constructor; reflexivity.
Qed.

Lemma piece_line past w lx out : past ++ newline :: w = full -> wl_loc lx = location_after past ->
  exists px, pfirst mem (at_off b past) newline (lx, out) = Ok px /\ holds (past ++ [newline]) (out ++ piece_text (Line, past, [newline])) (Some s_nl) px.
Proof.
  intros E L. assert (Sc : small (past ++ [newline])) by (apply (small_mid _ newline w); now rewrite E).
  pose proof (track_ok newline past Sc) as T. rewrite <- L in T. unfold pfirst. rewrite first_set.
  change (newline =? 40) with false. change (newline =? 41) with false. change (newline =? 10) with true. cbn iota.
  unfold s_nl at 1. unfold ptake. cbn [existsb marks tracks fst snd orb andb s_nl wl_loc wl_out wl_ts wl_start].
  rewrite T. cbn [bind waccepts find snd nullable option_map finished forallb andb fst].
  eexists. split; [reflexivity|]. eapply ho_in; try reflexivity.
Qed.

Lemma space_stays n : Forall white n -> Forall (fun c => wadvance c s_space = s_space) n.
Proof. intros F. eapply Forall_impl; [|exact F]. intros c H. apply white_ok in H. cbn beta. now rewrite adv_space, H. Qed.

Lemma piece_blank past n rest lx out : past ++ n ++ rest = full -> wl_loc lx = location_after past ->
  n <> [] -> n <> [newline] -> Forall white n ->
  exists c n' px0 px, n = c :: n' /\ pfirst mem (at_off b past) c (lx, out) = Ok px0 /\ prun mem (at_off b (past ++ [c])) n' px0 = Ok px /\
    holds (past ++ n) (out ++ piece_text (Blank, past, n)) (Some s_space) px.
Proof.
  intros E L N N1 F. destruct n as [|c n]; [easy|]. exists c, n. pose proof (Forall_inv F) as Wc; pose proof (Forall_inv_tail F) as Fn; cbn beta in Wc. apply white_ok in Wc.
  assert (Sc : small (past ++ [c])).
  { apply (small_mid _ c (n ++ rest)). change (small (past ++ (c :: n) ++ rest)). now rewrite E. }
  pose proof (track_ok c past Sc) as T. rewrite <- L in T. unfold pfirst. rewrite first_set, Wc.
  assert (A : is_allowed c = false).
  { unfold is_allowed, is_alnum, is_digit, is_alpha, is_space in *. cbn [existsb]. lia. }
  rewrite A. destruct (Z.eqb_spec c 40); [subst c; discriminate|]. destruct (Z.eqb_spec c 41); [subst c; discriminate|].
  destruct (Z.eqb_spec c 36); [subst c; discriminate|].
  assert (G : forall n' past1 last, past1 ++ n' ++ rest = full -> Forall white n' -> past1 ++ n' = past ++ c :: n ->
    exists px, prun mem (at_off b past1) n' (mkWLexer (Inside s_space) (at_off b past) last (wl_start lx) (location_after past1) (wl_out lx), out) = Ok px /\
      holds (past ++ c :: n) (out ++ piece_text (Blank, past, c :: n)) (Some s_space) px).
  { intros n' past1 last E1 F1 Ep.
    destruct (run_star s_space n' ltac:(right; right; reflexivity) past1 [] rest (at_off b past) last (wl_start lx) (wl_out lx) out) as (last' & R);
      [exact E1|now apply space_stays|]. rewrite app_nil_r in R. cbn [app] in R. rewrite Ep in R.
    eexists. split; [exact R|]. eapply ho_in; try reflexivity. }
  assert (E1 : (past ++ [c]) ++ n ++ rest = full) by (rewrite <- app_assoc; exact E).
  assert (Ep : (past ++ [c]) ++ n = past ++ c :: n) by (rewrite <- app_assoc; reflexivity).
  destruct (Z.eqb_spec c 10) as [->|Nc].
  - unfold s_nl at 1. unfold ptake. cbn [existsb marks tracks fst snd orb andb s_nl wl_loc wl_out wl_ts wl_start].
    rewrite T. cbn [bind waccepts find snd nullable option_map finished forallb andb fst wl_last].
    destruct n as [|d n]; [easy|].
    pose proof (Forall_inv Fn) as Wd; pose proof (Forall_inv_tail Fn) as Fn'; cbn beta in Wd.
    assert (E2 : ((past ++ [10]) ++ [d]) ++ n ++ rest = full) by (rewrite <- !app_assoc; exact E).
    assert (Ep2 : ((past ++ [10]) ++ [d]) ++ n = past ++ 10 :: d :: n) by (rewrite <- !app_assoc; reflexivity).
    destruct (G n ((past ++ [10]) ++ [d]) (Some WSpace) E2 Fn' Ep2) as (px & R & H).
    eexists. exists px. split; [reflexivity|]. split; [reflexivity|]. split; [|exact H].
    rewrite prun_cons. unfold pstep. cbn [wl_mode].
    change [(WNewline, REps); (WSpace, RStar (RChr is_space))] with s_nl. apply white_ok in Wd. rewrite adv_nl, Wd.
    unfold s_space at 1. unfold ptake. cbn [existsb marks tracks fst snd orb andb s_space wl_loc wl_out wl_ts wl_start].
    rewrite track_ok. 2: { apply (small_prefix _ (n ++ rest)). now rewrite E2. }
    cbn [bind waccepts find snd nullable option_map finished forallb andb fst wl_last]. rewrite (next_at b (past ++ [10]) d). exact R.
  - unfold s_space at 1. unfold ptake. cbn [existsb marks tracks fst snd orb andb s_space wl_loc wl_out wl_ts wl_start].
    rewrite T. cbn [bind waccepts find snd nullable option_map finished forallb andb fst wl_last].
    destruct (G n (past ++ [c]) (Some WSpace) E1 Fn Ep) as (px & R & H).
    eexists. exists px. split; [reflexivity|]. split; [reflexivity|]. split; [exact R|exact H].
Qed.

Lemma word_ends past n rest k s last toks out : past ++ n ++ rest = full ->
  k = KName /\ s = s_name \/ k = KIdentifier /\ s = s_ident ->
  holds (past ++ n) (out ++ piece_text (Word k, past, n)) (Some s)
    (mkWLexer (Inside s) (at_off b past) last (location_after past) (location_after (past ++ n)) toks, out).
Proof.
  intros E K. pose proof (view_full past n rest E) as V.
  assert (D : ptr_diff (at_off b (past ++ n)) (at_off b past) = Ok (Z.of_nat (length (past ++ n)) - Z.of_nat (length past))).
  { unfold ptr_diff, at_off. cbn [fst snd]. now rewrite Z.eqb_refl. }
  destruct K as [(-> & ->)|(-> & ->)].
  - eapply (ho_in _ _ s_name WName); try reflexivity.
    + cbn [action_text wl_ts wl_start wl_loc]. rewrite D. cbn [bind]. rewrite V. reflexivity.
    + cbn [wemit wl_ts]. rewrite D. cbn [bind]. reflexivity.
    + reflexivity.
  - eapply (ho_in _ _ s_ident WIdentifier); try reflexivity.
    + cbn [action_text wl_ts wl_start wl_loc]. rewrite D. cbn [bind]. rewrite V. reflexivity.
    + cbn [wemit wl_ts]. rewrite D. cbn [bind]. reflexivity.
    + reflexivity.
Qed.

Lemma piece_word past k n rest lx out : past ++ n ++ rest = full -> wl_loc lx = location_after past ->
  k = KName /\ n <> [] /\ Forall (fun c => is_allowed c = true) n \/
  k = KIdentifier /\ (exists m, n = 36 :: m /\ m <> [] /\ Forall (fun c => is_allowed c = true) m) ->
  exists c n' px0 px s, n = c :: n' /\ pfirst mem (at_off b past) c (lx, out) = Ok px0 /\ prun mem (at_off b (past ++ [c])) n' px0 = Ok px /\
    (s = s_name \/ s = s_ident) /\ holds (past ++ n) (out ++ piece_text (Word k, past, n)) (Some s) px.
Proof.
  intros E L K. destruct n as [|c n]; [destruct K as [(_ & N & _)|(_ & m & E' & _)]; easy|]. exists c, n.
  assert (Sc : small (past ++ [c])).
  { apply (small_mid _ c (n ++ rest)). change (small (past ++ (c :: n) ++ rest)). now rewrite E. }
  pose proof (track_ok c past Sc) as T. rewrite <- L in T.
  destruct K as [(-> & _ & F)|(-> & m & E' & N & F)].
  - pose proof (Forall_inv F) as Hc; pose proof (Forall_inv_tail F) as F'; cbn beta in Hc. unfold pfirst. rewrite first_set, Hc.
    destruct (Z.eqb_spec c 40); [subst c; discriminate|]. destruct (Z.eqb_spec c 41); [subst c; discriminate|].
    destruct (Z.eqb_spec c 10); [subst c; discriminate|].
    unfold s_name at 1. unfold ptake. cbn [existsb marks tracks fst snd orb andb s_name wl_loc wl_out wl_ts wl_start].
    rewrite T. cbn [bind waccepts find snd nullable option_map finished forallb andb fst wl_last].
    destruct (run_star s_name n ltac:(left; reflexivity) past [c] rest (at_off b past) (Some WName) (location_after past) (wl_out lx) out) as (last' & R).
    { exact E. }
    { eapply Forall_impl; [|exact F']. intros x Hx. cbn beta in *. now rewrite adv_name, Hx. }
    eexists. eexists. exists s_name. split; [reflexivity|]. split; [reflexivity|]. rewrite L. split; [exact R|]. split; [auto|].
    apply (word_ends past (c :: n) rest KName); auto.
  - assert (c = 36 /\ n = m) as (-> & ->) by (now injection E'). clear E'.
    unfold pfirst. rewrite first_set. cbn [Z.eqb Pos.eqb]. change (is_allowed 36) with false. cbn iota.
    unfold s_dollar at 1. unfold ptake. cbn [existsb marks tracks fst snd orb andb s_dollar plus wl_loc wl_out wl_ts wl_start].
    rewrite T. change [(WIdentifier, plus (RChr is_allowed))] with s_dollar. change (waccepts s_dollar) with (@None wrule). cbn [bind wl_last].
    destruct m as [|d m]; [easy|]. pose proof (Forall_inv F) as Hd; pose proof (Forall_inv_tail F) as F'; cbn beta in Hd.
    assert (E2 : past ++ ([36; d] ++ m) ++ rest = full) by exact E.
    destruct (run_star s_ident m ltac:(right; left; reflexivity) past [36; d] rest (at_off b past) (Some WIdentifier) (location_after past) (wl_out lx) out) as (last' & R).
    { exact E2. }
    { eapply Forall_impl; [|exact F']. intros x Hx. cbn beta in *. now rewrite adv_ident, Hx. }
    eexists. eexists. exists s_ident. split; [reflexivity|]. split; [reflexivity|]. rewrite L. split; [|split; [auto|]].
    + rewrite prun_cons. unfold pstep. cbn [wl_mode]. change [(WIdentifier, plus (RChr is_allowed))] with s_dollar. rewrite adv_dollar, Hd.
      unfold s_ident at 1. unfold ptake. cbn [existsb marks tracks fst snd orb andb s_ident wl_loc wl_out wl_ts wl_start].
      rewrite track_ok. 2: { apply (small_prefix _ (m ++ rest)). rewrite <- !app_assoc. cbn [app]. cbn [app] in E2. now rewrite E2. }
      cbn [bind waccepts find snd nullable option_map finished forallb andb fst wl_last]. rewrite (next_at b (past ++ [36]) d), <- app_assoc.
      exact R.
    + apply (word_ends past (36 :: d :: m) rest KIdentifier); auto.
Qed.

(** The end of the scanning. *)
Definition ended (out : str) (px : plexer) : Prop :=
  (exists os, holds full out os px) \/
  (exists lx, px = (lx, out) /\ (wl_mode lx = Failed \/ wl_mode lx = Inside s_dollar /\ wl_last lx = None)).

Lemma pieces_run past w ps tail : pieces_of past w ps tail -> forall out os px, past ++ w = full -> holds past out os px ->
  (forall c w' s, w = c :: w' -> os = Some s -> wadvance c s = []) ->
  exists px', prun mem (at_off b past) w px = Ok px' /\ ended (out ++ flat_map piece_text ps) px'.
Proof.
  induction 1 as [past|past w ps tail Nx _ IH|past n w ps tail N N1 F Nx _ IH|past k c w ps tail K _ IH|past k n w ps tail K Nx _ IH|past c w N1 N2 N3 N4 N5];
    intros out os px E H St.
  - exists px. split; [reflexivity|]. cbn [flat_map]. rewrite app_nil_r in *. left. subst past. eauto.
  - destruct (holds_step past out os px newline H) as (lx & Es & L); [intros s Hs; eapply St; [reflexivity|exact Hs]|].
    destruct (piece_line past w lx out E L) as (px1 & E1 & H1). rewrite prun_cons, Es, E1. cbn [bind]. rewrite (next_at b past newline).
    destruct (IH _ _ px1 ltac:(now rewrite <- app_assoc) H1) as (px2 & E2 & En).
    { intros c w' s -> Hs. injection Hs as <-. specialize (Nx c w' eq_refl). rewrite white_ok in Nx. rewrite adv_nl. now destruct (is_space c). }
    exists px2. split; [exact E2|]. cbn [flat_map]. now rewrite app_assoc.
  - destruct n as [|c0 n0] eqn:En0; [easy|]. rewrite <- En0 in *.
    destruct (holds_step past out os px c0 H) as (lx & Es & L); [intros s Hs; eapply St; [rewrite En0; reflexivity|exact Hs]|].
    destruct (piece_blank past n w lx out E L N N1 F) as (c & n' & px0 & px1 & En & E1 & R1 & H1).
    rewrite En0 in En. injection En as <- <-.
    assert (Rn : prun mem (at_off b past) n px = Ok px1).
    { rewrite En0, prun_cons, Es, E1. cbn [bind]. rewrite (next_at b past c0). exact R1. }
    rewrite prun_app_at, Rn. cbn [bind].
    destruct (IH _ _ px1 ltac:(now rewrite <- app_assoc) H1) as (px2 & E2 & En).
    { intros c w' s -> Hs. injection Hs as <-. specialize (Nx c w' eq_refl). rewrite white_ok in Nx. rewrite adv_space. now destruct (is_space c). }
    exists px2. split; [exact E2|]. cbn [flat_map]. now rewrite app_assoc.
  - assert (K' : k = KLParen /\ c = 40 \/ k = KRParen /\ c = 41).
    { destruct K as [(-> & Ec)|(-> & Ec)]; injection Ec as Ec; auto. }
    destruct (holds_step past out os px c H) as (lx & Es & L); [intros s Hs; eapply St; [reflexivity|exact Hs]|].
    destruct (piece_paren past k c w lx out E L K') as (px1 & E1 & H1). rewrite prun_cons, Es, E1. cbn [bind]. rewrite (next_at b past c).
    destruct (IH _ _ px1 ltac:(now rewrite <- app_assoc) H1) as (px2 & E2 & En); [discriminate|].
    exists px2. split; [exact E2|]. cbn [flat_map]. now rewrite app_assoc.
  - assert (K' : k = KName /\ n <> [] /\ Forall (fun c => is_allowed c = true) n \/
      k = KIdentifier /\ (exists m, n = 36 :: m /\ m <> [] /\ Forall (fun c => is_allowed c = true) m)).
    { destruct K as [(-> & N & F)|(-> & m & En & N & F)]; [left|right].
      - split; auto. split; auto. eapply Forall_impl; [|exact F]. intros c. apply word_char_ok.
      - split; auto. exists m. split; auto. split; auto. eapply Forall_impl; [|exact F]. intros c. apply word_char_ok. }
    assert (N : n <> []) by (destruct K' as [(_ & N & _)|(_ & m & -> & _)]; [exact N|discriminate]).
    destruct n as [|c0 n0] eqn:En0; [easy|]. rewrite <- En0 in *.
    destruct (holds_step past out os px c0 H) as (lx & Es & L); [intros s Hs; eapply St; [rewrite En0; reflexivity|exact Hs]|].
    destruct (piece_word past k n w lx out E L K') as (c & n' & px0 & px1 & s & En & E1 & R1 & Hs & H1).
    rewrite En0 in En. injection En as <- <-.
    assert (Rn : prun mem (at_off b past) n px = Ok px1).
    { rewrite En0, prun_cons, Es, E1. cbn [bind]. rewrite (next_at b past c0). exact R1. }
    rewrite prun_app_at, Rn. cbn [bind].
    destruct (IH _ _ px1 ltac:(now rewrite <- app_assoc) H1) as (px2 & E2 & En).
    { intros c w' s' -> Hs'. injection Hs' as <-. specialize (Nx c w' eq_refl). rewrite word_char_ok in Nx.
      destruct Hs as [->| ->]; rewrite ?adv_name, ?adv_ident; now destruct (is_allowed c). }
    exists px2. split; [exact E2|]. cbn [flat_map]. now rewrite app_assoc.
  - rewrite white_ok in N1. rewrite word_char_ok in N4. apply not_true_is_false in N1. apply not_true_is_false in N4.
    cbn [flat_map]. rewrite app_nil_r.
    destruct (holds_step past out os px c H) as (lx & Es & L); [intros s Hs; eapply St; [reflexivity|exact Hs]|].
    rewrite prun_cons, Es. unfold pfirst. rewrite first_set, N1, N4.
    destruct (Z.eqb_spec c 40) as [->|M1]; [now destruct N2|]. destruct (Z.eqb_spec c 41) as [->|M2]; [now destruct N3|].
    destruct (Z.eqb_spec c 10) as [->|M3]; [discriminate|]. destruct (Z.eqb_spec c 36) as [->|M4].
    + unfold s_dollar at 1. unfold ptake. cbn [existsb marks tracks fst snd orb andb s_dollar plus wl_loc wl_out wl_ts wl_start].
      rewrite L, track_ok by (apply (small_mid _ 36 w); now rewrite E). change [(WIdentifier, plus (RChr is_allowed))] with s_dollar.
      change (waccepts s_dollar) with (@None wrule). cbn [bind wl_last].
      destruct w as [|c' w].
      * eexists. split; [reflexivity|]. right. eexists. split; [reflexivity|]. right. split; reflexivity.
      * specialize (N5 eq_refl c' w eq_refl). rewrite word_char_ok in N5. apply not_true_is_false in N5.
        rewrite prun_cons. unfold pstep at 1. cbn [wl_mode].
        rewrite adv_dollar, N5. change (waccepts s_dollar) with (@None wrule). cbn [bind wl_last]. rewrite prun_failed by reflexivity.
        eexists. split; [reflexivity|]. right. eexists. split; [reflexivity|]. now left.
    + cbn [bind]. rewrite prun_failed by reflexivity. eexists. split; [reflexivity|]. right. eexists. split; [reflexivity|]. now left.
Qed.

Lemma ended_finish out px : ended out px -> exists lx, pfinish mem (at_off b full) px = Ok (lx, out).
Proof.
  intros [(os & H)|(lx & -> & M)]; [eapply holds_finish; eauto|]. exists lx. unfold pfinish.
  destruct M as [->|(-> & ->)]; reflexivity.
Qed.
End Text.

(** * Readings *)

Lemma white_run past n w toks tail : Forall white n -> lexes (past ++ n) w toks tail -> lexes past (n ++ w) toks tail.
Proof.
  revert past. induction n as [|c n IH]; intros past F L; [now rewrite app_nil_r in L|]. inversion F; subst.
  cbn [app]. constructor; auto. apply IH; auto. now rewrite <- app_assoc.
Qed.

Lemma pieces_lexes past w ps tail : pieces_of past w ps tail -> lexes past w (words_of ps) tail.
Proof.
  induction 1 as [past|past w ps tail Nx _ IH|past n w ps tail N N1 F Nx _ IH|past k c w ps tail K _ IH|past k n w ps tail K Nx _ IH|past c w N1 N2 N3 N4 N5];
    cbn [words_of].
  - constructor.
  - constructor; [apply white_ok; reflexivity|exact IH].
  - now apply white_run.
  - now constructor.
  - now constructor.
  - now constructor.
Qed.

Lemma split_white w : exists n v, w = n ++ v /\ Forall white n /\ (forall c w', v = c :: w' -> ~ white c).
Proof.
  induction w as [|c w (n & v & -> & F & H)]; [exists [], []; split; [reflexivity|split; [constructor|discriminate]]|].
  destruct (is_space c) eqn:A.
  - exists (c :: n), v. split; [reflexivity|]. split; [constructor; [now apply white_ok|exact F]|exact H].
  - exists [], (c :: n ++ v). split; [reflexivity|]. split; [constructor|]. intros c' w' E. injection E as <- _. rewrite white_ok, A. discriminate.
Qed.

Lemma pieces_total n : forall past w, (length w <= n)%nat -> exists ps tail, pieces_of past w ps tail.
Proof.
  induction n as [|n IH]; intros past w L.
  - destruct w; [|cbn in L; lia]. exists [], []. constructor.
  - destruct w as [|c w]; [exists [], []; constructor|]. cbn [length] in L.
    destruct (is_space c) eqn:Sp.
    { destruct (split_white w) as (m & v & -> & F & H). rewrite app_length in L.
      destruct (list_eq_dec Z.eq_dec (c :: m) [newline]) as [Ec|Ec].
      - injection Ec as -> ->. destruct (IH (past ++ [newline]) v) as (ps & tail & G); [lia|]. eexists _, tail. apply po_line; [exact H|exact G].
      - destruct (IH (past ++ c :: m) v) as (ps & tail & G); [lia|]. eexists _, tail. apply (po_blank past (c :: m)); [discriminate|exact Ec| |exact H|exact G].
        constructor; [now apply white_ok|exact F]. }
    destruct (Z.eqb_spec c 40) as [->|N1].
    { destruct (IH (past ++ [40]) w) as (ps & tail & H); [lia|]. eexists _, tail. eapply (po_paren past KLParen); [left; split; reflexivity|exact H]. }
    destruct (Z.eqb_spec c 41) as [->|N2].
    { destruct (IH (past ++ [41]) w) as (ps & tail & H); [lia|]. eexists _, tail. eapply (po_paren past KRParen); [right; split; reflexivity|exact H]. }
    destruct (split_word w) as (m & v & -> & F & H).
    assert (Nx : forall c w', v = c :: w' -> ~ word_char c).
    { intros x w' E. rewrite word_char_ok, (H x w' E). discriminate. }
    assert (Wd : forall n', Forall (fun c => is_allowed c = true) n' -> Forall word_char n').
    { intros n'. apply Forall_impl. intros x. apply word_char_ok. }
    rewrite app_length in L. destruct (is_allowed c) eqn:A.
    { destruct (IH (past ++ c :: m) v) as (ps & tail & G); [lia|]. eexists _, tail.
      apply (po_word past KName (c :: m)); [|exact Nx|exact G]. left. split; auto. split; [easy|]. apply Wd. auto. }
    destruct (Z.eqb_spec c 36) as [->|N3].
    { destruct m as [|d m].
      - cbn [app] in *. exists [], (36 :: v). apply po_stop; try discriminate; auto.
        + now rewrite white_ok, Sp.
        + rewrite word_char_ok. discriminate.
      - destruct (IH (past ++ 36 :: d :: m) v) as (ps & tail & G); [lia|]. eexists _, tail.
        apply (po_word past KIdentifier (36 :: d :: m)); [|exact Nx|exact G]. right. split; auto. exists (d :: m). split; auto. split; [easy|]. now apply Wd. }
    exists [], (c :: m ++ v). apply po_stop.
    + now rewrite white_ok, Sp.
    + intros E. injection E as E. now apply N1.
    + intros E. injection E as E. now apply N2.
    + rewrite word_char_ok, A. discriminate.
    + intros E. injection E as E. now exfalso; apply N3.
Qed.
