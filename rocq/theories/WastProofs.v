(** How the scanner runs. *)

From Coq Require Import String ZArith List Bool Lia ZifyBool.
From Verif Require Import Outcome LexModel LexSpec LexProofs SpellSpec SpellProps WastModel WastSpec.
Import ListNotations.
Local Open Scope Z_scope.

Lemma word_char_ok c : word_char c <-> is_allowed c = true.
Proof.
  unfold word_char. rewrite letter_alpha, figure_digit, in_dec. unfold is_allowed, is_alnum.
  change (chars "_-.~") with [95; 45; 46; 126]. lia.
Qed.
Lemma white_ok c : white c <-> is_space c = true.
Proof.
  unfold white. rewrite !in_dec. change (chars " ") with [32]. unfold is_space. cbn [existsb]. lia.
Qed.

(** * Locations *)

Lemma location_snoc w c : location_after (w ++ [c]) =
  mkLoc (l_offset (location_after w) + 1) (l_line (location_after w) + (if c =? 10 then 1 else 0))
        (if c =? 10 then 1 else l_column (location_after w) + 1).
Proof.
  unfold location_after, line_after. cbn [l_offset l_line l_column]. rewrite app_length, filter_app, app_length. cbn [length filter].
  f_equal.
  - lia.
  - rewrite (Z.eqb_sym newline c). unfold newline. destruct (c =? 10); cbn [length]; lia.
  - assert (G : forall col, column_after (w ++ [c]) col = if c =? 10 then 1 else column_after w col + 1).
    { induction w as [|a w IH]; intros col; cbn [app column_after]; unfold newline in *; auto. }
    apply G.
Qed.

Lemma column_bound w : forall col, 1 <= col -> 1 <= column_after w col <= col + Z.of_nat (length w).
Proof.
  induction w as [|c w IH]; intros col H; cbn [column_after length]; [lia|].
  destruct (c =? newline); [pose proof (IH 1 ltac:(lia))|pose proof (IH (col + 1) ltac:(lia))]; lia.
Qed.
Lemma line_bound w : 1 <= line_after w <= 1 + Z.of_nat (length w).
Proof.
  unfold line_after. assert (length (filter (Z.eqb newline) w) <= length w)%nat; [|lia].
  induction w as [|c w IH]; cbn [filter length]; [lia|]. destruct (newline =? c); cbn [length]; lia.
Qed.

Definition small (w : list Z) : Prop := Z.of_nat (length w) + 1 < 2 ^ 31.

Lemma track_ok c w : small (w ++ [c]) -> track c (location_after w) = Ok (location_after (w ++ [c])).
Proof.
  unfold small. rewrite app_length. cbn [length]. intros H. rewrite location_snoc. unfold track.
  pose proof (column_bound w 1 ltac:(lia)). pose proof (line_bound w).
  unfold location_after at 1 2 3. cbn [l_offset l_line l_column]. unfold int32.
  destruct (Z.leb_spec (- 2 ^ 31) (Z.of_nat (length w) + 1)); [|lia]. destruct (Z.ltb_spec (Z.of_nat (length w) + 1) (2 ^ 31)); [|lia].
  cbn [andb bind]. destruct (Z.leb_spec (- 2 ^ 31) (column_after w 1 + 1)); [|lia].
  destruct (Z.ltb_spec (column_after w 1 + 1) (2 ^ 31)); [|lia]. cbn [andb bind]. destruct (c =? 10).
  - destruct (Z.leb_spec (- 2 ^ 31) (line_after w + 1)); [|lia]. destruct (Z.ltb_spec (line_after w + 1) (2 ^ 31)); [|lia]. reflexivity.
  - unfold location_after. cbn [l_offset l_line l_column]. now rewrite Z.add_0_r.
Qed.

(** * The sets of patterns that occur *)

Definition s_name : wset := [(WName, RStar (RChr is_allowed))].
Definition s_dollar : wset := [(WIdentifier, plus (RChr is_allowed))].
Definition s_ident : wset := [(WIdentifier, RStar (RChr is_allowed))].
Definition s_nl : wset := [(WNewline, REps); (WSpace, RStar (RChr is_space))].
Definition s_space : wset := [(WSpace, RStar (RChr is_space))].

Lemma first_set c : wadvance c wstart =
  if c =? 40 then [(WLParen, REps)] else if c =? 41 then [(WRParen, REps)] else if c =? 10 then s_nl
  else if is_allowed c then s_name else if c =? 36 then s_dollar else if is_space c then s_space else [].
Proof.
  unfold wadvance, wstart, wrules, wpattern, ch, plus. cbn [map fst snd deriv nullable].
  destruct (Z.eqb_spec c 40) as [->|N1]; [reflexivity|]. destruct (Z.eqb_spec c 41) as [->|N2]; [reflexivity|].
  destruct (Z.eqb_spec c 10) as [->|N3]; [reflexivity|].
  destruct (is_allowed c) eqn:A.
  - assert (c <> 36) by (intros ->; discriminate). assert (is_space c = false).
    { unfold is_allowed, is_alnum, is_digit, is_alpha, is_space in *. cbn [existsb] in A. lia. }
    destruct (Z.eqb_spec c 36); [lia|]. rewrite H0. reflexivity.
  - destruct (Z.eqb_spec c 36) as [->|N4]; [reflexivity|]. destruct (is_space c) eqn:S; reflexivity.
Qed.

Lemma adv_name c : wadvance c s_name = if is_allowed c then s_name else [].
Proof. unfold wadvance, s_name. cbn [map fst snd deriv]. destruct (is_allowed c); reflexivity. Qed.
Lemma adv_ident c : wadvance c s_ident = if is_allowed c then s_ident else [].
Proof. unfold wadvance, s_ident. cbn [map fst snd deriv]. destruct (is_allowed c); reflexivity. Qed.
Lemma adv_dollar c : wadvance c s_dollar = if is_allowed c then s_ident else [].
Proof. unfold wadvance, s_dollar, plus. cbn [map fst snd deriv nullable]. destruct (is_allowed c); reflexivity. Qed.
Lemma adv_space c : wadvance c s_space = if is_space c then s_space else [].
Proof. unfold wadvance, s_space. cbn [map fst snd deriv]. destruct (is_space c); reflexivity. Qed.
Lemma adv_nl c : wadvance c s_nl = if is_space c then s_space else [].
Proof. unfold wadvance, s_nl. cbn [map fst snd deriv]. destruct (is_space c); reflexivity. Qed.

(** * States *)

Definition at_off (b : Z) (w : list Z) : wptr := (b, Z.of_nat (length w)).
Lemma next_at b w c : next_ptr (at_off b w) = at_off b (w ++ [c]).
Proof. unfold next_ptr, at_off. cbn [fst snd]. rewrite app_length. cbn [length]. f_equal. lia. Qed.

(** After [past], with the tokens [toks] read: between tokens, in white space, or at the end of a
    word that is the last of [toks]. *)
Inductive ready (b : Z) : list Z -> list wtoken -> wlexer -> Prop :=
| rd_start past toks ts last st : ready b past toks (mkWLexer AtStart ts last st (location_after past) toks)
| rd_white past toks s ts last st : s = s_nl \/ s = s_space ->
    ready b past toks (mkWLexer (Inside s) ts last st (location_after past) toks)
| rd_word before k n toks s last : k = KName /\ s = s_name \/ k = KIdentifier /\ s = s_ident ->
    (exists n' c, n = n' ++ [c] /\ is_allowed c = true) ->
    ready b (before ++ n) (toks ++ [token_of b (k, before, n)])
      (mkWLexer (Inside s) (at_off b before) last (location_after before) (location_after (before ++ n)) toks).

(** In a word, or nothing is pending. *)
Definition in_word (lx : wlexer) : bool :=
  match wl_mode lx with
  | Inside [(WName, _)] | Inside [(WIdentifier, _)] => true
  | _ => false
  end.

(** From a ready state, a character that does not go on with what is pending is read as a first one. *)
Lemma ready_step b past toks lx c : ready b past toks lx ->
  (in_word lx = true -> is_allowed c = false) ->
  (exists lx', wstep (at_off b past) c lx = wfirst (at_off b past) c lx' /\ wl_loc lx' = location_after past /\ wl_out lx' = toks) \/
  (is_space c = true /\ exists lx', wstep (at_off b past) c lx = wtake false (at_off b past) c s_space lx' /\
     wl_loc lx' = location_after past /\ wl_out lx' = toks).
Proof.
  intros R W. destruct R as [past toks ts last st|past toks s ts last st S|before k n toks s last S Lc].
  - left. eexists. split; [reflexivity|]. auto.
  - destruct (is_space c) eqn:E.
    + right. split; auto. unfold wstep. cbn [wl_mode].
      assert (wadvance c s = s_space) as -> by (destruct S as [-> | ->]; rewrite ?adv_nl, ?adv_space, E; reflexivity).
      unfold s_space at 1. eexists. split; [reflexivity|]. auto.
    + left. unfold wstep. cbn [wl_mode].
      assert (wadvance c s = []) as -> by (destruct S as [-> | ->]; rewrite ?adv_nl, ?adv_space, E; reflexivity).
      destruct S as [-> | ->]; (eexists; split; [reflexivity|]; auto).
  - assert (A : is_allowed c = false) by (apply W; destruct S as [(_ & ->)|(_ & ->)]; reflexivity). left.
    unfold wstep. cbn [wl_mode].
    assert (wadvance c s = []) as -> by (destruct S as [(_ & ->)|(_ & ->)]; rewrite ?adv_name, ?adv_ident, A; reflexivity).
    destruct S as [(-> & ->)|(-> & ->)]; cbn [waccepts find s_name s_ident snd nullable option_map fst].
    + exists (mkWLexer AtStart (at_off b before) None (location_after before) (location_after (before ++ n))
        (toks ++ [token_of b (KName, before, n)])).
      split; [|auto]. unfold wemit, ptr_diff, at_off. cbn [fst snd wl_ts]. rewrite Z.eqb_refl. reflexivity.
    + exists (mkWLexer AtStart (at_off b before) None (location_after before) (location_after (before ++ n))
        (toks ++ [token_of b (KIdentifier, before, n)])).
      split; [|auto]. unfold wemit, ptr_diff, at_off. cbn [fst snd wl_ts]. rewrite Z.eqb_refl. reflexivity.
Qed.

Lemma run_cons p c w lx : wrun p (c :: w) lx = do lx <- wstep p c lx; wrun (next_ptr p) w lx.
Proof. reflexivity. Qed.

Lemma small_prefix w v : small (w ++ v) -> small w.
Proof. unfold small. rewrite app_length. lia. Qed.
Lemma small_mid w c v : small (w ++ c :: v) -> small (w ++ [c]).
Proof. unfold small. rewrite !app_length. cbn [length]. lia. Qed.

(** White space. *)
Lemma step_white b past toks lx c : small (past ++ [c]) -> ready b past toks lx -> is_space c = true ->
  exists lx', wstep (at_off b past) c lx = Ok lx' /\ ready b (past ++ [c]) toks lx' /\ in_word lx' = false.
Proof.
  intros Sm R Sp.
  assert (A : is_allowed c = false).
  { unfold is_allowed, is_alnum, is_digit, is_alpha, is_space in *. cbn [existsb]. lia. }
  destruct (ready_step b past toks lx c R ltac:(auto)) as [(lx' & -> & L & O)|(_ & lx' & -> & L & O)].
  - unfold wfirst. rewrite first_set, A, Sp.
    destruct (Z.eqb_spec c 40); [subst; discriminate|]. destruct (Z.eqb_spec c 41); [subst; discriminate|].
    destruct (Z.eqb_spec c 36); [subst; discriminate|].
    assert (T : forall s, s = s_nl \/ s = s_space ->
      exists lx'', match s with [] => Ok (mkWLexer Failed (at_off b past) None (wl_start lx') (wl_loc lx') (wl_out lx')) | _ :: _ =>
         wtake true (at_off b past) c s (mkWLexer AtStart (at_off b past) None (wl_start lx') (wl_loc lx') (wl_out lx')) end = Ok lx'' /\
      ready b (past ++ [c]) toks lx'' /\ in_word lx'' = false).
    { intros s Hs.
      assert (M : forall X Y : outcome wlexer, match s with [] => X | _ :: _ => Y end = Y) by (intros; destruct Hs as [->| ->]; reflexivity).
      rewrite M. unfold wtake.
      assert (existsb (fun x => tracks (fst x)) s = true) as -> by (destruct Hs as [->| ->]; reflexivity).
      assert (finished s = false) as -> by (destruct Hs as [->| ->]; reflexivity). cbn [wl_loc wl_last wl_out wl_ts].
      rewrite L, track_ok by auto. cbn [bind]. rewrite O.
      match goal with |- exists _, match _ with Some _ => _ | None => Ok ?r end = _ /\ _ => exists r end.
      split; [destruct (waccepts s); reflexivity|]. split; [|destruct Hs as [->| ->]; reflexivity]. now constructor. }
    destruct (c =? 10); [apply (T s_nl)|apply (T s_space)]; auto.
  - unfold wtake. cbn [s_space existsb tracks fst orb finished forallb snd andb]. rewrite L, track_ok by auto. cbn [bind].
    cbn [waccepts find snd nullable option_map]. eexists. split; [reflexivity|]. rewrite O. split; [|reflexivity]. constructor. auto.
Qed.

(** Parentheses. *)
Lemma step_paren b past toks lx c k : small (past ++ [c]) -> ready b past toks lx ->
  k = KLParen /\ c = 40 \/ k = KRParen /\ c = 41 ->
  exists lx', wstep (at_off b past) c lx = Ok lx' /\ ready b (past ++ [c]) (toks ++ [token_of b (k, past, [c])]) lx' /\ in_word lx' = false.
Proof.
  intros Sm R K.
  assert (A : is_allowed c = false) by (destruct K as [(_ & ->)|(_ & ->)]; reflexivity).
  destruct (ready_step b past toks lx c R ltac:(auto)) as [(lx' & -> & L & O)|(H & _)].
  2: { destruct K as [(_ & ->)|(_ & ->)]; discriminate. }
  pose proof (track_ok c past Sm) as T. rewrite <- L in T.
  unfold wfirst. rewrite first_set. destruct K as [(-> & ->)|(-> & ->)]; cbn [Z.eqb Pos.eqb]; unfold wtake;
    cbn [existsb marks tracks fst snd orb andb wl_loc wl_out wl_ts wl_start]; rewrite T; cbn [bind waccepts find snd nullable option_map finished forallb andb wemit fst];
    (eexists; split; [reflexivity|]); (split; [|reflexivity]);
    cbn [wl_loc wl_out wl_ts wl_start]; rewrite L, O; cbn [token_of]; match goal with |- context [next_ptr _] => idtac end;
    [rewrite (next_at b past 40)|rewrite (next_at b past 41)]; constructor.
Qed.

(** The rest of a word. *)
Lemma run_word b before k m toks s last : forall n, small (before ++ n ++ m) ->
  k = KName /\ s = s_name \/ k = KIdentifier /\ s = s_ident -> Forall (fun c => is_allowed c = true) m ->
  exists last', wrun (at_off b (before ++ n)) m
      (mkWLexer (Inside s) (at_off b before) last (location_after before) (location_after (before ++ n)) toks) =
    Ok (mkWLexer (Inside s) (at_off b before) last' (location_after before) (location_after (before ++ n ++ m)) toks).
Proof.
  revert last. induction m as [|c m IH]; intros last n Sm S F; [exists last; now rewrite app_nil_r|].
  inversion F as [|? ? Hc F']; subst. rewrite run_cons, (next_at b (before ++ n) c).
  assert (Sm1 : small ((before ++ n) ++ [c])) by (apply (small_mid _ c m); now rewrite <- app_assoc).
  unfold wstep. cbn [wl_mode].
  assert (wadvance c s = s) as -> by (destruct S as [(_ & ->)|(_ & ->)]; rewrite ?adv_name, ?adv_ident, Hc; reflexivity).
  assert (E : exists r s', s = r :: s') by (destruct S as [(_ & ->)|(_ & ->)]; eexists; eexists; reflexivity).
  destruct E as (r & s' & E). revert S. rewrite E. intros S. cbn iota. revert S. rewrite <- E. intros S. clear E r s'.
  unfold wtake. cbn [andb].
  assert (existsb (fun x => tracks (fst x)) s = true) as -> by (destruct S as [(_ & ->)|(_ & ->)]; reflexivity).
  assert (finished s = false) as -> by (destruct S as [(_ & ->)|(_ & ->)]; reflexivity). cbn [wl_loc wl_last wl_out wl_ts wl_start].
  rewrite track_ok by auto. cbn [bind].
  destruct (IH (match waccepts s with Some r => Some r | None => last end) (n ++ [c])) as (last' & G); auto; [now rewrite <- app_assoc|].
  rewrite <- !app_assoc in *. cbn [app] in G. exists last'. rewrite <- G. destruct (waccepts s); reflexivity.
Qed.

Lemma last_allowed n : n <> [] -> Forall (fun c => is_allowed c = true) n -> exists n' c, n = n' ++ [c] /\ is_allowed c = true.
Proof.
  intros N F. destruct (exists_last N) as (n' & c & ->). exists n', c. split; auto. apply Forall_app in F as (_ & F). now inversion F.
Qed.

(** A whole word. *)
Lemma run_new_word b past toks lx k n : small (past ++ n) -> ready b past toks lx ->
  (in_word lx = true -> match n with [] => True | c :: _ => is_allowed c = false end) ->
  k = KName /\ n <> [] /\ Forall (fun c => is_allowed c = true) n \/
  k = KIdentifier /\ (exists m, n = 36 :: m /\ m <> [] /\ Forall (fun c => is_allowed c = true) m) ->
  exists lx', wrun (at_off b past) n lx = Ok lx' /\ ready b (past ++ n) (toks ++ [token_of b (k, past, n)]) lx' /\
    wl_out lx' = toks /\ in_word lx' = true /\ wl_ts lx' = at_off b past.
Proof.
  intros Sm R W K. destruct n as [|c n]; [destruct K as [(_ & N & _)|(_ & m & E & _)]; easy|].
  pose proof (small_mid _ _ _ Sm) as Sm1. rewrite run_cons.
  destruct K as [(-> & _ & F)|(-> & m & E & N & F)].
  - inversion F as [|? ? Hc F']; subst.
    destruct (ready_step b past toks lx c R) as [(lx' & -> & L & O)|(H & _)]; auto.
    2: { exfalso. unfold is_allowed, is_alnum, is_digit, is_alpha, is_space in *. cbn [existsb] in *. lia. }
    unfold wfirst. rewrite first_set, Hc.
    destruct (Z.eqb_spec c 40); [subst; discriminate|]. destruct (Z.eqb_spec c 41); [subst; discriminate|].
    destruct (Z.eqb_spec c 10); [subst; discriminate|].
    unfold s_name at 1. unfold wtake. cbn [existsb marks tracks fst snd orb andb s_name wl_loc wl_out wl_ts wl_start finished forallb].
    rewrite L, track_ok by auto. cbn [bind waccepts find snd nullable option_map]. rewrite O, (next_at b past c).
    destruct (run_word b past KName n toks s_name (Some WName) [c]) as (last' & G); auto.
    eexists. split; [exact G|]. split; [|auto]. apply (rd_word b past KName (c :: n)); auto. now apply last_allowed.
  - assert (c = 36 /\ n = m) as (-> & ->) by (now injection E). clear E.
    destruct (ready_step b past toks lx 36 R) as [(lx' & -> & L & O)|(H & _)]; auto; [|discriminate].
    unfold wfirst. rewrite first_set. cbn [Z.eqb Pos.eqb]. change (is_allowed 36) with false. cbn iota.
    unfold s_dollar at 1. unfold wtake. cbn [existsb marks tracks fst snd orb andb s_dollar plus wl_loc wl_out wl_ts wl_start].
    rewrite L, track_ok by auto. change [(WIdentifier, plus (RChr is_allowed))] with s_dollar.
    change (waccepts s_dollar) with (@None wrule). cbn [bind wl_last]. rewrite O, (next_at b past 36).
    destruct m as [|c m]; [easy|]. pose proof (Forall_inv F) as Hc. pose proof (Forall_inv_tail F) as F'. cbn beta in Hc. rewrite run_cons. unfold wstep. cbn [wl_mode].
    rewrite adv_dollar, Hc.
    unfold s_ident at 1. unfold wtake. cbn [existsb marks tracks fst snd orb andb s_ident wl_loc wl_out wl_ts wl_start finished forallb].
    assert (Sm2 : small ((past ++ [36]) ++ [c])) by (apply (small_mid _ c m); rewrite <- app_assoc; exact Sm).
    rewrite track_ok by auto. cbn [bind waccepts find snd nullable option_map]. rewrite (next_at b (past ++ [36]) c).
    rewrite <- app_assoc. cbn [app].
    destruct (run_word b past KIdentifier m toks s_ident (Some WIdentifier) [36; c]) as (last' & G); auto.
    eexists. split; [exact G|]. split; [|auto]. apply (rd_word b past KIdentifier (36 :: c :: m)); auto.
    destruct (last_allowed (c :: m)) as (n' & c' & E & A); auto. exists (36 :: n'), c'. rewrite E. auto.
Qed.

Lemma run_app p w v lx : wrun p (w ++ v) lx =
  do lx <- wrun p w lx; wrun (fst p, snd p + Z.of_nat (length w)) v lx.
Proof.
  revert p lx. induction w as [|c w IH]; intros p lx.
  - cbn [app wrun bind length]. rewrite Z.add_0_r. now destruct p.
  - rewrite <- app_comm_cons, !run_cons. destruct (wstep p c lx) as [lx'| | | |]; cbn [bind]; auto.
    rewrite IH. unfold next_ptr. cbn [fst snd]. cbn [length]. destruct (wrun _ w lx') as [lx''| | | |]; cbn [bind]; auto.
    f_equal. f_equal. lia.
Qed.

Lemma run_app_at b past w v lx : wrun (at_off b past) (w ++ v) lx =
  do lx <- wrun (at_off b past) w lx; wrun (at_off b (past ++ w)) v lx.
Proof. rewrite run_app. unfold at_off. cbn [fst snd]. now rewrite app_length, Nat2Z.inj_add. Qed.

Lemma run_failed p w lx : wl_mode lx = Failed -> wrun p w lx = Ok lx.
Proof. intros M. revert p. induction w as [|c w IH]; intros p; auto. rewrite run_cons. unfold wstep. rewrite M. cbn [bind]. auto. Qed.

(** The end of the scanning: ready, or failed, or after a dollar sign. *)
Definition over (b : Z) (past : list Z) (toks : list wtoken) (lx : wlexer) : Prop :=
  ready b past toks lx \/
  wl_out lx = toks /\ (wl_mode lx = Failed \/ wl_mode lx = Inside s_dollar /\ wl_last lx = None).

Lemma lexes_run b past w ks tail : lexes past w ks tail -> forall toks lx, small (past ++ w) -> ready b past toks lx ->
  (in_word lx = true -> forall c w', w = c :: w' -> is_allowed c = false) ->
  exists lx', wrun (at_off b past) w lx = Ok lx' /\ over b (past ++ w) (toks ++ map (token_of b) ks) lx' /\
    (tail = [] -> ready b (past ++ w) (toks ++ map (token_of b) ks) lx').
Proof.
  induction 1 as [past|past c w ks tail Wh _ IH|past k c w ks tail K _ IH|past k n w ks tail K Nx _ IH|past c w N1 N2 N3 N4 N5];
    intros toks lx Sm R W.
  - exists lx. split; [reflexivity|]. cbn [map]. rewrite !app_nil_r. split; [now left|auto].
  - apply white_ok in Wh. pose proof (small_mid _ _ _ Sm) as Sm1.
    destruct (step_white b past toks lx c Sm1 R Wh) as (lx1 & E & R1 & I1). rewrite run_cons, E. cbn [bind]. rewrite (next_at b past c).
    destruct (IH toks lx1) as (lx' & E' & O' & Rt); auto; [now rewrite <- app_assoc|congruence|].
    exists lx'. rewrite <- app_assoc in *. auto.
  - assert (K' : k = KLParen /\ c = 40 \/ k = KRParen /\ c = 41).
    { destruct K as [(-> & E)|(-> & E)]; injection E as E; auto. }
    pose proof (small_mid _ _ _ Sm) as Sm1.
    destruct (step_paren b past toks lx c k Sm1 R K') as (lx1 & E & R1 & I1). rewrite run_cons, E. cbn [bind]. rewrite (next_at b past c).
    destruct (IH _ lx1 ltac:(now rewrite <- app_assoc) R1 ltac:(congruence)) as (lx' & E' & O' & Rt).
    exists lx'. rewrite <- !app_assoc in *. auto.
  - assert (Sm1 : small (past ++ n)) by (apply (small_prefix _ w); now rewrite <- app_assoc).
    assert (K' : k = KName /\ n <> [] /\ Forall (fun c => is_allowed c = true) n \/
      k = KIdentifier /\ (exists m, n = 36 :: m /\ m <> [] /\ Forall (fun c => is_allowed c = true) m)).
    { destruct K as [(-> & N & F)|(-> & m & E & N & F)]; [left|right].
      - split; auto. split; auto. eapply Forall_impl; [|exact F]. intros c. apply word_char_ok.
      - split; auto. exists m. split; auto. split; auto. eapply Forall_impl; [|exact F]. intros c. apply word_char_ok. }
    destruct (run_new_word b past toks lx k n Sm1 R) as (lx1 & E1 & R1 & _); auto.
    { intros I. destruct n as [|c n']; auto. apply (W I c (n' ++ w)). reflexivity. }
    rewrite run_app_at, E1. cbn [bind].
    destruct (IH _ lx1 ltac:(now rewrite <- app_assoc) R1) as (lx' & E' & O' & Rt).
    { intros _ c w' ->. specialize (Nx c w' eq_refl). rewrite word_char_ok in Nx. now destruct (is_allowed c). }
    exists lx'. rewrite <- !app_assoc in *. auto.
  - rewrite white_ok in N1. rewrite word_char_ok in N4. apply not_true_is_false in N1. apply not_true_is_false in N4.
    pose proof (small_mid _ _ _ Sm) as Sm1. cbn [map]. rewrite app_nil_r.
    destruct (ready_step b past toks lx c R ltac:(auto)) as [(lx' & E & L & O)|(H & _)]; [|congruence].
    rewrite run_cons, E. unfold wfirst. rewrite first_set, N1, N4.
    destruct (Z.eqb_spec c 40) as [->|M1]; [now destruct N2|]. destruct (Z.eqb_spec c 41) as [->|M2]; [now destruct N3|].
    destruct (Z.eqb_spec c 10) as [->|M3]; [discriminate|]. destruct (Z.eqb_spec c 36) as [->|M4].
    + unfold s_dollar at 1. unfold wtake. cbn [existsb marks tracks fst snd orb andb s_dollar plus wl_loc wl_out wl_ts wl_start].
      rewrite L, track_ok by auto. change [(WIdentifier, plus (RChr is_allowed))] with s_dollar.
      change (waccepts s_dollar) with (@None wrule). cbn [bind wl_last].
      destruct w as [|c' w].
      * eexists. split; [reflexivity|]. split; [|discriminate]. right. cbn [wl_out wl_mode wl_last]. split; auto.
      * specialize (N5 eq_refl c' w eq_refl). rewrite word_char_ok in N5. apply not_true_is_false in N5.
        rewrite run_cons. unfold wstep at 1. cbn [wl_mode].
        rewrite adv_dollar, N5. change (waccepts s_dollar) with (@None wrule). cbn [bind wl_last]. rewrite run_failed by reflexivity.
        eexists. split; [reflexivity|]. split; [|discriminate]. right. split; [exact O|]. now left.
    + cbn [bind]. rewrite run_failed by reflexivity. eexists. split; [reflexivity|]. split; [|discriminate]. right. split; [exact O|]. now left.
Qed.

Lemma over_finish b past toks lx : over b past toks lx ->
  exists lx', wfinish (at_off b past) lx = Ok lx' /\ wl_out lx' = toks.
Proof.
  intros [R|(O & [M|(M & La)])].
  - destruct R as [past toks ts last st|past toks s ts last st S|before k n toks s last S Lc].
    + eexists. split; reflexivity.
    + destruct S as [-> | ->]; (eexists; split; reflexivity).
    + destruct S as [(-> & ->)|(-> & ->)]; unfold wfinish; cbn [wl_mode waccepts find s_name s_ident snd nullable option_map fst];
        unfold wemit, ptr_diff, at_off; cbn [fst snd wl_ts]; rewrite Z.eqb_refl; cbn [bind]; (eexists; split; [reflexivity|]); reflexivity.
  - unfold wfinish. rewrite M. eauto.
  - unfold wfinish. rewrite M, La. cbn. eauto.
Qed.

(** Every text has its tokens. *)
Lemma split_word w : exists n v, w = n ++ v /\ Forall (fun c => is_allowed c = true) n /\
  (forall c w', v = c :: w' -> is_allowed c = false).
Proof.
  induction w as [|c w (n & v & -> & F & H)]; [exists [], []; easy|].
  destruct (is_allowed c) eqn:A.
  - exists (c :: n), v. auto.
  - exists [], (c :: n ++ v). split; auto. split; auto. intros c' w' E. injection E as <- _. exact A.
Qed.

Lemma lexes_total n : forall past w, (length w <= n)%nat -> exists ks tail, lexes past w ks tail.
Proof.
  induction n as [|n IH]; intros past w L.
  - destruct w; [|cbn in L; lia]. exists [], []. constructor.
  - destruct w as [|c w]; [exists [], []; constructor|]. cbn [length] in L.
    assert (Wd : forall n', Forall (fun c => is_allowed c = true) n' -> Forall word_char n').
    { intros n'. apply Forall_impl. intros x. apply word_char_ok. }
    destruct (is_space c) eqn:Sp.
    { destruct (IH (past ++ [c]) w) as (ks & tail & H); [lia|]. exists ks, tail. constructor; auto. now apply white_ok. }
    destruct (Z.eqb_spec c 40) as [->|N1].
    { destruct (IH (past ++ [40]) w) as (ks & tail & H); [lia|]. eexists _, tail. eapply (lx_paren past KLParen); eauto. }
    destruct (Z.eqb_spec c 41) as [->|N2].
    { destruct (IH (past ++ [41]) w) as (ks & tail & H); [lia|]. eexists _, tail. eapply (lx_paren past KRParen); eauto. }
    destruct (split_word w) as (m & v & -> & F & H).
    assert (Nx : forall c w', v = c :: w' -> ~ word_char c).
    { intros x w' E. rewrite word_char_ok, (H x w' E). discriminate. }
    rewrite app_length in L. destruct (is_allowed c) eqn:A.
    { destruct (IH (past ++ c :: m) v) as (ks & tail & G); [lia|]. eexists _, tail.
      apply (lx_word past KName (c :: m)); eauto. left. split; auto. split; [easy|]. apply Wd. auto. }
    destruct (Z.eqb_spec c 36) as [->|N3].
    { destruct m as [|d m].
      - cbn [app] in *. exists [], (36 :: v). apply lx_stop; try discriminate; auto.
        + now rewrite white_ok, Sp.
        + rewrite word_char_ok. discriminate.
      - destruct (IH (past ++ 36 :: d :: m) v) as (ks & tail & G); [lia|]. eexists _, tail.
        apply (lx_word past KIdentifier (36 :: d :: m)); eauto. right. split; auto. exists (d :: m). split; auto. split; [easy|]. now apply Wd. }
    exists [], (c :: m ++ v). apply lx_stop.
    + now rewrite white_ok, Sp.
    + intros E. injection E as E. now apply N1.
    + intros E. injection E as E. now apply N2.
    + rewrite word_char_ok, A. discriminate.
    + intros E. injection E as E. now exfalso; apply N3.
Qed.
