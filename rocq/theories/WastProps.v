(** Theorems about the lexer of the WebAssembly text format: C111 to C116. *)

From Coq Require Import String ZArith List Bool Lia ZifyBool.
From Verif Require Import Outcome LexModel SpellSpec SpellProps WastModel WastSpec WastProofs WastPieces.
Import ListNotations.
Local Open Scope Z_scope.

(** The tokens that lexing gives. *)
Definition gives (r : outcome wlexer) (toks : list wtoken) : Prop :=
  exists lx, r = Ok lx /\ wl_out lx = toks.

Lemma ready_new b : ready b [] [] (new_wlexer start_loc).
Proof. exact (rd_start b [] [] (0, 0) None start_loc). Qed.

Lemma end_ptr b w : (fst (b, 0), snd (b, 0) + Z.of_nat (length w)) = at_off b w.
Proof. reflexivity. Qed.

(** ** C111 *)

Theorem C111_tokens_and_locations b text : Z.of_nat (length text) + 1 < 2 ^ 31 ->
  (exists ks tail, lexes [] text ks tail) /\
  forall ks tail, lexes [] text ks tail ->
    gives (wlex (b, 0) text true (new_wlexer start_loc)) (map (token_of b) ks).
Proof.
  intros Sm. split; [now apply (lexes_total (length text))|]. intros ks tail L.
  destruct (lexes_run b [] text ks tail L [] (new_wlexer start_loc) Sm (ready_new b)) as (lx & E & O & _); [discriminate|].
  destruct (over_finish b _ _ _ O) as (lx' & F & T). exists lx'. split; auto. unfold wlex. change (b, 0) with (at_off b []). rewrite E. cbn [bind].
  exact F.
Qed.

(** The tokens of a text are determined. *)
Theorem C111_one_reading text ks tail ks' tail' : Z.of_nat (length text) + 1 < 2 ^ 31 ->
  lexes [] text ks tail -> lexes [] text ks' tail' -> map (token_of 0) ks = map (token_of 0) ks'.
Proof.
  intros Sm L L'. destruct (C111_tokens_and_locations 0 text Sm) as (_ & H).
  destruct (H _ _ L) as (lx & E & O). destruct (H _ _ L') as (lx' & E' & O'). congruence.
Qed.

Example C111_case :
  wlex (7, 0) (chars "(module" ++ [10] ++ chars " $f i32.add)") true (new_wlexer start_loc) =
  Ok (mkWLexer AtStart (7, 19) None (mkLoc 19 2 12) (mkLoc 20 2 13)
    [ mkWTok KLParen (mkRange (mkLoc 0 1 1) (mkLoc 1 1 2)) (7, 0) (7, 1);
      mkWTok KName (mkRange (mkLoc 1 1 2) (mkLoc 7 1 8)) (7, 1) (7, 7);
      mkWTok KIdentifier (mkRange (mkLoc 9 2 2) (mkLoc 11 2 4)) (7, 9) (7, 11);
      mkWTok KName (mkRange (mkLoc 12 2 5) (mkLoc 19 2 12)) (7, 12) (7, 19);
      mkWTok KRParen (mkRange (mkLoc 19 2 12) (mkLoc 20 2 13)) (7, 19) (7, 20)]).
Proof. reflexivity. Qed.

(** ** C112 *)

Lemma consecutive_all b pieces : forall off lx, pieces <> [] ->
  wlex_all (consecutive b off pieces) lx = wlex (b, off) (concat pieces) true lx.
Proof.
  induction pieces as [|w pieces IH]; intros off lx N; [easy|]. destruct pieces as [|w' pieces].
  - cbn [consecutive wlex_all concat]. rewrite app_nil_r. destruct (wlex (b, off) w true lx); reflexivity.
  - change (consecutive b off (w :: w' :: pieces)) with (((b, off), w, false) :: consecutive b (off + Z.of_nat (length w)) (w' :: pieces)).
    change (concat (w :: w' :: pieces)) with (w ++ concat (w' :: pieces)).
    set (ps := w' :: pieces) in *. cbn [wlex_all]. unfold wlex at 1 2. rewrite run_app. cbn [fst snd].
    destruct (wrun (b, off) w lx) as [lx'| | | |]; cbn [bind]; auto. rewrite IH by discriminate. unfold wlex. cbn [fst snd].
    destruct (wrun _ (concat ps) lx') as [lx''| | | |]; cbn [bind]; auto. f_equal. rewrite app_length. f_equal. lia.
Qed.

Theorem C112_pieces_of_one_buffer b pieces lx : pieces <> [] ->
  wlex_all (consecutive b 0 pieces) lx = wlex (b, 0) (concat pieces) true lx.
Proof. apply consecutive_all. Qed.

Corollary C112_the_same_tokens b pieces ks tail : pieces <> [] -> Z.of_nat (length (concat pieces)) + 1 < 2 ^ 31 ->
  lexes [] (concat pieces) ks tail ->
  gives (wlex_all (consecutive b 0 pieces) (new_wlexer start_loc)) (map (token_of b) ks).
Proof.
  intros N Sm L. rewrite C112_pieces_of_one_buffer by auto. destruct (C111_tokens_and_locations b _ Sm) as (_ & H). now apply (H ks tail).
Qed.

Example C112_case :
  gives (wlex_all (consecutive 3 0 [chars "(i3"; chars "2.ad"; chars "d)"]) (new_wlexer start_loc))
    [token_of 3 (KLParen, [], chars "("); token_of 3 (KName, chars "(", chars "i32.add"); token_of 3 (KRParen, chars "(i32.add", chars ")")].
Proof. eexists. split; [vm_compute; reflexivity|reflexivity]. Qed.

(** ** C113: pieces in different buffers *)

(** Every word that lies in two buffers. *)
Theorem C113_word_in_two_buffers_refuted b b' n n' rest : b <> b' ->
  n <> [] -> n' <> [] -> Forall word_char n -> Forall word_char n' ->
  (forall c w, rest = c :: w -> ~ word_char c) -> Z.of_nat (length (n ++ n')) + 1 < 2 ^ 31 ->
  wlex_all [((b, 0), n, false); ((b', 0), n' ++ rest, true)] (new_wlexer start_loc) = UB OutOfBounds.
Proof.
  intros Nb N N' F F' Rs Sm.
  assert (Wd : forall m, Forall word_char m -> Forall (fun c => is_allowed c = true) m).
  { intros m. apply Forall_impl. intros x. apply word_char_ok. }
  apply Wd in F, F'. cbn [wlex_all]. unfold wlex at 1. change (b, 0) with (at_off b []).
  destruct n as [|c n]; [easy|]. inversion F as [|? ? Hc Fn]; subst. rewrite run_cons. unfold wstep. cbn [wl_mode new_wlexer].
  unfold wfirst. rewrite first_set, Hc.
  destruct (Z.eqb_spec c 40); [subst; discriminate|]. destruct (Z.eqb_spec c 41); [subst; discriminate|].
  destruct (Z.eqb_spec c 10); [subst; discriminate|].
  unfold s_name at 1. unfold wtake. cbn [existsb marks tracks fst snd orb andb s_name wl_loc wl_out wl_ts wl_start finished forallb].
  cbn [new_wlexer wl_loc wl_start wl_out]. change start_loc with (location_after []).
  rewrite track_ok. 2: { unfold small. rewrite app_length in Sm. cbn [length] in Sm. change (length ([] ++ [c])) with 1%nat. lia. }
  cbn [bind waccepts find snd nullable option_map]. rewrite (next_at b [] c).
  destruct (run_word b [] KName n [] s_name (Some WName) [c]) as (last & G); auto.
  { unfold small. rewrite !app_length in *. cbn [length app] in *. lia. }
  change ([] ++ [c]) with [c] in *. change ([] ++ [c] ++ n) with (c :: n) in G.
  match goal with |- context [wrun ?p n ?X] => assert (wrun p n X = Ok (mkWLexer (Inside s_name) (at_off b []) last (location_after [])
    (location_after (c :: n)) [])) as -> by exact G end.
  cbn [bind]. clear G. unfold wlex. rewrite run_app.
  (* the second buffer: the word goes on *)
  assert (G2 : forall m w last p, small (w ++ m) -> Forall (fun c => is_allowed c = true) m ->
    exists last', wrun p m (mkWLexer (Inside s_name) (at_off b []) last (location_after []) (location_after w) []) =
      Ok (mkWLexer (Inside s_name) (at_off b []) last' (location_after []) (location_after (w ++ m)) [])).
  { clear. induction m as [|c m IH]; intros w last p Sm F; [exists last; now rewrite app_nil_r|].
    inversion F as [|? ? Hc F']; subst. rewrite run_cons. unfold wstep. cbn [wl_mode]. rewrite adv_name, Hc. unfold s_name at 1. unfold wtake.
    cbn [existsb marks tracks fst snd orb andb s_name wl_loc wl_out wl_ts wl_start finished forallb].
    rewrite track_ok by (apply (small_mid _ c m); exact Sm). cbn [bind waccepts find snd nullable option_map].
    destruct (IH (w ++ [c]) (Some WName) (next_ptr p)) as (last' & G); auto; [now rewrite <- app_assoc|]. exists last'. rewrite <- app_assoc in G. exact G. }
  destruct (G2 n' (c :: n) last (b', 0)) as (last' & ->); auto. cbn [bind fst snd]. rewrite Z.add_0_l.
  assert (D : fst (b', Z.of_nat (length n')) =? fst (at_off b []) = false) by (cbn; lia).
  destruct rest as [|d rest].
  - cbn [wrun bind]. unfold wfinish. cbn [wl_mode waccepts find s_name snd nullable option_map fst]. unfold wemit, ptr_diff. cbn [wl_ts].
    assert (fst (b', 0 + Z.of_nat (length (n' ++ []))) =? fst (at_off b []) = false) as E by (cbn; lia). cbn [fst] in E |- *. rewrite E. reflexivity.
  - specialize (Rs d rest eq_refl). rewrite word_char_ok in Rs. apply not_true_is_false in Rs.
    rewrite run_cons. unfold wstep. cbn [wl_mode]. rewrite adv_name, Rs. cbn [waccepts find s_name snd nullable option_map fst].
    unfold wemit, ptr_diff. cbn [wl_ts]. rewrite D. reflexivity.
Qed.

Example C113_case : wlex_all [((1, 0), chars "i32", false); ((2, 0), chars ".add)", true)] (new_wlexer start_loc) = UB OutOfBounds.
Proof. reflexivity. Qed.

(** What holds: when no word lies in two pieces (every piece but the last is made of whole tokens and
    white space and ends in white space or a paren), the tokens and their locations are those of the
    whole text, and each token points into the buffer of its own piece. *)
Theorem C113_words_not_divided_partial pieces toks : lexes_pieces [] pieces toks ->
  Z.of_nat (length (concat (map snd pieces))) + 1 < 2 ^ 31 ->
  gives (wlex_all (in_buffers pieces) (new_wlexer start_loc)) toks.
Proof.
  intros L Sm. destruct (lexes_pieces_run [] pieces toks L [] (new_wlexer start_loc)) as (lx & E & O).
  - exact Sm.
  - unfold idle. conjs; [exact I|intros b; apply ready_new|reflexivity].
  - exists lx. auto.
Qed.

Example C113_whole_words_case :
  lexes_pieces [] [(1, chars "(nop "); (2, chars "i32.add)")]
    [mkWTok KLParen (mkRange (mkLoc 0 1 1) (mkLoc 1 1 2)) (1, 0) (1, 1);
     mkWTok KName (mkRange (mkLoc 1 1 2) (mkLoc 4 1 5)) (1, 1) (1, 4);
     mkWTok KName (mkRange (mkLoc 5 1 6) (mkLoc 12 1 13)) (2, 0) (2, 7);
     mkWTok KRParen (mkRange (mkLoc 12 1 13) (mkLoc 13 1 14)) (2, 7) (2, 8)].
Proof.
  assert (W : forall n, forallb is_allowed n = true -> Forall word_char n).
  { intros n H. apply Forall_forall. intros x Hx. apply word_char_ok. rewrite forallb_forall in H. auto. }
  refine (lp_more [] 1 (chars "(nop") 32 _ [(KLParen, [], chars "("); (KName, chars "(", chars "nop")]
    (map (token_in 2 5) [(KName, chars "(nop ", chars "i32.add"); (KRParen, chars "(nop i32.add", chars ")")]) _ _ _).
  - refine (lx_paren [] KLParen 40 _ _ _ (or_introl (conj eq_refl eq_refl)) _).
    refine (lx_word (chars "(") KName (chars "nop") (chars " ") _ _ _ _ _).
    + left. split; [reflexivity|]. split; [discriminate|]. apply W. reflexivity.
    + intros c w' H. injection H as <- <-. rewrite word_char_ok. discriminate.
    + refine (lx_white _ 32 [] _ _ _ (lx_end _)). apply white_ok. reflexivity.
  - rewrite word_char_ok. discriminate.
  - refine (lp_last _ 2 (chars "i32.add)") _ [] _).
    refine (lx_word (chars "(nop ") KName (chars "i32.add") (chars ")") _ _ _ _ _).
    + left. split; [reflexivity|]. split; [discriminate|]. apply W. reflexivity.
    + intros c w' H. injection H as <- <-. rewrite word_char_ok. discriminate.
    + refine (lx_paren _ KRParen 41 [] _ _ (or_intror (conj eq_refl eq_refl)) (lx_end _)).
Qed.

(** ** C114: comments and strings *)

(** [lexes] of a text that begins with neither a space, a paren, a word nor an identifier. *)
Lemma drop_all b c rest : ~ white c -> [c] <> chars "(" -> [c] <> chars ")" -> [c] <> chars "$" -> ~ word_char c ->
  Z.of_nat (length (c :: rest)) + 1 < 2 ^ 31 -> gives (wlex (b, 0) (c :: rest) true (new_wlexer start_loc)) [].
Proof.
  intros H1 H2 H3 H4 H5 Sm. destruct (C111_tokens_and_locations b _ Sm) as (_ & H). apply (H [] (c :: rest)). apply lx_stop; tauto.
Qed.

Ltac notin := rewrite ?white_ok, ?word_char_ok; discriminate.

Theorem C114_line_comment_refuted b comment rest : Z.of_nat (length (chars ";" ++ comment ++ [newline] ++ rest)) + 1 < 2 ^ 31 ->
  gives (wlex (b, 0) (chars ";" ++ comment ++ [newline] ++ rest) true (new_wlexer start_loc)) [].
Proof. intros Sm. apply drop_all; auto; notin. Qed.

Theorem C114_block_comment_refuted b comment rest : Z.of_nat (length (chars "(;" ++ comment ++ chars ";)" ++ rest)) + 1 < 2 ^ 31 ->
  gives (wlex (b, 0) (chars "(;" ++ comment ++ chars ";)" ++ rest) true (new_wlexer start_loc)) [token_of b (KLParen, [], chars "(")].
Proof.
  intros Sm. destruct (C111_tokens_and_locations b _ Sm) as (_ & H).
  apply (H [(KLParen, [], chars "(")] (chars ";" ++ comment ++ chars ";)" ++ rest)).
  apply (lx_paren [] KLParen 40); [left; split; reflexivity|]. apply lx_stop; try notin.
Qed.

Theorem C114_string_refuted b s rest : Z.of_nat (length ([quote] ++ s ++ [quote] ++ rest)) + 1 < 2 ^ 31 ->
  gives (wlex (b, 0) ([quote] ++ s ++ [quote] ++ rest) true (new_wlexer start_loc)) [].
Proof. intros Sm. apply drop_all; auto; notin. Qed.

Example C114_case : gives (wlex (1, 0) (chars "(module ;; nothing" ++ [newline] ++ chars "(func))") true (new_wlexer start_loc))
  [token_of 1 (KLParen, [], chars "("); token_of 1 (KName, chars "(", chars "module")].
Proof. eexists. split; [vm_compute; reflexivity|reflexivity]. Qed.

(** ** C115: text that is not of the language *)

(** After any text, from the first character that begins no token on: nothing, and no error. *)
Theorem C115_bad_text_reported_refuted b before ks c rest :
  Z.of_nat (length (before ++ c :: rest)) + 1 < 2 ^ 31 ->
  lexes [] before ks [] -> ~ white c -> [c] <> chars "(" -> [c] <> chars ")" -> [c] <> chars "$" -> ~ word_char c ->
  gives (wlex (b, 0) (before ++ c :: rest) true (new_wlexer start_loc)) (map (token_of b) ks).
Proof.
  intros Sm L H1 H2 H3 H4 H5.
  destruct (C111_tokens_and_locations b _ Sm) as (_ & H). apply (H ks (c :: rest)). clear H.
  enough (G : forall past w ks tail, lexes past w ks tail -> tail = [] -> lexes past (w ++ c :: rest) ks (c :: rest)) by (now apply (G [] before ks [])).
  clear - H1 H2 H3 H4 H5. induction 1 as [past|past d w ks tail Wh _ IH|past k d w ks tail K _ IH|past k n w ks tail K Nx _ IH|past d w]; intros E; try discriminate E.
  - cbn [app]. apply lx_stop; auto; intros E'; now exfalso; apply H4.
  - rewrite <- app_comm_cons. apply lx_white; auto.
  - rewrite <- app_comm_cons. apply lx_paren; auto.
  - rewrite <- app_assoc. apply lx_word; auto. intros d w' Ew. destruct w as [|d' w]; cbn [app] in Ew; injection Ew as <- _; eauto.
Qed.

Example C115_case : gives (wlex (1, 0) (chars "(add @ 1)") true (new_wlexer start_loc))
  [token_of 1 (KLParen, [], chars "("); token_of 1 (KName, chars "(", chars "add")].
Proof. eexists. split; [vm_compute; reflexivity|reflexivity]. Qed.

(** ** C116: the end of the input that is not announced *)

Lemma lexes_ready b w ks : small w -> lexes [] w ks [] ->
  exists lx, wrun (b, 0) w (new_wlexer start_loc) = Ok lx /\ ready b w (map (token_of b) ks) lx.
Proof.
  intros Sm L. destruct (lexes_run b [] w ks [] L [] (new_wlexer start_loc) Sm (ready_new b)) as (lx & E & _ & R); [discriminate|].
  exists lx. auto.
Qed.

(** A text whose last character belongs to no word: all its tokens come without the announcement. *)
Theorem C116_closed_text_partial b w ks c : Z.of_nat (length (w ++ [c])) + 1 < 2 ^ 31 ->
  lexes [] (w ++ [c]) ks [] -> ~ word_char c ->
  gives (wlex (b, 0) (w ++ [c]) false (new_wlexer start_loc)) (map (token_of b) ks).
Proof.
  intros Sm L Nc. destruct (lexes_ready b _ ks Sm L) as (lx & E & R). exists lx. unfold wlex. rewrite E. split; [reflexivity|].
  remember (w ++ [c]) as v eqn:Ev. destruct R as [past toks ts last st|past toks s ts last st S|before k n toks s last S (n' & c' & -> & A)]; auto.
  exfalso. rewrite app_assoc in Ev. apply app_inj_tail in Ev as (_ & ->). now rewrite word_char_ok in Nc.
Qed.

(** Otherwise the last word is lost. *)
Theorem C116_last_word_refuted b w ks n : Z.of_nat (length (w ++ n)) + 1 < 2 ^ 31 ->
  lexes [] w ks [] -> (w = [] \/ exists w' c, w = w' ++ [c] /\ ~ word_char c) -> n <> [] -> Forall word_char n ->
  lexes [] (w ++ n) (ks ++ [(KName, w, n)]) [] /\
  gives (wlex (b, 0) (w ++ n) false (new_wlexer start_loc)) (map (token_of b) ks).
Proof.
  intros Sm L W N F. split.
  - enough (G : forall past v ks tail, lexes past v ks tail -> tail = [] ->
      (v = [] \/ exists v' c, v = v' ++ [c] /\ ~ word_char c) -> lexes past (v ++ n) (ks ++ [(KName, past ++ v, n)]) []) by (now apply (G [] w ks [])).
    clear - N F. induction 1 as [past|past d w ks tail Wh _ IH|past k d w ks tail K _ IH|past k m w ks tail K Nx L IH|past d w]; intros E W; try discriminate E.
    + cbn [app]. rewrite app_nil_r. rewrite <- (app_nil_r n) at 1. apply lx_word; [left; auto|discriminate|constructor].
    + rewrite <- app_comm_cons. apply lx_white; auto. specialize (IH E). rewrite <- app_assoc in IH. apply IH.
      destruct W as [W|(v' & c & Ew & Hc)]; [discriminate|]. destruct v' as [|x v']; cbn [app] in Ew; injection Ew as -> ->; eauto.
    + rewrite <- !app_comm_cons. apply lx_paren; auto. specialize (IH E). rewrite <- app_assoc in IH. apply IH.
      destruct W as [W|(v' & c & Ew & Hc)]; [discriminate|]. destruct v' as [|x v']; cbn [app] in Ew; injection Ew as -> ->; eauto.
    + rewrite <- app_assoc, <- !app_comm_cons.
      destruct w as [|x w].
      * exfalso. rewrite app_nil_r in W. destruct W as [W|(v' & c & Ew & Hc)].
        { subst m. destruct K as [(_ & H & _)|(_ & m' & H & _)]; [easy|discriminate]. }
        apply Hc. destruct K as [(_ & _ & Fm)|(_ & m' & -> & Nm & Fm)].
        { subst m. apply Forall_app in Fm as (_ & Fm). now inversion Fm. }
        destruct (exists_last Nm) as (m'' & c' & ->). rewrite app_assoc in Ew. apply app_inj_tail in Ew as (_ & <-).
        apply Forall_app in Fm as (_ & Fm). now inversion Fm.
      * apply lx_word; auto.
        { intros c' w' Ew. cbn [app] in Ew. injection Ew as <- _. eauto. }
        specialize (IH E). rewrite <- app_assoc in IH. apply IH. right. destruct (@exists_last _ (x :: w)) as (v' & c & Ew); [easy|].
        exists v', c. split; auto. destruct W as [W|(v'' & c'' & Ew' & Hc)]; [destruct m; discriminate|].
        rewrite Ew, app_assoc in Ew'. apply app_inj_tail in Ew' as (_ & ->). exact Hc.
  - assert (Sm' : small w) by (apply (small_prefix w n); exact Sm).
    destruct (lexes_ready b _ ks Sm' L) as (lx & E & R).
    destruct (run_new_word b w (map (token_of b) ks) lx KName n) as (lx' & E' & _ & O & _); auto.
    + intros I. exfalso. destruct R as [past toks ts last st|past toks s ts last st S|before k m toks s last S (m' & c' & -> & A)].
      * discriminate I.
      * destruct S as [-> | ->]; discriminate I.
      * destruct W as [W|(v' & c & Ew & Hc)]; [destruct before, m'; discriminate W|]. rewrite app_assoc in Ew. apply app_inj_tail in Ew as (_ & ->).
        now rewrite word_char_ok in Hc.
    + left. split; auto. split; auto. eapply Forall_impl; [|exact F]. intros x. apply word_char_ok.
    + exists lx'. split; auto. unfold wlex. rewrite run_app, E. cbn [bind]. change (fst (b, 0), snd (b, 0) + Z.of_nat (length w)) with (at_off b w).
      rewrite E'. reflexivity.
Qed.

Example C116_case :
  gives (wlex (1, 0) (chars "nop i32.add") false (new_wlexer start_loc)) [token_of 1 (KName, [], chars "nop")] /\
  gives (wlex (1, 0) (chars "nop i32.add") true (new_wlexer start_loc))
    [token_of 1 (KName, [], chars "nop"); token_of 1 (KName, chars "nop ", chars "i32.add")].
Proof. split; (eexists; split; [vm_compute; reflexivity|reflexivity]). Qed.

Print Assumptions C111_tokens_and_locations.
Print Assumptions C111_one_reading.
Print Assumptions C112_pieces_of_one_buffer.
Print Assumptions C112_the_same_tokens.
Print Assumptions C113_word_in_two_buffers_refuted.
Print Assumptions C113_words_not_divided_partial.
Print Assumptions C114_line_comment_refuted.
Print Assumptions C114_block_comment_refuted.
Print Assumptions C114_string_refuted.
Print Assumptions C115_bad_text_reported_refuted.
Print Assumptions C116_closed_text_partial.
Print Assumptions C116_last_word_refuted.
