(** Theorems about the EDN parser: C27, C28, C29, C70, C71, C72. *)

From Coq Require Import String ZArith List Bool Lia Permutation SpecFloat.
From Verif Require Import Outcome HashModel TablesModel TablesProofs IrModel IrSpec IrProofs IrProps
  LexModel LexSpec LexProofs LexRun LexTiles LexProps ParseModel ParseSpec ParseProofs ParseShow ParseReads ParseText.
Import ListNotations.
Local Open Scope Z_scope.
Local Open Scope list_scope.

(** * The start of a parse *)

Lemma parse_start pow10 text ts tail : tiles pow10 0 text ts tail ->
  exists e lxe t lx, next pow10 (new_lexer new_line_info text) = Ok (t, lx) /\
    forall log syms, feed pow10 text e lxe (mkP lx t log syms) ts.
Proof.
  intros T. destruct (tiles_streams _ _ _ _ _ T _ (at_text_new new_line_info text)) as (e & lxe & S & Tx & _).
  inversion S as [lx e0 lx' Hn He|lx t lx1 ts0 e0 lx' Hn He St]; subst.
  - exists e, lxe, e, lxe. split; auto. intros. split; cbn; [exact Tx|]. auto.
  - exists e, lxe, t, lx1. split; auto. intros. split; cbn; [apply next_text in Hn; exact Hn|]. auto.
Qed.

Lemma interned_srep ss : Z.of_nat (length ss) < 2 ^ 64 -> exists l, srep (fst (intern_all empty_symtab ss)) l /\ (length l <= length ss)%nat.
Proof.
  intros H. destruct (intern_all_spec ss empty_symtab [] empty_srep ltac:(cbn [length]; lia)) as (t & ks & E & R & _). rewrite E. cbn [fst].
  eexists. split; [exact R|]. clear. assert (G : forall ss l, (length (fold_left add_name ss l) <= length l + length ss)%nat).
  { clear. induction ss as [|s ss IH]; intros l; cbn [fold_left length]; [lia|]. specialize (IH (add_name l s)). pose proof (add_name_len l s). lia. }
  apply (G ss []).
Qed.

(** * C29 *)

(** For every list of trees, every text that writes them (any white space and comments between the
    words, any spelling of the numbers and strings): the document consists of their nodes and the log is
    empty.  The table of symbols may come from any history; names known before keep their numbers. *)
Theorem C29_written_trees_are_parsed pow10 sh place ss trees ws text :
  hash_respects_reals sh -> (forall x es, Permutation (place x es) (x :: es)) ->
  writes_all pow10 trees ws -> written ws text -> Forall tgood trees ->
  Z.of_nat (length ss) + Z.of_nat (length ws) < 2 ^ 64 ->
  let syms := fst (intern_all empty_symtab ss) in
  exists doc, (forall fuel, (3 * length ws + 4 <= fuel)%nat -> parse pow10 sh place fuel syms text = Ok doc) /\
    doc_log doc = [] /\ Forall2 (shows (doc_syms doc)) (doc_nodes doc) trees /\
    (forall i s, sym_id syms s = Ok i -> sym_id (doc_syms doc) s = Ok i /\ sym_string (doc_syms doc) i = Ok s).
Proof.
  intros Hsh Hp W Wr G Len syms. destruct (interned_srep ss ltac:(lia)) as (l & R & Ll).
  destruct (written_spells pow10 trees ws text W Wr) as (toks & T & Sp & Lt).
  destruct (parse_start _ _ _ _ T) as (e & lxe & t & lx & Hn & F). specialize (F [] syms).
  pose proof (proj2 (spelled_is_read pow10 sh place text e lxe Hp Hsh) _ _ Sp G) as P.
  destruct (top_reads pow10 sh place text e lxe _ _ P _ l [] F R) as (ns & s' & m & S & (Q1 & Q2 & Q3 & Q4) & Sh).
  { unfold room. rewrite Lt. lia. }
  exists (mkDoc ns (lx_lines (ps_lx s')) (ps_log s') (ps_syms s')). split; [|cbn [doc_log doc_syms doc_nodes]; split; [exact Q2|split; [exact Sh|]]].
  - intros fuel Hf. unfold parse. rewrite Hn. cbn [bind]. destruct (S fuel) as [E|(L & _)]; [|rewrite Lt in L; lia].
    cbn beta in E. rewrite E. reflexivity.
  - intros i s H. apply (sym_id_spec syms l s R) in H as (k & -> & Hk).
    assert (nth_error (l ++ m) k = Some s) by (rewrite nth_error_app1; auto; apply nth_error_Some; congruence).
    split; [apply (sym_id_spec _ (l ++ m) s Q3); eauto|eapply sym_string_spec; eauto].
Qed.
Print Assumptions C29_written_trees_are_parsed.

(** Conversely: when the log is empty, the tokens of the text spell the trees that the nodes of the
    document show — every bracket matched by its kind, every key followed by a value — and, in maps with
    simple keys, no key occurs twice. *)
Theorem C29_a_quiet_parse_is_what_the_text_says pow10 sh place ss text ts tail fuel doc :
  hash_respects_reals sh -> (forall x es, Permutation (place x es) (x :: es)) ->
  tiles pow10 0 text ts tail -> Z.of_nat (length ss) + Z.of_nat (length ts) < 2 ^ 64 ->
  parse pow10 sh place fuel (fst (intern_all empty_symtab ss)) text = Ok doc -> doc_log doc = [] ->
  exists trees, spells_all text trees ts /\ Forall2 (shows (doc_syms doc)) (doc_nodes doc) trees /\
    Forall (fun t => tkeyed t -> tgood t) trees.
Proof.
  intros Hsh Hp T Len E Lg. destruct (interned_srep ss ltac:(lia)) as (l & R & Ll).
  destruct (parse_start _ _ _ _ T) as (e & lxe & t & lx & Hn & F). specialize (F [] (fst (intern_all empty_symtab ss))).
  unfold parse in E. rewrite Hn in E. cbn [bind] in E. apply bind_ok in E as ([nodes s'] & E & D). injection D as <-.
  destruct (parse_loop_sound pow10 sh place text e lxe Hp Hsh fuel _ _ l _ _ _ F R ltac:(unfold room; lia) E)
    as (pre & ts' & extra & m & Ets & F' & L' & R' & _ & H).
  cbn [doc_log doc_nodes doc_syms ps_log app] in *. rewrite Lg in L'. destruct extra; [|discriminate].
  destruct (H eq_refl) as (-> & trs & ns & -> & Sp & Sh & Tg). exists trs. auto.
Qed.
Print Assumptions C29_a_quiet_parse_is_what_the_text_says.

(** Tokens spell at most one list of trees. *)
Lemma spelling_prefix text :
  (forall t a, spells text t a -> forall t' a' x x', spells text t' a' -> a ++ x = a' ++ x' -> t = t' /\ a = a') /\
  (forall l a, spells_all text l a -> forall l' a' x x', spells_all text l' a' -> a ++ x = a' ++ x' ->
     match x with [] => True | c :: _ => is_closer (tk_data c) = true end ->
     match x' with [] => True | c :: _ => is_closer (tk_data c) = true end -> l = l' /\ a = a').
Proof.
  assert (Flat : forall es es', flat es = flat es' -> es = es').
  { induction es as [|[k v] es IH]; intros [|[k' v'] es'] E; cbn in E; try discriminate; auto. injection E as -> -> E. f_equal. auto. }
  assert (Atom : forall t k, tk_data k <> TkLParen /\ tk_data k <> TkLBracket /\ tk_data k <> TkLBrace ->
     (forall t', spells text t' [k] -> t = t') ->
     forall t' a' x x', spells text t' a' -> [k] ++ x = a' ++ x' -> t = t' /\ [k] = a').
  { intros t k (N1 & N2 & N3) U t' a' x x' S E. assert (a' = [k]) as ->.
    { destruct S; cbn [app] in E; injection E as -> E; try reflexivity; congruence. }
    split; auto. }
  apply (spells_both text
    (fun t a => forall t' a' x x', spells text t' a' -> a ++ x = a' ++ x' -> t = t' /\ a = a')
    (fun l a => forall l' a' x x', spells_all text l' a' -> a ++ x = a' ++ x' ->
     match x with [] => True | c :: _ => is_closer (tk_data c) = true end ->
     match x' with [] => True | c :: _ => is_closer (tk_data c) = true end -> l = l' /\ a = a')).
  - intros k D. apply Atom; [conjs; congruence|]. intros t' S. inversion S as [| | | |? Hd| | | |]; subst; try congruence; destruct Hd; congruence.
  - intros k b D. apply Atom; [conjs; congruence|]. intros t' S. inversion S as [| | | |? Hd| | | |]; subst; try congruence; destruct Hd; congruence.
  - intros k v D. apply Atom; [conjs; congruence|]. intros t' S. inversion S as [| | | |? Hd| | | |]; subst; try congruence; destruct Hd; congruence.
  - intros k v D. apply Atom; [conjs; congruence|]. intros t' S. inversion S as [| | | |? Hd| | | |]; subst; try congruence; destruct Hd; congruence.
  - intros k D. apply Atom; [destruct D; conjs; congruence|]. intros t' S. inversion S as [| | | |? Hd| | | |]; subst; destruct D; try congruence.
  - intros k D. apply Atom; [conjs; congruence|]. intros t' S. inversion S as [| | | |? Hd| | | |]; subst; try congruence; destruct Hd; congruence.
  - intros o l ts c Do _ IH Dc t' a' x x' S E.
    destruct S as [k D|k b D|k v D|k v D|k D|k D|o' l' ts' c' Do' S Dc'|o' l' ts' c' Do' S Dc'|o' l' ts' c' Do' S Dc']; cbn [app] in E; injection E as <- E;
      try congruence; try (destruct D; congruence).
    rewrite <- !app_assoc in E. cbn [app] in E. destruct (IH _ _ _ _ S E) as (-> & ->); [now rewrite Dc|now rewrite Dc'|].
    apply app_inv_head in E. injection E as <- _. auto.
  - intros o l ts c Do _ IH Dc t' a' x x' S E.
    destruct S as [k D|k b D|k v D|k v D|k D|k D|o' l' ts' c' Do' S Dc'|o' l' ts' c' Do' S Dc'|o' l' ts' c' Do' S Dc']; cbn [app] in E; injection E as <- E;
      try congruence; try (destruct D; congruence).
    rewrite <- !app_assoc in E. cbn [app] in E. destruct (IH _ _ _ _ S E) as (-> & ->); [now rewrite Dc|now rewrite Dc'|].
    apply app_inv_head in E. injection E as <- _. auto.
  - intros o l ts c Do _ IH Dc t' a' x x' S E.
    destruct S as [k D|k b D|k v D|k v D|k D|k D|o' l' ts' c' Do' S Dc'|o' l' ts' c' Do' S Dc'|o' l' ts' c' Do' S Dc']; cbn [app] in E; injection E as <- E;
      try congruence; try (destruct D; congruence).
    rewrite <- !app_assoc in E. cbn [app] in E. destruct (IH _ _ _ _ S E) as (El & ->); [now rewrite Dc|now rewrite Dc'|].
    apply Flat in El as ->. apply app_inv_head in E. injection E as <- _. auto.
  - intros l' a' x x' S E Cx Cx'. destruct S as [|t ts l us S1 S2]; auto. exfalso. cbn [app] in E. subst x.
    destruct (spells_starts _ _ _ S1) as (k & r & -> & N & _). cbn [app] in Cx. congruence.
  - intros t ts l us S1 IH1 S2 IH2 l' a' x x' S E Cx Cx'. destruct S as [|t' ts' l' us' S1' S2'].
    + exfalso. destruct (spells_starts _ _ _ S1) as (k & r & -> & N & _). cbn [app] in E. subst x'. congruence.
    + rewrite <- !app_assoc in E. destruct (IH1 _ _ _ _ S1' E) as (-> & ->). apply app_inv_head in E.
      destruct (IH2 _ _ _ _ S2' E Cx Cx') as (-> & ->). auto.
Qed.

Theorem C29_tokens_spell_one_document text ts l l' : spells_all text l ts -> spells_all text l' ts -> l = l'.
Proof. intros A B. eapply (proj2 (spelling_prefix text) _ _ A _ _ [] [] B); auto. Qed.
Print Assumptions C29_tokens_spell_one_document.

(** [1, {:a "x y"} (f -2) ] ; end *)
Definition sample_text : list Z :=
  [91;49;44;32;123;58;97;32;34;120;32;121;34;125;32;40;102;32;45;50;41;32;93;32;59;32;101;110;100;10].
Definition sample_trees : list tree :=
  [TVec [TInt 1; TMap [(TSym [58;97], TStr [34;120;32;121;34])]; TList [TSym [102]; TInt (-2)]]].
Example C29_witness : exists ws, (forall pow10, writes_all pow10 sample_trees ws) /\ written ws sample_text /\ Forall tgood sample_trees.
Proof.
  exists [[91]; [49]; [123]; [58;97]; [34;120;32;121;34]; [125]; [40]; [102]; [45;50]; [41]; [93]].
  assert (M : forall r w, (match w with [] => nullable (pattern r) | _ => nullable (fold_left (fun p c => deriv c p) w (pattern r)) end) = true -> matches r w).
  { intros r w H. assert (G : nullable (fold_left (fun p c => deriv c p) w (pattern r)) = true) by (destruct w; exact H). clear H.
    unfold matches. revert G. generalize (pattern r) as p. induction w as [|c w IH]; intros p G; cbn [fold_left] in G.
    - now apply nullable_lang.
    - apply deriv_lang. now apply IH. }
  split; [|split].
  - intros pow10. unfold sample_trees.
    apply (wr_more pow10 _ [[91]; [49]; [123]; [58;97]; [34;120;32;121;34]; [125]; [40]; [102]; [45;50]; [41]; [93]] [] []); [|constructor].
    apply (wr_vec pow10 _ [[49]; [123]; [58;97]; [34;120;32;121;34]; [125]; [40]; [102]; [45;50]; [41]]).
    apply (wr_more pow10 _ [[49]]).
    { apply wr_int; [apply M; vm_compute; reflexivity| |lia]. apply (iv_plain [49]). split; [easy|]. repeat constructor. }
    apply (wr_more pow10 _ [[123]; [58;97]; [34;120;32;121;34]; [125]]).
    { apply (wr_map pow10 _ [[58;97]; [34;120;32;121;34]]). cbn [flat].
      apply (wr_more pow10 _ [[58;97]]); [apply wr_key, M; vm_compute; reflexivity|].
      apply (wr_more pow10 _ [[34;120;32;121;34]] [] []); [apply wr_str, M; vm_compute; reflexivity|constructor]. }
    apply (wr_more pow10 _ [[40]; [102]; [45;50]; [41]] [] []); [|constructor].
    apply (wr_list pow10 _ [[102]; [45;50]]).
    apply (wr_more pow10 _ [[102]]); [apply wr_sym; [apply M; vm_compute; reflexivity|unfold reserved; intuition discriminate]|].
    apply (wr_more pow10 _ [[45;50]] [] []); [|constructor].
    apply wr_int; [apply M; vm_compute; reflexivity| |lia]. apply (iv_minus [50]). split; [easy|]. repeat constructor.
  - unfold sample_text.
    assert (B1 : blank [32]) by (constructor; [auto|constructor]).
    apply (wn_word [] [91]); [constructor| |now left; cbn; auto].
    apply (wn_word [] [49]); [constructor| |right; vm_compute; split; [reflexivity|discriminate]].
    apply (wn_word [44;32] [123]); [constructor; [auto|exact B1]| |left; cbn; auto 7].
    apply (wn_word [] [58;97]); [constructor| |right; vm_compute; split; [reflexivity|discriminate]].
    apply (wn_word [32] [34;120;32;121;34]); [exact B1| |right; left; intros b E].
    2: { apply (f_equal (@rev Z)) in E. rewrite rev_app_distr in E. discriminate. }
    apply (wn_word [] [125]); [constructor| |left; cbn; auto 7].
    apply (wn_word [32] [40]); [exact B1| |left; cbn; auto 7].
    apply (wn_word [] [102]); [constructor| |right; vm_compute; split; [reflexivity|discriminate]].
    apply (wn_word [32] [45;50]); [exact B1| |right; vm_compute; split; [reflexivity|discriminate]].
    apply (wn_word [] [41]); [constructor| |left; cbn; auto 7].
    apply (wn_word [32] [93]); [exact B1| |left; cbn; auto 7].
    apply wn_end. constructor; [auto|]. apply (b_comment [32;101;110;100] []); [|constructor].
    cbn. intros H. decompose [or] H; try discriminate; easy.
  - repeat constructor; try easy.
Qed.
Example C29_witness_run : exists doc, parse (fun _ => f64_of_Z 1) gnu_hash cons 60 empty_symtab sample_text = Ok doc /\
  doc_nodes doc = [NVector [NInteger 1; NMap [(NSymbol 0, NString [34;120;32;121;34])]; NList [NSymbol 1; NInteger (-2)]]] /\ doc_log doc = [].
Proof. eexists. split; [vm_compute; reflexivity|]. split; reflexivity. Qed.

(** * C28 *)

(** "{" is parsed for ever. *)
Theorem C28_an_open_map_never_ends_refuted pow10 sh place fuel syms : parse pow10 sh place fuel syms [123] = OutOfFuel.
Proof.
  unfold parse. assert (E : next pow10 (new_lexer new_line_info [123]) =
    Ok (mkTok TkLBrace 0 1, mkLexer [123] 1 [] false (lx_lines (new_lexer new_line_info [123])))) by (vm_compute; reflexivity).
  rewrite E. cbn [bind]. destruct fuel as [|fuel]; [reflexivity|]. cbn [parse_loop ps_tok tk_data].
  destruct fuel as [|fuel]; [reflexivity|]. cbn [parse_node ps_tok tk_data]. unfold consume. cbn [ps_lx].
  assert (E2 : next pow10 (mkLexer [123] 1 [] false (lx_lines (new_lexer new_line_info [123]))) =
    Ok (end_token 1, mkLexer [123] 1 [] false (lx_lines (new_lexer new_line_info [123])))) by (vm_compute; reflexivity).
  rewrite E2. cbn [bind ps_log ps_syms].
  set (lx := mkLexer [123] 1 [] false (lx_lines (new_lexer new_line_info [123]))).
  rewrite (map_hangs pow10 sh place [123] (end_token 1) lx); [reflexivity|]. split; [reflexivity|]. cbn. auto.
Qed.
Print Assumptions C28_an_open_map_never_ends_refuted.

(** How the parse of any text (whose numbers are in range) ends, told by its brackets: for ever when a
    map is still open at the end, by an exception when a mistake could not be reported, and otherwise with
    a document, within 3n+4 steps for n tokens. *)
Theorem C28_how_parsing_ends_partial pow10 sh place syms text ts tail :
  (forall x es, Permutation (place x es) (x :: es)) -> tiles pow10 0 text ts tail ->
  match brackets [] (map tk_data ts) with
  | None => forall fuel, (3 * length ts + 4 <= fuel)%nat -> parse pow10 sh place fuel syms text = Throw StdException
  | Some open =>
      if map_open open then forall fuel, parse pow10 sh place fuel syms text = OutOfFuel
      else exists doc, forall fuel, (3 * length ts + 4 <= fuel)%nat -> parse pow10 sh place fuel syms text = Ok doc
  end.
Proof.
  intros Hp T. destruct (parse_start _ _ _ _ T) as (e & lxe & t & lx & Hn & F). specialize (F [] syms).
  pose proof (parse_loop_ends pow10 sh place text e lxe Hp (length ts) _ _ [] (le_n _) F) as H. cbn zeta in H. unfold verdict in H.
  unfold parse. rewrite Hn. cbn [bind].
  destruct (brackets [] (map tk_data ts)) as [open|]; [destruct (map_open open)|].
  - intros fuel. specialize (H fuel). cbn beta in H. now rewrite H.
  - destruct H as (nodes & s' & S & _). eexists. intros fuel Hf. destruct (S fuel) as [E|(L & _)]; [|lia]. cbn beta in E. rewrite E. reflexivity.
  - intros fuel Hf. destruct (H fuel) as [E|(L & _)]; [|lia]. cbn beta in E. now rewrite E.
Qed.
Print Assumptions C28_how_parsing_ends_partial.

(** In particular text without braces always ends with a document. *)
Lemma no_braces_end ds : forallb (fun d => match d with TkLBrace | TkRBrace => false | _ => true end) ds = true ->
  forall st, map_open st = false -> exists st', brackets st ds = Some st' /\ map_open st' = false.
Proof.
  induction ds as [|d ds IH]; cbn [forallb brackets]; intros H st O; [eauto|]. apply andb_true_iff in H as (Hd & H).
  assert (G : exists st1, bracket_step st d = Some st1 /\ map_open st1 = false).
  { assert (F : forall st, map_open st = false -> map_open (filled st) = false) by (intros s0 Hs; now rewrite map_open_filled).
    destruct d; try discriminate; cbn [bracket_step]; eauto; destruct st as [|[] st]; cbn in O; try discriminate; eexists; (split; [reflexivity|]); auto;
    apply F; auto. }
  destruct G as (st1 & -> & O1). now apply IH.
Qed.
Theorem C28_text_without_braces_partial pow10 sh place syms text ts tail :
  (forall x es, Permutation (place x es) (x :: es)) -> tiles pow10 0 text ts tail ->
  (forall t, In t ts -> tk_data t <> TkLBrace /\ tk_data t <> TkRBrace) ->
  exists doc, forall fuel, (3 * length ts + 4 <= fuel)%nat -> parse pow10 sh place fuel syms text = Ok doc.
Proof.
  intros Hp T N. pose proof (C28_how_parsing_ends_partial pow10 sh place syms text ts tail Hp T) as H.
  destruct (no_braces_end (map tk_data ts)) with (st := @nil frame) as (st' & E & O); auto.
  - apply forallb_forall. intros d I. apply in_map_iff in I as (t & <- & I). destruct (N t I). now destruct (tk_data t).
  - rewrite E, O in H. exact H.
Qed.
Print Assumptions C28_text_without_braces_partial.

(** "(a]" *)
Example C28_witness : exists ts, tiles (fun _ => f64_of_Z 1) 0 [40; 97; 93] ts [] /\ length ts = 3%nat /\
  brackets [] (map tk_data ts) = Some [].
Proof.
  pose proof (C25_tokens_tile_the_text (fun _ => f64_of_Z 1) [40; 97; 93] 10 ltac:(cbn; lia)) as H.
  assert (E : lex_all (fun _ => f64_of_Z 1) 10 (new_lexer new_line_info [40; 97; 93]) =
    Ok ([mkTok TkLParen 0 1; mkTok TkSymbol 1 2; mkTok TkRBracket 2 3], end_token 3, mkLexer [40; 97; 93] 3 [] false new_line_info)) by (vm_compute; reflexivity).
  rewrite E in H. destruct H as (tail & T & _ & _ & B & _). cbn [tk_begin end_token length] in B.
  assert (tail = []) as ->.
  { pose proof (tiles_length _ _ _ _ _ T) as L. cbn [length] in L. destruct tail; [reflexivity|cbn in L; lia]. }
  eexists. split; [exact T|]. split; reflexivity.
Qed.

(** * C27 *)

(** "foo @ bar" gives the one node foo and no complaint. *)
Theorem C27_text_that_is_no_token_is_dropped_refuted :
  exists doc, parse (fun _ => f64_of_Z 1) gnu_hash cons 20 empty_symtab [102;111;111;32;64;32;98;97;114] = Ok doc /\
    doc_nodes doc = [NSymbol 0] /\ sym_string (doc_syms doc) 0 = Ok [102;111;111] /\ doc_log doc = [].
Proof. eexists. split; [vm_compute; reflexivity|]. repeat split. Qed.
Print Assumptions C27_text_that_is_no_token_is_dropped_refuted.

(** An unterminated string after a list likewise: the list alone is returned. *)
Theorem C27_unterminated_strings_are_dropped_refuted :
  exists doc, parse (fun _ => f64_of_Z 1) gnu_hash cons 20 empty_symtab [40;97;41;32;34;98;99] = Ok doc /\
    doc_nodes doc = [NList [NSymbol 0]] /\ doc_log doc = [].
Proof. eexists. split; [vm_compute; reflexivity|]. repeat split. Qed.
Print Assumptions C27_unterminated_strings_are_dropped_refuted.

(** What does hold: without complaint only a tail at which no token begins can have been dropped; what
    comes before it is well formed and is what the document shows. *)
Theorem C27_all_but_a_tail_is_checked_partial pow10 sh place ss text lfuel ts e lx fuel doc :
  hash_respects_reals sh -> (forall x es, Permutation (place x es) (x :: es)) ->
  (length text < lfuel)%nat -> lex_all pow10 lfuel (new_lexer new_line_info text) = Ok (ts, e, lx) ->
  Z.of_nat (length ss) + Z.of_nat (length text) < 2 ^ 64 ->
  parse pow10 sh place fuel (fst (intern_all empty_symtab ss)) text = Ok doc -> doc_log doc = [] ->
  exists tail trees, laid_out text 0 ts tail /\ no_match tail /\
    spells_all text trees ts /\ Forall2 (shows (doc_syms doc)) (doc_nodes doc) trees.
Proof.
  intros Hsh Hp L E Len P Lg. destruct (C25_ranges_are_in_order_and_separated_by_blanks _ _ _ _ _ _ L E) as (Lt & tail & La & Nm).
  pose proof (C25_tokens_tile_the_text pow10 text lfuel L) as T. rewrite E in T. destruct T as (tail' & T & _).
  destruct (C29_a_quiet_parse_is_what_the_text_says pow10 sh place ss text ts tail' fuel doc Hsh Hp T ltac:(lia) P Lg) as (trees & Sp & Sh & _).
  exists tail, trees. auto.
Qed.
Print Assumptions C27_all_but_a_tail_is_checked_partial.
(** "(a) @" is read without a complaint; what is dropped is the tail from @ on. *)
Example C27_witness : hash_respects_reals gnu_hash /\ (forall (x : node * node) es, Permutation (x :: es) (x :: es)) /\
  exists ts e lx doc, lex_all (fun _ => f64_of_Z 1) 10 (new_lexer new_line_info [40;97;41;32;64]) = Ok (ts, e, lx) /\ length ts = 3%nat /\
    parse (fun _ => f64_of_Z 1) gnu_hash cons 20 (fst (intern_all empty_symtab [])) [40;97;41;32;64] = Ok doc /\
    doc_log doc = [] /\ doc_nodes doc = [NList [NSymbol 0]].
Proof.
  split; [exact gnu_hash_respects_reals|]. split; [reflexivity|]. do 4 eexists. split; [vm_compute; reflexivity|]. split; [reflexivity|].
  split; [vm_compute; reflexivity|]. split; reflexivity.
Qed.

(** * C70 *)

(** Every keyword becomes a symbol node: its kind is lost. *)
Theorem C70_keywords_become_symbols_refuted pow10 sh place w :
  hash_respects_reals sh -> (forall x es, Permutation (place x es) (x :: es)) -> matches RuKeyword w ->
  exists doc i, (forall fuel, (7 <= fuel)%nat -> parse pow10 sh place fuel empty_symtab w = Ok doc) /\
    doc_nodes doc = [NSymbol i] /\ sym_string (doc_syms doc) i = Ok w.
Proof.
  intros Hsh Hp M.
  destruct (C29_written_trees_are_parsed pow10 sh place [] [TSym w] [w] w Hsh Hp) as (doc & P & Lg & Sh & _).
  - apply (wr_more pow10 _ [w] [] []); [now apply wr_key|constructor].
  - pose proof (wn_word [] w [] [] (b_nil) (wn_end [] b_nil)) as H. cbn [app] in H. rewrite app_nil_r in H. apply H.
    right. destruct w as [|c w']; [exact I|]. pose proof (head _ _ _ M) as Hc. cbn in Hc. apply Z.eqb_eq in Hc. subst c. exact I.
  - repeat constructor.
  - cbn. lia.
  - inversion Sh as [|n t ns ts S Sn]; subst. inversion Sn; subst. destruct n as [| | | |i| | | | | | |]; try easy. destruct S as [S _].
    exists doc, i. conjs; auto.
Qed.
Print Assumptions C70_keywords_become_symbols_refuted.

(** What does hold: the text is kept, colon included, so a keyword and a symbol are never confused. *)
Theorem C70_the_text_is_kept_partial st l w w' n n' :
  srep st l -> shows st n (TSym w) -> shows st n' (TSym w') -> (n = n' <-> w = w').
Proof.
  intros R S S'. destruct n as [| | | |i| | | | | | |]; try easy. destruct n' as [| | | |i'| | | | | | |]; try easy. destruct S as [A B], S' as [A' B']. split; intros E.
  - injection E as ->. congruence.
  - subst. congruence.
Qed.
Print Assumptions C70_the_text_is_kept_partial.

Example C70_witness : matches RuKeyword [58; 97].
Proof. apply (proj1 (deriv_lang 58 _ _)), (proj1 (deriv_lang 97 _ _)), nullable_lang. vm_compute. reflexivity. Qed.

(** * C71 *)

(** Reporting a mistaken closing brace throws (the message is used as a format string): "(}", "[}" and "{a}". *)
Theorem C71_mistaken_braces_throw_refuted pow10 sh place syms fuel : (20 <= fuel)%nat ->
  (forall x es, Permutation (place x es) (x :: es)) ->
  parse pow10 sh place fuel syms [40; 125] = Throw StdException /\
  parse pow10 sh place fuel syms [91; 125] = Throw StdException /\
  parse pow10 sh place fuel syms [123; 97; 125] = Throw StdException.
Proof.
  intros L Hp.
  assert (G : forall text ts, (length text <= 3)%nat ->
    (exists e lx, lex_all pow10 10 (new_lexer new_line_info text) = Ok (ts, e, lx)) -> (length ts <= 5)%nat ->
    brackets [] (map tk_data ts) = None -> parse pow10 sh place fuel syms text = Throw StdException).
  { intros text ts Lt (e & lx & E) Ls B. pose proof (C25_tokens_tile_the_text pow10 text 10 ltac:(lia)) as T. rewrite E in T.
    destruct T as (tail & T & _). pose proof (C28_how_parsing_ends_partial pow10 sh place syms text ts tail Hp T) as H.
    rewrite B in H. apply H. lia. }
  conjs.
  - eapply (G _ [mkTok TkLParen 0 1; mkTok TkRBrace 1 2]); [cbn; lia|eexists _, _; vm_compute; reflexivity|cbn; lia|reflexivity].
  - eapply (G _ [mkTok TkLBracket 0 1; mkTok TkRBrace 1 2]); [cbn; lia|eexists _, _; vm_compute; reflexivity|cbn; lia|reflexivity].
  - eapply (G _ [mkTok TkLBrace 0 1; mkTok TkSymbol 1 2; mkTok TkRBrace 2 3]); [cbn; lia|eexists _, _; vm_compute; reflexivity|cbn; lia|reflexivity].
Qed.
Print Assumptions C71_mistaken_braces_throw_refuted.

(** What does hold: when a document is returned, every mistake with brackets was logged. *)
Theorem C71_mistakes_in_a_returned_document_are_logged_partial pow10 sh place ss text ts tail fuel doc :
  hash_respects_reals sh -> (forall x es, Permutation (place x es) (x :: es)) ->
  tiles pow10 0 text ts tail -> Z.of_nat (length ss) + Z.of_nat (length ts) < 2 ^ 64 ->
  parse pow10 sh place fuel (fst (intern_all empty_symtab ss)) text = Ok doc ->
  (forall trees, ~ spells_all text trees ts) -> doc_log doc <> [].
Proof.
  intros Hsh Hp T Len P N Lg. destruct (C29_a_quiet_parse_is_what_the_text_says pow10 sh place ss text ts tail fuel doc Hsh Hp T Len P Lg)
    as (trees & Sp & _). now apply N in Sp.
Qed.
Print Assumptions C71_mistakes_in_a_returned_document_are_logged_partial.

Example C71_witness : exists doc, parse (fun _ => f64_of_Z 1) gnu_hash cons 20 empty_symtab [40; 97; 93] = Ok doc /\
  doc_nodes doc = [NList [NSymbol 0]] /\ doc_log doc = [mkError 2 3 "Unexpected ']' terminating list"].
Proof. eexists. split; [vm_compute; reflexivity|]. repeat split. Qed.

(** * C72 *)

(** A text whose maps have simple keys parses without complaint exactly when no map repeats a key. *)
Theorem C72_duplicate_keys_are_reported pow10 sh place ss trees ws text :
  hash_respects_reals sh -> (forall x es, Permutation (place x es) (x :: es)) ->
  writes_all pow10 trees ws -> written ws text -> Forall tkeyed trees ->
  Z.of_nat (length ss) + Z.of_nat (length ws) < 2 ^ 64 ->
  forall fuel doc, parse pow10 sh place fuel (fst (intern_all empty_symtab ss)) text = Ok doc ->
    (doc_log doc = [] <-> Forall tgood trees).
Proof.
  intros Hsh Hp W Wr K Len fuel doc P. split.
  - intros Lg. destruct (written_spells pow10 trees ws text W Wr) as (toks & T & Sp & Lt).
    destruct (C29_a_quiet_parse_is_what_the_text_says pow10 sh place ss text toks [] fuel doc Hsh Hp T ltac:(lia) P Lg) as (trees' & Sp' & _ & Tg).
    rewrite <- (C29_tokens_spell_one_document _ _ _ _ Sp Sp') in Tg. clear - K Tg. induction Tg; inversion K; subst; constructor; auto.
  - intros G. destruct (C29_written_trees_are_parsed pow10 sh place ss trees ws text Hsh Hp W Wr G Len) as (doc' & P' & Lg & _).
    destruct (written_spells pow10 trees ws text W Wr) as (toks & T & Sp & Lt).
    pose proof (C28_how_parsing_ends_partial pow10 sh place (fst (intern_all empty_symtab ss)) text toks [] Hp T) as H.
    destruct (parse_start _ _ _ _ T) as (e & lxe & t & lx & Hn & F). specialize (F [] (fst (intern_all empty_symtab ss))).
    pose proof (parse_loop_ends pow10 sh place text e lxe Hp (length toks) _ _ [] (le_n _) F) as H2. cbn zeta in H2.
    pose proof (P' (3 * length ws + 4)%nat (le_n _)) as PN.
    assert (doc = doc').
    { unfold parse in P, PN. rewrite Hn in P, PN. cbn [bind] in P, PN.
      destruct (verdict [] toks).
      - destruct H2 as (nodes & s' & S & _). destruct (S fuel) as [E|(_ & E)]; cbn beta in E; rewrite E in P; cbn [bind] in P; [|discriminate].
        destruct (S (3 * length ws + 4)%nat) as [E'|(_ & E')]; cbn beta in E'; rewrite E' in PN; cbn [bind] in PN; [congruence|discriminate].
      - destruct (H2 fuel) as [E|(_ & E)]; cbn beta in E; rewrite E in P; discriminate.
      - specialize (H2 fuel). cbn beta in H2. rewrite H2 in P. discriminate. }
    now subst.
Qed.
Print Assumptions C72_duplicate_keys_are_reported.

(** "{a 1 a 2}": one error, and the first value stays. *)
Example C72_witness : exists doc, parse (fun _ => f64_of_Z 1) gnu_hash cons 30 empty_symtab [123;97;32;49;32;97;32;50;125] = Ok doc /\
  doc_nodes doc = [NMap [(NSymbol 0, NInteger 1)]] /\ length (doc_log doc) = 1%nat /\
  tkeyed (TMap [(TSym [97], TInt 1); (TSym [97], TInt 2)]) /\ ~ tgood (TMap [(TSym [97], TInt 1); (TSym [97], TInt 2)]).
Proof.
  eexists. split; [vm_compute; reflexivity|]. repeat split. intros [[H _] _]. apply (H (TSym [97]) (TInt 2)); [now left|reflexivity].
Qed.
