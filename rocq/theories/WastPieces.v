(** Moving a piece to a buffer of its own moves the pointers of its tokens. *)

From Coq Require Import ZArith List Bool Lia.
From Verif Require Import Outcome LexModel WastModel WastSpec WastProofs.
Import ListNotations.
Local Open Scope Z_scope.

Section Move.
Variables b d : Z.
Definition mv (p : wptr) : wptr := (fst p, snd p - d).
Definition mvt (t : wtoken) : wtoken := mkWTok (wt_kind t) (wt_range t) (mv (wt_begin t)) (mv (wt_end t)).

Definition blank_rule (r : wrule) : Prop := r = WNewline \/ r = WSpace.
Definition clean (m : wmode) : Prop :=
  match m with AtStart | Failed => True | Inside s => Forall (fun x => blank_rule (fst x)) s end.

Record sim (pre : list wtoken) (lx lx' : wlexer) : Prop := {
  s_mode : wl_mode lx' = wl_mode lx;
  s_last : wl_last lx' = wl_last lx;
  s_start : wl_start lx' = wl_start lx;
  s_loc : wl_loc lx' = wl_loc lx;
  s_ts : clean (wl_mode lx) \/ fst (wl_ts lx) = b /\ wl_ts lx' = mv (wl_ts lx);
  s_out : exists new, wl_out lx = pre ++ new /\ wl_out lx' = pre ++ map mvt new }.

Definition both (pre : list wtoken) (r r' : outcome wlexer) : Prop :=
  match r, r' with
  | Ok lx, Ok lx' => sim pre lx lx'
  | Throw e, Throw e' => e = e'
  | Trap t, Trap t' => t = t'
  | UB u, UB u' => u = u'
  | OutOfFuel, OutOfFuel => True
  | _, _ => False
  end.
Lemma both_bind {A} pre (m : outcome A) f f' : (forall a, both pre (f a) (f' a)) -> both pre (bind m f) (bind m f').
Proof. intros H. destruct m; cbn [bind both]; auto. Qed.
Lemma both_then pre r r' f f' : both pre r r' -> (forall lx lx', sim pre lx lx' -> both pre (f lx) (f' lx')) -> both pre (bind r f) (bind r' f').
Proof. intros H G. destruct r, r'; cbn [both bind] in *; auto; contradiction. Qed.

Lemma mv_next p : mv (next_ptr p) = next_ptr (mv p).
Proof. unfold mv, next_ptr. cbn. f_equal. lia. Qed.

Lemma sim_emit pre r p lx lx' : sim pre lx lx' -> fst p = b -> (blank_rule r \/ fst (wl_ts lx) = b /\ wl_ts lx' = mv (wl_ts lx)) ->
  both pre (wemit r p lx) (wemit r (mv p) lx').
Proof.
  intros [M La St Lo Ts (new & O & O')] Hp Hr.
  assert (E : forall k, fst (wl_ts lx) = b /\ wl_ts lx' = mv (wl_ts lx) -> both pre
    (Ok (mkWLexer AtStart (wl_ts lx) None (wl_start lx) (wl_loc lx) (wl_out lx ++ [mkWTok k (mkRange (wl_start lx) (wl_loc lx)) (wl_ts lx) p])))
    (Ok (mkWLexer AtStart (wl_ts lx') None (wl_start lx') (wl_loc lx') (wl_out lx' ++ [mkWTok k (mkRange (wl_start lx') (wl_loc lx')) (wl_ts lx') (mv p)])))).
  { intros k (T1 & T2). cbn [both]. constructor; cbn [wl_mode wl_last wl_start wl_loc wl_ts wl_out]; auto.
    exists (new ++ [mkWTok k (mkRange (wl_start lx) (wl_loc lx)) (wl_ts lx) p]).
    rewrite O, O', map_app, !app_assoc. split; auto. cbn [map]. unfold mvt at 2. cbn [wt_kind wt_range wt_begin wt_end]. now rewrite T2, St, Lo. }
  assert (D : fst (wl_ts lx) = b /\ wl_ts lx' = mv (wl_ts lx) -> exists n, ptr_diff p (wl_ts lx) = Ok n /\ ptr_diff (mv p) (wl_ts lx') = Ok n).
  { intros (T1 & T2). unfold ptr_diff. rewrite T2. unfold mv. cbn [fst snd]. rewrite T1, Hp, Z.eqb_refl. eexists. split; [reflexivity|]. f_equal. lia. }
  assert (B : both pre (Ok (mkWLexer AtStart (wl_ts lx) None (wl_start lx) (wl_loc lx) (wl_out lx)))
    (Ok (mkWLexer AtStart (wl_ts lx') None (wl_start lx') (wl_loc lx') (wl_out lx')))).
  { cbn [both]. constructor; cbn [wl_mode wl_last wl_start wl_loc wl_ts wl_out]; auto; [left; exact I|eauto]. }
  destruct r; cbn [wemit]; auto; destruct Hr as [[Hr|Hr]|Hr]; try discriminate Hr; auto;
    destruct (D Hr) as (n & -> & ->); cbn [bind]; auto.
Qed.

Lemma blank_advance c s : Forall (fun x => blank_rule (fst x)) s -> Forall (fun x => blank_rule (fst x)) (wadvance c s).
Proof.
  intros F. unfold wadvance. apply Forall_forall. intros x Hx. apply filter_In in Hx as (Hx & _). apply in_map_iff in Hx as (y & <- & Hy).
  rewrite Forall_forall in F. apply (F y Hy).
Qed.
Lemma blank_accepts s r : Forall (fun x => blank_rule (fst x)) s -> waccepts s = Some r -> blank_rule r.
Proof.
  intros F. unfold waccepts. destruct (find _ s) as [x|] eqn:E; [|discriminate]. intros H. injection H as <-.
  apply find_some in E as (Hx & _). rewrite Forall_forall in F. now apply F.
Qed.

Lemma sim_take pre first p c s lx lx' : sim pre lx lx' -> fst p = b ->
  (Forall (fun x => blank_rule (fst x)) s \/ fst (wl_ts lx) = b /\ wl_ts lx' = mv (wl_ts lx)) ->
  both pre (wtake first p c s lx) (wtake first (mv p) c s lx').
Proof.
  intros S Hp Hr. unfold wtake. rewrite (s_loc _ _ _ S), (s_start _ _ _ S), (s_last _ _ _ S). apply both_bind. intros l.
  set (lx1 := mkWLexer (Inside s) (wl_ts lx) _ _ l (wl_out lx)). set (lx1' := mkWLexer (Inside s) (wl_ts lx') _ _ l (wl_out lx')).
  assert (S1 : sim pre lx1 lx1').
  { constructor; unfold lx1, lx1'; cbn [wl_mode wl_last wl_start wl_loc wl_ts wl_out]; auto; try apply (s_out _ _ _ S). }
  destruct (waccepts s) as [r|] eqn:A; [|exact S1]. destruct (finished s); [|exact S1]. rewrite <- mv_next. apply sim_emit; auto.
  destruct Hr as [Hr|Hr]; [left; eapply blank_accepts; eauto|right; exact Hr].
Qed.

Lemma sim_first pre p c lx lx' : sim pre lx lx' -> fst p = b -> both pre (wfirst p c lx) (wfirst (mv p) c lx').
Proof.
  intros S Hp. unfold wfirst. destruct (wadvance c wstart) as [|x s].
  - cbn [both]. constructor; cbn [wl_mode wl_last wl_start wl_loc wl_ts wl_out]; try apply S; auto; left; exact I.
  - apply sim_take; auto. constructor; cbn [wl_mode wl_last wl_start wl_loc wl_ts wl_out]; try apply S; auto.
Qed.

Lemma sim_step pre p c lx lx' : sim pre lx lx' -> fst p = b -> both pre (wstep p c lx) (wstep (mv p) c lx').
Proof.
  intros S Hp. unfold wstep. rewrite (s_mode _ _ _ S). pose proof (s_ts _ _ _ S) as Ts. destruct (wl_mode lx) as [|s|] eqn:M.
  - apply sim_first; auto.
  - cbn [clean] in Ts. destruct (wadvance c s) as [|x s'] eqn:A.
    + rewrite (s_last _ _ _ S). destruct (waccepts s) as [r|] eqn:W.
      * apply (both_then pre); [|intros; now apply sim_first]. apply sim_emit; auto.
        destruct Ts as [Ts|Ts]; [left; eapply blank_accepts; eauto|right; exact Ts].
      * destruct (wl_last lx); cbn [both]; auto. constructor; cbn [wl_mode wl_last wl_start wl_loc wl_ts wl_out]; try apply S; auto; left; exact I.
    + apply sim_take; auto. destruct Ts as [Ts|Ts]; auto. left. rewrite <- A. now apply blank_advance.
  - exact S.
Qed.
Lemma sim_run pre w : forall p lx lx', sim pre lx lx' -> fst p = b -> both pre (wrun p w lx) (wrun (mv p) w lx').
Proof.
  induction w as [|c w IH]; intros p lx lx' S Hp; [exact S|]. rewrite !run_cons. apply (both_then pre); [now apply sim_step|].
  intros lx1 lx1' S1. rewrite <- mv_next. apply IH; auto.
Qed.
Lemma sim_finish pre p lx lx' : sim pre lx lx' -> fst p = b -> both pre (wfinish p lx) (wfinish (mv p) lx').
Proof.
  intros S Hp. unfold wfinish. rewrite (s_mode _ _ _ S), (s_last _ _ _ S). pose proof (s_ts _ _ _ S) as Ts. destruct (wl_mode lx) as [|s|] eqn:M; try exact S.
  cbn [clean] in Ts. destruct (waccepts s) as [r|] eqn:W.
  - apply sim_emit; auto. destruct Ts as [Ts|Ts]; [left; eapply blank_accepts; eauto|right; exact Ts].
  - destruct (wl_last lx); cbn [both]; auto.
Qed.
Lemma sim_refl lx : clean (wl_mode lx) -> sim (wl_out lx) lx lx.
Proof. intros C. constructor; auto. exists []. cbn [map]. now rewrite app_nil_r. Qed.
End Move.

(** Nothing pending. *)
Definition idle (past : list Z) (toks : list wtoken) (lx : wlexer) : Prop :=
  clean (wl_mode lx) /\ (forall b, ready b past toks lx) /\ wl_out lx = toks.

Lemma in_word_clean lx : clean (wl_mode lx) -> in_word lx = false.
Proof.
  unfold in_word, clean. destruct (wl_mode lx) as [|[|(r, e) [|]]|]; auto; destruct r; auto; intros F; inversion F as [|? ? [H|H] _]; discriminate H.
Qed.
Lemma mv_token b base k past n : mvt base (token_of b (k, past, n)) = token_in b base (k, past, n).
Proof. reflexivity. Qed.
Lemma mv_tokens b base ks : map (mvt base) (map (token_of b) ks) = map (token_in b base) ks.
Proof. rewrite map_map. apply map_ext. intros ((k, past), n). apply mv_token. Qed.

Lemma mv_origin b past : mv (Z.of_nat (length past)) (at_off b past) = (b, 0).
Proof. unfold mv, at_off. cbn. now rewrite Z.sub_diag. Qed.

(** A piece that ends between words. *)
Lemma piece_more b past w c ks toks lx : small (past ++ w ++ [c]) -> idle past toks lx -> lexes past (w ++ [c]) ks [] -> ~ word_char c ->
  exists lx', wrun (b, 0) (w ++ [c]) lx = Ok lx' /\ idle (past ++ w ++ [c]) (toks ++ map (token_in b (Z.of_nat (length past))) ks) lx'.
Proof.
  intros Sm (C & R & O) L Nc.
  destruct (lexes_run b past (w ++ [c]) ks [] L toks lx Sm (R b)) as (lx1 & E1 & _ & R1); [rewrite in_word_clean by auto; discriminate|].
  specialize (R1 eq_refl). pose proof (sim_run b (Z.of_nat (length past)) _ (w ++ [c]) (at_off b past) lx lx (sim_refl b _ lx C) eq_refl) as S.
  rewrite mv_origin, E1 in S. destruct (wrun (b, 0) (w ++ [c]) lx) as [lx1'| | | |] eqn:E; cbn [both] in S; try contradiction.
  exists lx1'. split; auto. rewrite app_assoc in R1 |- *.
  remember ((past ++ w) ++ [c]) as v eqn:Ev. remember (toks ++ map (token_of b) ks) as tk eqn:Et.
  destruct R1 as [v tk ts last st|v tk s ts last st Hs|before k n tk s last Hs (n' & c' & -> & A)].
  - destruct S as [M La St Lo _ (new & O1 & O2)]. cbn [wl_mode wl_last wl_start wl_loc wl_out] in *. subst tk. rewrite O in O1. apply app_inv_head in O1. subst new.
    rewrite mv_tokens, O in O2. destruct lx1' as [m ts' la st' lo o]. cbn [wl_mode wl_last wl_start wl_loc wl_out wl_ts] in *. subst m la lo o.
    unfold idle; conjs; [exact I| |reflexivity]. intros b'. apply rd_start.
  - destruct S as [M La St Lo _ (new & O1 & O2)]. cbn [wl_mode wl_last wl_start wl_loc wl_out] in *. subst tk. rewrite O in O1. apply app_inv_head in O1. subst new.
    rewrite mv_tokens, O in O2. destruct lx1' as [m ts' la st' lo o]. cbn [wl_mode wl_last wl_start wl_loc wl_out wl_ts] in *. subst m la o.
    unfold idle; conjs; [|intros b'; rewrite Lo; now apply rd_white|reflexivity].
    destruct Hs as [-> | ->]; cbn [clean wl_mode]; repeat (apply Forall_cons; [first [left; reflexivity|right; reflexivity]|]); apply Forall_nil.
  - exfalso. rewrite app_assoc in Ev. apply app_inj_tail in Ev as (_ & ->). apply Nc. now apply word_char_ok.
Qed.

(** The last piece. *)
Lemma piece_last b past w ks tail toks lx : small (past ++ w) -> idle past toks lx -> lexes past w ks tail ->
  exists lx', wlex (b, 0) w true lx = Ok lx' /\ wl_out lx' = toks ++ map (token_in b (Z.of_nat (length past))) ks.
Proof.
  intros Sm (C & R & O) L.
  destruct (lexes_run b past w ks tail L toks lx Sm (R b)) as (lx1 & E1 & Ov & _); [rewrite in_word_clean by auto; discriminate|].
  destruct (over_finish _ _ _ _ Ov) as (lx2 & E2 & O2).
  pose proof (sim_run b (Z.of_nat (length past)) _ w (at_off b past) lx lx (sim_refl b _ lx C) eq_refl) as S.
  rewrite mv_origin, E1 in S. unfold wlex. destruct (wrun (b, 0) w lx) as [lx1'| | | |] eqn:E; cbn [both] in S; try contradiction. cbn [bind].
  pose proof (sim_finish b (Z.of_nat (length past)) _ (at_off b (past ++ w)) lx1 lx1' S eq_refl) as F. rewrite E2 in F.
  replace (mv (Z.of_nat (length past)) (at_off b (past ++ w))) with (fst (b, 0), snd (b, 0) + Z.of_nat (length w)) in F.
  2: { unfold mv, at_off. cbn [fst snd]. rewrite app_length, Nat2Z.inj_add. f_equal. lia. }
  destruct (wfinish _ lx1') as [lx2'| | | |]; cbn [both] in F; try contradiction. exists lx2'. split; auto.
  destruct F as [_ _ _ _ _ (new & O3 & O4)]. rewrite O4, O. f_equal. rewrite O2, O in O3. apply app_inv_head in O3. subst new. apply mv_tokens.
Qed.

Lemma lexes_pieces_run past pieces toks : lexes_pieces past pieces toks -> forall done lx,
  small (past ++ concat (map snd pieces)) -> idle past done lx ->
  exists lx', wlex_all (in_buffers pieces) lx = Ok lx' /\ wl_out lx' = done ++ toks.
Proof.
  induction 1 as [past b w ks tail L|past b w c pieces ks toks L Nc H IH|past b pieces toks H IH]; intros done lx Sm Id.
  - cbn [in_buffers wlex_all]. cbn [map snd concat] in Sm. rewrite app_nil_r in Sm. destruct (piece_last b past w ks tail done lx Sm Id L) as (lx' & E & O).
    exists lx'. rewrite E. auto.
  - cbn [map snd concat] in Sm.
    assert (Sm1 : small (past ++ w ++ [c])) by (apply (small_prefix _ (concat (map snd pieces))); rewrite <- !app_assoc in *; exact Sm).
    destruct (piece_more b past w c ks done lx Sm1 Id L Nc) as (lx1 & E & Id1).
    destruct (IH _ lx1 ltac:(rewrite <- !app_assoc in *; exact Sm) Id1) as (lx' & E' & O').
    exists lx'. rewrite app_assoc. split; auto.
    assert (P : in_buffers ((b, w ++ [c]) :: pieces) = ((b, 0), w ++ [c], false) :: in_buffers pieces) by (destruct pieces; [inversion H|reflexivity]).
    rewrite P. cbn [wlex_all]. unfold wlex at 1. rewrite E. cbn [bind]. exact E'.
  - destruct (IH done lx) as (lx' & E' & O'); auto. exists lx'. split; auto.
    assert (P : in_buffers ((b, []) :: pieces) = ((b, 0), [], false) :: in_buffers pieces) by (destruct pieces; [inversion H|reflexivity]).
    rewrite P. cbn [wlex_all]. unfold wlex at 1. cbn [wrun bind]. exact E'.
Qed.
