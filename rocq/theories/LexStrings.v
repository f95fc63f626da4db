(** String literals and lines after them (C68, C69). *)

From Coq Require Import ZArith List Bool Lia SpecFloat.
From Verif Require Import Outcome TablesModel TablesSpec TablesProofs LexModel LexSpec LexProofs LexRun LexTiles.
Import ListNotations.
Local Open Scope Z_scope.

(** * Strings *)
Lemma quotes_escaped_weaken p w : quotes_escaped 0 w -> quotes_escaped p w.
Proof. destruct w as [|c w]; [auto|]. intros (H & Q). split; [|exact Q]. intros X. specialize (H X). lia. Qed.

Lemma last_default {A} (u : list A) : forall d a b, last (d :: u) a = last (d :: u) b.
Proof. induction u as [|e u IH]; intros d a b; [reflexivity|]. apply (IH e a b). Qed.

Lemma quotes_escaped_app u : forall p v, quotes_escaped p (u ++ v) <-> quotes_escaped p u /\ quotes_escaped (last u p) v.
Proof.
  induction u as [|c u IH]; intros p v; [cbn; tauto|]. cbn [app quotes_escaped]. rewrite IH.
  replace (last (c :: u) p) with (last u c); [tauto|].
  destruct u as [|d u]; [reflexivity|]. change (last (c :: d :: u) p) with (last (d :: u) p). apply last_default.
Qed.

Lemma str_char_spec c : is_str_char c = true <-> c <> 34 /\ c <> 39.
Proof. unfold is_str_char. rewrite negb_true_iff, orb_false_iff, !Z.eqb_neq. tauto. Qed.

Lemma body_lang : forall n w, (length w <= n)%nat ->
  (lang (RStar (RAlt (RChr is_str_char) re_str_escape)) w <-> quotes_escaped 0 w).
Proof.
  intros n w Hn. split.
  - clear Hn. intros H. remember (RStar (RAlt (RChr is_str_char) re_str_escape)) as r eqn:Er.
    induction H; try discriminate; [exact I|]. injection Er as ->. specialize (IHlang2 eq_refl).
    apply lang_alt in H. rewrite quotes_escaped_app. split; [|now apply quotes_escaped_weaken].
    destruct H as [H|H].
    + apply lang_chr in H. destruct H as (c & -> & Hc). apply str_char_spec in Hc. cbn. tauto.
    + apply lang_cat in H. destruct H as (u1 & u2 & -> & H1 & H2). apply lang_ch in H1. subst u1.
      unfold one_of in H2. apply lang_chr in H2. destruct H2 as (c & -> & _). cbn. repeat split; auto. intros [X|X]; discriminate.
  - revert w Hn. induction n as [|n IH]; intros w Hn Q.
    + destruct w; [constructor|cbn in Hn; lia].
    + destruct w as [|c w]; [constructor|]. cbn [quotes_escaped length] in *. destruct Q as (Hc & Q).
      assert (Nc : c <> 34 /\ c <> 39) by (split; intros ->; specialize (Hc ltac:(auto)); discriminate).
      destruct (Z.eq_dec c 92) as [->|N].
      * destruct w as [|d w].
        -- apply (l_star_cons _ [92] []); [|constructor]. apply l_alt_l. now constructor.
        -- destruct Q as (Hd & Q). cbn [length] in Hn.
           destruct (Z.eq_dec d 34) as [->|N34]; [|destruct (Z.eq_dec d 39) as [->|N39]].
           ++ apply (l_star_cons _ [92; 34] w); [|apply IH; [lia|]].
              ** apply l_alt_r. apply (l_cat _ _ [92] [34]); now constructor.
              ** destruct w as [|e w]; [exact I|]. destruct Q as (He & Q). split; [|exact Q]. intros X. specialize (He X). lia.
           ++ apply (l_star_cons _ [92; 39] w); [|apply IH; [lia|]].
              ** apply l_alt_r. apply (l_cat _ _ [92] [39]); now constructor.
              ** destruct w as [|e w]; [exact I|]. destruct Q as (He & Q). split; [|exact Q]. intros X. specialize (He X). lia.
           ++ apply (l_star_cons _ [92] (d :: w)); [apply l_alt_l; now constructor|]. apply IH; [cbn; lia|].
              split; [|exact Q]. lia.
      * apply (l_star_cons _ [c] w); [apply l_alt_l; constructor; now apply str_char_spec|]. apply IH; [lia|].
        destruct w as [|e w]; [exact I|]. destruct Q as (He & Q). split; [|exact Q]. intros X. specialize (He X). lia.
Qed.

Lemma string_lang w : matches RuString w <-> exists body, w = 34 :: body ++ [34] /\ quotes_escaped 0 body.
Proof.
  unfold matches, pattern, re_string. rewrite lang_cat. split.
  - intros (u & v & -> & Hu & Hv). apply lang_ch in Hu. subst u. apply lang_cat in Hv.
    destruct Hv as (b & q & -> & Hb & Hq). apply lang_ch in Hq. subst q. exists b. split; [reflexivity|].
    eapply body_lang; [|exact Hb]. reflexivity.
  - intros (body & -> & Q). exists [34], (body ++ [34]). split; [reflexivity|]. split; [now apply lang_ch|].
    apply lang_cat. exists body, [34]. split; [reflexivity|]. split; [|now apply lang_ch].
    eapply body_lang; [|exact Q]. reflexivity.
Qed.

(** Only strings begin with a quote. *)
Lemma quote_is_string r w : matches r (34 :: w) -> r = RuString.
Proof.
  intros M. unfold matches in M. apply (proj2 (deriv_lang 34 _ _)) in M.
  destruct r; try reflexivity; exfalso; cbn [pattern] in M; revert M; apply dead_lang; vm_compute; reflexivity.
Qed.

Lemma string_longest body rest : quotes_escaped 0 body -> last body 0 <> 92 ->
  longest ((34 :: body ++ [34]) ++ rest) (34 :: body ++ [34]) RuString.
Proof.
  intros Q L. unfold longest. conjs.
  - discriminate.
  - eauto.
  - apply string_lang. eauto.
  - intros r' B M. apply quote_is_string in M. subst r'.
    destruct B as (l1 & l2 & l3 & E). pose proof rules_nodup as ND. rewrite E in ND.
    apply NoDup_remove_2 in ND. apply ND. apply in_or_app. right. apply in_or_app. right. left. reflexivity.
  - intros w' rest' r' E Hl M. destruct w' as [|c w']; [cbn in Hl; lia|]. cbn [app] in E. injection E as <- E.
    pose proof (quote_is_string _ _ M) as ->. apply string_lang in M. destruct M as (b' & Eb & Q').
    injection Eb as ->. cbn [length] in Hl. rewrite !app_length in Hl. cbn [length] in Hl.
    rewrite <- !app_assoc in E.
    assert (P : exists t, b' = body ++ 34 :: t).
    { clear - E Hl. revert b' E Hl. induction body as [|x body IH]; intros [|y b'] E Hl; cbn [length] in Hl; try lia; cbn [app] in E.
      - injection E as <- E. exists b'. reflexivity.
      - injection E as <- E. destruct (IH b' E) as (t & ->); [lia|]. exists t. reflexivity. }
    destruct P as (t & ->). apply quotes_escaped_app in Q'. destruct Q' as (_ & Q' & _). specialize (Q' ltac:(auto)). lia.
Qed.

(** * Lines *)
Lemma blot_app ts : forall u i v, blot ts i (u ++ v) = blot ts i u ++ blot ts (i + length u) v.
Proof.
  induction u as [|c u IH]; intros i v; cbn [app blot length]; [now rewrite Nat.add_0_r|].
  rewrite IH. do 3 f_equal. lia.
Qed.
Lemma blot_length ts : forall u i, length (blot ts i u) = length u.
Proof. induction u as [|c u IH]; intros i; cbn; auto. Qed.

Lemma blot_before ts : forall u i, Forall (fun t => (i + length u <= tk_begin t)%nat) ts -> blot ts i u = u.
Proof.
  induction u as [|c u IH]; intros i F; [reflexivity|]. cbn [blot length] in *.
  replace (in_token ts i) with false; [rewrite andb_false_r; f_equal; apply IH|].
  - eapply Forall_impl; [|exact F]. cbn. intros t. lia.
  - symmetry. unfold in_token. clear IH. induction F as [|t ts Ht F IHF]; [reflexivity|]. cbn [existsb]. rewrite IHF, orb_false_r.
    destruct (Nat.leb_spec (tk_begin t) i); [lia|reflexivity].
Qed.

Lemma blot_inside t ts : forall u i, (tk_begin t <= i)%nat -> (i + length u <= tk_end t)%nat -> ~ In 10 (blot (t :: ts) i u).
Proof.
  induction u as [|c u IH]; intros i B E; [auto|]. cbn [blot length] in *. intros [H|H]; [|eapply IH; [| |exact H]; lia].
  revert H. unfold in_token. cbn [existsb]. destruct (Nat.leb_spec (tk_begin t) i); [|lia]. destruct (Nat.ltb_spec i (tk_end t)); [|lia].
  cbn [andb orb]. rewrite andb_true_r. destruct (Z.eqb_spec c 10); lia.
Qed.

Lemma blot_after t ts : forall u i, (tk_end t <= i)%nat -> blot (t :: ts) i u = blot ts i u.
Proof.
  induction u as [|c u IH]; intros i B; [reflexivity|]. cbn [blot]. rewrite IH by lia. unfold in_token. cbn [existsb].
  destruct (Nat.ltb_spec i (tk_end t)); [lia|]. rewrite andb_false_r. reflexivity.
Qed.

Lemma tiles_begin pow10 pos text ts tail : tiles pow10 pos text ts tail -> Forall (fun t => (pos <= tk_begin t)%nat) ts.
Proof.
  induction 1 as [| |pos w text r d ts tail L G Ht IH]; [constructor| |].
  - eapply Forall_impl; [|eassumption]. cbn. intros t. lia.
  - constructor; [cbn; lia|]. eapply Forall_impl; [|exact IH]. cbn. intros t. lia.
Qed.

Lemma tiles_lines pow10 pos text ts tail : tiles pow10 pos text ts tail ->
  forall lx, at_text lx pos text ->
  exists e lx', streams pow10 lx ts e lx' /\
    lx_lines lx' = breaks_of (lx_lines lx) (Z.of_nat pos) (firstn (length text - length tail) (blot ts pos text)).
Proof.
  induction 1 as [pos text N|pos w text r ts tail L G Ht IH|pos w text r d ts tail L G Ht IH]; intros lx A.
  - destruct (next_end pow10 lx pos text A N) as (n & lx' & Ln & En & El & Es & Et).
    exists (end_token (pos + n)), lx'. split.
    + eapply s_end; eauto.
    + rewrite Nat.sub_diag. cbn. exact El.
  - destruct (at_text_shift lx pos w text (breaks_of (lx_lines lx) (Z.of_nat pos) w) A) as (A1 & T1).
    destruct (IH _ A1) as (e & lx' & S & Br). rewrite blot_app.
    rewrite (blot_before ts w pos) by (eapply tiles_begin; eauto).
    assert (Hlen : (length tail <= length text)%nat).
    { destruct (tiles_tail _ _ _ _ _ Ht) as (u & ->). rewrite app_length. lia. }
    rewrite firstn_app, firstn_all2 by (rewrite app_length; lia). rewrite breaks_of_app.
    replace (length (w ++ text) - length tail - length w)%nat with (length text - length tail)%nat by (rewrite app_length; lia).
    replace (Z.of_nat pos + Z.of_nat (length w)) with (Z.of_nat (pos + length w)) by lia.
    destruct (next_gap pow10 lx pos w text r A L G) as [En|(-> & En)].
    + exists e, lx'. split; [eapply streams_none; eauto|]. exact Br.
    + assert (ts = []) as ->.
      { apply tiles_length in Ht. cbn in Ht. destruct ts; [easy|cbn in Ht; lia]. }
      exists (end_token (pos + length w)), (shift_lexer lx w [] (breaks_of (lx_lines lx) (Z.of_nat pos) w)).
      split; [eapply s_end; eauto|]. reflexivity.
  - destruct (at_text_shift lx pos w text (lx_lines lx) A) as (A1 & T1).
    destruct (IH _ A1) as (e & lx' & S & Br). rewrite blot_app.
    assert (Hlen : (length tail <= length text)%nat).
    { destruct (tiles_tail _ _ _ _ _ Ht) as (u & ->). rewrite app_length. lia. }
    rewrite firstn_app, firstn_all2 by (rewrite blot_length, app_length; lia). rewrite blot_length, breaks_of_app, blot_length.
    replace (length (w ++ text) - length tail - length w)%nat with (length text - length tail)%nat by (rewrite app_length; lia).
    replace (Z.of_nat pos + Z.of_nat (length w)) with (Z.of_nat (pos + length w)) by lia.
    pose proof (next_token pow10 lx pos w text r d A L G) as En.
    exists e, lx'. split.
    + eapply s_tok; eauto. cbn. intros ->. now apply stands_for_not_end in G.
    + rewrite Br. rewrite (blot_after _ ts text) by (cbn; lia). f_equal. cbn [lx_lines shift_lexer].
      rewrite breaks_of_none; [reflexivity|]. apply blot_inside; cbn; lia.
Qed.

Lemma blot_same ts : forall u i n, (forall t j, In t ts -> (tk_begin t <= j < tk_end t)%nat -> (i <= j < i + n)%nat -> nth (j - i) u 0 <> 10) ->
  firstn n (blot ts i u) = firstn n u.
Proof.
  induction u as [|c u IH]; intros i n H; [reflexivity|]. destruct n as [|n]; [reflexivity|]. cbn [blot firstn]. f_equal.
  - destruct (in_token ts i) eqn:Hi; [|now rewrite andb_false_r]. apply existsb_exists in Hi. destruct Hi as (t & It & B).
    apply andb_prop in B. destruct B as (B1 & B2). apply Nat.leb_le in B1. apply Nat.ltb_lt in B2.
    specialize (H t i It ltac:(lia) ltac:(lia)). rewrite Nat.sub_diag in H. cbn in H.
    destruct (Z.eqb_spec c 10); [contradiction|reflexivity].
  - apply IH. intros t j It B N. specialize (H t j It B ltac:(lia)). replace (j - i)%nat with (S (j - S i)) in H by lia. exact H.
Qed.

Lemma walk_text_firstn : forall n text r c, walk_text text n r c = walk_text (firstn n text) n r c.
Proof.
  induction n as [|n IH]; intros [|x text] r c; cbn [walk_text firstn]; auto. destruct (x =? 10); apply IH.
Qed.

Lemma walk_blot ts text n r c :
  (forall t i, In t ts -> (tk_begin t <= i < tk_end t)%nat -> (0 <= i < 0 + n)%nat -> nth (i - 0) text 0 <> 10) ->
  walk_text (blot ts 0 text) n r c = walk_text text n r c.
Proof. intros H. rewrite walk_text_firstn, (blot_same ts text 0 n H), <- walk_text_firstn. reflexivity. Qed.

Lemma skipn_plus {A} : forall n m (l : list A), skipn (n + m) l = skipn m (skipn n l).
Proof. induction n as [|n IH]; intros m [|x l]; cbn; auto. now rewrite skipn_nil. Qed.

Lemma tiles_strings pow10 text ts tail t : tiles pow10 0 text ts tail -> In t ts -> tk_data t = TkString ->
  matches RuString (token_text text t).
Proof.
  intros T. assert (G : forall pos text' whole, tiles pow10 pos text' ts tail -> skipn pos whole = text' -> In t ts -> tk_data t = TkString ->
    matches RuString (token_text whole t)).
  { clear. intros pos text' whole T. revert whole. induction T as [|pos w text r ts tail L G Ht IH|pos w text r d ts tail L G Ht IH];
      intros whole E I D; [easy| |].
    - apply IH; auto. rewrite skipn_plus, E, skipn_app, skipn_all, Nat.sub_diag. reflexivity.
    - destruct I as [<-|I].
      + cbn [tk_data] in D. subst d. unfold token_text. cbn [tk_begin tk_end]. rewrite E.
        replace (pos + length w - pos)%nat with (length w) by lia. rewrite firstn_app, firstn_all, Nat.sub_diag. cbn [firstn]. rewrite app_nil_r.
        destruct r; cbn in G; try discriminate; try (destruct G as (? & ? & ?); try discriminate; try (destruct H0; discriminate)); try easy.
        apply L.
      + apply IH; auto. rewrite skipn_plus, E, skipn_app, skipn_all, Nat.sub_diag. reflexivity. }
  intros I D. eapply (G 0%nat text text); eauto.
Qed.
