(** What tokens spell is read, without complaint. *)

From Coq Require Import String ZArith List Bool Lia Permutation SpecFloat.
From Verif Require Import Outcome HashModel TablesModel TablesProofs IrModel IrSpec IrProofs IrProps
  LexModel LexSpec LexProofs LexRun LexTiles ParseModel ParseUnfold ParseSpec ParseProofs ParseShow.
Import ListNotations.
Local Open Scope Z_scope.
Local Open Scope list_scope.

Scheme spells_min := Minimality for spells Sort Prop
  with spells_all_min := Minimality for spells_all Sort Prop.
Combined Scheme spells_both from spells_min, spells_all_min.

Section Reads.
Context (pow10 : Z -> spec_float) (sh : std_hash)
        (place : node * node -> list (node * node) -> list (node * node)).
Context (text : list Z) (e : token) (lxe : lexer).
Context (place_perm : forall x es, Permutation (place x es) (x :: es)) (sh_ok : hash_respects_reals sh).

Notation feed := (feed pow10 text e lxe).
Notation pnode := (parse_node pow10 sh place).
Notation lloop := (list_loop pow10 sh place).
Notation vloop := (vector_loop pow10 sh place).
Notation mloop := (map_loop pow10 sh place).
Notation pmk := (parse_map_k pow10 sh place).
Notation pmv := (parse_map_v pow10 sh place).
Notation spells := (spells text).
Notation spells_all := (spells_all text).

(** From [s], having read [k] tokens, quietly to [s'], where [us] come next. *)
Definition quiet (s : pstate) (l : list name) (k : nat) (s' : pstate) (us : list token) (m : list name) : Prop :=
  feed s' us /\ ps_log s' = ps_log s /\ srep (ps_syms s') (l ++ m) /\ (length m <= k)%nat.

Definition rd (t : tree) (pre : list token) : Prop := forall s us l, feed s (pre ++ us) -> srep (ps_syms s) l -> room l (pre ++ us) ->
  exists n s' m, settles (fun f => pnode f s) (3 * length pre + 2) (Ok (Some n, s')) /\
    quiet s l (length pre) s' us m /\ shows (ps_syms s') n t.

Definition starts (pre : list token) : Prop := exists k r, pre = k :: r /\ is_closer (tk_data k) = false /\ tk_data k <> TkEnd.

Inductive parts : list tree -> list token -> Prop :=
| p_none : parts [] []
| p_more t ts l us : rd t ts -> starts ts -> parts l us -> parts (t :: l) (ts ++ us).

Lemma spells_starts t ts : spells t ts -> starts ts.
Proof. destruct 1 as [k D|k b D|k v D|k x D|k D|k D|o l ts c D|o l ts c D|o l ts c D]; eexists _, _; (split; [reflexivity|]); try rewrite D; try easy.
  destruct D as [D|D]; rewrite D; easy. Qed.

Lemma room_tl l ts us m k : room l (ts ++ us) -> (length m <= k)%nat -> k = length ts -> room (l ++ m) us.
Proof. unfold room. rewrite !app_length. intros. lia. Qed.

Lemma quiet_trans s l k s1 us1 m1 k2 s2 us2 m2 : quiet s l k s1 us1 m1 -> quiet s1 (l ++ m1) k2 s2 us2 m2 ->
  quiet s l (k + k2) s2 us2 (m1 ++ m2).
Proof.
  intros (A1 & A2 & A3 & A4) (B1 & B2 & B3 & B4). split; auto. split; [congruence|]. rewrite app_assoc. split; auto.
  rewrite app_length. lia.
Qed.

Lemma consume_quiet s t us l : feed s (t :: us) -> srep (ps_syms s) l -> exists s', consume pow10 s = Ok s' /\ quiet s l 1 s' us [].
Proof.
  intros F R. destruct (consume_feed _ _ _ _ _ _ _ F) as (s' & C & F' & L & Sy). exists s'. split; auto. unfold quiet. rewrite app_nil_r.
  conjs; auto; now rewrite Sy.
Qed.

Lemma list_reads l pre : parts l pre -> forall s c us l0 acc, tk_data c = TkRParen -> feed s (pre ++ c :: us) ->
  srep (ps_syms s) l0 -> room l0 (pre ++ c :: us) ->
  exists ns s' m, settles (fun f => lloop f s acc) (3 * length pre + 4) (Ok (Some (NList (acc ++ ns)), s')) /\
    quiet s l0 (length pre + 1) s' us m /\ Forall2 (shows (ps_syms s')) ns l.
Proof.
  induction 1 as [|t ts l us1 Rd (k & r & Ek & Nc & Ne) _ IH]; intros s c us l0 acc D F R Rm.
  - cbn [app] in F. pose proof (feed_kind _ _ _ _ _ _ F) as K. cbn iota in K. rewrite D in K.
    destruct (consume_quiet _ _ _ _ F R) as (s' & C & Q).
    exists [], s', []. rewrite app_nil_r. split; [|split; [exact Q|constructor]].
    eapply settles_now with (b := 0%nat) (Q := fun _ => Ok (Some (NList acc), s')); [reflexivity| |apply settles_const|cbn; lia].
    intros f. rewrite list_loop_S. rewrite K, C. reflexivity.
  - rewrite <- app_assoc in F, Rm. destruct (Rd _ _ _ F R Rm) as (n & s1 & m1 & S1 & Q1 & Sh1).
    pose proof Q1 as (F1 & L1 & R1 & B1).
    pose proof (room_tl _ _ _ _ _ Rm B1 eq_refl) as Rm1.
    destruct (IH s1 c us (l0 ++ m1) (acc ++ [n]) D F1 R1 Rm1) as (ns & s2 & m2 & S2 & Q2 & Sh2).
    exists (n :: ns), s2, (m1 ++ m2). rewrite app_length. split; [|split].
    + eapply settles_now with (b := (3 * (length ts + length us1) + 3)%nat)
        (Q := fun f => do (n, s0) <- pnode f s; lloop f s0 (match n with Some n => acc ++ [n] | None => acc end)); [reflexivity| | |lia].
      * intros f. rewrite list_loop_S. subst ts. pose proof (feed_kind _ _ _ _ _ _ F) as K. cbn in K. rewrite K.
        destruct (tk_data k); try easy; congruence.
      * eapply settles_bind; [eapply settles_weaken; [exact S1|lia]|]. cbn beta iota.
        replace (acc ++ n :: ns) with ((acc ++ [n]) ++ ns) by now rewrite <- app_assoc.
        eapply settles_weaken; [exact S2|]. subst ts. cbn [length]. lia.
    + pose proof (quiet_trans _ _ _ _ _ _ _ _ _ _ Q1 Q2) as Q. now replace (length ts + length us1 + 1)%nat with (length ts + (length us1 + 1))%nat by lia.
    + constructor; auto. destruct Q2 as (_ & _ & R2 & _). eapply shows_grow; [exact R1|exact R2|exact Sh1].
Qed.

Lemma vec_reads l pre : parts l pre -> forall s c us l0 acc, tk_data c = TkRBracket -> feed s (pre ++ c :: us) ->
  srep (ps_syms s) l0 -> room l0 (pre ++ c :: us) ->
  exists ns s' m, settles (fun f => vloop f s acc) (3 * length pre + 4) (Ok (Some (NVector (acc ++ ns)), s')) /\
    quiet s l0 (length pre + 1) s' us m /\ Forall2 (shows (ps_syms s')) ns l.
Proof.
  induction 1 as [|t ts l us1 Rd (k & r & Ek & Nc & Ne) _ IH]; intros s c us l0 acc D F R Rm.
  - cbn [app] in F. pose proof (feed_kind _ _ _ _ _ _ F) as K. cbn iota in K. rewrite D in K.
    destruct (consume_quiet _ _ _ _ F R) as (s' & C & Q).
    exists [], s', []. rewrite app_nil_r. split; [|split; [exact Q|constructor]].
    eapply settles_now with (b := 0%nat) (Q := fun _ => Ok (Some (NVector acc), s')); [reflexivity| |apply settles_const|cbn; lia].
    intros f. rewrite vector_loop_S. rewrite K, C. reflexivity.
  - rewrite <- app_assoc in F, Rm. destruct (Rd _ _ _ F R Rm) as (n & s1 & m1 & S1 & Q1 & Sh1).
    pose proof Q1 as (F1 & L1 & R1 & B1).
    pose proof (room_tl _ _ _ _ _ Rm B1 eq_refl) as Rm1.
    destruct (IH s1 c us (l0 ++ m1) (acc ++ [n]) D F1 R1 Rm1) as (ns & s2 & m2 & S2 & Q2 & Sh2).
    exists (n :: ns), s2, (m1 ++ m2). rewrite app_length. split; [|split].
    + eapply settles_now with (b := (3 * (length ts + length us1) + 3)%nat)
        (Q := fun f => do (n, s0) <- pnode f s; vloop f s0 (match n with Some n => acc ++ [n] | None => acc end)); [reflexivity| | |lia].
      * intros f. rewrite vector_loop_S. subst ts. pose proof (feed_kind _ _ _ _ _ _ F) as K. cbn in K. rewrite K.
        destruct (tk_data k); try easy; congruence.
      * eapply settles_bind; [eapply settles_weaken; [exact S1|lia]|]. cbn beta iota.
        replace (acc ++ n :: ns) with ((acc ++ [n]) ++ ns) by now rewrite <- app_assoc.
        eapply settles_weaken; [exact S2|]. subst ts. cbn [length]. lia.
    + pose proof (quiet_trans _ _ _ _ _ _ _ _ _ _ Q1 Q2) as Q. now replace (length ts + length us1 + 1)%nat with (length ts + (length us1 + 1))%nat by lia.
    + constructor; auto. destruct Q2 as (_ & _ & R2 & _). eapply shows_grow; [exact R1|exact R2|exact Sh1].
Qed.

Lemma tdistinct_before l k v r : tdistinct (l ++ (k, v) :: r) -> forall k' v', In (k', v') l -> ~ tsame k' k.
Proof.
  induction l as [|[k0 v0] l IH]; cbn [app tdistinct]; intros [A B] k' v' I; [easy|]. destruct I as [E|I]; [|now apply (IH B k' v')].
  injection E as <- <-. apply (A k v). apply in_or_app. right. now left.
Qed.

Lemma Forall2_in_left {A B} (R : A -> B -> Prop) l r x : Forall2 R l r -> In x l -> exists y, In y r /\ R x y.
Proof. induction 1 as [|a b l r H F IH]; intros I; [easy|]. destruct I as [->|I]; [exists b; split; auto; now left|].
  destruct (IH I) as (y & Iy & Ry). exists y. split; auto. now right. Qed.

Lemma map_reads es : forall pre, parts (flat es) pre -> Forall (fun kv => tsimple (fst kv)) es ->
  forall s c us l0 acc nacc tacc, tk_data c = TkRBrace -> feed s (pre ++ c :: us) ->
  srep (ps_syms s) l0 -> room l0 (pre ++ c :: us) ->
  Permutation acc nacc -> Forall2 (shows2 (ps_syms s)) nacc tacc -> Forall (fun kv => tsimple (fst kv)) tacc ->
  tdistinct (tacc ++ es) -> distinct_keys acc ->
  exists acc' ns s' m, settles (fun f => mloop f s acc) (3 * length pre + 4) (Ok (Some (NMap acc'), s')) /\
    quiet s l0 (length pre + 1) s' us m /\ Permutation acc' ns /\ Forall2 (shows2 (ps_syms s')) ns (tacc ++ es).
Proof.
  induction es as [|[tk tv] es IH]; intros pre P Si s c us l0 acc nacc tacc D F R Rm Pa Sa Sit Td Dk.
  - cbn [flat] in P. inversion P; subst. cbn [app] in F. pose proof (feed_kind _ _ _ _ _ _ F) as K. cbn iota in K. rewrite D in K.
    destruct (consume_quiet _ _ _ _ F R) as (s' & C & Q).
    exists acc, nacc, s', []. rewrite app_nil_r. split; [|split; [exact Q|split; auto]].
    + eapply settles_now with (b := 0%nat) (Q := fun _ => Ok (Some (NMap acc), s')); [reflexivity| |apply settles_const|cbn; lia].
      intros f. rewrite map_loop_S. rewrite K, C. reflexivity.
    + destruct (consume_feed _ _ _ _ _ _ _ F) as (s2 & C2 & _ & _ & Sy). rewrite C in C2. injection C2 as <-. now rewrite Sy.
  - cbn [flat] in P. inversion P as [|? tsk ? ? Rk Hsk P1]; subst.
    inversion P1 as [|? tsv ? pre' Rv Hsv P2]; subst. inversion Si as [|? ? Stk Si']; subst. cbn [fst] in Stk.
    destruct Hsk as (kk & rk & Ekk & Nk & Nek). destruct Hsv as (kv & rv & Ekv & Nv & Nev).
    rewrite <- !app_assoc in F, Rm.
    destruct (Rk _ _ _ F R Rm) as (k & s1 & m1 & S1 & Q1 & Sh1). pose proof Q1 as (F1 & L1 & R1 & B1).
    pose proof (room_tl _ _ _ _ _ Rm B1 eq_refl) as Rm1.
    destruct (Rv _ _ _ F1 R1 Rm1) as (v & s2 & m2 & S2 & Q2 & Sh2). pose proof Q2 as (F2 & L2 & R2 & B2).
    pose proof (room_tl _ _ _ _ _ Rm1 B2 eq_refl) as Rm2.
    assert (R2' : srep (ps_syms s2) (l0 ++ m1 ++ m2)) by now rewrite app_assoc.
    assert (Sk2 : shows (ps_syms s2) k tk) by (eapply shows_grow; [exact R1|exact R2|exact Sh1]).
    assert (Sa2 : Forall2 (shows2 (ps_syms s2)) nacc tacc) by (eapply shows2_grow_all; [exact R|exact R2'|exact Sa]).
    assert (Simp : Forall (fun kv => simple (fst kv)) acc).
    { apply (Permutation_Forall (Permutation_sym Pa)). clear - Sa2 Sit. induction Sa2 as [|[a b] [ta tb] ? ? [A B] ? IHs]; [constructor|].
      inversion Sit; subst. constructor; auto. cbn [fst snd] in *. eapply shows_simple; eauto. }
    assert (Sik : simple k) by (eapply shows_simple; eauto).
    assert (Fresh : forall k' v', In (k', v') acc -> ~ same k k').
    { intros k' v' I S. apply (Permutation_in _ Pa) in I. destruct (Forall2_in_left _ _ _ _ Sa2 I) as ([tk' tv'] & It & [Shk' _]).
      cbn [fst] in Shk'. apply (tdistinct_before _ _ _ _ Td _ _ It).
      assert (tsimple tk') by (rewrite Forall_forall in Sit; exact (Sit _ It)).
      eapply shows_same; [exact R2|auto|exact Shk'|exact Sk2|]. now apply same_sym. }
    destruct (map_find_ok sh acc k sh_ok Sik Simp Dk) as (fd & Ef & Hfd).
    assert (fd = None) as ->.
    { destruct fd as [v0|]; auto. exfalso. destruct (proj1 (Hfd v0) eq_refl) as (k' & I & S). now apply (Fresh k' v0). }
    assert (Dk' : distinct_keys (place (k, v) acc)).
    { eapply distinct_perm; [symmetry; apply place_perm|]. split; auto. }
    destruct (IH pre' P2 Si' s2 c us ((l0 ++ m1) ++ m2) (place (k, v) acc) (nacc ++ [(k, v)]) (tacc ++ [(tk, tv)]) D F2 R2 Rm2)
      as (acc' & ns & s3 & m3 & S3 & Q3 & Pm & Sh3); auto.
    { rewrite (place_perm (k, v) acc). rewrite Pa. apply Permutation_cons_append. }
    { apply Forall2_app; auto. constructor; auto. split; auto. }
    { apply Forall_app. split; auto. }
    { now rewrite <- app_assoc. }
    exists acc', ns, s3, ((m1 ++ m2) ++ m3). rewrite !app_length. split; [|split; [|split; auto]].
    + eapply settles_now with (b := (3 * (length tsk + (length tsv + length pre')) + 3)%nat); [reflexivity| | |lia].
      * intros f. rewrite map_loop_S. subst tsk. pose proof (feed_kind _ _ _ _ _ _ F) as K. cbn in K. rewrite K.
        instantiate (1 := fun f => _). cbn beta. destruct (tk_data kk); try easy; reflexivity.
      * eapply settles_bind.
        { eapply settles_weaken; [|shelve].
          eapply settles_now with (Q := fun f => pnode f s); [reflexivity| |exact S1|apply Nat.lt_succ_diag_r].
          intros f. rewrite parse_map_k_S. subst tsk. pose proof (feed_kind _ _ _ _ _ _ F) as K. cbn in K. rewrite K.
          destruct (tk_data kk); try easy; congruence. }
        cbn beta iota. eapply settles_bind.
        { eapply settles_weaken; [|shelve].
          eapply settles_now with (Q := fun f => pnode f s1); [reflexivity| |exact S2|apply Nat.lt_succ_diag_r].
          intros f. rewrite parse_map_v_S. subst tsv. pose proof (feed_kind _ _ _ _ _ _ F1) as K. cbn in K. rewrite K.
          destruct (tk_data kv); try easy; congruence. }
        cbn beta iota. rewrite Ef. cbn [bind]. unfold map_insert. rewrite Ef. cbn [bind].
        eapply settles_weaken; [exact S3|]. subst tsk tsv. cbn [length]. lia.
        Unshelve.
        -- subst tsv. cbn [length]. lia.
        -- lia.
    + pose proof (quiet_trans _ _ _ _ _ _ _ _ _ _ Q1 Q2) as Q.
      rewrite <- app_assoc in Q3. pose proof (quiet_trans _ _ _ _ _ _ _ _ _ _ Q Q3) as Q'.
      now replace (length tsk + (length tsv + length pre') + 1)%nat with (length tsk + length tsv + (length pre' + 1))%nat by lia.
    + now rewrite <- app_assoc in Sh3.
Qed.

Lemma atom_reads t k n : (forall st, shows st n t) -> tk_data k <> TkEnd ->
  (forall s us, feed s (k :: us) -> forall f, pnode (S f) s = do s <- consume pow10 s; Ok (Some n, s)) -> rd t [k].
Proof.
  intros Sh Ne E s us l F R Rm. cbn [app] in F. destruct (consume_quiet _ _ _ _ F R) as (s' & C & Q).
  exists n, s', []. split; [|split; auto].
  eapply settles_now with (b := 0%nat); [reflexivity|intros f; rewrite (E s us F), C; reflexivity|apply settles_const|cbn; lia].
Qed.

Lemma sym_reads k : tk_data k = TkSymbol \/ tk_data k = TkKeyword -> rd (TSym (text_of text k)) [k].
Proof.
  intros D s us l F R Rm. cbn [app] in F. destruct (consume_quiet _ _ _ _ F R) as (s' & C & Q).
  pose proof Q as (F1 & L1 & R1 & _). rewrite app_nil_r in R1.
  unfold room in Rm. rewrite app_length in Rm. cbn [length] in Rm.
  destruct (intern_spec (ps_syms s') l (cur_text s) R1 ltac:(lia)) as (t' & i & I & R' & N).
  assert (exists m, add_name l (cur_text s) = l ++ m /\ (length m <= 1)%nat) as (m & Em & Lm).
  { unfold add_name. destruct (in_dec _ _ _); [exists []|exists [cur_text s]]; rewrite ?app_nil_r; cbn; auto. }
  rewrite Em in R', N.
  exists (NSymbol (Z.of_nat i)), (mkP (ps_lx s') (ps_tok s') (ps_log s') t'), m. split; [|split].
  - eapply settles_now with (b := 0%nat); [reflexivity| |apply settles_const|cbn; lia].
    intros f. rewrite parse_node_S. pose proof (feed_kind _ _ _ _ _ _ F) as K. cbn iota in K. rewrite K.
    destruct D as [D|D]; rewrite D; unfold parse_symbol; cbn zeta; rewrite C; cbn [bind]; now rewrite I.
  - unfold quiet. cbn [ps_log ps_syms length]. conjs; auto.
  - cbn [shows ps_syms]. rewrite <- (feed_text _ _ _ _ _ _ _ F). split; [eapply sym_string_spec; eauto|].
    apply (sym_id_spec t' (l ++ m) _ R'). eauto.
Qed.

Lemma flat_good es : Forall (fun kv => tsimple (fst kv) /\ tgood (snd kv)) es -> Forall tgood (flat es).
Proof.
  induction 1 as [|[k v] es [A B] F IH]; cbn [flat]; constructor; cbn [fst snd] in *; auto. now apply tsimple_tgood.
Qed.

Lemma open_reads s o c us l pre : feed s ((o :: pre ++ [c]) ++ us) -> srep (ps_syms s) l -> room l ((o :: pre ++ [c]) ++ us) ->
  exists s1, consume pow10 s = Ok s1 /\ feed s1 (pre ++ c :: us) /\ srep (ps_syms s1) l /\ room l (pre ++ c :: us) /\
   ps_log s1 = ps_log s /\ tk_data (ps_tok s) = tk_data o.
Proof.
  intros F R Rm. cbn [app] in F, Rm. rewrite <- app_assoc in F, Rm. cbn [app] in F, Rm.
  destruct (consume_feed _ _ _ _ _ _ _ F) as (s1 & C & F1 & L & Sy). exists s1. conjs; auto.
  - now rewrite Sy.
  - unfold room in *. cbn [length] in Rm. lia.
  - exact (feed_kind _ _ _ _ _ _ F).
Qed.

Lemma quiet_open s (o : token) s1 l k (pre : list token) s2 us m : consume pow10 s = Ok s1 -> ps_log s1 = ps_log s -> k = length (o :: pre ++ [o]) ->
  quiet s1 l (length pre + 1) s2 us m -> quiet s l k s2 us m.
Proof.
  intros _ L -> (A & B & C & D). unfold quiet. conjs; auto; [congruence|]. cbn [length]. rewrite app_length. cbn. lia.
Qed.

Theorem spelled_is_read :
  (forall t ts, spells t ts -> tgood t -> rd t ts) /\
  (forall l ts, spells_all l ts -> Forall tgood l -> parts l ts).
Proof.
  apply (spells_both text (fun t ts => tgood t -> rd t ts) (fun l ts => Forall tgood l -> parts l ts)).
  - intros k D _. apply (atom_reads _ _ NNil); [now cbn|congruence|].
    intros s us F f. rewrite parse_node_S. pose proof (feed_kind _ _ _ _ _ _ F) as K. cbn iota in K. now rewrite K, D.
  - intros k b D _. apply (atom_reads _ _ (NBool b)); [now cbn|congruence|].
    intros s us F f. rewrite parse_node_S. pose proof (feed_kind _ _ _ _ _ _ F) as K. cbn iota in K. now rewrite K, D.
  - intros k v D _. apply (atom_reads _ _ (NInteger v)); [now cbn|congruence|].
    intros s us F f. rewrite parse_node_S. pose proof (feed_kind _ _ _ _ _ _ F) as K. cbn iota in K. now rewrite K, D.
  - intros k x D _. apply (atom_reads _ _ (NReal x)); [now cbn|congruence|].
    intros s us F f. rewrite parse_node_S. pose proof (feed_kind _ _ _ _ _ _ F) as K. cbn iota in K. now rewrite K, D.
  - intros k D _. now apply sym_reads.
  - intros k D _. apply (atom_reads _ _ (NString (text_of text k))); [now cbn|congruence|].
    intros s us F f. rewrite parse_node_S. pose proof (feed_kind _ _ _ _ _ _ F) as K. cbn iota in K. rewrite K, D.
    unfold parse_string. cbn zeta. now rewrite (feed_text _ _ _ _ _ _ _ F).
  - intros o l ts c Do _ IH Dc G. cbn [tgood] in G. apply tgood_list in G. intros s us l0 F R Rm.
    destruct (open_reads _ _ _ _ _ _ F R Rm) as (s1 & C & F1 & R1 & Rm1 & L1 & K).
    destruct (list_reads _ _ (IH G) s1 c us l0 [] Dc F1 R1 Rm1) as (ns & s2 & m & S2 & Q2 & Sh2).
    exists (NList ns), s2, m. split; [|split].
    + eapply settles_now; [reflexivity| |exact S2|cbn [length]; rewrite app_length; cbn; lia].
      intros f. rewrite parse_node_S. rewrite K, Do, C. reflexivity.
    + eapply quiet_open; eauto. cbn [length]. now rewrite !app_length.
    + now apply shows_NList.
  - intros o l ts c Do _ IH Dc G. cbn [tgood] in G. apply tgood_list in G. intros s us l0 F R Rm.
    destruct (open_reads _ _ _ _ _ _ F R Rm) as (s1 & C & F1 & R1 & Rm1 & L1 & K).
    destruct (vec_reads _ _ (IH G) s1 c us l0 [] Dc F1 R1 Rm1) as (ns & s2 & m & S2 & Q2 & Sh2).
    exists (NVector ns), s2, m. split; [|split].
    + eapply settles_now; [reflexivity| |exact S2|cbn [length]; rewrite app_length; cbn; lia].
      intros f. rewrite parse_node_S. rewrite K, Do, C. reflexivity.
    + eapply quiet_open; eauto. cbn [length]. now rewrite !app_length.
    + now apply shows_NVector.
  - intros o es ts c Do _ IH Dc G. cbn [tgood] in G. destruct G as [Td G]. apply tgood_entries in G. intros s us l0 F R Rm.
    destruct (open_reads _ _ _ _ _ _ F R Rm) as (s1 & C & F1 & R1 & Rm1 & L1 & K).
    destruct (map_reads es ts (IH (flat_good _ G)) ltac:(eapply Forall_impl; [|exact G]; cbn; tauto) s1 c us l0 [] [] [] Dc F1 R1 Rm1)
      as (acc & ns & s2 & m & S2 & Q2 & Pm & Sh2); auto; try easy.
    exists (NMap acc), s2, m. split; [|split].
    + eapply settles_now; [reflexivity| |exact S2|cbn [length]; rewrite app_length; cbn; lia].
      intros f. rewrite parse_node_S. rewrite K, Do, C. reflexivity.
    + eapply quiet_open; eauto. cbn [length]. now rewrite !app_length.
    + apply shows_NMap. exists ns. auto.
  - intros _. constructor.
  - intros t ts l us Sp IH1 _ IH2 G. inversion G; subst. constructor; auto. eapply spells_starts; eauto.
Qed.

(** The loop of parse. *)
Lemma top_reads l pre : parts l pre -> forall s l0 acc, feed s pre -> srep (ps_syms s) l0 -> room l0 pre ->
  exists ns s' m, settles (fun f => parse_loop pow10 sh place f s acc) (3 * length pre + 4) (Ok (acc ++ ns, s')) /\
    quiet s l0 (length pre) s' [] m /\ Forall2 (shows (ps_syms s')) ns l.
Proof.
  induction 1 as [|t ts l us1 Rd (k & r & Ek & Nc & Ne) _ IH]; intros s l0 acc F R Rm.
  - exists [], s, []. rewrite app_nil_r. split; [|split; [|constructor]].
    + eapply settles_now with (b := 0%nat) (Q := fun _ => Ok (acc, s)); [reflexivity| |apply settles_const|cbn; lia].
      intros f. rewrite parse_loop_S. pose proof (feed_kind _ _ _ _ _ _ F) as K. cbn iota in K. now rewrite K.
    + unfold quiet. rewrite app_nil_r. conjs; auto.
  - destruct (Rd _ _ _ F R Rm) as (n & s1 & m1 & S1 & Q1 & Sh1).
    pose proof Q1 as (F1 & L1 & R1 & B1).
    pose proof (room_tl _ _ _ _ _ Rm B1 eq_refl) as Rm1.
    destruct (IH s1 (l0 ++ m1) (acc ++ [n]) F1 R1 Rm1) as (ns & s2 & m2 & S2 & Q2 & Sh2).
    exists (n :: ns), s2, (m1 ++ m2). rewrite app_length. split; [|split].
    + eapply settles_now with (b := (3 * (length ts + length us1) + 3)%nat)
        (Q := fun f => do (n, s0) <- pnode f s; parse_loop pow10 sh place f s0 (match n with Some n => acc ++ [n] | None => acc end)); [reflexivity| | |lia].
      * intros f. rewrite parse_loop_S. subst ts. pose proof (feed_kind _ _ _ _ _ _ F) as K. cbn in K. rewrite K.
        destruct (tk_data k); try easy; congruence.
      * eapply settles_bind; [eapply settles_weaken; [exact S1|lia]|]. cbn beta iota.
        replace (acc ++ n :: ns) with ((acc ++ [n]) ++ ns) by now rewrite <- app_assoc.
        eapply settles_weaken; [exact S2|]. subst ts. cbn [length]. lia.
    + exact (quiet_trans _ _ _ _ _ _ _ _ _ _ Q1 Q2).
    + constructor; auto. destruct Q2 as (_ & _ & R2 & _). eapply shows_grow; [exact R1|exact R2|exact Sh1].
Qed.

End Reads.
