(** A module file cut short: sections seen through a prefix of the bytes. *)
From Coq Require Import ZArith List Bool Lia ZifyBool ZifyNat.
From Verif Require Import Outcome LebSpec VarIntModel CodecModel CodecSpec CodecProofs.
Import ListNotations.
Local Open Scope Z_scope.

Definition empty_module : module := mkModule [] [] [].

(** * What is in a prefix is in the whole *)
Lemma bytes_at_app a b p g p' : bytes_at a p g p' -> bytes_at (a ++ b) p g p'.
Proof. intros (pre & post & -> & H1 & H2). exists pre, (post ++ b). rewrite <- !app_assoc. auto. Qed.
Lemma u32_at_app a b p v p' : u32_at a p v p' -> u32_at (a ++ b) p v p'.
Proof. intros (g & H & R). exists g. split; [now apply bytes_at_app|exact R]. Qed.
Lemma seq_at_impl {A} (E F : Z -> A -> Z -> Prop) p l p' : (forall p x p', E p x p' -> F p x p') -> seq_at E p l p' -> seq_at F p l p'.
Proof. intros H S. induction S; econstructor; eauto. Qed.
Lemma vec_at_app {A} (E : bytes -> Z -> A -> Z -> Prop) a b p l p' :
  (forall p x p', E a p x p' -> E (a ++ b) p x p') -> vec_at a (E a) p l p' -> vec_at (a ++ b) (E (a ++ b)) p l p'.
Proof. intros H (q & U & S). exists q. split; [now apply u32_at_app|]. eapply seq_at_impl; eauto. Qed.
Lemma type_at_app a b p t p' : type_at a p t p' -> type_at (a ++ b) p t p'.
Proof.
  intros (p1 & p2 & B & V1 & V2). exists p1, p2. split; [now apply bytes_at_app|].
  split; eapply (vec_at_app byte_at); eauto; intros; now apply bytes_at_app.
Qed.
Lemma codes_at_app a b ts p tis fs p' : codes_at a ts p tis fs p' -> codes_at (a ++ b) ts p tis fs p'.
Proof.
  induction 1 as [|p ti f p1 tis fs p2 (sz & q & t & U1 & U2 & E1 & L & R) C IH]; [constructor|].
  econstructor; [|exact IH]. exists sz, q, t. split; [now apply u32_at_app|]. split; [now apply u32_at_app|].
  split; [exact E1|]. split; [|exact R]. rewrite app_length. lia.
Qed.
Lemma section_at_app a b p m m' p' : section_at a p m m' p' -> section_at (a ++ b) p m m' p'.
Proof.
  intros [p1 p2 p3 sz ts H1 H2 H3 H4|p1 p2 p3 sz is H1 H2 H3 H4|p1 p2 p3 p4 sz fs H1 H2 H3 H4].
  - econstructor 1; [apply bytes_at_app, H1|apply u32_at_app, H2|eapply (vec_at_app type_at); eauto; intros; now apply type_at_app|exact H4].
  - econstructor 2; [apply bytes_at_app, H1|apply u32_at_app, H2|eapply (vec_at_app u32_at); eauto; intros; now apply u32_at_app|exact H4].
  - econstructor 3; [apply bytes_at_app, H1|apply u32_at_app, H2|apply u32_at_app, H3|now apply codes_at_app].
Qed.
Lemma layout_app a b p m cs p' m' : layout a p m cs p' m' -> layout (a ++ b) p m cs p' m'.
Proof.
  induction 1 as [|p m c p0 p1 m1 cs p2 m2 B S L IH]; [constructor|].
  eapply lay_cons; [apply bytes_at_app, B|apply section_at_app, S|exact IH].
Qed.

(** * What ends inside a prefix is in it *)
Lemma bytes_at_cut a b p g p' : bytes_at (a ++ b) p g p' -> p' <= len a -> bytes_at a p g p'.
Proof.
  intros (pre & post & E & H1 & H2) L. unfold len in L.
  assert (E2 : firstn (length a) (a ++ b) = firstn (length a) (pre ++ g ++ post)) by now rewrite E.
  rewrite firstn_app, Nat.sub_diag, firstn_O, app_nil_r, firstn_all in E2.
  rewrite app_assoc, firstn_app in E2. rewrite (firstn_all2 (pre ++ g)) in E2 by (rewrite app_length; lia).
  exists pre, (firstn (length a - length (pre ++ g)) post). rewrite <- app_assoc in E2. auto.
Qed.
Lemma u32_at_cut a b p v p' : u32_at (a ++ b) p v p' -> p' <= len a -> u32_at a p v p'.
Proof. intros (g & H & R) L. exists g. split; [eapply bytes_at_cut; eauto|exact R]. Qed.
Lemma seq_at_cut {A} (E F : Z -> A -> Z -> Prop) n p l p' :
  (forall p x p', E p x p' -> p <= p') -> (forall p x p', E p x p' -> p' <= n -> F p x p') ->
  seq_at E p l p' -> p' <= n -> seq_at F p l p' /\ p <= p'.
Proof.
  intros Hm H S. induction S as [|p x p1 xs p2 S1 S2 IH]; intros L; [split; [constructor|lia]|].
  destruct (IH L) as (I1 & I2). specialize (Hm _ _ _ S1). split; [|lia]. econstructor; [|exact I1]. apply H; [exact S1|lia].
Qed.
Lemma vec_at_cut {A} (E : bytes -> Z -> A -> Z -> Prop) a b p l p' :
  (forall p x p', E (a ++ b) p x p' -> p <= p') ->
  (forall p x p', E (a ++ b) p x p' -> p' <= len a -> E a p x p') ->
  vec_at (a ++ b) (E (a ++ b)) p l p' -> p' <= len a -> vec_at a (E a) p l p' /\ p <= p'.
Proof.
  intros Hm H (q & U & S) L. destruct (seq_at_cut _ (E a) (len a) _ _ _ Hm H S L) as (S' & Lq).
  pose proof (mono_u32 _ _ _ _ U). split; [|lia]. exists q. split; [eapply u32_at_cut; eauto; lia|exact S'].
Qed.
Lemma byte_mono bs p c p' : byte_at bs p c p' -> p <= p'.
Proof. intros H. now apply mono_byte in H. Qed.
Lemma u32_mono bs p c p' : u32_at bs p c p' -> p <= p'.
Proof. intros H. now apply mono_u32 in H. Qed.
Lemma type_at_cut a b p t p' : type_at (a ++ b) p t p' -> p' <= len a -> type_at a p t p'.
Proof.
  intros (p1 & p2 & B & V1 & V2) L.
  destruct (vec_at_cut byte_at a b p2 _ p' (byte_mono _) (fun p x p' => bytes_at_cut a b p [x] p') V2 L) as (V2' & L2).
  destruct (vec_at_cut byte_at a b p1 _ p2 (byte_mono _) (fun p x p' => bytes_at_cut a b p [x] p') V1 ltac:(lia)) as (V1' & L1).
  exists p1, p2. split; [eapply bytes_at_cut; [exact B|lia]|auto].
Qed.
Lemma section_at_cut a b p m m' p' : section_at (a ++ b) p m m' p' -> (forall q, ~ byte_at (a ++ b) p 10 q) -> p' <= len a ->
  section_at a p m m' p'.
Proof.
  intros [p1 p2 p3 sz ts H1 H2 H3 H4|p1 p2 p3 sz is H1 H2 H3 H4|p1 p2 p3 p4 sz fs H1 H2 H3 H4] N L.
  - destruct (vec_at_cut type_at a b p2 ts p3 (fun p x p' H => proj1 (mono_type _ _ _ _ H)) (type_at_cut a b) H3 L) as (V & L2).
    pose proof (u32_mono _ _ _ _ H2). econstructor 1; [eapply bytes_at_cut; [exact H1|lia]|eapply u32_at_cut; [exact H2|lia]|exact V|exact H4].
  - destruct (vec_at_cut u32_at a b p2 is p3 (u32_mono _) (u32_at_cut a b) H3 L) as (V & L2).
    pose proof (u32_mono _ _ _ _ H2). econstructor 2; [eapply bytes_at_cut; [exact H1|lia]|eapply u32_at_cut; [exact H2|lia]|exact V|exact H4].
  - exfalso. eapply N; eauto.
Qed.

(** * One reading *)
Lemma byte_det bs p c q d r : byte_at bs p c q -> byte_at bs p d r -> c = d.
Proof.
  intros (a & b & E & H & _) (a' & b' & E' & H' & _). rewrite E in E'.
  assert (length a = length a') by lia. apply app_pos in E' as (_ & E'); auto. cbn in E'. congruence.
Qed.
Lemma section_det bs p m a pa b pb : is_bytes bs -> 0 <= p <= len bs ->
  section_at bs p m a pa -> section_at bs p m b pb -> a = b /\ pa = pb.
Proof.
  intros Hb Hp H1 H2. apply (rd_complete _ _ _ (reader_section m) _ _ _ _ Hb Hp) in H1.
  apply (rd_complete _ _ _ (reader_section m) _ _ _ _ Hb Hp) in H2. rewrite H1 in H2. now injection H2 as -> ->.
Qed.
Lemma layout_mono bs p m cs q m' : layout bs p m cs q m' -> p <= q.
Proof. induction 1 as [|p m c p0 p1 m1 cs p2 m2 B S L IH]; [lia|]. apply section_mono in S. lia. Qed.
Lemma layout_split bs p m cs q m' cs2 m2 : is_bytes bs -> 0 <= p <= len bs ->
  layout bs p m cs q m' -> layout bs p m cs2 (len bs) m2 -> exists cs', cs2 = cs ++ cs' /\ layout bs q m' cs' (len bs) m2.
Proof.
  intros Hb Hp H. revert cs2. induction H as [|p m c p0 p1 m1 cs q m' B S L IH]; intros cs2 H2; [now exists cs2|].
  pose proof (section_mono _ _ _ _ _ S). inversion H2 as [|? ? c' ? p1' m1' cs2' ? ? B' S' L']; subst; [lia|].
  destruct (section_det _ _ _ _ _ _ _ Hb Hp S S') as (-> & ->). rewrite (byte_det _ _ _ _ _ _ B B').
  destruct (IH ltac:(lia) cs2' L') as (cs' & -> & Hl). now exists cs'.
Qed.
Lemma layout_at_end bs m cs q m' : layout bs (len bs) m cs q m' -> cs = [] /\ m' = m.
Proof. intros H. inversion H as [|? ? c ? p1 m1 ? ? ? B S L]; subst; [auto|]. apply section_mono in S. lia. Qed.
(** What the sections read so far have given is kept. *)
Lemma section_grow bs p m m' p' : section_at bs p m m' p' ->
  exists t i f, m_types m' = m_types m ++ t /\ m_func_types m' = m_func_types m ++ i /\ m_funcs m' = m_funcs m ++ f.
Proof. intros []; cbn; [exists ts, [], []|exists [], is, []|exists [], [], fs]; rewrite ?app_nil_r; auto. Qed.
Lemma layout_grow bs p m cs q m' : layout bs p m cs q m' ->
  exists t i f, m_types m' = m_types m ++ t /\ m_func_types m' = m_func_types m ++ i /\ m_funcs m' = m_funcs m ++ f.
Proof.
  induction 1 as [|p m c p0 p1 m1 cs q m' B S L (t & i & f & E1 & E2 & E3)]; [exists [], [], []; now rewrite !app_nil_r|].
  apply section_grow in S as (t1 & i1 & f1 & F1 & F2 & F3). exists (t1 ++ t), (i1 ++ i), (f1 ++ f).
  rewrite E1, E2, E3, F1, F2, F3, !app_assoc. auto.
Qed.
Lemma layout_no_code bs p m cs q m' : layout bs p m cs q m' -> ~ In 10 cs -> m_funcs m' = m_funcs m.
Proof.
  induction 1 as [|p m c p0 p1 m1 cs q m' B S L IH]; intros N; [reflexivity|]. rewrite IH by (intros X; apply N; now right).
  destruct S; cbn; auto. exfalso. apply N. left. eapply byte_det; eauto.
Qed.
Lemma layout_app_list bs p m cs q m' cs' r m2 : layout bs p m cs q m' -> layout bs q m' cs' r m2 -> layout bs p m (cs ++ cs') r m2.
Proof. induction 1; cbn; intros; auto. econstructor; eauto. Qed.

(** * Accepted prefixes *)
Lemma layout_sections bs p m cs m' : layout bs p m cs (len bs) m' -> sections_at bs p m m'.
Proof. remember (len bs) as e eqn:E. induction 1; subst; [constructor|]. econstructor; eauto. Qed.
Lemma file_layout bs m : module_file bs m <-> bytes_at bs 0 [97; 98; 97; 98; 1; 0; 0; 0] 8 /\ exists cs, layout bs 8 empty_module cs (len bs) m.
Proof.
  split; intros (H & S); (split; [exact H|]); [now apply sections_layout|destruct S as (cs & S); eapply layout_sections; eauto].
Qed.
Lemma firstn_bytes n bs : is_bytes bs -> is_bytes (firstn n bs).
Proof. unfold is_bytes. rewrite !Forall_forall. intros H x Hx. apply H. rewrite <- (firstn_skipn n bs). apply in_or_app. now left. Qed.
Lemma accepted_cut bs n m' : is_bytes bs -> (n <= length bs)%nat -> compile (firstn n bs) = Ok m' ->
  exists cs, layout bs 8 empty_module cs (Z.of_nat n) m'.
Proof.
  intros Hb Hn E. apply compile_spec in E; [|now apply firstn_bytes]. apply file_layout in E as (_ & cs & L).
  exists cs. rewrite <- (firstn_skipn n bs). unfold len in L. rewrite firstn_length, Nat.min_l in L by lia. now apply layout_app.
Qed.
Lemma layout_cut a b p m cs m' : layout (a ++ b) p m cs (len a) m' -> ~ In 10 cs -> layout a p m cs (len a) m'.
Proof.
  remember (len a) as e eqn:Ee. intros H. induction H as [|p m c p0 p1 m1 cs q m2 B S L IH]; intros N; [constructor|].
  specialize (IH Ee ltac:(intros X; apply N; now right)). pose proof (layout_mono _ _ _ _ _ _ IH).
  pose proof (section_mono _ _ _ _ _ S). apply bytes_at_bound in B as X. unfold len in X at 1. cbn in X.
  econstructor; [eapply bytes_at_cut; [exact B|lia]| |exact IH]. eapply section_at_cut; [exact S| |lia].
  intros r B'. apply N. left. eapply byte_det; eauto.
Qed.
Lemma cut_accepted bs n cs m m' : is_bytes bs -> (n <= length bs)%nat -> compile bs = Ok m ->
  layout bs 8 empty_module cs (Z.of_nat n) m' -> ~ In 10 cs -> compile (firstn n bs) = Ok m'.
Proof.
  intros Hb Hn E L N. apply compile_spec; [now apply firstn_bytes|]. apply compile_spec in E; [|exact Hb]. destruct E as (Hh & _).
  assert (Ln : len (firstn n bs) = Z.of_nat n) by (unfold len; rewrite firstn_length; lia).
  pose proof (layout_mono _ _ _ _ _ _ L). rewrite <- (firstn_skipn n bs) in L, Hh. apply file_layout. split.
  - eapply bytes_at_cut; [exact Hh|lia].
  - exists cs. rewrite <- Ln in L. rewrite Ln at 1. rewrite <- Ln. eapply layout_cut; eauto.
Qed.

(** * The sections of a written file *)
Definition some {A} (l : list A) (codes : list Z) : list Z := match l with [] => [] | _ => codes end.
Lemma some_cons {A} (l : list A) codes : l <> [] -> some l codes = codes.
Proof. destruct l; [congruence|reflexivity]. Qed.
Ltac apps := repeat (rewrite <- ?app_assoc; cbn [app]); reflexivity.
Lemma write_layout m : fits m -> exists bs, write m = Ok bs /\ is_bytes bs /\
  (len bs < 2 ^ 32 -> exists fs n,
     layout bs 8 empty_module (some (mn_types m) [1] ++ some (mn_funcs m) [3]) n (mkModule (mn_types m) (map fn_type_idx (mn_funcs m)) []) /\
     layout bs n (mkModule (mn_types m) (map fn_type_idx (mn_funcs m)) []) (some (mn_funcs m) [10]) (len bs)
       (mkModule (mn_types m) (map fn_type_idx (mn_funcs m)) fs)).
Proof.
  intros [Ft Ff]. unfold write.
  assert (HT : forall x, In x (mn_types m) -> exists g, append_type x = Ok g /\ is_bytes g /\ (1 <= length g)%nat).
  { intros x Hx. apply append_type_ok. rewrite Forall_forall in Ft. auto. }
  assert (HF : forall x, In x (map fn_type_idx (mn_funcs m)) ->
     exists g, append_varuint32 x = Ok g /\ is_bytes g /\ (1 <= length g)%nat).
  { intros x _. destruct (append_varuint32_ok x) as (g & ? & ? & ? & _). exists g. split; [auto|]. split; [auto|lia]. }
  assert (HC : forall x, In x (mn_funcs m) -> exists g, code_append_to x = Ok g /\ is_bytes g /\ (1 <= length g)%nat).
  { intros x Hx. rewrite Forall_forall in Ff. eapply code_append_ok; eauto. }
  destruct (append_section_ok S_TYPE _ _ ltac:(unfold is_byte, S_TYPE; lia) HT) as (gt & Et & Bt).
  destruct (append_section_ok S_FUNC _ _ ltac:(unfold is_byte, S_FUNC; lia) HF) as (gf & Ef & Bf).
  destruct (append_section_ok S_CODE _ _ ltac:(unfold is_byte, S_CODE; lia) HC) as (gc & Ec & Bc).
  rewrite Et, Ef, Ec. cbn [bind]. eexists. split; [reflexivity|].
  change (le_bytes 4 MODULE_MAGIC ++ le_bytes 4 MODULE_VERSION ++ gt ++ gf ++ gc)
    with (header_bytes ++ gt ++ gf ++ gc).
  split.
  { apply Forall_app. split; [repeat constructor; unfold is_byte; lia|].
    unfold is_bytes in *. rewrite !Forall_app. auto. }
  intros L.
  assert (Hh : bytes_at (header_bytes ++ gt ++ gf ++ gc) 0 header_bytes 8)
    by (exists [], (gt ++ gf ++ gc); repeat split).
  set (bs := header_bytes ++ gt ++ gf ++ gc) in *.
  (* the code section *)
  assert (Sc : exists fs, layout bs (8 + len gt + len gf)
      (mkModule (mn_types m) (map fn_type_idx (mn_funcs m)) []) (some (mn_funcs m) [10]) (len bs)
      (mkModule (mn_types m) (map fn_type_idx (mn_funcs m)) fs)).
  { destruct (mn_funcs m) as [|f0 fl] eqn:Em.
    - injection Ec as <-. exists [].
      replace (8 + len gt + len gf) with (Z.of_nat (length bs)); [constructor|].
      fold (len bs). subst bs. rewrite !len_app. replace (len header_bytes) with 8 by reflexivity.
      replace (len []) with 0 by reflexivity. lia.
    - rewrite <- Em in *. assert (Hne : mn_funcs m <> []) by congruence. clear Em f0 fl.
      destruct (section_write S_CODE _ _ _ Hne Ec HC) as (s & n & es & -> & Ees & W).
      set (g := [S_CODE] ++ s ++ n ++ es) in *.
      specialize (W (header_bytes ++ gt ++ gf) []). rewrite app_nil_r in W.
      replace ((header_bytes ++ gt ++ gf) ++ g) with bs in W by (subst bs; apps).
      specialize (W L). destruct W as (W1 & W2 & W3).
      replace (len (header_bytes ++ gt ++ gf)) with (8 + len gt + len gf) in *
        by (rewrite !len_app; replace (len header_bytes) with 8 by reflexivity; lia).
      destruct (codes_write _ _ Ff es (header_bytes ++ gt ++ gf ++ [S_CODE] ++ s ++ n) [] Ees) as (fs & C1 & C2 & _).
      { rewrite app_nil_r. replace ((header_bytes ++ gt ++ gf ++ [S_CODE] ++ s ++ n) ++ es) with bs; auto.
        subst bs g. apps. }
      replace ((header_bytes ++ gt ++ gf ++ [S_CODE] ++ s ++ n) ++ es ++ []) with bs in C1, C2
        by (subst bs g; rewrite app_nil_r; apps).
      exists fs. rewrite some_cons by exact Hne.
      apply lay_cons with (m1 := mkModule (mn_types m) (map fn_type_idx (mn_funcs m)) fs)
        (p1 := Z.of_nat (length bs)) (p0 := 8 + len gt + len gf + 1); [exact W1| |constructor].
      replace fs with ([] ++ fs) at 1 by reflexivity.
      eapply (sec_code bs _ (mkModule (mn_types m) (map fn_type_idx (mn_funcs m)) [])).
      + exact W1.
      + exact W2.
      + cbn [m_func_types]. rewrite map_length. exact W3.
      + cbn [m_func_types m_types].
        replace (8 + len gt + len gf + 1 + len s + len n) with
          (len (header_bytes ++ gt ++ gf ++ [S_CODE] ++ s ++ n))
          by (rewrite !len_app; replace (len header_bytes) with 8 by reflexivity;
              replace (len [S_CODE]) with 1 by reflexivity; lia).
        replace (Z.of_nat (length bs)) with
          (len (header_bytes ++ gt ++ gf ++ [S_CODE] ++ s ++ n) + len es); [exact C1|].
        fold (len bs). subst bs g. rewrite !len_app. lia. }
  destruct Sc as (fs & Sc). exists fs, (8 + len gt + len gf). split; [|exact Sc]. clear Sc.
  (* the function section *)
  assert (Sf : layout bs (8 + len gt) (mkModule (mn_types m) [] []) (some (mn_funcs m) [3]) (8 + len gt + len gf)
      (mkModule (mn_types m) (map fn_type_idx (mn_funcs m)) [])).
  { destruct (mn_funcs m) as [|f0 fl] eqn:Em.
    - cbn [map] in *. injection Ef as <-. replace (len []) with 0 by reflexivity.
      rewrite Z.add_0_r. constructor.
    - rewrite <- Em in *.
      assert (Hne : map fn_type_idx (mn_funcs m) <> []) by (rewrite Em; discriminate).
      rewrite (some_cons (mn_funcs m)) by congruence. clear Em f0 fl.
      destruct (section_write S_FUNC _ _ _ Hne Ef HF) as (s & n & es & -> & Ees & W).
      set (g := [S_FUNC] ++ s ++ n ++ es) in *.
      specialize (W (header_bytes ++ gt) gc).
      replace ((header_bytes ++ gt) ++ g ++ gc) with bs in W by (subst bs; apps).
      specialize (W L). destruct W as (W1 & W2 & W3).
      replace (len (header_bytes ++ gt)) with (8 + len gt) in *
        by (rewrite !len_app; replace (len header_bytes) with 8 by reflexivity; lia).
      eapply lay_cons; [exact W1| |apply lay_nil].
      replace (map fn_type_idx (mn_funcs m)) with ([] ++ map fn_type_idx (mn_funcs m)) by reflexivity.
      eapply (sec_func bs _ (mkModule (mn_types m) [] []) _ _ (8 + len gt + len g)); [exact W1|exact W2| |].
      + exists (8 + len gt + 1 + len s + len n). split; [exact W3|].
        pose proof (seq_write append_varuint32 u32_at (map fn_type_idx (mn_funcs m))) as SW.
        assert (SP : forall x g pre post, In x (map fn_type_idx (mn_funcs m)) ->
           append_varuint32 x = Ok g -> len (pre ++ g ++ post) < 2 ^ 32 ->
           u32_at (pre ++ g ++ post) (len pre) x (len pre + len g)).
        { intros x g' pre post Hx Eg _. destruct (append_varuint32_ok x) as (g2 & E2 & _ & _ & U).
          rewrite Eg in E2. injection E2 as <-. apply U.
          apply in_map_iff in Hx as (f & <- & Hf). rewrite Forall_forall in Ff.
          destruct (Ff f Hf) as (B & _).
          assert (Hty : mn_types m <> []) by (intros X; rewrite X in B; cbn in B; lia).
          destruct (section_write S_TYPE _ _ _ Hty Et HT) as (s' & n' & es' & Egt & Ees' & _).
          destruct (append_all_ok append_type _ HT) as (e2 & E2 & _ & Hl).
          rewrite Ees' in E2. injection E2 as <-.
          assert (len es' <= len bs).
          { subst bs. rewrite Egt, !len_app. pose proof (len_nonneg header_bytes). pose proof (len_nonneg [S_TYPE]).
            pose proof (len_nonneg s'). pose proof (len_nonneg n'). pose proof (len_nonneg g).
            pose proof (len_nonneg gc). lia. }
          unfold len in *. lia. }
        specialize (SW SP es (header_bytes ++ gt ++ [S_FUNC] ++ s ++ n) gc Ees).
        replace ((header_bytes ++ gt ++ [S_FUNC] ++ s ++ n) ++ es ++ gc) with bs in SW
          by (subst bs g; apps).
        specialize (SW L).
        replace (8 + len gt + 1 + len s + len n) with (len (header_bytes ++ gt ++ [S_FUNC] ++ s ++ n))
          by (rewrite !len_app; replace (len header_bytes) with 8 by reflexivity;
              replace (len [S_FUNC]) with 1 by reflexivity; lia).
        replace (8 + len gt + len g) with (len (header_bytes ++ gt ++ [S_FUNC] ++ s ++ n) + len es);
          [exact SW|].
        subst g. rewrite !len_app. replace (len header_bytes) with 8 by reflexivity. lia.
      + subst g. rewrite !len_app. replace (len [S_FUNC]) with 1 by reflexivity. lia. }
  (* the type section *)
  destruct (mn_types m) as [|t0 tl] eqn:Em.
  - injection Et as <-. replace (len []) with 0 in * by reflexivity. rewrite Z.add_0_r in Sf. exact Sf.
  - rewrite <- Em in *. assert (Hne : mn_types m <> []) by congruence. clear Em t0 tl.
    destruct (section_write S_TYPE _ _ _ Hne Et HT) as (s & n & es & -> & Ees & W).
    set (g := [S_TYPE] ++ s ++ n ++ es) in *.
    specialize (W header_bytes (gf ++ gc)). fold bs in W. specialize (W L). destruct W as (W1 & W2 & W3).
    replace (len header_bytes) with 8 in * by reflexivity.
    rewrite (some_cons (mn_types m)) by exact Hne. eapply lay_cons; [exact W1| |exact Sf].
    replace (mn_types m) with ([] ++ mn_types m) at 2 by reflexivity.
    eapply (sec_type bs _ (mkModule [] [] []) _ _ (8 + len g)); [exact W1|exact W2| |].
    + exists (8 + 1 + len s + len n). split; [exact W3|].
      pose proof (seq_write append_type type_at (mn_types m)
        (fun x g pre post _ E1 L1 => type_write x g pre post E1 L1)
        es (header_bytes ++ [S_TYPE] ++ s ++ n) (gf ++ gc) Ees) as SW.
      replace ((header_bytes ++ [S_TYPE] ++ s ++ n) ++ es ++ gf ++ gc) with bs in SW
        by (subst bs g; apps).
      specialize (SW L).
      replace (8 + 1 + len s + len n) with (len (header_bytes ++ [S_TYPE] ++ s ++ n))
        by (rewrite !len_app; replace (len header_bytes) with 8 by reflexivity;
            replace (len [S_TYPE]) with 1 by reflexivity; lia).
      replace (8 + len g) with (len (header_bytes ++ [S_TYPE] ++ s ++ n) + len es); [exact SW|].
      subst g. rewrite !len_app. replace (len header_bytes) with 8 by reflexivity. lia.
    + subst g. rewrite !len_app. replace (len [S_TYPE]) with 1 by reflexivity. lia.
Qed.
