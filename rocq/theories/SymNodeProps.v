(** Theorems about symbols made by name (C157) and copies of symbol tables (C158). *)
From Coq Require Import ZArith List Bool Lia.
From Verif Require Import Outcome HashModel HashProofs TablesModel TablesSpec TablesProofs TablesProps IrModel SymNodeModel.
Import ListNotations.
Local Open Scope Z_scope.

(** * Tables that may have been moved from *)
Definition tinv (t : symtab) : Prop :=
  (forall s i, find_name s (st_symbols t) = Some i <-> find_id i (st_strings t) = Some s) /\
  (forall s i, find_name s (st_symbols t) = Some i -> 0 <= i < st_next t) /\
  0 <= st_next t.

Lemma tinv_empty k : 0 <= k -> tinv (mkSym k [] []).
Proof. intros H. repeat split; cbn; try discriminate; auto. Qed.

Lemma intern_inv t s : tinv t -> st_next t + 1 < 2 ^ 64 ->
  exists t' i, intern t s = (t', i) /\ tinv t' /\ st_next t <= st_next t' <= st_next t + 1 /\
    0 <= i < st_next t' /\
    find_id i (st_strings t') = Some s /\
    (forall k u, find_id k (st_strings t) = Some u -> find_id k (st_strings t') = Some u) /\
    (forall k u, find_id k (st_strings t') = Some u -> find_id k (st_strings t) = Some u \/ (k = i /\ u = s)) /\
    (i = st_next t \/ find_id i (st_strings t) = Some s).
Proof.
  intros (H1 & H2 & H3) B. unfold intern. destruct (find_name s (st_symbols t)) as [i|] eqn:E.
  - exists t, i. pose proof (H2 _ _ E). pose proof (proj1 (H1 _ _) E). repeat split; auto; lia || (intros; apply H1; auto) || auto.
    all: try (apply H1). all: try (eapply H2; eauto).
  - assert (EI : find_id (st_next t) (st_strings t) = None).
    { destruct (find_id (st_next t) (st_strings t)) as [u|] eqn:F; auto. apply H1 in F. apply H2 in F. lia. }
    eexists _, _. split; [reflexivity|]. cbn [st_next st_symbols st_strings].
    unfold insert_name, insert_id. rewrite E, EI. rewrite u64_small by (split; lia).
    assert (NI : forall u i, find_name u ((s, st_next t) :: st_symbols t) = Some i <->
                 find_id i ((st_next t, s) :: st_strings t) = Some u).
    { intros u i. rewrite find_name_cons, find_id_cons. destruct (name_eqb s u) eqn:Eu.
      - apply name_eqb_eq in Eu. subst u. destruct (Z.eqb_spec (st_next t) i) as [->|N].
        + split; intros _; reflexivity.
        + split; [intros X; injection X as X; congruence|]. intros X. apply H1 in X. congruence.
      - assert (s <> u) by (intros ->; rewrite (proj2 (name_eqb_eq u u) eq_refl) in Eu; discriminate).
        destruct (Z.eqb_spec (st_next t) i) as [Ei|N]; [|apply H1].
        split; [intros X; apply H2 in X; lia|]. intros X. injection X as X. congruence. }
    split; [split; [exact NI|split]|].
    + cbn [st_symbols st_next]. intros u i X. rewrite find_name_cons in X. destruct (name_eqb s u); [injection X as <-; lia|]. apply H2 in X. lia.
    + cbn [st_next]. lia.
    + split; [lia|]. split; [lia|]. rewrite find_id_cons, Z.eqb_refl. split; [reflexivity|].
      split; [|split; [|auto]].
      * intros k u X. rewrite find_id_cons. destruct (Z.eqb_spec (st_next t) k) as [<-|]; auto. congruence.
      * intros k u X. rewrite find_id_cons in X. destruct (Z.eqb_spec (st_next t) k) as [<-|]; auto. injection X as <-. auto.
Qed.

(** * C157 *)

Definition name_of (r : named) : name := match r with Sym s | Key s => s end.

Lemma named_is_intern rs : forall t,
  nodes_named t rs =
  (fst (intern_all t (map name_of rs)),
   map (fun p => match fst p with Sym _ => NSymbol (snd p) | Key _ => NKeyword (snd p) end)
       (combine rs (snd (intern_all t (map name_of rs))))).
Proof.
  induction rs as [|r rs IH]; intros t; cbn [nodes_named map name_of intern_all]; auto.
  unfold node_named. destruct r as [s|s]; cbn [name_of]; destruct (intern t s) as [t1 i]; rewrite IH;
    destruct (intern_all t1 (map name_of rs)) as [t2 is]; reflexivity.
Qed.

(** Two nodes made by name are equal exactly when both are symbols or both keywords and the names are the same;
    equal ones hash the same; and a symbol's string is its name, whatever was made after it. *)
Theorem C157_symbols_are_equal_when_their_names_are sh rs i j a b na nb :
  Z.of_nat (length rs) < 2 ^ 64 ->
  let t := fst (nodes_named empty_symtab rs) in
  let ns := snd (nodes_named empty_symtab rs) in
  nth_error rs i = Some a -> nth_error rs j = Some b ->
  nth_error ns i = Some na -> nth_error ns j = Some nb ->
  (a = b -> node_eq sh na nb = Ok true /\ node_hash sh na = node_hash sh nb) /\
  (a <> b -> node_eq sh na nb = Ok false) /\
  (forall s, a = Sym s -> exists id, na = NSymbol id /\ string_of t id = Ok (NString s)).
Proof.
  intros L t ns Ra Rb Na Nb. subst t ns. rewrite named_is_intern in *. cbn [fst snd] in *.
  destruct (C21_interning_is_a_bijection (map name_of rs)) as (Len & Inj & Str & _). { rewrite map_length. auto. }
  set (t := fst (intern_all empty_symtab (map name_of rs))) in *.
  set (ids := snd (intern_all empty_symtab (map name_of rs))) in *. clearbody ids t.
  assert (G : forall k r n, nth_error rs k = Some r ->
     nth_error (map (fun p => match fst p with Sym _ => NSymbol (snd p) | Key _ => NKeyword (snd p) end) (combine rs ids)) k = Some n ->
     exists id, nth_error ids k = Some id /\ n = match r with Sym _ => NSymbol id | Key _ => NKeyword id end).
  { clear -Len. rewrite map_length in Len. revert ids Len. induction rs as [|r0 rs IH]; intros ids Len k r n Hr Hn; [destruct k; discriminate|].
    destruct ids as [|id ids]; [discriminate|]. destruct k as [|k]; cbn in *.
    - injection Hr as <-. injection Hn as <-. eauto.
    - eapply IH; eauto. }
  destruct (G _ _ _ Ra Na) as (ia & Ia & ->). destruct (G _ _ _ Rb Nb) as (ib & Ib & ->).
  assert (Ma : nth_error (map name_of rs) i = Some (name_of a)) by (now apply map_nth_error).
  assert (Mb : nth_error (map name_of rs) j = Some (name_of b)) by (now apply map_nth_error).
  pose proof (Inj _ _ _ _ _ _ Ma Ia Mb Ib) as IJ.
  split; [|split].
  - intros ->. assert (ia = ib) as -> by (apply IJ; auto). destruct b; cbn [node_eq]; rewrite Z.eqb_refl; auto.
  - intros N. destruct a as [s|s], b as [u|u]; cbn [node_eq name_of] in *; auto; f_equal; apply Z.eqb_neq; intros E; apply N; f_equal; apply IJ; auto.
  - intros s ->. exists ia. split; auto. destruct (Str _ _ _ Ma Ia) as [E _]. unfold string_of. rewrite E. reflexivity.
Qed.
Print Assumptions C157_symbols_are_equal_when_their_names_are.

Example C157_case :
  snd (nodes_named empty_symtab [Sym [97]; Key [97]; Sym [98]; Sym [97]]) = [NSymbol 0; NKeyword 0; NSymbol 1; NSymbol 0].
Proof. reflexivity. Qed.

(** * C158 *)

Definition winv (n : Z) (w : tables) (rs : list (nat * name * Z)) : Prop :=
  0 <= n /\
  (forall j t, nth_error w j = Some t -> tinv t /\ st_next t <= n /\
     forall s i, In (j, s, i) rs -> 0 <= i < st_next t /\ (forall u, find_id i (st_strings t) = Some u -> u = s)) /\
  (forall j s i, In (j, s, i) rs -> (j < length w)%nat) /\
  (forall j s u i, In (j, s, i) rs -> In (j, u, i) rs -> s = u).

Lemma nth_snoc {A} (l : list A) x k y : nth_error (l ++ [x]) k = Some y ->
  nth_error l k = Some y \/ (k = length l /\ y = x).
Proof.
  intros H. destruct (Nat.ltb_spec k (length l)).
  - rewrite nth_error_app1 in H by auto. auto.
  - rewrite nth_error_app2 in H by auto. destruct (k - length l)%nat as [|m] eqn:E; cbn in H.
    + injection H as <-. right. split; auto. lia.
    + destruct m; discriminate.
Qed.

Lemma nth_replace_inv {A} j (x : A) l k y : nth_error (replace_nth j x l) k = Some y ->
  (k = j /\ y = x /\ (j < length l)%nat) \/ (k <> j /\ nth_error l k = Some y).
Proof.
  intros H. destruct (Nat.eq_dec j k) as [->|N].
  - left. assert ((k < length l)%nat).
    { rewrite <- (replace_nth_length k x l). apply nth_error_Some. congruence. }
    rewrite nth_replace_same in H by auto. injection H as <-. auto.
  - right. rewrite nth_replace_other in H by auto. auto.
Qed.

Lemma step_winv n w rs o w' r : winv n w rs -> n + 1 < 2 ^ 64 -> table_step w o = Ok (w', r) ->
  winv (n + 1) w' (match r with Some x => x :: rs | None => rs end).
Proof.
  intros (I0 & I1 & I2 & I3) B E. destruct o as [|j|j|j s]; cbn [table_step] in E.
  - injection E as <- <-. split; [lia|]. split; [|split]; auto.
    + intros j t H. apply nth_snoc in H. destruct H as [H|[-> ->]].
      * destruct (I1 _ _ H) as (A & C & D). conjs; auto. lia.
      * split; [apply (tinv_empty 0); lia|]. split; [cbn; lia|].
        intros s i X. apply I2 in X. lia.
    + intros j s i X. apply I2 in X. rewrite app_length. lia.
  - destruct (nth_error w j) as [t0|] eqn:Ej; [|discriminate]. injection E as <- <-. split; [lia|]. split; [|split]; auto.
    + intros k t H. apply nth_snoc in H. destruct H as [H|[-> ->]].
      * destruct (I1 _ _ H) as (A & C & D). conjs; auto. lia.
      * destruct (I1 _ _ Ej) as (A & C & D). conjs; auto; [lia|].
        intros s i X. apply I2 in X. lia.
    + intros k s i X. apply I2 in X. rewrite app_length. lia.
  - destruct (nth_error w j) as [t0|] eqn:Ej; [|discriminate]. injection E as <- <-.
    destruct (I1 _ _ Ej) as (A & C & D). split; [lia|]. split; [|split]; auto.
    + intros k t H. apply nth_snoc in H. rewrite replace_nth_length in H. destruct H as [H|[-> ->]].
      * apply nth_replace_inv in H. destruct H as [(-> & -> & _)|[N H]].
        { split; [apply tinv_empty; apply A|]. cbn [st_next]. split; [lia|].
          intros s i X. destruct (D _ _ X). split; auto. cbn. discriminate. }
        destruct (I1 _ _ H) as (A' & C' & D'). conjs; auto. lia.
      * conjs; auto; [lia|]. intros s i X. apply I2 in X. lia.
    + intros k s i X. apply I2 in X. rewrite app_length, replace_nth_length. lia.
  - destruct (nth_error w j) as [t0|] eqn:Ej; [|discriminate].
    destruct (I1 _ _ Ej) as (A & C & D).
    destruct (intern_inv t0 s A ltac:(lia)) as (t' & i & Ei & A' & N' & R' & F' & K' & O' & P').
    rewrite Ei in E. injection E as <- <-. split; [lia|]. split; [|split].
    + intros k t H. apply nth_replace_inv in H. destruct H as [(-> & -> & _)|[N H]].
      * conjs; auto; [lia|]. intros u k [X|X].
        { injection X as <- <-. split; [lia|]. intros v Hv. congruence. }
        destruct (D _ _ X) as [D1 D2]. split; [lia|]. intros v Hv. apply O' in Hv. destruct Hv as [Hv|[-> ->]]; auto.
        destruct P' as [P'|P']; [lia|]. auto.
      * destruct (I1 _ _ H) as (A2 & C2 & D2). conjs; auto; [lia|]. intros u v [X|X]; auto. congruence.
    + intros k u v [X|X].
      * injection X as <- <- <-. rewrite replace_nth_length. apply nth_error_Some. congruence.
      * rewrite replace_nth_length. eauto.
    + assert (Old : forall u, In (j, u, i) rs -> u = s).
      { intros u X. destruct (D _ _ X) as [D1 D2]. destruct P' as [P'|P']; [lia|]. symmetry. auto. }
      intros k u v m [X|X] [Y|Y].
      * congruence.
      * injection X as <- <- <-. symmetry. auto.
      * injection Y as <- <- <-. auto.
      * eauto.
Qed.

Lemma run_winv ops : forall n w rs w' rs', winv n w rs -> n + Z.of_nat (length ops) < 2 ^ 64 ->
  table_run w ops = Ok (w', rs') ->
  exists all, winv (n + Z.of_nat (length ops)) w' all /\ forall x, In x all <-> In x rs \/ In x rs'.
Proof.
  induction ops as [|o ops IH]; intros n w rs w' rs' I B E; cbn [table_run length] in *.
  - injection E as <- <-. exists rs. split; [now rewrite Z.add_0_r|]. cbn. tauto.
  - destruct (table_step w o) as [[w1 r]| | | |] eqn:Es; try discriminate. cbn [bind] in E.
    destruct (table_run w1 ops) as [[w2 rs2]| | | |] eqn:Er; try discriminate. cbn [bind] in E. injection E as <- <-.
    pose proof (step_winv _ _ _ _ _ _ I ltac:(lia) Es) as I'.
    destruct (IH _ _ _ _ _ I' ltac:(lia) Er) as (all & IA & IX).
    exists all. split. { replace (n + Z.of_nat (S (length ops))) with (n + 1 + Z.of_nat (length ops)) by lia. exact IA. }
    intros x. rewrite IX. destruct r; cbn; tauto.
Qed.

Lemma run_start ops w rs : Z.of_nat (length ops) < 2 ^ 64 -> table_run [] ops = Ok (w, rs) ->
  exists all, winv (Z.of_nat (length ops)) w all /\ forall x, In x rs -> In x all.
Proof.
  intros B E. assert (I : winv 0 [] []).
  { split; [lia|]. split; [|split]; cbn; try tauto. intros [|j] t H; discriminate. }
  destruct (run_winv ops 0 [] [] w rs I ltac:(lia) E) as (all & IA & IX). exists all. split; auto.
  intros x H. apply IX. auto.
Qed.

(** After any history of constructions, copies, moves and interning: in every table, also a
    moved-from one, the name of a symbol and the symbol of a name are inverse to each other; the table
    it was asked of gave no symbol to two names; and if it still knows a symbol, then by the name it was given for. *)
Theorem C158_every_table_is_a_bijection ops w rs : Z.of_nat (length ops) < 2 ^ 64 ->
  table_run [] ops = Ok (w, rs) ->
  forall j t, nth_error w j = Some t ->
  (forall s i, sym_id t s = Ok i <-> sym_string t i = Ok s) /\
  (forall s u i, In (j, s, i) rs -> In (j, u, i) rs -> s = u) /\
  (forall s u i, In (j, s, i) rs -> sym_string t i = Ok u -> u = s).
Proof.
  intros B E j t Hj. destruct (run_start _ _ _ B E) as (all & (I0 & I1 & I2 & I3) & IX).
  destruct (I1 _ _ Hj) as ((A1 & A2 & A3) & C & D). conjs.
  - intros s i. unfold sym_id, sym_string. specialize (A1 s i).
    destruct (find_name s (st_symbols t)), (find_id i (st_strings t)); split; intros X; try discriminate; injection X as ->;
      try (apply A1 in X; congruence).
    + assert (Some n = Some s) by (apply A1; reflexivity). congruence.
    + assert (Some z = Some i) by (apply A1; reflexivity). congruence.
    + assert (None = Some s) by (apply A1; reflexivity). congruence.
    + assert (None = Some i) by (apply A1; reflexivity). congruence.
  - intros s u i X Y. eapply I3; eauto.
  - intros s u i X Y. destruct (D _ _ (IX _ X)) as [_ D2]. unfold sym_string in Y.
    destruct (find_id i (st_strings t)) as [v|]; [|discriminate]. injection Y as <-. auto.
Qed.
Print Assumptions C158_every_table_is_a_bijection.

(** What one operation does to what the tables know: it adds at most the interned name to the table
    asked; a copy knows what the original knows; a move hands everything over; nothing else changes. *)
Theorem C158_tables_are_independent ops w rs o w' r : Z.of_nat (length ops) + 1 < 2 ^ 64 ->
  table_run [] ops = Ok (w, rs) -> table_step w o = Ok (w', r) ->
  forall k t, nth_error w k = Some t ->
  match o with
  | TMove j => if Nat.eqb j k
               then (exists t', nth_error w' (length w) = Some t' /\ (forall i, sym_string t' i = sym_string t i) /\
                                (forall s, sym_id t' s = sym_id t s)) /\
                    (exists t', nth_error w' k = Some t' /\ forall s, sym_id t' s = Throw StdException)
               else nth_error w' k = Some t
  | TCopy j => nth_error w' k = Some t /\ (j = k -> nth_error w' (length w) = Some t)
  | TMake => nth_error w' k = Some t /\
             (exists t', nth_error w' (length w) = Some t' /\ forall s, sym_id t' s = Throw StdException)
  | TIntern j s => if Nat.eqb j k
               then exists t' i, nth_error w' k = Some t' /\ r = Some (k, s, i) /\ sym_string t' i = Ok s /\
                    (forall i' u, sym_string t i' = Ok u -> sym_string t' i' = Ok u) /\
                    (forall i' u, sym_string t' i' = Ok u -> sym_string t i' = Ok u \/ u = s)
               else nth_error w' k = Some t
  end.
Proof.
  intros B E Es k t Hk. destruct (run_start ops w rs ltac:(lia) E) as (all & (I0 & I1 & I2 & I3) & IX).
  assert (Lk : (k < length w)%nat) by (apply nth_error_Some; congruence).
  assert (NL : forall x, nth_error (w ++ [x]) (length w) = Some x) by (intros; rewrite nth_error_app2, Nat.sub_diag by auto; reflexivity).
  destruct o as [|j|j|j s]; cbn [table_step] in Es.
  - injection Es as <- <-. split; [rewrite nth_error_app1; auto|]. exists empty_symtab. split; auto.
  - destruct (nth_error w j) as [t0|] eqn:Ej; [|discriminate]. injection Es as <- <-.
    split; [rewrite nth_error_app1; auto|]. intros ->. rewrite NL. congruence.
  - destruct (nth_error w j) as [t0|] eqn:Ej; [|discriminate]. injection Es as <- <-.
    destruct (Nat.eqb_spec j k) as [->|N].
    + rewrite Hk in Ej. injection Ej as <-. split.
      * exists t. split; auto. rewrite nth_error_app2; rewrite replace_nth_length; auto. rewrite Nat.sub_diag. reflexivity.
      * eexists. rewrite nth_error_app1 by (rewrite replace_nth_length; auto). rewrite nth_replace_same by auto. split; [reflexivity|]. reflexivity.
    + rewrite nth_error_app1 by (rewrite replace_nth_length; auto). rewrite nth_replace_other; auto.
  - destruct (nth_error w j) as [t0|] eqn:Ej; [|discriminate].
    destruct (I1 _ _ Ej) as (A & C & D).
    destruct (intern_inv t0 s A ltac:(lia)) as (t' & i & Ei & A' & N' & R' & F' & K' & O' & P').
    rewrite Ei in Es. injection Es as <- <-. destruct (Nat.eqb_spec j k) as [->|N].
    + rewrite Hk in Ej. injection Ej as <-. exists t', i. rewrite nth_replace_same by auto. conjs; auto.
      * unfold sym_string. now rewrite F'.
      * intros i' u X. unfold sym_string in *. destruct (find_id i' (st_strings t)) as [v|] eqn:Ev; [|discriminate].
        injection X as ->. now rewrite (K' _ _ Ev).
      * intros i' u X. unfold sym_string in *. destruct (find_id i' (st_strings t')) as [v|] eqn:Ev; [|discriminate].
        injection X as ->. apply O' in Ev. destruct Ev as [Ev|[_ ->]]; auto. rewrite Ev. auto.
    + rewrite nth_replace_other; auto.
Qed.
Print Assumptions C158_tables_are_independent.

(** A table that was moved from gives new symbols, not those it gave before. *)
Example C158_case :
  exists w, table_run [] [TMake; TIntern 0 [97]; TCopy 0; TIntern 1 [98]; TIntern 0 [99]; TMove 0; TIntern 0 [100]; TIntern 2 [97]]
    = Ok (w, [(0%nat, [97], 0); (1%nat, [98], 1); (0%nat, [99], 1); (0%nat, [100], 2); (2%nat, [97], 0)]).
Proof. eexists. reflexivity. Qed.
