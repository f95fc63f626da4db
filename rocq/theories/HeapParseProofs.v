From Coq Require Import String ZArith List Bool Arith Lia Permutation SpecFloat.
From Verif Require Import Outcome HashModel TablesModel IrModel IrSpec IrProofs LexModel ParseModel ParseUnfold NodeHeapModel NodeHeapSpec NodeHeapProofs NodeHeapChange HeapParseModel HeapParseSpec.
Import ListNotations.
Local Open Scope Z_scope.
Local Open Scope list_scope.

(** * The objects a node consists of, one for each place *)
Fixpoint visits (d : nat) (h : heap) (p : ptr) : list nat :=
  match d, p with
  | S d, Some a => match cell_at h p with Some c => a :: flat_map (visits d h) (pointers c) | None => [] end
  | _, _ => []
  end.
Lemma visits_reaches h p q : reaches h p q -> forall d n, value_within d h p = Some n -> exists x, q = Some x /\ In x (visits d h p).
Proof.
  induction 1 as [p|p c q r Hc Hq _ IH]; intros d n H; destruct d as [|d]; try discriminate; apply value_cases in H as (c' & Hc' & H).
  - destruct p as [a|]; [|discriminate]. exists a. split; [reflexivity|]. cbn [visits]. rewrite Hc'. now left.
  - rewrite Hc in Hc'. injection Hc' as <-. destruct (value_pointers h d c n q H Hq) as (m & Hm). destruct (IH d m Hm) as (x & -> & Hx).
    exists x. split; [reflexivity|]. destruct p as [a|]; [|discriminate]. cbn [visits]. rewrite Hc. right. apply in_flat_map. eauto.
Qed.
Lemma flat_map_ext_in {A B} (f g : A -> list B) l : (forall x, In x l -> f x = g x) -> flat_map f l = flat_map g l.
Proof. induction l as [|x l IH]; intros H; [reflexivity|]. cbn [flat_map]. rewrite H, IH; [reflexivity| |now left]. intros; apply H; now right. Qed.
Lemma visits_agree h h' : forall d p, agree h h' p -> visits d h' p = visits d h p.
Proof.
  induction d as [|d IH]; intros p A; [reflexivity|]. destruct p as [a|]; [|reflexivity]. cbn [visits]. rewrite (agree_self _ _ _ A).
  destruct (cell_at h (Some a)) as [c|] eqn:E; [|reflexivity]. f_equal. apply flat_map_ext_in. intros q Hq. apply IH. eapply agree_step; eauto.
Qed.
Lemma visits_more h : forall d p n, value_within d h p = Some n -> forall d', (d <= d')%nat -> visits d' h p = visits d h p.
Proof.
  induction d as [|d IH]; intros p n H d' L; [discriminate|]. destruct d' as [|d']; [lia|]. apply value_cases in H as (c & Hc & H).
  destruct p as [a|]; [|reflexivity]. cbn [visits]. rewrite Hc. f_equal. apply flat_map_ext_in. intros q Hq.
  destruct (value_pointers h d c n q H Hq) as (m & Hm). eapply IH; [exact Hm|lia].
Qed.

Section Sh.
Context (sh : std_hash).
Lemma keys_agree h h' p : agree h h' p -> keys_up_to_date sh h p -> keys_up_to_date sh h' p.
Proof.
  intros A K q es e R Hq He. apply (agree_reaches h h' p A) in R. rewrite (A q R) in Hq. destruct (K q es e R Hq He) as (k & (d & V) & Hh).
  exists k. split; [|exact Hh]. exists d. rewrite (agree_value h h' d (e_key e)); [exact V|]. intros r Hr. apply A.
  eapply reaches_trans; [exact R|]. eapply reaches_step; [exact Hq|exact (proj1 (pointers_key e es He))|exact Hr].
Qed.
Lemma keys_intro h p c : cell_at h p = Some c -> (forall q, In q (pointers c) -> keys_up_to_date sh h q) ->
  (forall es e, c = CMap es -> In e es -> up_to_date sh h e) -> keys_up_to_date sh h p.
Proof.
  intros Hc Hp Hu q es e R Hq He. inversion R as [|? c' r ? Hc' Hr R']; subst.
  - rewrite Hc in Hq. injection Hq as ->. eauto.
  - rewrite Hc in Hc'. injection Hc' as <-. exact (Hp r Hr q es e R' Hq He).
Qed.

(** * Trees in a range of addresses *)
Definition forest (d : nat) (h : heap) (lo hi : nat) (ps : list ptr) : Prop :=
  NoDup (flat_map (visits d h) ps) /\ (forall x, In x (flat_map (visits d h) ps) -> (lo <= x < hi)%nat) /\
  (forall p, In p ps -> keys_up_to_date sh h p /\ exists n, value_within d h p = Some n).
Lemma forest_agree d h h' lo hi ps : forest d h lo hi ps -> (forall b, (lo <= b < hi)%nat -> nth_error h' b = nth_error h b) ->
  forall p, In p ps -> agree h h' p.
Proof.
  intros (_ & R & T) E p Hp q Hq. destruct (T p Hp) as (_ & n & V). destruct (visits_reaches h p q Hq d n V) as (x & -> & Hx).
  unfold cell_at. cbn [object_at]. rewrite E; [reflexivity|]. apply R. apply in_flat_map. eauto.
Qed.
Lemma forest_frame d h h' lo hi ps : forest d h lo hi ps -> (forall b, (lo <= b < hi)%nat -> nth_error h' b = nth_error h b) ->
  forest d h' lo hi ps.
Proof.
  intros F E. pose proof (forest_agree d h h' lo hi ps F E) as A. destruct F as (N & R & T).
  assert (X : flat_map (visits d h') ps = flat_map (visits d h) ps) by (apply flat_map_ext_in; intros p Hp; now apply visits_agree, A).
  split; [now rewrite X|]. split; [now rewrite X|]. intros p Hp. destruct (T p Hp) as (K & n & V). split; [eapply keys_agree; eauto|].
  exists n. now rewrite (agree_value h h' d p (A p Hp)).
Qed.
Lemma forest_value d h h' lo hi ps : forest d h lo hi ps -> (forall b, (lo <= b < hi)%nat -> nth_error h' b = nth_error h b) ->
  forall p n, In p ps -> value_within d h p = Some n -> value_within d h' p = Some n.
Proof. intros F E p n Hp V. now rewrite (agree_value h h' d p (forest_agree d h h' lo hi ps F E p Hp)). Qed.
Lemma forest_nil d h lo hi : forest d h lo hi [].
Proof. split; [constructor|]. split; intros ? []. Qed.
Lemma NoDup_app_disjoint {A} (l r : list A) : NoDup l -> NoDup r -> (forall x, In x l -> In x r -> False) -> NoDup (l ++ r).
Proof.
  induction l as [|x l IH]; intros N N' D; [exact N'|]. inversion N; subst. cbn. constructor.
  - intros I. apply in_app_or in I as [I|I]; [auto|]. apply (D x); [now left|exact I].
  - apply IH; auto. intros y Hy. apply D. now right.
Qed.
Lemma forest_app d h lo mid hi ps qs : forest d h lo mid ps -> forest d h mid hi qs -> (lo <= mid <= hi)%nat -> forest d h lo hi (ps ++ qs).
Proof.
  intros (N & R & T) (N' & R' & T') L. split; [|split].
  - rewrite flat_map_app. apply NoDup_app_disjoint; auto. intros x Hx Hx'. specialize (R x Hx). specialize (R' x Hx'). lia.
  - intros x. rewrite flat_map_app, in_app_iff. intros [Hx|Hx]; [specialize (R x Hx)|specialize (R' x Hx)]; lia.
  - intros p Hp. apply in_app_or in Hp as [Hp|Hp]; auto.
Qed.
Lemma forest_perm d h lo hi ps qs : Permutation ps qs -> forest d h lo hi ps -> forest d h lo hi qs.
Proof.
  intros P (N & R & T). assert (X : Permutation (flat_map (visits d h) ps) (flat_map (visits d h) qs)) by (now apply Permutation_flat_map).
  split; [eapply Permutation_NoDup; eauto|]. split.
  - intros x Hx. apply R. eapply Permutation_in; [symmetry; exact X|exact Hx].
  - intros p Hp. apply T. eapply Permutation_in; [symmetry; exact P|exact Hp].
Qed.
Lemma forest_more d d' h lo hi lo' hi' ps : forest d h lo hi ps -> (d <= d')%nat -> (lo' <= lo)%nat -> (hi <= hi')%nat -> forest d' h lo' hi' ps.
Proof.
  intros (N & R & T) L L1 L2. assert (X : flat_map (visits d' h) ps = flat_map (visits d h) ps).
  { apply flat_map_ext_in. intros p Hp. destruct (T p Hp) as (_ & n & V). eapply visits_more; eauto. }
  split; [now rewrite X|]. rewrite X. split; [intros x Hx; specialize (R x Hx); lia|]. intros p Hp. destruct (T p Hp) as (K & n & V).
  split; [exact K|]. exists n. eapply value_more; eauto.
Qed.
(** A node whose parts are trees *)
Lemma forest_node d h a hi c n : cell_at h (Some a) = Some c -> value_case d h c n -> forest d h (S a) hi (pointers c) -> (a < hi)%nat ->
  (forall es e, c = CMap es -> In e es -> up_to_date sh h e) ->
  value_within (S d) h (Some a) = Some n /\ forest (S d) h a hi [Some a].
Proof.
  intros Hc V (N & R & T) L U. assert (Vn : value_within (S d) h (Some a) = Some n) by (apply value_cases; eauto). split; [exact Vn|].
  split; [|split].
  - cbn [flat_map visits]. rewrite Hc, app_nil_r. constructor; [|exact N]. intros I. apply R in I. lia.
  - intros x. cbn [flat_map visits]. rewrite Hc, app_nil_r. intros [<-|I]; [lia|]. apply R in I. lia.
  - intros p [<-|[]]. split; [|eauto]. eapply keys_intro; [exact Hc| |exact U]. intros q Hq. now apply T.
Qed.

(** * The two parsers side by side *)
(** The same outcome; nothing below [b] changed; the node made is a tree between [b] and the end of memory. *)
Definition side_by_side (d b : nat) (h : heap) (r : outcome (option node * pstate)) (r' : outcome hresult) : Prop :=
  match r, r' with
  | Ok (x, s), Ok (y, (s', h')) =>
      s' = s /\ (length h <= length h')%nat /\ (forall a, (a < b)%nat -> nth_error h' a = nth_error h a) /\
      match x, y with
      | Some n, Some p => value_within d h' p = Some n /\ forest d h' b (length h') [p]
      | None, None => True
      | _, _ => False
      end
  | Throw e, Throw e' => e = e' | Trap e, Trap e' => e = e' | UB e, UB e' => e = e' | OutOfFuel, OutOfFuel => True
  | _, _ => False
  end.
Lemma side_bind {A} d b h (m : outcome A) f g : (forall x, m = Ok x -> side_by_side d b h (f x) (g x)) -> side_by_side d b h (bind m f) (bind m g).
Proof. destruct m; cbn; auto. Qed.
Lemma side_more d d' b h r r' : side_by_side d b h r r' -> (d <= d')%nat -> side_by_side d' b h r r'.
Proof.
  intros S L. destruct r as [[x s]| | | |], r' as [[y [s' h']]| | | |]; cbn in *; auto. destruct S as (-> & L1 & E & S). conjs; auto.
  destruct x, y; auto. destruct S as (V & F). split; [eapply value_more; eauto|eapply forest_more; eauto].
Qed.
Lemma make_nth h m b c a : (a < length h)%nat -> nth_error (fst (make h m b c)) a = nth_error h a.
Proof. intros L. unfold make. cbn [fst]. now rewrite nth_error_app1 by exact L. Qed.
Lemma make_last h m c : (forall v, c <> CCharacter v) -> nth_error (fst (make h m false c)) (length h) = Some (mkObj m c).
Proof. intros N. unfold make. cbn [fst]. rewrite nth_error_app2, Nat.sub_diag by lia. destruct c; try reflexivity. Qed.
Lemma make_length h m b c : length (fst (make h m b c)) = S (length h).
Proof. unfold make. cbn [fst]. rewrite app_length. cbn. lia. Qed.
(** A node without parts *)
Lemma side_fresh d h s c n : (forall d h, value_case d h c n) -> pointers c = [] -> (forall v, c <> CCharacter v) ->
  side_by_side (S d) (length h) h (Ok (Some n, s)) (Ok (fresh s h c)).
Proof.
  intros V P N. unfold fresh. pose proof (make_nth h None false c) as M1. pose proof (make_last h None c N) as M2. pose proof (make_length h None false c) as M3.
  assert (Ep : snd (make h None false c) = Some (length h)) by reflexivity.
  destruct (make h None false c) as [h' p]. cbn [fst snd] in *. subst p. unfold side_by_side. split; [reflexivity|]. split; [lia|]. split; [exact M1|].
  apply (forest_node d h' (length h) (length h') c n).
  - unfold cell_at; cbn [object_at]; now rewrite M2.
  - apply V.
  - rewrite P. apply forest_nil.
  - lia.
  - intros es e -> He. cbn [pointers] in P. destruct es; [destruct He|discriminate].
Qed.

Context (pow10 : Z -> spec_float) (order : Z -> list Z -> list nat) (ord : orders order) (cmp : nat).
Notation vplace := (place_value sh order).
Notation hplace := (place_entry order).
Notation pnode := (parse_node pow10 sh vplace).
Notation lloop := (list_loop pow10 sh vplace).
Notation vloop := (vector_loop pow10 sh vplace).
Notation mloop := (map_loop pow10 sh vplace).
Notation pmk := (parse_map_k pow10 sh vplace).
Notation pmv := (parse_map_v pow10 sh vplace).
Notation hnode := (hp_node pow10 sh hplace cmp).
Notation hlist := (hp_list pow10 sh hplace cmp).
Notation hvector := (hp_vector pow10 sh hplace cmp).
Notation hmap := (hp_map pow10 sh hplace cmp).
Notation hmk := (hp_map_k pow10 sh hplace cmp).
Notation hmv := (hp_map_v pow10 sh hplace cmp).

Definition node_claim (f : nat) : Prop := forall s h, (f <= cmp)%nat -> side_by_side f (length h) h (pnode f s) (hnode f s h).
Definition list_claim (f : nat) : Prop := forall s h a l ns D, (f <= D <= cmp)%nat -> nth_error h a = Some (mkObj None (CList l)) ->
  Forall2 (fun p n => value_within D h p = Some n) l ns -> forest D h (S a) (length h) l ->
  side_by_side (S D) a h (lloop f s ns) (hlist f s h a).
Definition vec_claim (f : nat) : Prop := forall s h a l ns D, (f <= D <= cmp)%nat -> nth_error h a = Some (mkObj None (CVector l)) ->
  Forall2 (fun p n => value_within D h p = Some n) l ns -> forest D h (S a) (length h) l ->
  side_by_side (S D) a h (vloop f s ns) (hvector f s h a).
Definition map_claim (f : nat) : Prop := forall s h a es kvs D, (f <= D <= cmp)%nat -> nth_error h a = Some (mkObj None (CMap es)) ->
  Forall2 (fun e kv => ent_value D h e = Some kv) es kvs -> (forall e, In e es -> up_to_date sh h e) ->
  forest D h (S a) (length h) (pointers (CMap es)) ->
  side_by_side (S D) a h (mloop f s kvs) (hmap f s h a).
Definition part_claim (f : nat) : Prop := forall s h, (f <= cmp)%nat ->
  side_by_side f (length h) h (pmk f s) (hmk f s h) /\ side_by_side f (length h) h (pmv f s) (hmv f s h).

Lemma nth_lt {A} (l : list A) a x : nth_error l a = Some x -> (a < length l)%nat.
Proof. intros H. apply nth_error_Some. congruence. Qed.
Lemma side_end D a h c n s : nth_error h a = Some (mkObj None c) -> value_case D h c n -> forest D h (S a) (length h) (pointers c) ->
  (forall es e, c = CMap es -> In e es -> up_to_date sh h e) ->
  side_by_side (S D) a h (Ok (Some n, s)) (Ok (Some (Some a), (s, h))).
Proof.
  intros Ha V F U. unfold side_by_side. conjs; auto; apply (forest_node D h a (length h) c n); auto;
    try (unfold cell_at; cbn [object_at]; now rewrite Ha); eapply nth_lt; eauto.
Qed.
(** Reading a part and going on *)
Lemma side_part d D a (h : heap) r r' (f : option node * pstate -> outcome (option node * pstate)) (g : hresult -> outcome hresult) :
  side_by_side d (length h) h r r' -> (a < length h)%nat ->
  (forall x y s (h' : heap), (length h <= length h')%nat -> (forall b, (b < length h)%nat -> nth_error h' b = nth_error h b) ->
     match x, y with
     | Some n, Some p => value_within d h' p = Some n /\ forest d h' (length h) (length h') [p]
     | None, None => True
     | _, _ => False
     end ->
     side_by_side D a h' (f (x, s)) (g (y, (s, h')))) ->
  side_by_side D a h (bind r f) (bind r' g).
Proof.
  intros S La G. destruct r as [[x s]| | | |], r' as [[y [s' h']]| | | |]; cbn [side_by_side bind] in *; auto; try contradiction.
  destruct S as (-> & L & E & S). specialize (G x y s h' L E S).
  revert G. destruct (f (x, s)) as [[x1 s1]| | | |], (g (y, (s, h'))) as [[y1 [s1' h1]]| | | |]; cbn [side_by_side] in *; intros G; auto; try contradiction.
  destruct G as (-> & L1 & E1 & G). conjs; auto; [lia|]. intros b Lb. rewrite E1, E by lia. reflexivity.
Qed.
Lemma store_length h a o o0 : nth_error h a = Some o0 -> length (store h a o) = length h.
Proof. intros H. apply nth_lt in H. unfold store. rewrite app_length, firstn_length. cbn [length]. rewrite skipn_length. lia. Qed.
(** Putting a part in *)
Lemma side_store D a h o o0 r r' : nth_error h a = Some o0 -> side_by_side D a (store h a o) r r' -> side_by_side D a h r r'.
Proof.
  intros Ha S. destruct r as [[x s]| | | |], r' as [[y [s' h']]| | | |]; cbn [side_by_side] in *; auto; try contradiction.
  rewrite (store_length h a o o0 Ha) in S. destruct S as (-> & L & E & S). conjs; auto. intros b Lb. rewrite E by exact Lb.
  rewrite (store_nth h a o o0 b Ha). destruct (Nat.eqb_spec b a); [lia|reflexivity].
Qed.
Lemma F2_snoc {A B} (R : A -> B -> Prop) l r x y : Forall2 R l r -> R x y -> Forall2 R (l ++ [x]) (r ++ [y]).
Proof. intros F H. apply Forall2_app; auto. Qed.
Lemma F2_in_l {A B} (R S : A -> B -> Prop) l r : Forall2 R l r -> (forall x y, In x l -> R x y -> S x y) -> Forall2 S l r.
Proof. intros F H. eapply F2_impl; eauto. Qed.

Lemma node_from f : list_claim f -> vec_claim f -> map_claim f -> node_claim (S f).
Proof.
  intros CL CV CM s h Lf. rewrite parse_node_S. cbn [hp_node].
  assert (Op : forall c m m' (s0 : pstate), (forall v, c <> CCharacter v) ->
     side_by_side (S f) (length h) (fst (make h None false c)) m m' ->
     side_by_side (S f) (length h) h m m').
  { intros c m m' s0 N S. destruct m as [[x s1]| | | |], m' as [[y [s1' h']]| | | |]; cbn [side_by_side] in *; auto; try contradiction.
    rewrite make_length in S. destruct S as (-> & L & E & S). conjs; auto; [lia|]. intros b Lb. rewrite E by exact Lb. now apply make_nth. }
  destruct (tk_data (ps_tok s)) as [ |  |bv| | | |iv|rv| | | | | | ] eqn:D; unfold parse_string, hp_string, parse_symbol, hp_symbol;
    try (apply side_bind; intros s1 E1).
  - cbn. conjs; auto.
  - apply side_fresh; try reflexivity; [intros; constructor|discriminate].
  - apply side_fresh; try reflexivity; [intros; constructor|discriminate].
  - apply side_fresh; try reflexivity; [intros; constructor|discriminate].
  - destruct (intern (ps_syms s1) (cur_text s)) as [st id]. apply side_fresh; try reflexivity; [intros; constructor|discriminate].
  - destruct (intern (ps_syms s1) (cur_text s)) as [st id]. apply side_fresh; try reflexivity; [intros; constructor|discriminate].
  - apply side_fresh; try reflexivity; [intros; constructor|discriminate].
  - apply side_fresh; try reflexivity; [intros; constructor|discriminate].
  - apply (Op (CList [])); [exact s|discriminate|]. apply (CL s1 _ (length h) [] [] f); [lia|apply make_last; discriminate|constructor|apply forest_nil].
  - apply side_bind. intros s2 E2. cbn. conjs; auto.
  - apply (Op (CVector [])); [exact s|discriminate|]. apply (CV s1 _ (length h) [] [] f); [lia|apply make_last; discriminate|constructor|apply forest_nil].
  - apply side_bind. intros s2 E2. cbn. conjs; auto.
  - apply (Op (CMap [])); [exact s|discriminate|]. apply (CM s1 _ (length h) [] [] f); [lia|apply make_last; discriminate|constructor|intros ? []|apply forest_nil].
  - apply side_bind. intros s2 E2. cbn. conjs; auto.
Qed.
Lemma F2_value D h h' lo hi ps ns : forest D h lo hi ps -> (forall b, (lo <= b < hi)%nat -> nth_error h' b = nth_error h b) ->
  Forall2 (fun p n => value_within D h p = Some n) ps ns -> Forall2 (fun p n => value_within D h' p = Some n) ps ns.
Proof. intros F E. apply F2_impl. intros p n Hp V. eapply forest_value; eauto. Qed.
(** The parts there were and the new ones, with the new object stored at [a] *)
Lemma grow D a h h' o0 o ps qs : nth_error h' a = Some o0 -> (a < length h)%nat -> (length h <= length h')%nat ->
  (forall b, (b < length h)%nat -> nth_error h' b = nth_error h b) ->
  forest D h (S a) (length h) ps -> forest D h' (length h) (length h') qs ->
  nth_error (store h' a o) a = Some o /\ length (store h' a o) = length h' /\
  (forall p n, In p ps -> value_within D h p = Some n -> value_within D (store h' a o) p = Some n) /\
  (forall p n, In p qs -> value_within D h' p = Some n -> value_within D (store h' a o) p = Some n) /\
  (forall p, In p (ps ++ qs) -> keys_up_to_date sh (store h' a o) p) /\
  forest D (store h' a o) (S a) (length (store h' a o)) (ps ++ qs).
Proof.
  intros Ha La L E F F'. assert (St : forall b, (S a <= b)%nat -> nth_error (store h' a o) b = nth_error h' b).
  { intros b Lb. rewrite (store_nth h' a o o0 b Ha). destruct (Nat.eqb_spec b a); [lia|reflexivity]. }
  assert (E1 : forall b, (S a <= b < length h)%nat -> nth_error (store h' a o) b = nth_error h b) by (intros b Lb; rewrite St, E by lia; reflexivity).
  assert (E2 : forall b, (length h <= b < length h')%nat -> nth_error (store h' a o) b = nth_error h' b) by (intros b Lb; apply St; lia).
  assert (G : forest D (store h' a o) (S a) (length (store h' a o)) (ps ++ qs)).
  { rewrite (store_length h' a o o0 Ha). eapply forest_app; [eapply forest_frame; [exact F|exact E1]|eapply forest_frame; [exact F'|exact E2]|lia]. }
  split; [rewrite (store_nth h' a o o0 a Ha), Nat.eqb_refl; reflexivity|]. split; [now apply (store_length h' a o o0)|].
  split; [intros; eapply forest_value; [exact F|exact E1|eassumption|assumption]|].
  split; [intros; eapply forest_value; [exact F'|exact E2|eassumption|assumption]|]. split; [|exact G]. intros p Hp. now apply G.
Qed.

Lemma list_from f : node_claim f -> list_claim f -> list_claim (S f).
Proof.
  intros CN CL s h a l ns D Lf Ha Hv F. rewrite list_loop_S. cbn [hp_list].
  assert (En : forall s, side_by_side (S D) a h (Ok (Some (NList ns), s)) (Ok (Some (Some a), (s, h)))).
  { intros s1. apply (side_end D a h (CList l)); auto; [constructor; exact Hv|discriminate]. }
  assert (Go : side_by_side (S D) a h (do (n, s) <- pnode f s; lloop f s (match n with Some n => ns ++ [n] | None => ns end))
                 (do (n, (s, h)) <- hnode f s h; do h <- push_parsed sh hplace cmp h a n; hlist f s h a)).
  { apply (side_part f); [apply CN; lia|eapply nth_lt; eauto|]. intros x y s1 h' L E S.
    assert (La : (a < length h)%nat) by (eapply nth_lt; eauto). assert (Ha' : nth_error h' a = Some (mkObj None (CList l))) by (rewrite E; auto).
    destruct x as [n|], y as [p|]; try contradiction.
    - destruct S as (V & Fp). unfold push_parsed, apply_change. rewrite Ha'. cbn [o_cell o_meta bind].
      destruct (grow D a h h' _ (mkObj None (CList (l ++ [p]))) l [p] Ha' La L E F) as (G1 & G2 & G3 & G4 & _ & G5); [eapply forest_more; eauto; lia|].
      eapply side_store; [exact Ha'|]. apply (CL s1 _ a (l ++ [p]) (ns ++ [n]) D); auto; [lia|].
      apply F2_snoc; [eapply F2_impl; [|exact Hv]; intros; now apply G3|]. apply G4; [now left|]. eapply value_more; [exact V|lia].
    - cbn [push_parsed bind]. apply (CL s1 h' a l ns D); auto; [lia|eapply F2_value; eauto; intros; apply E; lia|].
      eapply forest_more; [eapply forest_frame; [exact F|intros; apply E; lia]|lia|lia|lia]. }
  destruct (tk_data (ps_tok s)); try exact Go; repeat (apply side_bind; intros ? _); apply En.
Qed.
Lemma vec_from f : node_claim f -> vec_claim f -> vec_claim (S f).
Proof.
  intros CN CL s h a l ns D Lf Ha Hv F. rewrite vector_loop_S. cbn [hp_vector].
  assert (En : forall s, side_by_side (S D) a h (Ok (Some (NVector ns), s)) (Ok (Some (Some a), (s, h)))).
  { intros s1. apply (side_end D a h (CVector l)); auto; [constructor; exact Hv|discriminate]. }
  assert (Go : side_by_side (S D) a h (do (n, s) <- pnode f s; vloop f s (match n with Some n => ns ++ [n] | None => ns end))
                 (do (n, (s, h)) <- hnode f s h; do h <- push_parsed sh hplace cmp h a n; hvector f s h a)).
  { apply (side_part f); [apply CN; lia|eapply nth_lt; eauto|]. intros x y s1 h' L E S.
    assert (La : (a < length h)%nat) by (eapply nth_lt; eauto). assert (Ha' : nth_error h' a = Some (mkObj None (CVector l))) by (rewrite E; auto).
    destruct x as [n|], y as [p|]; try contradiction.
    - destruct S as (V & Fp). unfold push_parsed, apply_change. rewrite Ha'. cbn [o_cell o_meta bind].
      destruct (grow D a h h' _ (mkObj None (CVector (l ++ [p]))) l [p] Ha' La L E F) as (G1 & G2 & G3 & G4 & _ & G5); [eapply forest_more; eauto; lia|].
      eapply side_store; [exact Ha'|]. apply (CL s1 _ a (l ++ [p]) (ns ++ [n]) D); auto; [lia|].
      apply F2_snoc; [eapply F2_impl; [|exact Hv]; intros; now apply G3|]. apply G4; [now left|]. eapply value_more; [exact V|lia].
    - cbn [push_parsed bind]. apply (CL s1 h' a l ns D); auto; [lia|eapply F2_value; eauto; intros; apply E; lia|].
      eapply forest_more; [eapply forest_frame; [exact F|intros; apply E; lia]|lia|lia|lia]. }
  destruct (tk_data (ps_tok s)); try exact Go; repeat (apply side_bind; intros ? _); apply En.
Qed.
Lemma part_from f : node_claim f -> part_claim (S f).
Proof.
  intros CN s h Lf. rewrite parse_map_k_S, parse_map_v_S. cbn [hp_map_k hp_map_v].
  assert (H : side_by_side (S f) (length h) h (pnode f s) (hnode f s h)) by (apply (side_more f); [apply CN|]; lia).
  destruct (tk_data (ps_tok s)); split; try exact H; repeat (apply side_bind; intros ? _); cbn; conjs; auto.
Qed.

(** * Entries in their new order *)
Lemma nth_seq {A} (d : A) (l : list A) : map (fun i => nth i l d) (seq 0 (length l)) = l.
Proof.
  induction l as [|y l IH]; [reflexivity|]. cbn [length seq map nth]. f_equal. rewrite <- seq_shift, map_map. exact IH.
Qed.
Lemma arranged_perm {A} (hash : A -> Z) x l : Permutation (arranged order hash x l) (x :: l).
Proof.
  unfold arranged. rewrite (ord (hash x) (map hash l)), map_length. change (S (length l)) with (length (x :: l)). now rewrite nth_seq.
Qed.
Lemma arranged_F2 {A B} (R : A -> B -> Prop) hash hash' x y l r : Forall2 R l r -> R x y -> (forall a b, In a (x :: l) -> R a b -> hash a = hash' b) ->
  Forall2 R (arranged order hash x l) (arranged order hash' y r).
Proof.
  intros F Rxy Hh. unfold arranged. rewrite <- (Hh x y (or_introl eq_refl) Rxy).
  assert (Em : map hash l = map hash' r).
  { assert (Hh' : forall a b, In a l -> R a b -> hash a = hash' b) by (intros; apply Hh; auto; now right). clear -F Hh'.
    induction F as [|a b l r Hab _ IH]; [reflexivity|]. cbn [map]. rewrite (Hh' a b), IH; auto; [|now left]. intros; apply Hh'; auto. now right. }
  rewrite <- Em. assert (Li : forall i, In i (order (hash x) (map hash l)) -> (i < length (x :: l))%nat).
  { intros i Hi. eapply Permutation_in in Hi; [|apply ord]. rewrite map_length in Hi. apply in_seq in Hi. cbn [length]. lia. }
  assert (Fc : Forall2 R (x :: l) (y :: r)) by now constructor.
  induction (order (hash x) (map hash l)) as [|i is IH]; [constructor|]. cbn [map]. constructor; [|apply IH; intros; apply Li; now right].
  specialize (Li i (or_introl eq_refl)). destruct (nth_error (x :: l) i) as [u|] eqn:Eu; [|apply nth_error_None in Eu; lia].
  destruct (F2_nth R _ _ Fc i u Eu) as (w & Ew & Ruw). rewrite (nth_error_nth _ _ x Eu), (nth_error_nth _ _ y Ew). exact Ruw.
Qed.

Lemma map_from f : part_claim f -> map_claim f -> map_claim (S f).
Proof.
  intros CP CM s h a es kvs D Lf Ha Hv U F. rewrite map_loop_S. cbn [hp_map].
  assert (En : forall s, side_by_side (S D) a h (Ok (Some (NMap kvs), s)) (Ok (Some (Some a), (s, h)))).
  { intros s1. apply (side_end D a h (CMap es)); auto; [constructor; exact Hv|]. intros es0 e [= <-]. apply U. }
  assert (La : (a < length h)%nat) by (eapply nth_lt; eauto).
  (* nothing put in *)
  assert (Same : forall s1 h', (length h <= length h')%nat -> (forall b, (b < length h)%nat -> nth_error h' b = nth_error h b) ->
     side_by_side (S D) a h' (mloop f s1 kvs) (hmap f s1 h' a)).
  { intros s1 h' L E. assert (A : forall p, In p (pointers (CMap es)) -> agree h h' p) by (eapply forest_agree; [exact F|intros; apply E; lia]).
    apply (CM s1 h' a es kvs D); [lia|rewrite E; auto| | |].
    - eapply F2_impl; [|exact Hv]. intros e [k v] He Ek. apply ent_value_ok in Ek as [Ek Ev]. destruct (pointers_key e es He) as (Pk & Pv).
      apply ent_value_ok. split; [now rewrite (agree_value h h' D _ (A _ Pk))|now rewrite (agree_value h h' D _ (A _ Pv))].
    - intros e He. destruct (U e He) as (k & (d & Vk) & Hh). destruct (pointers_key e es He) as (Pk & _). exists k. split; [|exact Hh].
      exists d. now rewrite (agree_value h h' d _ (A _ Pk)).
    - eapply forest_more; [eapply forest_frame; [exact F|intros; apply E; lia]|lia|lia|lia]. }
  match goal with |- side_by_side _ _ _ (match _ with TkNil => ?g | _ => _ end) (match _ with TkNil => ?g' | _ => _ end) =>
    assert (Go : side_by_side (S D) a h g g') end.
  { apply (side_part f); [apply CP; lia|exact La|]. intros x y s1 h1 L1 E1 S1. destruct x as [kn|], y as [k|]; try contradiction;
      [|apply side_bind; intros s2 _; now apply Same]. destruct S1 as (Vk & Fk).
    apply (side_part f); [apply CP; lia|lia|]. intros x y s2 h2 L2 E2 S2.
    assert (E12 : forall b, (b < length h)%nat -> nth_error h2 b = nth_error h b) by (intros b Lb; rewrite E2, E1 by lia; reflexivity).
    destruct x as [vn|], y as [v|]; try contradiction; [|apply side_bind; intros s3 _; apply Same; auto; lia]. destruct S2 as (Vv & Fv).
    assert (Ha2 : nth_error h2 a = Some (mkObj None (CMap es))) by (rewrite E12; auto).
    assert (Fkv : forest D h2 (length h) (length h2) [k; v]).
    { apply (forest_app D h2 _ (length h1) _ [k] [v]); [|eapply forest_more; [exact Fv|lia|lia|lia]|lia].
      eapply forest_more; [eapply forest_frame; [exact Fk|intros; apply E2; lia]|lia|lia|lia]. }
    assert (Vk2 : value_within D h2 k = Some kn).
    { eapply value_more; [eapply (forest_value f h1 h2); [exact Fk|intros; apply E2; lia|now left|exact Vk]|lia]. }
    assert (Vv2 : value_within D h2 v = Some vn) by (eapply value_more; [exact Vv|lia]).
    assert (A2 : forall p, In p (pointers (CMap es)) -> agree h h2 p) by (eapply forest_agree; [exact F|intros; apply E12; lia]).
    assert (Hv2 : Forall2 (fun e kv => ent_value D h2 e = Some kv) es kvs).
    { eapply F2_impl; [|exact Hv]. intros e [k0 v0] He Ek. apply ent_value_ok in Ek as [Ek Ev]. destruct (pointers_key e es He) as (Pk & Pv).
      apply ent_value_ok. split; [now rewrite (agree_value h h2 D _ (A2 _ Pk))|now rewrite (agree_value h h2 D _ (A2 _ Pv))]. }
    assert (U2 : forall e, In e es -> up_to_date sh h2 e).
    { intros e He. destruct (U e He) as (k0 & (d & Vk0) & Hh). destruct (pointers_key e es He) as (Pk & _). exists k0. split; [|exact Hh].
      exists d. now rewrite (agree_value h h2 d _ (A2 _ Pk)). }
    unfold entries_at. cbn [deref]. rewrite Ha2. cbn [o_cell bind].
    pose proof (find_value sh h2 D cmp k kn es kvs Vk2 Hv2 ltac:(lia)) as Fd.
    assert (Ku : forall e, In e es -> keys_up_to_date sh h2 (e_key e) /\ up_to_date sh h2 e).
    { intros e He. split; [|auto]. destruct (pointers_key e es He) as (Pk & _). eapply keys_agree; [apply A2, Pk|]. now apply F. }
    specialize (Fd Ku). unfold map_insert, apply_change. rewrite Ha2. cbn [o_cell o_meta]. unfold hfind in *.
    destruct (hhash sh cmp h2 k) as [hk| | | |] eqn:Eh; cbn [bind] in *;
      destruct (find_ent (heq sh cmp h2 k) hk 0 es) as [[[j e]|]| | | |] eqn:Ef + idtac; cbn [bind] in *;
      destruct (map_find sh kvs kn) as [[v0|]| | | |] eqn:Em; cbn [bind] in *; try contradiction; try exact I; try (cbn; congruence).
    - apply side_bind. intros s3 _. apply Same; auto; lia.
    - destruct (grow D a h h2 _ (mkObj None (CMap (hplace (mkEntry hk k v) es))) _ _ Ha2 La ltac:(lia) E12 F Fkv) as (G1 & G2 & G3 & G4 & _ & G5).
      eapply side_store; [exact Ha2|].
      assert (Hk : node_hash sh kn = Ok hk) by (rewrite <- Eh; symmetry; apply (hhash_value sh h2 D); [exact Vk2|lia]).
      set (o := mkObj None (CMap (hplace (mkEntry hk k v) es))) in *.
      assert (P : Permutation (hplace (mkEntry hk k v) es) (mkEntry hk k v :: es)) by apply arranged_perm.
      assert (Uo : forall e, In e (mkEntry hk k v :: es) -> up_to_date sh (store h2 a o) e).
      { intros e [<-|He].
        - exists kn. split; [|exact Hk]. exists D. apply G4; [now left|exact Vk2].
        - assert (Sm : exists kv, ent_value D h e = Some kv) by (apply In_nth_error in He as (i & He); destruct (F2_nth _ _ _ Hv i e He) as (kv & _ & Ekv); eauto).
          destruct Sm as ([k0 v0] & Ek). apply ent_value_ok in Ek as [Ek _]. destruct (U e He) as (k1 & (d & Vk0) & Hh).
          assert (k1 = k0) as -> by eauto using value_one. exists k0. split; [|exact Hh]. exists D. apply G3; [apply (pointers_key e es He)|exact Ek]. }
      apply (CM s2 (store h2 a o) a (hplace (mkEntry hk k v) es) (vplace (kn, vn) kvs) D); [lia|exact G1| | |].
      + apply arranged_F2.
        * eapply F2_impl; [|exact Hv]. intros e [k0 v0] He Ek. apply ent_value_ok in Ek as [Ek Ev]. destruct (pointers_key e es He) as (Pk & Pv).
          apply ent_value_ok. split; apply G3; auto.
        * apply ent_value_ok. cbn [e_key e_val]. split; apply G4; cbn; auto.
        * intros e [k0 v0] He Ek. apply ent_value_ok in Ek as [Ek _]. destruct (Uo e He) as (k1 & (d & Vk0) & Hh).
          assert (k1 = k0) as -> by eauto using value_one. cbn [fst]. now rewrite Hh.
      + intros e He. apply Uo. eapply Permutation_in; [exact P|exact He].
      + eapply forest_perm; [|exact G5]. cbn [pointers]. transitivity (flat_map (fun e => [e_key e; e_val e]) (mkEntry hk k v :: es)).
        * cbn [flat_map e_key e_val]. apply Permutation_app_comm.
        * apply Permutation_flat_map. now symmetry. }
  destruct (tk_data (ps_tok s)); try exact Go; repeat (apply side_bind; intros ? _); apply En.
Qed.

Theorem claims f : node_claim f /\ list_claim f /\ vec_claim f /\ map_claim f /\ part_claim f.
Proof.
  induction f as [|f (N & L & V & M & P)].
  - conjs; repeat intro; try exact I; split; exact I.
  - conjs; [now apply node_from|now apply list_from|now apply vec_from|now apply map_from|now apply part_from].
Qed.

(** * Documents *)
Notation ploop := (parse_loop pow10 sh vplace).
Notation hloop := (hp_loop pow10 sh hplace cmp).
Definition both (d b : nat) (h : heap) (r : outcome (list node * pstate)) (r' : outcome (list ptr * (pstate * heap))) : Prop :=
  match r, r' with
  | Ok (ns, s), Ok (ps, (s', h')) =>
      s' = s /\ (length h <= length h')%nat /\ (forall a, (a < b)%nat -> nth_error h' a = nth_error h a) /\
      Forall2 (fun p n => value_within d h' p = Some n) ps ns /\ forest d h' b (length h') ps
  | Throw e, Throw e' => e = e' | Trap e, Trap e' => e = e' | UB e, UB e' => e = e' | OutOfFuel, OutOfFuel => True
  | _, _ => False
  end.
Lemma loop_from : forall f s (h : heap) ps ns D b, (f <= D)%nat -> (f <= cmp)%nat -> (b <= length h)%nat ->
  Forall2 (fun p n => value_within D h p = Some n) ps ns -> forest D h b (length h) ps ->
  both D b h (ploop f s ns) (hloop f s h ps).
Proof.
  induction f as [|f IH]; intros s h ps ns D b LD Lc Lb Hv F; [exact I|]. rewrite parse_loop_S. cbn [hp_loop].
  assert (Go : both D b h (do (n, s) <- pnode f s; ploop f s (match n with Some n => ns ++ [n] | None => ns end))
                 (do (n, (s, h)) <- hnode f s h; hloop f s h (match n with Some n => ps ++ [n] | None => ps end))).
  { destruct (claims f) as (N & _). specialize (N s h ltac:(lia)).
    destruct (pnode f s) as [[x s1]| | | |], (hnode f s h) as [[y [s1' h1]]| | | |]; cbn [side_by_side bind] in *; try contradiction; auto.
    destruct N as (-> & L1 & E1 & S1).
    assert (G : both D b h1 (ploop f s1 (match x with Some n => ns ++ [n] | None => ns end)) (hloop f s1 h1 (match y with Some n => ps ++ [n] | None => ps end))).
    { assert (Hv1 : Forall2 (fun p n => value_within D h1 p = Some n) ps ns) by (eapply F2_value; [exact F|intros; apply E1; lia|exact Hv]).
      assert (F1 : forest D h1 b (length h) ps) by (eapply forest_frame; [exact F|intros; apply E1; lia]).
      destruct x as [n|], y as [p|]; try contradiction; apply IH; try lia; auto.
      - destruct S1 as (V & _). apply F2_snoc; [exact Hv1|]. eapply value_more; [exact V|lia].
      - destruct S1 as (_ & Fp). eapply forest_app; [exact F1|eapply forest_more; [exact Fp|lia|lia|lia]|lia].
      - eapply forest_more; [exact F1|lia|lia|lia]. }
    revert G. destruct (ploop f s1 _) as [[ns' s2]| | | |], (hloop f s1 h1 _) as [[ps' [s2' h2]]| | | |]; cbn [both]; auto.
    intros (-> & L2 & E2 & G). conjs; [reflexivity|lia|intros a La; rewrite E2, E1 by lia; reflexivity|apply G|apply G]. }
  destruct (tk_data (ps_tok s)); try exact Go. cbn [both]. conjs; auto.
Qed.

(** * One object for each place *)
Lemma NoDup_flat {A B} (f : A -> list B) l : NoDup (flat_map f l) -> forall i j x y b,
  nth_error l i = Some x -> nth_error l j = Some y -> In b (f x) -> In b (f y) -> i = j.
Proof.
  assert (In_split : forall l : list A, forall i x b, nth_error l i = Some x -> In b (f x) -> In b (flat_map f l)).
  { intros l0 i x b Hi Hb. apply in_flat_map. exists x. split; [eapply nth_error_In; eauto|exact Hb]. }
  assert (App : forall l r : list B, NoDup (l ++ r) -> NoDup r /\ forall x, In x l -> In x r -> False).
  { induction l0 as [|z l0 IH]; intros r N; [split; [exact N|intros ? []]|]. inversion N as [|? ? Nz N']; subst. destruct (IH r N') as (Nr & Dj).
    split; [exact Nr|]. intros x [->|Hx] Hr; [apply Nz, in_or_app; now right|eauto]. }
  induction l as [|z l IH]; intros N i j x y b Hi Hj Hx Hy; [destruct i; discriminate|]. cbn [flat_map] in N. apply App in N as (N & Dj).
  destruct i as [|i], j as [|j]; cbn [nth_error] in *; [reflexivity| | |f_equal; eapply IH; eauto].
  - injection Hi as ->. exfalso. eapply Dj; [exact Hx|eapply In_split; eauto].
  - injection Hj as ->. exfalso. eapply Dj; [exact Hy|eapply In_split; eauto].
Qed.
Lemma NoDup_flat_one {A B} (f : A -> list B) l x : NoDup (flat_map f l) -> In x l -> NoDup (f x).
Proof.
  induction l as [|z l IH]; intros N []; cbn [flat_map] in N; [subst|].
  - clear -N. induction (f x) as [|b r IH]; [constructor|]. inversion N; subst. constructor; [intros I; apply H1, in_or_app; now left|auto].
  - apply IH; [|assumption]. clear -N. induction (f z) as [|b r IH]; [exact N|]. inversion N; subst. auto.
Qed.
(** The number of the pointer a step takes *)
Definition step_no (s : step) : nat := match s with Elem i => i | Key i => 2 * i | Val i => 2 * i + 1 end.
Lemma step_nth c s q : step_from c s = Some q -> nth_error (pointers c) (step_no s) = Some q.
Proof.
  destruct c, s; cbn [step_from pointers step_no]; try discriminate; auto;
    revert i; induction es as [|e es IH]; intros [|i] H; try discriminate; cbn [nth_error option_map] in H; cbn [flat_map app];
    try (injection H as <-; reflexivity).
  - replace (2 * S i)%nat with (S (S (2 * i))) by lia. cbn [nth_error]. now apply IH.
  - replace (2 * S i + 1)%nat with (S (S (2 * i + 1))) by lia. cbn [nth_error]. now apply IH.
Qed.
Lemma step_same c s s' q q' : step_from c s = Some q -> step_from c s' = Some q' -> step_no s = step_no s' -> s = s'.
Proof. destruct c, s, s'; cbn [step_from step_no]; try discriminate; intros _ _ E; f_equal; lia. Qed.
Lemma ways_apart h : forall d p n way way' a, value_within d h p = Some n -> NoDup (visits d h p) ->
  follow h p way = Some (Some a) -> follow h p way' = Some (Some a) -> way = way'.
Proof.
  induction d as [|d IH]; intros p n way way' a V N H H'; [discriminate|]. pose proof V as V0. apply value_cases in V as (c & Hc & V).
  destruct p as [b|]; [|discriminate]. cbn [visits] in N. rewrite Hc in N. inversion N as [|? ? Nb Nd]; subst.
  assert (Down : forall s q w, step_from c s = Some q -> follow h q w = Some (Some a) -> In a (visits d h q)).
  { intros s q w Hs Hw. destruct (value_pointers h d c n q V (step_pointer c s q Hs)) as (m & Vm).
    destruct (visits_reaches h q (Some a) (follow_reaches h w q _ Hw) d m Vm) as (x & [= <-] & Hx). exact Hx. }
  assert (Not : forall s q w, step_from c s = Some q -> follow h q w = Some (Some a) -> a <> b).
  { intros s q w Hs Hw ->. apply Nb, in_flat_map. exists q. split; [eapply step_pointer; eauto|eauto]. }
  destruct way as [|s w], way' as [|s' w']; cbn [follow] in H, H'; rewrite ?Hc in *; [reflexivity| | |].
  - injection H as ->. destruct (step_from c s') as [q|] eqn:E; [|discriminate]. exfalso. eapply (Not s' q w'); eauto.
  - injection H' as ->. destruct (step_from c s) as [q|] eqn:E; [|discriminate]. exfalso. eapply (Not s q w); eauto.
  - destruct (step_from c s) as [q|] eqn:E; [|discriminate]. destruct (step_from c s') as [q'|] eqn:E'; [|discriminate].
    assert (step_no s = step_no s') as Es.
    { eapply (NoDup_flat (visits d h) (pointers c) Nd); [apply step_nth, E|apply step_nth, E'| |]; eauto. }
    assert (s = s') as <- by eauto using step_same. rewrite E in E'. injection E' as <-. f_equal.
    destruct (value_pointers h d c n q V (step_pointer c s q E)) as (m & Vm). apply (IH q m w w' a Vm); auto.
    eapply NoDup_flat_one; [exact Nd|eapply step_pointer; eauto].
Qed.
Lemma forest_not_shared d h lo hi ps : forest d h lo hi ps -> nothing_shared h ps /\
  forall p way a, In p ps -> follow h p way = Some (Some a) -> (lo <= a < hi)%nat.
Proof.
  intros (N & R & T). assert (Vis : forall p way a, In p ps -> follow h p way = Some (Some a) -> In a (visits d h p)).
  { intros p way a Hp Hw. destruct (T p Hp) as (_ & n & V). destruct (visits_reaches h p _ (follow_reaches h way p _ Hw) d n V) as (x & [= <-] & Hx). exact Hx. }
  split.
  - intros i j p q way way' a Hi Hj Hw Hw'. pose proof (nth_error_In _ _ Hi) as Ip. pose proof (nth_error_In _ _ Hj) as Iq.
    assert (i = j) as <- by (eapply (NoDup_flat _ _ N); eauto). split; [reflexivity|]. rewrite Hi in Hj. injection Hj as <-.
    destruct (T p Ip) as (_ & n & V). eapply (ways_apart h d p n); eauto. eapply NoDup_flat_one; eauto.
  - intros p way a Hp Hw. apply R, in_flat_map. eauto.
Qed.
End Sh.
