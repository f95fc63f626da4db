(** Theorems about EDN node equality (C23, C62), hashing (C24, C63) and maps (C64). *)

From Coq Require Import ZArith List Bool Lia Permutation.
From Verif Require Import Outcome HashModel IrModel IrSpec IrProofs.
Import ListNotations.
Local Open Scope Z_scope.

(** * C23 *)

(** node_eq always answers, and says whether the two values are the same. *)
Theorem C23_equality_is_structural sh a b : hash_respects_reals sh -> good a -> good b ->
  exists e, node_eq sh a b = Ok e /\ (e = true <-> same a b).
Proof. intros H Ga Gb. now apply node_eq_decides. Qed.
Print Assumptions C23_equality_is_structural.

Theorem C23_equality_is_an_equivalence sh : hash_respects_reals sh ->
  (forall a, good a -> node_eq sh a a = Ok true) /\
  (forall a b, good a -> good b -> node_eq sh a b = node_eq sh b a) /\
  (forall a b c, good a -> good b -> good c ->
     node_eq sh a b = Ok true -> node_eq sh b c = Ok true -> node_eq sh a c = Ok true).
Proof.
  intros Hsh. conjs.
  - intros a G. destruct (node_eq_decides sh Hsh a a G G) as (e & -> & H). f_equal. apply H. now apply same_refl.
  - intros a b Ga Gb. destruct (node_eq_decides sh Hsh a b Ga Gb) as (e & -> & H).
    destruct (node_eq_decides sh Hsh b a Gb Ga) as (e' & -> & H'). f_equal.
    apply eq_true_iff_eq. rewrite H, H'. split; apply same_sym.
  - intros a b c Ga Gb Gc E1 E2.
    destruct (node_eq_decides sh Hsh a b Ga Gb) as (e & E & H). rewrite E in E1. injection E1 as ->.
    destruct (node_eq_decides sh Hsh b c Gb Gc) as (e' & E' & H'). rewrite E' in E2. injection E2 as ->.
    destruct (node_eq_decides sh Hsh a c Ga Gc) as (e2 & -> & H2). f_equal. apply H2.
    eapply same_trans; [now apply H|now apply H'].
Qed.
Print Assumptions C23_equality_is_an_equivalence.

(** libstdc++'s std::hash on integers and enumerations is the value; doubles and strings go to a
    byte hash (any function does here, with both zeros mapped to 0). *)
Definition gnu_hash : std_hash :=
  mkStdHash (fun k => k) (fun b => if b then 1 else 0) (fun v => v mod 2 ^ 64)
    (fun x => if is_zero x then 0 else x * 0x9ddfea08eb382d69 mod 2 ^ 64) (fun s => fold_left (fun h c => (h * 31 + c) mod 2 ^ 64) s 0).

Lemma gnu_hash_respects_reals : hash_respects_reals gnu_hash.
Proof.
  intros x y (_ & _ & [->|[A B]]); auto. apply is_zero_true in A, B. cbn. now rewrite A, B.
Qed.

Definition sample : node :=
  NMap [(NSymbol 3, NVector [NInteger (-5); NNil; NReal 0x3ff8000000000000]);
        (NList [NString [34; 97; 34]; NBool true], NMap [(NInteger 1, NCharacter 97)])].
Definition sample' : node :=
  NMap [(NList [NString [34; 97; 34]; NBool true], NMap [(NInteger 1, NCharacter 97)]);
        (NSymbol 3, NVector [NInteger (-5); NNil; NReal 0x3ff8000000000000])].
Lemma good_pair k1 v1 k2 v2 : ~ same k1 k2 -> simple k1 -> simple k2 -> good v1 -> good v2 -> good (NMap [(k1, v1); (k2, v2)]).
Proof.
  intros N A B C D. apply good_NMap. split; [|repeat constructor; auto].
  split; [|split; [intros ? ? []|exact I]]. intros k v [E|[]]. injection E as <- <-. exact N.
Qed.

Example C23_witness : good sample /\ good sample' /\ node_eq gnu_hash sample sample' = Ok true /\
  node_eq gnu_hash sample (NMap [(NSymbol 3, NNil); (NSymbol 4, NNil)]) = Ok false.
Proof.
  conjs; [apply good_pair|apply good_pair|vm_compute; reflexivity|vm_compute; reflexivity]; cbn;
    assert (~ nan 0x3ff8000000000000) by (intros [H _]; discriminate H); tauto.
Qed.

(** * C62: equality for all nodes *)

(** A NaN, a set, or a map whose key contains a map breaks it: these two maps are the same and
    compare different; the read literal 0e400 is a NaN. *)
Theorem C62_nested_map_keys_refuted :
  let inner1 := [(NInteger 1, NInteger 2); (NInteger 3, NInteger 4)] in
  let inner2 := [(NInteger 3, NInteger 4); (NInteger 1, NInteger 2)] in
  let a := NMap [(NMap inner1, NNil)] in let b := NMap [(NMap inner2, NNil)] in
  hash_respects_reals gnu_hash /\ same a b /\
  node_eq gnu_hash (NMap inner1) (NMap inner2) = Ok true /\ node_eq gnu_hash a b = Ok false.
Proof.
  intros inner1 inner2 a b; conjs; [exact gnu_hash_respects_reals| |vm_compute; reflexivity|vm_compute; reflexivity].
  cbn [same]. eexists. split; [apply Permutation_refl|]. split; auto. split; [|exact I].
  eexists. split; [apply perm_swap|]. cbn. tauto.
Qed.
Print Assumptions C62_nested_map_keys_refuted.

Theorem C62_nan_refuted sh x : nan x -> node_eq sh (NReal x) (NReal x) = Ok false.
Proof. intros H. apply is_nan_true in H. cbn. unfold real_eq. now rewrite H. Qed.
Print Assumptions C62_nan_refuted.

Theorem C62_sets_refuted sh : node_eq sh NSet NSet = Trap Assertion.
Proof. reflexivity. Qed.
Print Assumptions C62_sets_refuted.

Example C62_nan_exists : nan 0x7ff8000000000000. Proof. split; [reflexivity|discriminate]. Qed.

(** * C24 *)

(** Equal nodes without maps have the same hash (or are both refused), whatever std::hash is. *)
Theorem C24_equal_nodes_hash_equal sh a b : hash_respects_reals sh -> good a -> good b -> no_map a ->
  node_eq sh a b = Ok true -> node_hash sh a = node_hash sh b.
Proof.
  intros Hsh Ga Gb N E. destruct (node_eq_decides sh Hsh a b Ga Gb) as (e & E' & H). rewrite E in E'.
  injection E' as <-. apply same_hash; auto. now apply H.
Qed.
Print Assumptions C24_equal_nodes_hash_equal.

Theorem C24_simple_nodes_can_be_hashed sh n : simple n -> exists h, node_hash sh n = Ok h.
Proof. apply simple_hash_ok. Qed.
Print Assumptions C24_simple_nodes_can_be_hashed.

Example C24_witness :
  let n := NVector [NReal 0; NString [97]; NList [NSymbol 1]] in
  let m := NVector [NReal (2 ^ 63); NString [97]; NList [NSymbol 1]] in
  good n /\ good m /\ no_map n /\ simple n /\ node_eq gnu_hash n m = Ok true /\ n <> m.
Proof.
  assert (~ nan 0) by (intros [H _]; discriminate H). assert (~ nan (2 ^ 63)) by (intros [H' _]; discriminate H').
  intros n m; conjs; [cbn in *; tauto|cbn in *; tauto|cbn in *; tauto|cbn in *; tauto|vm_compute; reflexivity|discriminate].
Qed.

(** * C63: hashing all nodes *)

(** Equal maps may hash differently: the hash depends on the iteration order. *)
Theorem C63_map_hash_refuted :
  let a := NMap [(NInteger 1, NInteger 2); (NInteger 3, NInteger 4)] in
  let b := NMap [(NInteger 3, NInteger 4); (NInteger 1, NInteger 2)] in
  good a /\ good b /\ node_eq gnu_hash a b = Ok true /\
  exists h h', node_hash gnu_hash a = Ok h /\ node_hash gnu_hash b = Ok h' /\ h <> h'.
Proof.
  intros a b; conjs; [apply good_pair; cbn; auto; discriminate|apply good_pair; cbn; auto; discriminate|vm_compute; reflexivity|].
  do 2 eexists. split; [vm_compute; reflexivity|]. split; [vm_compute; reflexivity|]. discriminate.
Qed.
Print Assumptions C63_map_hash_refuted.

(** Characters and sets cannot be hashed. *)
Theorem C63_characters_refuted sh c : node_hash sh (NCharacter c) = Trap Assertion /\ node_hash sh NSet = Trap Assertion.
Proof. split; reflexivity. Qed.
Print Assumptions C63_characters_refuted.

(** Exactly the nodes without characters and sets inside can be hashed; hashing any other one
    stops the process, hashing always ends. *)
Lemma hash_list_or l : Forall (fun n => forall sh, (plain n /\ exists h, node_hash sh n = Ok h) \/
    (~ plain n /\ node_hash sh n = Trap Assertion)) l -> forall sh,
  (Forall plain l /\ forall h, exists h', hash_list (node_hash sh) h l = Ok h') \/
  (~ Forall plain l /\ forall h, hash_list (node_hash sh) h l = Trap Assertion).
Proof.
  induction 1 as [|n l Hn _ IH]; intros sh; cbn [hash_list].
  - left. split; eauto.
  - destruct (Hn sh) as [[P [hn E]]|[P E]]; rewrite E; cbn [bind].
    + destruct (IH sh) as [[Q F]|[Q F]]; [left|right]; (split; [|intros h; apply F]); auto.
      intros X. apply Q. now inversion X.
    + right. split; auto. intros X. apply P. now inversion X.
Qed.
Lemma plain_NList l : plain (NList l) <-> Forall plain l.
Proof.
  rewrite Forall_forall. unfold plain. split.
  - intros H y Hy x Hx. apply H. eapply inside_list; eauto.
  - intros H x Hx. inversion Hx; subst; [split; [|intros]; discriminate|eauto].
Qed.
Lemma plain_NVector l : plain (NVector l) <-> Forall plain l.
Proof.
  rewrite Forall_forall. unfold plain. split.
  - intros H y Hy x Hx. apply H. eapply inside_vector; eauto.
  - intros H x Hx. inversion Hx; subst; [split; [|intros]; discriminate|eauto].
Qed.
Lemma plain_NMap es : plain (NMap es) <-> Forall (fun kv => plain (fst kv) /\ plain (snd kv)) es.
Proof.
  rewrite Forall_forall. unfold plain. split.
  - intros H [k v] Hy; cbn [fst snd]. split; intros x Hx; apply H; [eapply inside_key|eapply inside_value]; eauto.
  - intros H x Hx. inversion Hx; subst; [split; [|intros]; discriminate| |];
      match goal with X : In _ es |- _ => apply H in X as [? ?]; cbn [fst snd] in *; eauto end.
Qed.

Theorem C63_what_can_be_hashed_partial : forall n sh,
  (plain n /\ exists h, node_hash sh n = Ok h) \/ (~ plain n /\ node_hash sh n = Trap Assertion).
Proof.
  induction n as [| | | | | | | |l IH|l IH|es IH|] using node_ind2; intros sh; cbn [node_hash];
    try solve [left; split; eauto; intros y Hy; inversion Hy; subst; split; [|intros]; discriminate].
  - right. split; auto. intros H. destruct (H _ (inside_self _)) as [_ X]. eapply X; eauto.
  - rewrite plain_NList. destruct (hash_list_or l IH sh) as [[Q F]|[Q F]]; [left|right]; split; auto.
  - rewrite plain_NVector. destruct (hash_list_or l IH sh) as [[Q F]|[Q F]]; [left|right]; split; auto.
  - rewrite plain_NMap. generalize HASH_SEED as h. induction IH as [|[k v] es [Hk Hv] _ IH]; intros h; cbn [hash_entries].
    + left. split; eauto.
    + cbn [fst snd] in *. destruct (Hk sh) as [[P [hk E]]|[P E]]; rewrite E; cbn [bind].
      2:{ right. split; auto. intros X. apply P. now inversion X as [|? ? [? ?] ?]. }
      destruct (Hv sh) as [[P' [hv E']]|[P' E']]; rewrite E'; cbn [bind].
      2:{ right. split; auto. intros X. apply P'. now inversion X as [|? ? [? ?] ?]. }
      destruct (IH (mix (mix h hk) hv)) as [[Q F]|[Q F]]; [left|right]; (split; [|exact F]); auto.
      intros X. apply Q. now inversion X.
  - right. split; auto. intros H. destruct (H _ (inside_self _)) as [X _]. congruence.
Qed.
Print Assumptions C63_what_can_be_hashed_partial.

Example C63_instance : plain (NMap [(NInteger 1, NVector [NMap []; NKeyword 3])]) /\ ~ plain (NList [NCharacter 65]).
Proof.
  split.
  - apply plain_NMap. constructor; [|constructor]. cbn [fst snd].
    split; [intros x Hx; inversion Hx; subst; split; [|intros]; discriminate|].
    apply plain_NVector. constructor; [apply plain_NMap; constructor|]. constructor; [|constructor].
    intros x Hx; inversion Hx; subst; split; [|intros]; discriminate.
  - rewrite plain_NList. intros H. inversion H as [|? ? X]; subst.
    destruct (X _ (inside_self _)) as [_ Y]. eapply Y; eauto.
Qed.

(** C62: what comparing does do for every two nodes: it ends, with an answer or by stopping the
    process; without sets, and without characters in map keys, always with an answer.  (That the
    answer is the right one for [good] nodes is [C23_equality_is_structural].) *)
Definition ends {A} (o : outcome A) : Prop := (exists e, o = Ok e) \/ o = Trap Assertion.
Lemma ends_bind {A B} (o : outcome A) (f : A -> outcome B) : ends o -> (forall a, ends (f a)) -> ends (bind o f).
Proof. intros [[a ->]| ->] H; cbn [bind]; [apply H|right; reflexivity]. Qed.
Lemma hash_ends sh n : ends (node_hash sh n).
Proof. destruct (C63_what_can_be_hashed_partial n sh) as [[_ H]|[_ H]]; [left|right]; auto. Qed.
Lemma find_entry_ends sh f hk es : (forall k, ends (f k)) -> ends (find_entry sh f hk es).
Proof.
  intros Hf. induction es as [|[k v] es IH]; cbn [find_entry]; [left; eauto|].
  apply ends_bind; [apply hash_ends|]. intros h. destruct (_ =? _); auto.
  apply ends_bind; auto. intros []; [left; eauto|auto].
Qed.
Theorem C62_comparing_ends_partial : forall sh a b,
  (exists e, node_eq sh a b = Ok e) \/ node_eq sh a b = Trap Assertion.
Proof.
  intros sh. change (forall a b, ends (node_eq sh a b)).
  induction a as [| | | | | | | |l IH|l IH|es IH|] using node_ind2; intros n; destruct n as [| | | | | | | |r|r|rs|];
    cbn [node_eq]; try solve [left; eauto]; try solve [right; reflexivity].
  - destruct (Nat.eqb_spec (length l) (length r)) as [L|]; cbn [negb]; [|left; eauto].
    revert r L. induction IH as [|a l Ha _ IHl]; intros [|b r] L; cbn [list_eq length] in *; try discriminate; [left; eauto|].
    apply ends_bind; auto. intros []; [apply IHl; congruence|left; eauto].
  - destruct (Nat.eqb_spec (length l) (length r)) as [L|]; cbn [negb]; [|left; eauto].
    revert r L. induction IH as [|a l Ha _ IHl]; intros [|b r] L; cbn [list_eq length] in *; try discriminate; [left; eauto|].
    apply ends_bind; auto. intros []; [apply IHl; congruence|left; eauto].
  - destruct (negb _); [left; eauto|].
    induction IH as [|[k v] es [Hk Hv] _ IHe]; cbn [map_eq]; [left; eauto|]. cbn [fst snd] in *.
    apply ends_bind; [apply hash_ends|]. intros hk.
    apply ends_bind; [apply find_entry_ends; auto|]. intros [rv|]; [|left; eauto].
    apply ends_bind; auto. intros []; auto. left; eauto.
Qed.
Print Assumptions C62_comparing_ends_partial.

Lemma plain_keys_NList l : plain_keys (NList l) <-> Forall plain_keys l.
Proof.
  rewrite Forall_forall. unfold plain_keys. split.
  - intros [H K] y Hy. split; [intros X; apply H; eapply inside_list; eauto|].
    intros es k v I. apply K. eapply inside_list; eauto.
  - intros H. split.
    + intros X. inversion X; subst. destruct (H _ H1). contradiction.
    + intros es k v I. inversion I; subst. destruct (H _ H1) as [_ K]. now apply K.
Qed.
Lemma plain_keys_NVector l : plain_keys (NVector l) <-> Forall plain_keys l.
Proof.
  rewrite Forall_forall. unfold plain_keys. split.
  - intros [H K] y Hy. split; [intros X; apply H; eapply inside_vector; eauto|].
    intros es k v I. apply K. eapply inside_vector; eauto.
  - intros H. split.
    + intros X. inversion X; subst. destruct (H _ H1). contradiction.
    + intros es k v I. inversion I; subst. destruct (H _ H1) as [_ K]. now apply K.
Qed.
Lemma plain_keys_NMap es : plain_keys (NMap es) ->
  Forall (fun kv => plain (fst kv) /\ plain_keys (fst kv) /\ plain_keys (snd kv)) es.
Proof.
  rewrite Forall_forall. unfold plain_keys. intros [H K] [k v] Hy. cbn [fst snd]. split; [|split].
  - eapply K; [apply inside_self|exact Hy].
  - split; [intros X; apply H; eapply inside_key; eauto|]. intros es' k' v' I. apply K. eapply inside_key; eauto.
  - split; [intros X; apply H; eapply inside_value; eauto|]. intros es' k' v' I. apply K. eapply inside_value; eauto.
Qed.

Theorem C62_comparing_answers_partial : forall sh a b, plain_keys a -> plain_keys b ->
  exists e, node_eq sh a b = Ok e.
Proof.
  intros sh.
  assert (HH : forall n, plain n -> exists h, node_hash sh n = Ok h).
  { intros n P. destruct (C63_what_can_be_hashed_partial n sh) as [[_ H]|[N _]]; [auto|contradiction]. }
  induction a as [| | | | | | | |l IH|l IH|es IH|] using node_ind2; intros n Pa Pb; destruct n as [| | | | | | | |r|r|rs|];
    cbn [node_eq]; eauto.
  - destruct (Nat.eqb_spec (length l) (length r)) as [L|]; cbn [negb]; [|eauto].
    apply plain_keys_NList in Pa. apply plain_keys_NList in Pb. revert r L Pa Pb.
    induction IH as [|a l Ha _ IHl]; intros [|b r] L Pa Pb; cbn [list_eq length] in *; try discriminate; [eauto|].
    inversion Pa; subst. inversion Pb; subst. destruct (Ha b) as [e ->]; auto. cbn [bind]. destruct e; eauto.
  - destruct (Nat.eqb_spec (length l) (length r)) as [L|]; cbn [negb]; [|eauto].
    apply plain_keys_NVector in Pa. apply plain_keys_NVector in Pb. revert r L Pa Pb.
    induction IH as [|a l Ha _ IHl]; intros [|b r] L Pa Pb; cbn [list_eq length] in *; try discriminate; [eauto|].
    inversion Pa; subst. inversion Pb; subst. destruct (Ha b) as [e ->]; auto. cbn [bind]. destruct e; eauto.
  - destruct (negb _); [eauto|]. apply plain_keys_NMap in Pa. apply plain_keys_NMap in Pb.
    induction IH as [|[k v] es [Hk Hv] _ IHe]; cbn [map_eq]; [eauto|]. cbn [fst snd] in *.
    inversion Pa as [|? ? (Pk & Pk' & Pv) Pa']; subst. cbn [fst snd] in *.
    destruct (HH k Pk) as [hk Ek]. rewrite Ek. cbn [bind].
    assert (F : exists s, find_entry sh (node_eq sh k) hk rs = Ok s /\
              forall rv, s = Some rv -> exists k', In (k', rv) rs).
    { clear - Pb Hk Pk' HH. induction Pb as [|[k' v'] rs (P1 & P2 & P3) _ IHr]; cbn [find_entry]; [eexists; split; [eauto|discriminate]|].
      cbn [fst snd] in *. destruct IHr as (s & Es & Hs). destruct (HH k' P1) as [h ->]. cbn [bind].
      destruct (_ =? _).
      - destruct (Hk k' Pk' P2) as [e ->]. cbn [bind]. destruct e.
        + exists (Some v'). split; auto. intros rv [= <-]. exists k'. left. reflexivity.
        + exists s. split; auto. intros rv X. destruct (Hs rv X) as [k2 I]. exists k2. right. exact I.
      - exists s. split; auto. intros rv X. destruct (Hs rv X) as [k2 I]. exists k2. right. exact I. }
    destruct F as (s & -> & Hs). cbn [bind]. destruct s as [rv|]; [|eauto].
    destruct (Hs rv eq_refl) as [k' I]. rewrite Forall_forall in Pb. destruct (Pb _ I) as (_ & _ & Prv). cbn [snd] in Prv.
    destruct (Hv rv Pv Prv) as [e ->]. cbn [bind]. destruct e; [|eauto]. apply IHe. exact Pa'.
  - destruct Pa as [N _]. elim N. apply inside_self.
Qed.
Print Assumptions C62_comparing_answers_partial.

(** * C64: maps *)

(** Inserting into an empty map, with any placement of new entries. *)
Fixpoint insert_all (sh : std_hash) (place : node * node -> list (node * node) -> list (node * node))
    (es : list (node * node)) (ops : list (node * node)) : outcome (list (node * node)) :=
  match ops with
  | [] => Ok es
  | (k, v) :: ops => do es <- map_insert sh place es k v; insert_all sh place es ops
  end.

(** The value first inserted under a key. *)
Definition first_value (ops : list (node * node)) (k v : node) : Prop :=
  exists ops1 k' ops2, ops = ops1 ++ (k', v) :: ops2 /\ same k k' /\
    forall k1 v1, In (k1, v1) ops1 -> ~ same k k1.

Lemma distinct_perm l l' : Permutation l l' -> distinct_keys l -> distinct_keys l'.
Proof.
  induction 1 as [|[k v] l l' P IH|[k v] [k' v'] l|l l' l'' P1 IH1 P2 IH2]; cbn [distinct_keys]; auto.
  - intros [A B]. split; auto. intros k' v' Hin. apply (A k' v'). eapply Permutation_in; [symmetry; eauto|auto].
  - intros (A & B & C). split; [|split; auto].
    + intros k0 v0 [E|Hin]; [injection E as <- <-|apply (B k0 v0 Hin)]. intros S. apply (A k v); [left; reflexivity|]. now apply same_sym.
    + intros k0 v0 Hin. apply (A k0 v0). now right.
Qed.

Lemma map_find_ok sh es k : hash_respects_reals sh -> simple k ->
  Forall (fun kv => simple (fst kv)) es -> distinct_keys es ->
  exists s, map_find sh es k = Ok s /\ (forall v, s = Some v <-> exists k', In (k', v) es /\ same k k').
Proof.
  intros Hsh Sk F D. unfold map_find. destruct (simple_hash_ok sh k Sk) as (hk & Hk). rewrite Hk. cbn [bind].
  apply find_entry_ok; auto. eapply Forall_impl; [|exact F]. intros [k1 v1] S. cbn [fst] in *. split; auto.
  apply node_eq_decides; auto; now apply simple_good.
Qed.

Lemma same_dec k k' : simple k -> simple k' -> same k k' \/ ~ same k k'.
Proof.
  intros A B. destruct (node_eq_decides gnu_hash gnu_hash_respects_reals k k') as (e & _ & He).
  - now apply simple_good.
  - now apply simple_good.
  - destruct e; [left; now apply He|right]. intros S. apply He in S. discriminate.
Qed.

Lemma first_value_exists ops k : simple k -> Forall (fun kv => simple (fst kv)) ops ->
  (exists k1 v1, In (k1, v1) ops /\ same k k1) -> exists v, first_value ops k v.
Proof.
  intros Sk. induction 1 as [|[k2 v2] ops S2 F IH]; intros (k1 & v1 & Hin & S1); [destruct Hin|].
  cbn [fst] in S2. destruct (same_dec k k2 Sk S2) as [E|N].
  - exists v2, [], k2, ops. cbn. auto.
  - destruct Hin as [E|Hin]; [injection E as <- <-; contradiction|].
    destruct IH as (v & o1 & k' & o2 & -> & A & B); eauto.
    exists v, ((k2, v2) :: o1), k', o2. split; auto. split; auto.
    intros k0 v0 [E|Hin0]; [injection E as <- <-; auto|eauto].
Qed.

Lemma first_value_snoc done k0 v0 k v :
  first_value (done ++ [(k0, v0)]) k v <->
  first_value done k v \/ (same k k0 /\ v = v0 /\ forall k1 v1, In (k1, v1) done -> ~ same k k1).
Proof.
  split.
  - intros (o1 & k' & o2 & E & A & B).
    destruct (exists_last (l := (k', v) :: o2)) as (o3 & x & E3); [discriminate|].
    rewrite E3, app_assoc in E. apply app_inj_tail in E. destruct E as [E1 <-].
    destruct o3 as [|y o3]; cbn in E3.
    + injection E3 as -> -> ->. right. rewrite app_nil_r in E1. subst o1. auto.
    + injection E3 as <- ->. left. exists o1, k', o3. auto.
  - intros [(o1 & k' & o2 & -> & A & B)|(A & -> & B)].
    + exists o1, k', (o2 ++ [(k0, v0)]). rewrite <- app_assoc. auto.
    + exists done, k0, []. auto.
Qed.

Theorem C64_maps_are_finite_maps sh place ops :
  hash_respects_reals sh -> (forall e es, Permutation (place e es) (e :: es)) ->
  Forall (fun kv => simple (fst kv)) ops ->
  exists es, insert_all sh place [] ops = Ok es /\ distinct_keys es /\
    forall k, simple k ->
      exists s, map_find sh es k = Ok s /\ forall v, s = Some v <-> first_value ops k v.
Proof.
  intros Hsh Hp F.
  assert (Inv : forall done es, Forall (fun kv => simple (fst kv)) done -> Forall (fun kv => simple (fst kv)) es -> distinct_keys es ->
            (forall k v, simple k -> (exists k', In (k', v) es /\ same k k') <-> first_value done k v) ->
            exists es', insert_all sh place es ops = Ok es' /\ Forall (fun kv => simple (fst kv)) es' /\ distinct_keys es' /\
              forall k v, simple k -> (exists k', In (k', v) es' /\ same k k') <-> first_value (done ++ ops) k v).
  { induction F as [|[k0 v0] ops S0 F IH]; intros done es Fd Fe De H; cbn [insert_all].
    { exists es. rewrite app_nil_r. auto. }
    cbn [fst] in S0. unfold map_insert.
    destruct (map_find_ok sh es k0 Hsh S0 Fe De) as (s & Es & Hs). rewrite Es. cbn [bind].
    replace (done ++ (k0, v0) :: ops) with ((done ++ [(k0, v0)]) ++ ops) by (rewrite <- app_assoc; reflexivity).
    assert (Fd' : Forall (fun kv => simple (fst kv)) (done ++ [(k0, v0)])) by (apply Forall_app; auto).
    destruct s as [v1|]; cbn [bind].
    - apply IH; auto. destruct (proj1 (Hs v1) eq_refl) as (k1 & Hin & S1).
      intros k v Sk. rewrite H by auto. rewrite first_value_snoc. split; auto. intros [|(A & -> & B)]; auto. exfalso.
      assert (FV : first_value done k0 v1) by (apply H; eauto).
      destruct FV as (p1 & kk & p2 & -> & SS & _).
      apply (B kk v1); [apply in_or_app; cbn; auto|]. eapply same_trans; eauto.
    - assert (NN : forall k1 v1, In (k1, v1) done -> ~ same k0 k1).
      { intros k1 v1 Hin S1. destruct (first_value_exists done k0 S0 Fd) as (v & FV); eauto.
        apply H in FV; auto. assert (@None node = Some v) by now apply Hs. discriminate. }
      apply IH; auto.
      + eapply Permutation_Forall; [symmetry; apply Hp|]. constructor; auto.
      + eapply distinct_perm; [symmetry; apply Hp|]. split; auto.
        intros k' v' Hin SS. assert (@None node = Some v') by (apply Hs; eauto). discriminate.
      + intros k v Sk. rewrite first_value_snoc, <- H by auto. split.
        * intros (k' & Hin & SS). apply (Permutation_in _ (Hp _ _)) in Hin. destruct Hin as [E|Hin]; [|eauto].
          injection E as <- <-. right. split; auto. split; auto.
          intros k1 v1 Hin1 S1. apply (NN k1 v1 Hin1). eapply same_trans; [apply same_sym; exact SS|exact S1].
        * intros [(k' & Hin & SS)|(A & -> & B)].
          { exists k'. split; auto. apply (Permutation_in _ (Permutation_sym (Hp _ _))). now right. }
          { exists k0. split; auto. apply (Permutation_in _ (Permutation_sym (Hp _ _))). now left. } }
  destruct (Inv [] []) as (es & E & Fe & De & H); auto.
  { exact I. }
  { intros k v _. split; [intros (? & [] & _)|]. intros (o1 & ? & o2 & E & _). destruct o1; discriminate. }
  exists es. split; auto. split; auto. intros k Sk.
  destruct (map_find_ok sh es k Hsh Sk Fe De) as (s & Es & Hs). exists s. split; auto.
  intros v. rewrite Hs. now apply H.
Qed.
Print Assumptions C64_maps_are_finite_maps.

Example C64_witness :
  let ops := [(NInteger 1, NSymbol 0); (NString [97], NNil); (NInteger 1, NSymbol 1)] in
  Forall (fun kv => simple (fst kv)) ops /\
  insert_all gnu_hash cons [] ops = Ok [(NString [97], NNil); (NInteger 1, NSymbol 0)].
Proof. split; [repeat constructor; cbn; exact I|vm_compute; reflexivity]. Qed.
