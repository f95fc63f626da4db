(** Proofs about linear memory. *)

From Coq Require Import ZArith List Bool Lia.
From Verif Require Import Outcome HashModel HashProofs MemModel MemSpec.
Import ListNotations.
Local Open Scope Z_scope.

Lemma in_zrange a n i : In i (zrange a n) <-> a <= i < a + n.
Proof.
  unfold zrange. rewrite in_map_iff. split.
  - intros (k & <- & H). apply in_seq in H. lia.
  - intros H. exists (Z.to_nat (i - a)). split; [lia|]. apply in_seq. lia.
Qed.

Section Mem.
Context (ps : Z) (Hps : 0 < ps).

Lemma npages_mul n : 0 <= n -> npages ps (n * ps) = n.
Proof.
  intros Hn. unfold npages. replace (n * ps + ps - 1) with ((ps - 1) + n * ps) by lia.
  rewrite Z.div_add by lia. rewrite Z.div_small by lia. lia.
Qed.

(** A constructed memory: its base page, and everything below the end of the address space. *)
Definition good (m : linmem) (p : Z) : Prop :=
  lm_addr m = p * ps /\ 0 < p /\ (p + cf_max (lm_cfg m)) * ps < 2 ^ 64 /\
  0 <= lm_count m <= cf_max (lm_cfg m) /\ cf_max (lm_cfg m) < 2 ^ 64.

Lemma grow_spec s m p n ans :
  good m p -> 0 <= n < 2 ^ 64 -> at_least_accessible s p (cf_max (lm_cfg m)) (lm_count m) ->
  exists s',
    lm_grow ps s m n ans =
      (fst (spec_step (cf_max (lm_cfg m)) (lm_count m) (OGrow n ans)), s',
       mkLM (lm_addr m) (snd (spec_step (cf_max (lm_cfg m)) (lm_count m) (OGrow n ans))) (lm_cfg m)) /\
    (forall i, s' i = s i \/ (p + lm_count m <= i < p + lm_count m + n /\
                             lm_count m + n <= cf_max (lm_cfg m) /\ s' i = Some PReadWrite)) /\
    (snd (spec_step (cf_max (lm_cfg m)) (lm_count m) (OGrow n ans)) <> lm_count m ->
       forall i, p + lm_count m <= i < p + lm_count m + n -> s' i = Some PReadWrite).
Proof.
  intros (Ha & Hp & Hsp & Hc & Hm) Hn Hacc. destruct m as [a c cfg]. cbn [lm_addr lm_count lm_cfg] in *.
  set (M := cf_max cfg) in *. subst a.
  unfold lm_grow. cbn [lm_addr lm_count lm_cfg]. fold M.
  rewrite (u64_small (M - c)) by (split; lia).
  assert (Eres : (M - c <? n) = negb (c + n <=? M)).
  { destruct (Z.ltb_spec (M - c) n), (Z.leb_spec (c + n) M); cbn; lia. }
  rewrite Eres. unfold spec_step.
  destruct (Z.leb_spec (c + n) M) as [L|L]; cbn [negb].
  2:{ exists s. split. { destruct ans; reflexivity. }
      split; [auto|]. destruct ans; cbn [snd]; congruence. }
  assert (B1 : 0 <= c * ps) by nia.
  assert (B2 : 0 <= n * ps) by nia.
  assert (B3 : (p + c) * ps + n * ps <= (p + M) * ps) by nia.
  assert (B4 : 0 <= p * ps) by nia.
  unfold lm_activate.
  rewrite (u64_small (c * ps)) by (split; lia).
  rewrite (u64_small (n * ps)) by (split; lia).
  rewrite u64_small by (split; lia).
  replace (p * ps + c * ps) with ((p + c) * ps) by ring.
  unfold os_mprotect_rw. rewrite Z.mod_mul, Z.eqb_refl by lia. cbn [negb].
  rewrite (u64_small (c + n)) by (split; lia).
  destruct (Z.eqb_spec (n * ps) 0) as [E0|E0].
  { assert (n = 0) by nia. subst n. exists s. rewrite Z.eqb_refl.
    replace (c + 0) with c by lia.
    split; [destruct ans; reflexivity|]. split; [auto|]. intros; lia. }
  assert (n <> 0) by (intros ->; lia).
  destruct (Z.ltb_spec (2 ^ 64) ((p + c) * ps + n * ps)); [lia|].
  rewrite Z.div_mul, npages_mul by lia.
  assert (F : forallb (fun i => is_mapped (s i)) (zrange (p + c) n) = true).
  { apply forallb_forall. intros i Hi. apply in_zrange in Hi.
    destruct (Hacc i ltac:(lia)) as ((v & ->) & _). reflexivity. }
  rewrite F. destruct (Z.eqb_spec n 0); [lia|].
  destruct ans as [|k]; cbn [fst snd].
  - eexists. split; [reflexivity|]. unfold set_pages. split.
    + intros i. destruct (Z.leb_spec (p + c) i), (Z.ltb_spec i (p + c + n)); cbn [andb];
        first [left; reflexivity | right; repeat split; auto; lia].
    + intros _ i Hi. destruct (Z.leb_spec (p + c) i), (Z.ltb_spec i (p + c + n)); cbn [andb]; auto; lia.
  - eexists. split; [reflexivity|]. unfold set_pages. split; [|congruence].
    intros i. destruct (Z.leb_spec (p + c) i), (Z.ltb_spec i (p + c + Z.max 0 (Z.min k n))); cbn [andb];
      first [left; reflexivity | right; repeat split; auto; lia].
Qed.

Lemma spec_step_range max c o :
  0 <= c <= max -> match o with OGrow n _ => 0 <= n | _ => True end ->
  c <= snd (spec_step max c o) <= max.
Proof.
  intros Hc Hn. destruct o as [n [|k]|n|f]; cbn [spec_step].
  - destruct (Z.leb_spec (c + n) max); cbn; lia.
  - destruct (Z.leb_spec (c + n) max); [destruct (Z.eqb_spec n 0)|]; cbn; lia.
  - destruct (c <? n); cbn; lia.
  - cbn. lia.
Qed.

Lemma step_spec s m p o :
  good m p -> words [o] -> at_least_accessible s p (cf_max (lm_cfg m)) (lm_count m) ->
  exists s',
    lm_step ps s m o =
      (fst (spec_step (cf_max (lm_cfg m)) (lm_count m) o), s',
       mkLM (lm_addr m) (snd (spec_step (cf_max (lm_cfg m)) (lm_count m) o)) (lm_cfg m)) /\
    at_least_accessible s' p (cf_max (lm_cfg m)) (snd (spec_step (cf_max (lm_cfg m)) (lm_count m) o)) /\
    (no_failures [o] -> exactly_accessible s p (cf_max (lm_cfg m)) (lm_count m) ->
     exactly_accessible s' p (cf_max (lm_cfg m)) (snd (spec_step (cf_max (lm_cfg m)) (lm_count m) o))) /\
    (match o with
     | OEnv f => forall i, ~ (p <= i < p + cf_max (lm_cfg m)) -> s' i = f i
     | _ => forall i, ~ (p <= i < p + cf_max (lm_cfg m)) -> s' i = s i
     end).
Proof.
  intros G W Hacc. pose proof G as (Ha & Hp & Hsp & Hc & Hm).
  inversion W as [|? ? Wo _]; subst.
  destruct o as [n ans|n|f]; cbn [lm_step].
  - destruct (grow_spec s m p n ans G Wo Hacc) as (s' & E & Hfr & Hset).
    exists s'. split; [exact E|].
    pose proof (spec_step_range (cf_max (lm_cfg m)) (lm_count m) (OGrow n ans) Hc ltac:(cbn; lia)) as HR.
    set (c' := snd (spec_step (cf_max (lm_cfg m)) (lm_count m) (OGrow n ans))) in *.
    assert (HC : c' = lm_count m \/ c' = lm_count m + n).
    { unfold c'. destruct ans; cbn [spec_step].
      - destruct (_ <=? _); cbn; auto.
      - destruct (_ <=? _); [destruct (_ =? _)|]; cbn; auto. }
    conjs.
    + intros i Hi. destruct (Hacc i Hi) as ((v & Hv) & Hlt). split.
      * destruct (Hfr i) as [->|(_ & _ & ->)]; eauto.
      * intros Hi'. destruct (Z.eq_dec c' (lm_count m)) as [Ec|Ec].
        -- destruct (Hfr i) as [->|(_ & _ & ->)]; auto. apply Hlt. lia.
        -- destruct (Z.ltb_spec i (p + lm_count m)).
           ++ destruct (Hfr i) as [->|(_ & _ & ->)]; auto.
           ++ apply Hset; [assumption|lia].
    + intros NF Hex i Hi. inversion NF as [|? ? NFo _]; subst.
      destruct ans as [|k]; [|contradiction].
      specialize (Hex i Hi).
      destruct (Z.eq_dec c' (lm_count m)) as [Ec|Ec].
      * (* nothing changed *)
        assert (n = 0 \/ cf_max (lm_cfg m) < lm_count m + n) as Hn0.
        { unfold c' in Ec. cbn [spec_step] in Ec. destruct (Z.leb_spec (lm_count m + n) (cf_max (lm_cfg m))); cbn in Ec; lia. }
        destruct (Hfr i) as [->|(H1 & H2 & _)]; [|lia]. now rewrite Ec.
      * destruct HC as [|HC]; [contradiction|].
        destruct (Z.ltb_spec i (p + c')).
        -- destruct (Z.ltb_spec i (p + lm_count m)).
           ++ destruct (Hfr i) as [->|(_ & _ & ->)]; auto.
           ++ apply Hset; [assumption|lia].
        -- destruct (Hfr i) as [->|(H1 & H2 & _)]; [|lia].
           rewrite Hex. destruct (Z.ltb_spec i (p + lm_count m)); [lia|auto].
    + intros i Hi. destruct (Hfr i) as [->|(H1 & H2 & _)]; auto. exfalso. apply Hi. lia.
  - unfold lm_shrink. exists s. cbn [spec_step].
    destruct (lm_count m <? n); cbn [fst snd]; conjs; auto; destruct m; reflexivity.
  - eexists. split. { cbn [spec_step fst snd]. destruct m; reflexivity. }
    cbn [spec_step fst snd].
    assert (Ed : lm_addr m / ps = p) by (rewrite Ha; apply Z.div_mul; lia).
    conjs.
    + intros i Hi. unfold env_step. rewrite Ed.
      destruct (Z.leb_spec p i), (Z.ltb_spec i (p + cf_max (lm_cfg m))); cbn [andb]; try lia. auto.
    + intros _ Hex i Hi. unfold env_step. rewrite Ed.
      destruct (Z.leb_spec p i), (Z.ltb_spec i (p + cf_max (lm_cfg m))); cbn [andb]; try lia. auto.
    + intros i Hi. unfold env_step. rewrite Ed.
      destruct (Z.leb_spec p i), (Z.ltb_spec i (p + cf_max (lm_cfg m))); cbn [andb]; auto; lia.
Qed.

Lemma run_spec ops : forall s m p,
  good m p -> words ops -> at_least_accessible s p (cf_max (lm_cfg m)) (lm_count m) ->
  exists s',
    lm_run ps s m ops =
      (fst (spec_run (cf_max (lm_cfg m)) (lm_count m) ops), s',
       mkLM (lm_addr m) (snd (spec_run (cf_max (lm_cfg m)) (lm_count m) ops)) (lm_cfg m)) /\
    lm_count m <= snd (spec_run (cf_max (lm_cfg m)) (lm_count m) ops) <= cf_max (lm_cfg m) /\
    at_least_accessible s' p (cf_max (lm_cfg m)) (snd (spec_run (cf_max (lm_cfg m)) (lm_count m) ops)) /\
    (no_failures ops -> exactly_accessible s p (cf_max (lm_cfg m)) (lm_count m) ->
     exactly_accessible s' p (cf_max (lm_cfg m)) (snd (spec_run (cf_max (lm_cfg m)) (lm_count m) ops))).
Proof.
  induction ops as [|o ops IH]; intros s m p G W Hacc.
  - exists s. cbn [lm_run spec_run fst snd]. pose proof G as (_ & _ & _ & Hc & _).
    destruct m as [a c cfg]. cbn in *. conjs; auto; lia.
  - inversion W as [|? ? Wo Wops]; subst.
    destruct (step_spec s m p o G ltac:(constructor; auto) Hacc) as (s1 & E1 & A1 & X1 & _).
    pose proof G as (Ha & Hp & Hsp & Hc & Hm).
    pose proof (spec_step_range (cf_max (lm_cfg m)) (lm_count m) o Hc) as HR.
    assert (HR' : lm_count m <= snd (spec_step (cf_max (lm_cfg m)) (lm_count m) o) <= cf_max (lm_cfg m)).
    { apply HR. destruct o; auto. cbn in Wo. lia. }
    cbn [lm_run spec_run]. rewrite E1.
    destruct (spec_step (cf_max (lm_cfg m)) (lm_count m) o) as [r c1] eqn:Es. cbn [fst snd] in *.
    set (m1 := mkLM (lm_addr m) c1 (lm_cfg m)).
    assert (G1 : good m1 p).
    { unfold good, m1. cbn [lm_addr lm_count lm_cfg]. conjs; auto; lia. }
    destruct (IH s1 m1 p G1 Wops A1) as (s2 & E2 & R2 & A2 & X2). cbn [m1 lm_addr lm_count lm_cfg] in *.
    rewrite E2. destruct (spec_run (cf_max (lm_cfg m)) c1 ops) as [rs c2]. cbn [fst snd] in *.
    exists s2. conjs; auto; [lia|].
    intros NF HX. inversion NF; subst. apply X2; auto. apply X1; auto. constructor; auto.
Qed.

Lemma construct_ok s c p ans :
  0 <= cf_min c <= cf_max c -> 0 < cf_max c -> cf_max c * ps < 2 ^ 64 ->
  mmap_contract ps s (cf_max c * ps) (Some p) ->
  exists s',
    lm_construct ps s c (Some p) ans =
      (if match ans with MpOk => true | MpFail _ => cf_min c =? 0 end
       then (LMDone, s', mkLM (p * ps) (cf_min c) c)
       else (LMPageError, s', mkLM (p * ps) 0 c)) /\
    (forall i, ~ (p <= i < p + cf_max c) -> s' i = s i) /\
    (forall i, p <= i < p + cf_max c -> exists v, s' i = Some v) /\
    (match ans with MpOk => True | MpFail _ => cf_min c = 0 end ->
     exactly_accessible s' p (cf_max c) (cf_min c)).
Proof.
  intros Hmin Hmax Hw (Hp & Hsp & Hfree). rewrite npages_mul in Hsp, Hfree by lia.
  unfold lm_construct.
  destruct (Z.ltb_spec (cf_max c) (cf_min c)); [lia|].
  assert (0 < cf_max c * ps) by nia.
  rewrite u64_small by (split; lia).
  unfold os_mmap. destruct (Z.eqb_spec (cf_max c * ps) 0); [lia|].
  destruct (Z.eqb_spec (p * ps) 0); [nia|].
  rewrite npages_mul by lia.
  set (s1 := set_pages s p (cf_max c) (Some PNone)).
  set (m1 := mkLM (p * ps) 0 c).
  assert (Hs1 : exactly_accessible s1 p (cf_max c) 0).
  { intros i Hi. unfold s1, set_pages.
    destruct (Z.leb_spec p i), (Z.ltb_spec i (p + cf_max c)); cbn [andb]; try lia.
    destruct (Z.ltb_spec i (p + 0)); [lia|auto]. }
  assert (G : good m1 p).
  { unfold good, m1. cbn [lm_addr lm_count lm_cfg]. conjs; auto; nia. }
  assert (A : at_least_accessible s1 p (cf_max c) 0).
  { intros i Hi. rewrite (Hs1 i Hi). split; [eauto|lia]. }
  destruct (step_spec s1 m1 p (OGrow (cf_min c) ans) G) as (s' & E & A' & X' & F').
  { constructor; [|constructor]. cbn. split; nia. }
  { exact A. }
  cbn [lm_step] in E. cbn [m1 lm_addr lm_count lm_cfg] in *.
  fold m1. change (mkLM (p * ps) 0 c) with m1 in E. rewrite E. exists s'.
  assert (FR : forall i, ~ (p <= i < p + cf_max c) -> s' i = s i).
  { intros i Hi. rewrite F' by exact Hi. unfold s1, set_pages.
    destruct (Z.leb_spec p i), (Z.ltb_spec i (p + cf_max c)); cbn [andb]; auto; lia. }
  assert (MP : forall i, p <= i < p + cf_max c -> exists v, s' i = Some v).
  { intros i Hi. apply A'; assumption. }
  cbn [spec_step] in *. destruct (Z.leb_spec (0 + cf_min c) (cf_max c)); [|lia].
  destruct ans as [|k]; cbn [fst snd] in *.
  - conjs; auto. intros _. replace (cf_min c) with (0 + cf_min c) by lia. apply X'; auto.
    constructor; [exact I|constructor].
  - destruct (Z.eqb_spec (cf_min c) 0) as [E0|E0]; cbn [fst snd] in *.
    + conjs; auto. { now rewrite E0. }
      intros _. rewrite E0 in *.
      intros i Hi. cbn [lm_step lm_grow m1 lm_addr lm_count lm_cfg] in E.
      (* growing by nothing leaves the pages as they were *)
      assert (s' = s1) as ->.
      { unfold lm_grow in E. cbn [lm_addr lm_count lm_cfg m1] in E.
        destruct (u64 (cf_max c - 0) <? 0); [congruence|].
        unfold lm_activate, os_mprotect_rw in E. rewrite Z.mul_0_l in E. change (u64 0) with 0 in E.
        rewrite Z.add_0_r, u64_small in E by (split; nia).
        rewrite Z.mod_mul in E by lia. rewrite Z.eqb_refl in E. cbn [negb] in E. congruence. }
      auto.
    + conjs; auto. intros; contradiction.
Qed.

Lemma construct_no_memory s c ans :
  Z.Even ps -> 0 <= cf_min c <= cf_max c -> cf_max c < 2 ^ 64 ->
  lm_construct ps s c None ans = (LMPageError, s, mkLM MAP_FAILED 0 c).
Proof.
  intros [k Hk] Hmin Hw. unfold lm_construct.
  destruct (Z.ltb_spec (cf_max c) (cf_min c)); [lia|].
  unfold os_mmap.
  assert (E : (if u64 (cf_max c * ps) =? 0 then (s, MAP_FAILED) else (s, MAP_FAILED)) = (s, MAP_FAILED))
    by (destruct (_ =? 0); auto).
  rewrite E. change (MAP_FAILED =? 0) with false.
  unfold lm_grow. cbn [lm_addr lm_count lm_cfg].
  rewrite (u64_small (cf_max c - 0)) by (split; lia).
  destruct (Z.ltb_spec (cf_max c - 0) (cf_min c)); [lia|].
  unfold lm_activate, os_mprotect_rw. cbn [Z.mul]. change (u64 0) with 0. rewrite Z.add_0_r.
  change (u64 MAP_FAILED) with MAP_FAILED.
  destruct (Z.eqb_spec (MAP_FAILED mod ps) 0) as [E0|E0]; cbn [negb].
  - exfalso. apply Z.mod_divide in E0; [|lia]. destruct E0 as [q Hq]. unfold MAP_FAILED in Hq. lia.
  - reflexivity.
Qed.

Lemma destroy_ok s m p :
  good m p -> 0 < cf_max (lm_cfg m) -> cf_max (lm_cfg m) * ps < 2 ^ 64 ->
  exists s', lm_destroy ps s m = Ok s' /\
    forall i, s' i = if (p <=? i) && (i <? p + cf_max (lm_cfg m)) then None else s i.
Proof.
  intros (Ha & Hp & Hsp & Hc & Hm) Hmax Hw. unfold lm_destroy, lm_max_size.
  assert (0 < cf_max (lm_cfg m) * ps) by nia.
  rewrite u64_small by (split; lia). unfold os_munmap.
  rewrite Ha, Z.mod_mul, Z.eqb_refl by lia. cbn [negb].
  destruct (Z.eqb_spec (cf_max (lm_cfg m) * ps) 0); [lia|].
  eexists. split; [reflexivity|]. intros i. unfold set_pages.
  rewrite Z.div_mul, npages_mul by lia. reflexivity.
Qed.

End Mem.
