(** Properties of linear memory: C18, C55, C56, C57, C58, C59. *)

From Coq Require Import ZArith List Bool Lia.
From Verif Require Import Outcome HashModel MemModel MemSpec MemProofs.
Import ListNotations.
Local Open Scope Z_scope.

(** C18, construction: with a sane configuration it either gives a memory of exactly [min]
    accessible pages inside a fresh reservation of [max] pages, or reports an error; a mapping that
    the system refuses is reported. *)
Theorem C18_construction : forall ps c s where_ ans,
  0 < ps -> Z.Even ps -> 0 <= cf_min c <= cf_max c -> 0 < cf_max c -> cf_max c * ps < 2 ^ 64 ->
  mmap_contract ps s (cf_max c * ps) where_ ->
  (where_ = None -> exists m, lm_construct ps s c where_ ans = (LMPageError, s, m)) /\
  (forall p, where_ = Some p -> ans = MpOk ->
     exists s' m, lm_construct ps s c where_ ans = (LMDone, s', m) /\
       lm_addr m = p * ps /\ lm_count m = cf_min c /\
       exactly_accessible s' p (cf_max c) (cf_min c) /\
       (forall i, p <= i < p + cf_max c -> s i = None) /\
       (forall i, ~ (p <= i < p + cf_max c) -> s' i = s i)).
Proof.
  intros ps c s w ans Hps He Hmin Hmax Hw Hk. split.
  - intros ->. eexists. apply construct_no_memory; auto. nia.
  - intros p -> ->. destruct (construct_ok ps Hps s c p MpOk Hmin Hmax Hw Hk) as (s' & E & F & M & X).
    exists s', (mkLM (p * ps) (cf_min c) c). conjs; auto.
    intros i Hi. destruct Hk as (_ & _ & Hf). apply Hf. rewrite npages_mul by lia. exact Hi.
Qed.
Print Assumptions C18_construction.

(** A configuration with min > max is rejected before anything happens. *)
Theorem C18_bad_limits_rejected : forall ps c s where_ ans, cf_max c < cf_min c ->
  exists m, lm_construct ps s c where_ ans = (LMLimitError, s, m).
Proof.
  intros ps c s w ans H. unfold lm_construct. destruct (Z.ltb_spec (cf_max c) (cf_min c)); [eauto|lia].
Qed.
Print Assumptions C18_bad_limits_rejected.
Example C18_bad_limits_case : lm_construct 4096 (fun _ => None) (mkCfg 5 4) (Some 10) MpOk = (LMLimitError, (fun _ => None), mkLM 0 0 (mkCfg 5 4)).
Proof. reflexivity. Qed.

(** C18, any history of requests after a successful construction, interleaved with anything the
    rest of the process does to other pages: the answers and the page count are those of the
    page-count machine of MemSpec, the base never moves, the size is count times page size, the
    count stays between min and max, the first [count] pages are accessible and, unless a system
    call failed, no others; destroying the memory unmaps exactly its reservation. *)
Theorem C18_history : forall ps c s0 where_ s m ops,
  0 < ps -> 0 <= cf_min c <= cf_max c -> 0 < cf_max c -> cf_max c * ps < 2 ^ 64 ->
  mmap_contract ps s0 (cf_max c * ps) where_ -> Z.Even ps ->
  lm_construct ps s0 c where_ MpOk = (LMDone, s, m) -> words ops ->
  exists p s' m',
    lm_run ps s m ops = (fst (spec_run (cf_max c) (cf_min c) ops), s', m') /\
    where_ = Some p /\ lm_addr m = p * ps /\ lm_addr m' = lm_addr m /\
    lm_count m' = snd (spec_run (cf_max c) (cf_min c) ops) /\
    lm_size ps m' = lm_count m' * ps /\
    cf_min c <= lm_count m' <= cf_max c /\
    at_least_accessible s' p (cf_max c) (lm_count m') /\
    (no_failures ops -> exactly_accessible s' p (cf_max c) (lm_count m')) /\
    exists s'', lm_destroy ps s' m' = Ok s'' /\
      forall i, s'' i = if (p <=? i) && (i <? p + cf_max c) then None else s' i.
Proof.
  intros ps c s0 w s m ops Hps Hmin Hmax Hw Hk He HC W.
  destruct w as [p|]; [|rewrite construct_no_memory in HC by (auto; nia); discriminate].
  destruct (construct_ok ps Hps s0 c p MpOk Hmin Hmax Hw Hk) as (s1 & E & F & M & X).
  rewrite E in HC. cbv iota in HC. injection HC as <- <-. specialize (X I).
  set (m := mkLM (p * ps) (cf_min c) c).
  destruct Hk as (Hp & Hsp & Hf). rewrite npages_mul in Hsp, Hf by lia.
  assert (G : good ps m p) by (unfold good, m; cbn; conjs; auto; nia).
  assert (A : at_least_accessible s1 p (cf_max c) (cf_min c)).
  { intros i Hi. rewrite (X i Hi). split; [eauto|]. intros Hl.
    destruct (Z.ltb_spec i (p + cf_min c)); [auto|lia]. }
  destruct (run_spec ps Hps ops s1 m p G W A) as (s' & ER & R & A' & X').
  cbn [m lm_addr lm_count lm_cfg] in *.
  exists p, s', (mkLM (p * ps) (snd (spec_run (cf_max c) (cf_min c) ops)) c).
  fold m. cbn [lm_addr lm_count lm_cfg].
  split; [exact ER|]. conjs; auto; try lia.
  - unfold lm_size. cbn [lm_count]. apply Z.mod_small. nia.
  - destruct (destroy_ok ps Hps s' (mkLM (p * ps) (snd (spec_run (cf_max c) (cf_min c) ops)) c) p)
      as (s'' & ED & FD); cbn [lm_cfg]; auto.
    + unfold good. cbn. conjs; auto; nia.
    + exists s''. split; [exact ED|]. exact FD.
Qed.
Print Assumptions C18_history.

(** A request never changes a page outside the reservation, and a request refused for exceeding
    the limit changes nothing at all. *)
Theorem C18_requests_are_local : forall ps s m n ans,
  (u64 (cf_max (lm_cfg m) - lm_count m) < n -> lm_grow ps s m n ans = (LMLimitError, s, m)) /\
  (forall p, 0 < ps -> good ps m p -> 0 <= n < 2 ^ 64 ->
     at_least_accessible s p (cf_max (lm_cfg m)) (lm_count m) ->
     forall i, ~ (p <= i < p + cf_max (lm_cfg m)) -> snd (fst (lm_grow ps s m n ans)) i = s i).
Proof.
  intros ps s m n ans. split.
  - intros H. unfold lm_grow. destruct (Z.ltb_spec (u64 (cf_max (lm_cfg m) - lm_count m)) n); [auto|lia].
  - intros p Hps G Hn A i Hi. destruct (grow_spec ps Hps s m p n ans G Hn A) as (s' & E & F & _).
    rewrite E. cbn [fst snd]. destruct (F i) as [->|(H1 & H2 & _)]; auto. exfalso. apply Hi.
    destruct G as (_ & _ & _ & Hc & _). lia.
Qed.
Print Assumptions C18_requests_are_local.

(** The default configuration on 4 KiB pages: grow 1, grow 2 reach the limit of four pages, a
    further grow is refused. *)
Definition free_os : os := fun _ => None.
Example ex_history :
  mmap_contract 4096 free_os (4 * 4096) (Some 10) /\
  (let '(r, s, m) := lm_construct 4096 free_os default_config (Some 10) MpOk in
   let '(rs, s', m') := lm_run 4096 s m [OGrow 1 MpOk; OShrink 1; OGrow 2 MpOk; OGrow 1 MpOk] in
   (r, rs, lm_count m', lm_size 4096 m', map s' [9; 10; 13; 14]))
  = (LMDone, [LMDone; LMDone; LMDone; LMLimitError], 4, 16384,
     [None; Some PReadWrite; Some PReadWrite; None]).
Proof. split; [cbn; repeat split; try lia|vm_compute; reflexivity]. Qed.

(** C55: shrink reports success and changes nothing - for every memory and every n up to its
    page count; so no shrink of at least one page ever does what it says. *)
Theorem C55_shrink_refuted : forall m n, 1 <= n <= lm_count m ->
  lm_shrink m n = (LMDone, m) /\ lm_count (snd (lm_shrink m n)) <> lm_count m - n.
Proof.
  intros m n Hn. unfold lm_shrink. destruct (Z.ltb_spec (lm_count m) n); [lia|]. cbn. split; [auto|lia].
Qed.
Print Assumptions C55_shrink_refuted.

(** What shrink does get right: a request for more pages than there are is refused. *)
Theorem C55_shrink_partial : forall m n, lm_count m < n -> lm_shrink m n = (LMLimitError, m).
Proof. intros m n H. unfold lm_shrink. destruct (Z.ltb_spec (lm_count m) n); [auto|lia]. Qed.
Print Assumptions C55_shrink_partial.
(** A memory of four pages: giving back one changes nothing, giving back five is refused. *)
Example C55_case : let m := mkLM 40960 4 default_config in
  1 <= 1 <= lm_count m /\ lm_shrink m 1 = (LMDone, m) /\ lm_count m < 5 /\ lm_shrink m 5 = (LMLimitError, m).
Proof. cbv zeta. cbn. repeat split; lia. Qed.

(** C56: size() counts bytes, max_size() counts pages: a default memory is 1024 times larger than
    its "maximum size". *)
Theorem C56_size_exceeds_max_size_refuted : exists s m,
  lm_construct 4096 free_os default_config (Some 10) MpOk = (LMDone, s, m) /\
  lm_size 4096 m = 4096 /\ lm_max_size m = 4.
Proof.
  destruct (lm_construct 4096 free_os default_config (Some 10) MpOk) as [[r s] m] eqn:E.
  exists s, m. unfold lm_construct in E. cbn -[set_pages] in E. injection E as <- <- <-. vm_compute. auto.
Qed.
Print Assumptions C56_size_exceeds_max_size_refuted.

(** In bytes, with the page size put in, the bound holds after every history. *)
Theorem C56_size_in_pages_partial : forall ps c s0 where_ s m ops rs s' m',
  0 < ps -> 0 <= cf_min c <= cf_max c -> 0 < cf_max c -> cf_max c * ps < 2 ^ 64 ->
  mmap_contract ps s0 (cf_max c * ps) where_ -> Z.Even ps ->
  lm_construct ps s0 c where_ MpOk = (LMDone, s, m) -> words ops ->
  lm_run ps s m ops = (rs, s', m') ->
  lm_max_size m' = cf_max c /\ lm_size ps m' <= lm_max_size m' * ps.
Proof.
  intros ps c s0 w s m ops rs s' m' Hps Hmin Hmax Hw Hk He HC W R.
  destruct (C18_history ps c s0 w s m ops) as (p & s1 & m1 & R1 & _ & _ & _ & Hc & Hsz & Hr & _); auto.
  rewrite R in R1. injection R1 as -> <- <-.
  assert (lm_max_size m' = cf_max c) as E.
  { destruct w as [q|]; [|rewrite construct_no_memory in HC by (auto; nia); discriminate].
    destruct (construct_ok ps Hps s0 c q MpOk Hmin Hmax Hw Hk) as (s2 & E & _).
    rewrite E in HC. cbv iota in HC. injection HC as _ <-.
    clear - R. unfold lm_max_size. assert (H : lm_cfg m' = c); [|now rewrite H].
    change c with (lm_cfg (mkLM (q * ps) (cf_min c) c)). revert R.
    generalize (mkLM (q * ps) (cf_min c) c) as m. generalize (fst (spec_run (cf_max c) (cf_min c) ops)) as rs.
    clear. revert s. induction ops as [|o ops IH]; intros s rs m R; cbn [lm_run] in R.
    - now injection R as _ _ <-.
    - destruct (lm_step ps s m o) as [[r s1] m1] eqn:E1.
      destruct (lm_run ps s1 m1 ops) as [[rs1 s2] m2] eqn:E2. injection R as _ -> ->.
      rewrite (IH _ _ _ E2). clear - E1. destruct o; cbn [lm_step] in E1.
      + unfold lm_grow in E1. destruct (_ <? _); [now injection E1 as _ _ <-|].
        destruct (lm_activate _ _ _ _ _) as [[] ?]; now injection E1 as _ _ <-.
      + unfold lm_shrink in E1. destruct (_ <? _); now injection E1 as _ _ <-.
      + now injection E1 as _ _ <-. }
  split; [exact E|]. rewrite E, Hsz. nia.
Qed.
Print Assumptions C56_size_in_pages_partial.

(** C57: LinearMemory can be copied (nothing deletes the implicit copy constructor); both copies
    unmap the same pages.  If the pages were mapped again by someone else in between, the second
    destructor unmaps them under their new owner. *)
Theorem C57_copies_release_twice_refuted : exists s m s1 s2 s3,
  lm_construct 4096 free_os default_config (Some 10) MpOk = (LMDone, s, m) /\
  (* destroy the copy (which is equal to the original) *)
  lm_destroy 4096 s m = Ok s1 /\ s1 11 = None /\
  (* another component maps page 11 ... *)
  mmap_contract 4096 s1 4096 (Some 11) /\ os_mmap 4096 s1 4096 (Some 11) = (s2, 11 * 4096) /\
  s2 11 = Some PNone /\
  (* ... and loses it when the original is destroyed *)
  lm_destroy 4096 s2 m = Ok s3 /\ s3 11 = None.
Proof.
  destruct (lm_construct 4096 free_os default_config (Some 10) MpOk) as [[r s] m] eqn:E.
  unfold lm_construct in E. cbn -[set_pages] in E. injection E as <- <- <-.
  do 5 eexists. split; [reflexivity|]. split; [vm_compute; reflexivity|]. split; [reflexivity|].
  split. { unfold mmap_contract. change (npages 4096 4096) with 1. repeat split; try lia.
    intros i Hi. assert (i = 11) as -> by lia. reflexivity. }
  split; [vm_compute; reflexivity|]. split; [reflexivity|]. split; [vm_compute; reflexivity|]. reflexivity.
Qed.
Print Assumptions C57_copies_release_twice_refuted.

(** Memories that are constructed, not copied, are each released once: destroying two of them,
    in either order, unmaps exactly the pages of the one destroyed each time, and in the end
    everything is as before they were made. *)
Theorem C57_two_memories_partial : forall ps c1 c2 s0 w1 w2 s1 m1 s2 m2,
  0 < ps -> Z.Even ps ->
  0 <= cf_min c1 <= cf_max c1 -> 0 < cf_max c1 -> cf_max c1 * ps < 2 ^ 64 ->
  0 <= cf_min c2 <= cf_max c2 -> 0 < cf_max c2 -> cf_max c2 * ps < 2 ^ 64 ->
  mmap_contract ps s0 (cf_max c1 * ps) w1 -> lm_construct ps s0 c1 w1 MpOk = (LMDone, s1, m1) ->
  mmap_contract ps s1 (cf_max c2 * ps) w2 -> lm_construct ps s1 c2 w2 MpOk = (LMDone, s2, m2) ->
  exists p1 p2 a b ab ba, w1 = Some p1 /\ w2 = Some p2 /\
    lm_destroy ps s2 m1 = Ok a /\ lm_destroy ps a m2 = Ok ab /\
    lm_destroy ps s2 m2 = Ok b /\ lm_destroy ps b m1 = Ok ba /\
    (forall i, a i = if (p1 <=? i) && (i <? p1 + cf_max c1) then None else s2 i) /\
    (forall i, b i = if (p2 <=? i) && (i <? p2 + cf_max c2) then None else s2 i) /\
    exactly_accessible a p2 (cf_max c2) (cf_min c2) /\
    exactly_accessible b p1 (cf_max c1) (cf_min c1) /\
    (forall i, ab i = s0 i) /\ (forall i, ba i = s0 i).
Proof.
  intros ps c1 c2 s0 w1 w2 s1 m1 s2 m2 Hps He Hm1 Hx1 Hw1 Hm2 Hx2 Hw2 K1 C1 K2 C2.
  destruct w1 as [p1|]; [|rewrite construct_no_memory in C1 by (auto; nia); discriminate].
  destruct w2 as [p2|]; [|rewrite construct_no_memory in C2 by (auto; nia); discriminate].
  destruct (construct_ok ps Hps s0 c1 p1 MpOk Hm1 Hx1 Hw1 K1) as (t1 & E1 & F1 & M1 & X1).
  rewrite E1 in C1. cbv iota in C1. injection C1 as <- <-. specialize (X1 I).
  destruct (construct_ok ps Hps t1 c2 p2 MpOk Hm2 Hx2 Hw2 K2) as (t2 & E2 & F2 & M2 & X2).
  rewrite E2 in C2. cbv iota in C2. injection C2 as <- <-. specialize (X2 I).
  destruct K1 as (Hp1 & Hs1 & Hf1). rewrite npages_mul in Hs1, Hf1 by lia.
  destruct K2 as (Hp2 & Hs2 & Hf2). rewrite npages_mul in Hs2, Hf2 by lia.
  assert (forall i, p1 <= i < p1 + cf_max c1 -> p2 <= i < p2 + cf_max c2 -> False) as D.
  { intros i Hi Hj. specialize (Hf2 i Hj). rewrite (X1 i Hi) in Hf2. discriminate. }
  assert (G1 : good ps (mkLM (p1 * ps) (cf_min c1) c1) p1) by (unfold good; cbn; conjs; auto; nia).
  assert (G2 : good ps (mkLM (p2 * ps) (cf_min c2) c2) p2) by (unfold good; cbn; conjs; auto; nia).
  destruct (destroy_ok ps Hps t2 _ p1 G1 Hx1 Hw1) as (a & Da & Fa).
  destruct (destroy_ok ps Hps t2 _ p2 G2 Hx2 Hw2) as (b & Db & Fb).
  destruct (destroy_ok ps Hps a _ p2 G2 Hx2 Hw2) as (ab & Dab & Fab).
  destruct (destroy_ok ps Hps b _ p1 G1 Hx1 Hw1) as (ba & Dba & Fba).
  cbn [lm_cfg] in *.
  assert (R : forall p q i, (p <=? i) && (i <? q) = true <-> p <= i < q).
  { intros p q i. rewrite andb_true_iff, Z.leb_le, Z.ltb_lt. tauto. }
  assert (N : forall p q i, (p <=? i) && (i <? q) = false <-> ~ (p <= i < q)).
  { intros p q i. rewrite <- R. destruct ((p <=? i) && (i <? q)); split; congruence. }
  assert (U : forall i, (~ (p1 <= i < p1 + cf_max c1) -> ~ (p2 <= i < p2 + cf_max c2) -> t2 i = s0 i) /\
                        (p1 <= i < p1 + cf_max c1 -> s0 i = None) /\
                        (p2 <= i < p2 + cf_max c2 -> s0 i = None)).
  { intros i. split; [|split].
    - intros H1 H2. now rewrite F2, F1.
    - apply Hf1.
    - intros H. rewrite <- F1; [now apply Hf2|]. intros H'. exact (D i H' H). }
  exists p1, p2, a, b, ab, ba. conjs; auto.
  - intros i Hi. rewrite Fa. replace ((p1 <=? i) && (i <? p1 + cf_max c1)) with false.
    + now apply X2. + symmetry. apply N. intros H. exact (D i H Hi).
  - intros i Hi. rewrite Fb. replace ((p2 <=? i) && (i <? p2 + cf_max c2)) with false.
    + rewrite F2; [now apply X1|]. intros H. exact (D i Hi H).
    + symmetry. apply N. intros H. exact (D i Hi H).
  - intros i. destruct (U i) as (U0 & U1 & U2). rewrite Fab.
    destruct ((p2 <=? i) && (i <? p2 + cf_max c2)) eqn:B2; [apply R in B2; symmetry; auto|]. rewrite Fa.
    destruct ((p1 <=? i) && (i <? p1 + cf_max c1)) eqn:B1; [apply R in B1; symmetry; auto|].
    apply U0; now apply N.
  - intros i. destruct (U i) as (U0 & U1 & U2). rewrite Fba.
    destruct ((p1 <=? i) && (i <? p1 + cf_max c1)) eqn:B1; [apply R in B1; symmetry; auto|]. rewrite Fb.
    destruct ((p2 <=? i) && (i <? p2 + cf_max c2)) eqn:B2; [apply R in B2; symmetry; auto|].
    apply U0; now apply N.
Qed.
Print Assumptions C57_two_memories_partial.
(** Two default memories, pages 10-13 and 20-23. *)
Example C57_case : exists s1 m1 s2 m2,
  lm_construct 4096 free_os default_config (Some 10) MpOk = (LMDone, s1, m1) /\
  mmap_contract 4096 s1 (cf_max default_config * 4096) (Some 20) /\
  lm_construct 4096 s1 default_config (Some 20) MpOk = (LMDone, s2, m2) /\
  map s2 [9; 10; 11; 13; 14; 20; 21; 24] = [None; Some PReadWrite; Some PNone; Some PNone; None; Some PReadWrite; Some PNone; None].
Proof.
  do 4 eexists. split; [reflexivity|]. split; [|split; [reflexivity|vm_compute; reflexivity]].
  unfold mmap_contract. change (npages 4096 (cf_max default_config * 4096)) with 4. cbn. repeat split; try lia.
  intros i Hi. assert (i = 20 \/ i = 21 \/ i = 22 \/ i = 23) as [->|[->|[->| ->]]] by lia; reflexivity.
Qed.

(** C58: the byte size of the reservation is computed modulo 2^64.  With a maximum of 2^52 + 1
    pages of 4 KiB only one page is reserved, and growing within the stated maximum makes a page
    writable that belongs to someone else. *)
Definition neighbour : os := fun i => if i =? 11 then Some PNone else None.
Theorem C58_huge_limits_refuted : exists s m s' m',
  mmap_contract 4096 neighbour (u64 ((2 ^ 52 + 1) * 4096)) (Some 10) /\
  lm_construct 4096 neighbour (mkCfg 1 (2 ^ 52 + 1)) (Some 10) MpOk = (LMDone, s, m) /\
  s 11 = Some PNone /\
  lm_grow 4096 s m 1 MpOk = (LMDone, s', m') /\
  s' 11 = Some PReadWrite.
Proof.
  destruct (lm_construct 4096 neighbour (mkCfg 1 (2 ^ 52 + 1)) (Some 10) MpOk) as [[r s] m] eqn:E.
  unfold lm_construct in E. cbn -[set_pages] in E. injection E as <- <- <-.
  do 4 eexists. split.
  { unfold mmap_contract. change (npages 4096 (u64 ((2 ^ 52 + 1) * 4096))) with 1. repeat split; try lia.
    intros i Hi. assert (i = 10) as -> by lia. reflexivity. }
  split; [reflexivity|]. split; [reflexivity|]. split; [vm_compute; reflexivity|]. reflexivity.
Qed.
Print Assumptions C58_huge_limits_refuted.

(** When the limit times the page size fits a machine word, no request in any history changes
    a page outside the reservation. *)
Theorem C58_limits_that_fit_partial : forall ps c s0 where_ s m ops rs s' m' n ans,
  0 < ps -> 0 <= cf_min c <= cf_max c -> 0 < cf_max c -> cf_max c * ps < 2 ^ 64 ->
  mmap_contract ps s0 (cf_max c * ps) where_ -> Z.Even ps ->
  lm_construct ps s0 c where_ MpOk = (LMDone, s, m) -> words ops ->
  lm_run ps s m ops = (rs, s', m') -> 0 <= n < 2 ^ 64 ->
  exists p, where_ = Some p /\
    forall i, ~ (p <= i < p + cf_max c) -> snd (fst (lm_grow ps s' m' n ans)) i = s' i.
Proof.
  intros ps c s0 w s m ops rs s' m' n ans Hps Hmin Hmax Hw Hk He HC W R Hn.
  destruct (C56_size_in_pages_partial ps c s0 w s m ops rs s' m') as (Hc & _); auto.
  destruct (C18_history ps c s0 w s m ops) as (p & s1 & m1 & R1 & -> & Ha & Ha' & Hcnt & _ & Hr & A & _); auto.
  rewrite R in R1. injection R1 as -> <- <-. exists p. split; [reflexivity|].
  unfold lm_max_size in Hc. destruct Hk as (Hp & Hs & _). rewrite npages_mul in Hs by lia.
  rewrite <- Hc in *.
  apply C18_requests_are_local; auto. unfold good. conjs; auto; try lia.
Qed.
Print Assumptions C58_limits_that_fit_partial.
(** The hypotheses of C56 and C58 are met by the default configuration and a history with a request
    that the system refuses. *)
Example C56_C58_case :
  mmap_contract 4096 free_os (cf_max default_config * 4096) (Some 10) /\ Z.Even 4096 /\
  words [OGrow 1 MpOk; OGrow 2 (MpFail 1); OShrink 1] /\
  (let '(r, s, m) := lm_construct 4096 free_os default_config (Some 10) MpOk in
   let '(rs, s', m') := lm_run 4096 s m [OGrow 1 MpOk; OGrow 2 (MpFail 1); OShrink 1] in
   (r, rs, lm_count m', map s' [9; 11; 12; 13; 14])) =
  (LMDone, [LMDone; LMPageError; LMDone], 2, [None; Some PReadWrite; Some PReadWrite; Some PNone; None]).
Proof.
  split; [cbn; repeat split; lia|]. split; [exists 2048; reflexivity|].
  split; [repeat constructor; cbn; lia|]. vm_compute. reflexivity.
Qed.

(** C59: when activating the first pages fails, the constructor throws and the reservation stays
    mapped for ever: for every sane configuration with min > 0. *)
Theorem C59_failed_construction_leaks_refuted : forall ps c s p k,
  0 < ps -> 0 < cf_min c <= cf_max c -> cf_max c * ps < 2 ^ 64 ->
  mmap_contract ps s (cf_max c * ps) (Some p) ->
  exists s' m, lm_construct ps s c (Some p) (MpFail k) = (LMPageError, s', m) /\
    forall i, p <= i < p + cf_max c -> s i = None /\ s' i <> None.
Proof.
  intros ps c s p k Hps Hmin Hw Hk.
  destruct (construct_ok ps Hps s c p (MpFail k) ltac:(lia) ltac:(lia) Hw Hk) as (s' & E & F & M & X).
  destruct (Z.eqb_spec (cf_min c) 0); [lia|].
  exists s', (mkLM (p * ps) 0 c). split; [exact E|]. intros i Hi. split.
  - destruct Hk as (_ & _ & Hf). apply Hf. rewrite npages_mul by lia. exact Hi.
  - destruct (M i Hi) as (v & ->). discriminate.
Qed.
Print Assumptions C59_failed_construction_leaks_refuted.

(** A construction that fails earlier - wrong limits, or the reservation itself refused by the
    system - leaves everything as it was. *)
Theorem C59_early_failures_partial : forall ps c s where_ ans,
  0 < ps -> Z.Even ps -> 0 <= cf_min c -> 0 <= cf_max c < 2 ^ 64 ->
  cf_max c < cf_min c \/ where_ = None ->
  exists r m, lm_construct ps s c where_ ans = (r, s, m) /\ r <> LMDone.
Proof.
  intros ps c s w ans Hps He Hmin Hmax H.
  destruct (Z_lt_le_dec (cf_max c) (cf_min c)) as [Hl|Hl].
  - destruct (C18_bad_limits_rejected ps c s w ans Hl) as (m & E). exists LMLimitError, m. split; [exact E|discriminate].
  - destruct H as [H| ->]; [lia|].
    exists LMPageError, (mkLM MAP_FAILED 0 c). split; [apply construct_no_memory; auto; lia|discriminate].
Qed.
Print Assumptions C59_early_failures_partial.
(** The system refuses to make the first page accessible: the four pages stay reserved.  It refuses
    the reservation: nothing happens. *)
Example C59_case :
  (let '(r, s, m) := lm_construct 4096 free_os default_config (Some 10) (MpFail 0) in (r, map s [9; 10; 13; 14])) =
    (LMPageError, [None; Some PNone; Some PNone; None]) /\
  lm_construct 4096 free_os default_config None MpOk = (LMPageError, free_os, mkLM MAP_FAILED 0 default_config).
Proof. split; vm_compute; reflexivity. Qed.
