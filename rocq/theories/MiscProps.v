From Coq Require Import String Ascii ZArith List Bool Lia.
From Verif Require Import Outcome CmdModel MiscModel.
Import ListNotations.
Local Open Scope Z_scope.

(** * Specification of a box program: every variable has a value; a source named as an lvalue
    keeps it, one given away with std::move loses it ([None]). *)
Section BoxSpec.
Context {T : Type} (moved : T -> T).
Record sstate := mkS { s_boxes : list (option T); s_plain : list (option T) }.
Definition lose {A} (c : category) (l : list (option A)) (j : nat) : list (option A) :=
  match c with Rvalue => put l j None | _ => l end.
Inductive sstep : sstate -> command T -> sstate -> Prop :=
| SMake s c j v : nth_error (s_plain s) j = Some v ->
    sstep s (Make c j) (mkS (s_boxes s ++ [v]) (lose c (s_plain s) j))
| SMakeFrom s c j v : nth_error (s_boxes s) j = Some v ->
    sstep s (MakeFrom c j) (mkS (lose c (s_boxes s) j ++ [v]) (s_plain s))
| SAssign s i c j v : (i < length (s_boxes s))%nat -> nth_error (s_plain s) j = Some v ->
    sstep s (Assign i c j) (mkS (put (s_boxes s) i v) (lose c (s_plain s) j))
| SAssignFrom s i k j v : (i < length (s_boxes s))%nat -> nth_error (s_boxes s) j = Some v ->
    sstep s (AssignFrom i k j) (mkS (put (s_boxes s) i v) (s_plain s))
| SWrite s i v : (i < length (s_boxes s))%nat ->
    sstep s (Write i v) (mkS (put (s_boxes s) i (Some v)) (s_plain s)).
Inductive ssteps : sstate -> list (command T) -> sstate -> Prop :=
| SNil s : ssteps s [] s
| SCons s c s1 cs s2 : sstep s c s1 -> ssteps s1 cs s2 -> ssteps s (c :: cs) s2.
(** the program's variables agree with what the specification knows of them *)
Definition agree1 (k : option T) (v : T) : Prop := match k with Some w => v = w | None => True end.
Definition agree (s : sstate) (p : state T) : Prop := Forall2 agree1 (s_boxes s) (boxes p) /\ Forall2 agree1 (s_plain s) (plain p).
(** every variable known, nothing moved from yet *)
Definition start (p : state T) : sstate := mkS (map Some (boxes p)) (map Some (plain p)).
(** no assignment from a non-const lvalue *)
Definition careful (c : command T) : bool :=
  match c with Assign _ Lvalue _ => false | AssignFrom _ false _ => false | _ => true end.

Lemma F2_nth (R : option T -> T -> Prop) a b j v : Forall2 R a b -> nth_error a j = Some v -> exists w, nth_error b j = Some w /\ R v w.
Proof.
  intros H. revert j. induction H as [|x y a b r h IH]; intros [|j]; cbn; intros E; try discriminate.
  - injection E as <-. eauto.
  - auto.
Qed.
Lemma F2_len (R : option T -> T -> Prop) a b : Forall2 R a b -> length a = length b.
Proof. induction 1; cbn; congruence. Qed.
Lemma F2_lt (R : option T -> T -> Prop) a b i : Forall2 R a b -> (i < length a)%nat -> exists w, nth_error b i = Some w.
Proof.
  intros H L. destruct (nth_error b i) eqn:E; [eauto|].
  apply nth_error_None in E. pose proof (F2_len _ _ _ H). lia.
Qed.
Lemma F2_put (R : option T -> T -> Prop) a b i x y : Forall2 R a b -> R x y -> Forall2 R (put a i x) (put b i y).
Proof.
  intros H r. revert i. induction H as [|p q a b r0 h IH]; intros [|i]; cbn; try constructor; auto.
Qed.
Lemma put_same (l : list T) i v : nth_error l i = Some v -> put l i v = l.
Proof. revert i; induction l as [|x l IH]; intros [|i]; cbn; intros E; try congruence. now rewrite IH. Qed.
Lemma F2_lose c a b j w :
  Forall2 agree1 a b -> nth_error b j = Some w ->
  Forall2 agree1 (lose c a j) (put b j (after T moved (match c with Rvalue => true | _ => false end) w)).
Proof.
  intros H E. destruct c; cbn; try (rewrite (put_same b j w E); exact H).
  apply F2_put; [exact H|exact I].
Qed.

Lemma step_agrees s p c s1 :
  careful c = true -> agree s p -> sstep s c s1 -> exists p1, exec moved p c = Ok p1 /\ agree s1 p1.
Proof.
  intros C (Hb & Hp) St. destruct St as [s c j v E|s c j v E|s i c j v L E|s i k j v L E|s i v L];
    cbn [exec]; unfold from_value, from_box, assign_value, assign_box, write, get.
  - destruct (F2_nth _ _ _ _ _ Hp E) as (w & Ew & r). rewrite Ew; cbn [bind].
    eexists; split; [reflexivity|]. split; cbn [boxes plain s_boxes s_plain].
    + apply Forall2_app; [exact Hb|]. constructor; [exact r|constructor].
    + now apply F2_lose.
  - destruct (F2_nth _ _ _ _ _ Hb E) as (w & Ew & r). rewrite Ew; cbn [bind].
    eexists; split; [reflexivity|]. split; cbn [boxes plain s_boxes s_plain]; [|exact Hp].
    apply Forall2_app; [now apply F2_lose|]. constructor; [exact r|constructor].
  - destruct (F2_lt _ _ _ _ Hb L) as (x & Ex). rewrite Ex; cbn [bind].
    destruct (F2_nth _ _ _ _ _ Hp E) as (w & Ew & r). rewrite Ew; cbn [bind].
    eexists; split; [reflexivity|]. split; cbn [boxes plain s_boxes s_plain].
    + now apply F2_put.
    + destruct c; [|discriminate C|]; [exact (F2_lose Const _ _ _ _ Hp Ew)|exact (F2_lose Rvalue _ _ _ _ Hp Ew)].
  - destruct (F2_lt _ _ _ _ Hb L) as (x & Ex). rewrite Ex; cbn [bind].
    destruct (F2_nth _ _ _ _ _ Hb E) as (w & Ew & r). rewrite Ew; cbn [bind].
    destruct k; [|discriminate C].
    eexists; split; [reflexivity|]. split; cbn [boxes plain s_boxes s_plain]; [now apply F2_put|exact Hp].
  - destruct (F2_lt _ _ _ _ Hb L) as (x & Ex). rewrite Ex; cbn [bind].
    eexists; split; [reflexivity|]. split; cbn [boxes plain s_boxes s_plain]; [|exact Hp].
    apply F2_put; [exact Hb|reflexivity].
Qed.

Lemma start_agrees p : agree (start p) p.
Proof. split; cbn; [induction (boxes p)|induction (plain p)]; cbn; constructor; auto; reflexivity. Qed.
End BoxSpec.

(** C134, restricted to programs that assign only from const lvalues and rvalues *)
Theorem C134_box_programs_partial : forall (T : Type) (moved : T -> T) (cs : list (command T)) p s',
  forallb careful cs = true -> ssteps (start p) cs s' ->
  exists p', exec_all moved p cs = Ok p' /\ agree s' p'.
Proof.
  intros T moved cs p s' C H. pose proof (start_agrees p) as A. revert C A H. generalize (start p) as s.
  intros s C A H. revert p A C. induction H as [s|s c s1 cs s2 St Sts IH]; intros p A C.
  - exists p. split; [reflexivity|exact A].
  - cbn [forallb] in C. apply andb_true_iff in C as (C1 & C2).
    destruct (step_agrees moved s p c s1 C1 A St) as (p1 & E & A1). cbn [exec_all]. rewrite E. cbn [bind]. auto.
Qed.
Print Assumptions C134_box_programs_partial.

(** C134 fails: assigning a plain variable empties the variable, and assigning one box to another
    is undefined *)
Theorem C134_box_assignment_refuted :
  (exists (moved : list nat -> list nat) p s' p',
     ssteps (start p) [Assign 0 Lvalue 0] s' /\ exec_all moved p [Assign 0 Lvalue 0] = Ok p' /\
     plain p = [[7%nat]] /\ plain p' = [[]] /\ ~ agree s' p') /\
  (forall (T : Type) (moved : T -> T) p i j,
     (i < length (boxes p))%nat -> (j < length (boxes p))%nat ->
     exec moved p (AssignFrom i false j) = UB MissingReturn).
Proof.
  split.
  - exists (fun _ => []), (mkState [[1%nat]] [[7%nat]]). eexists. eexists.
    split; [|split; [reflexivity|split; [reflexivity|split; [reflexivity|]]]].
    + econstructor; [eapply SAssign; cbn; [lia|reflexivity]|constructor].
    + intros (_ & H). cbn in H. inversion H as [|x y a b r h]; subst. cbn in r. discriminate.
  - intros T moved p i j Hi Hj. cbn. unfold assign_box, get.
    destruct (nth_error (boxes p) i) eqn:E; [|apply nth_error_None in E; lia].
    destruct (nth_error (boxes p) j) eqn:E2; [|apply nth_error_None in E2; lia]. reflexivity.
Qed.
Print Assumptions C134_box_assignment_refuted.

(** a program that meets the hypotheses: copy, move, write, assign *)
Example box_program :
  exists s', forallb careful [Make Lvalue 0; MakeFrom Lvalue 0; Write 1 [9]; Make Rvalue 1; AssignFrom 0 true 1] = true /\
  ssteps (start (mkState [] [[7]; [8]])) [Make Lvalue 0; MakeFrom Lvalue 0; Write 1 [9]; Make Rvalue 1; AssignFrom 0 true 1] s' /\
  s' = mkS [Some [9]; Some [9]; Some [8]] [Some [7]; None].
Proof.
  eexists. split; [reflexivity|]. split.
  - repeat econstructor.
  - reflexivity.
Qed.

(** * C135: sizes *)
(** Bytes: the number of bytes in [n] of a unit *)
Definition unit_bytes (u : unit_suffix) : Z := match u with B => 1 | KiB => 2 ^ 10 | MiB => 2 ^ 20 | GiB => 2 ^ 30 end.

Lemma wrap_nested w a b : 0 < w -> wrap w (a * wrap w b) = wrap w (a * b).
Proof. intros W. unfold wrap. rewrite Zmult_mod_idemp_r. reflexivity. Qed.
Lemma literal_mod n u : 0 <= n < 2 ^ 64 -> literal n u = (n * unit_bytes u) mod 2 ^ 64.
Proof.
  intros H. destruct u; cbn [literal unit_bytes]; unfold gibibytes, mebibytes, kibibytes, bytes_u.
  - rewrite Z.mul_1_r, Z.mod_small; [reflexivity|exact H].
  - unfold wrap. f_equal. lia.
  - rewrite wrap_nested by lia. unfold wrap. f_equal. lia.
  - rewrite wrap_nested, Z.mul_assoc, wrap_nested by lia. unfold wrap. f_equal. lia.
Qed.
(** C135, for every literal whose size is representable *)
Theorem C135_literal_sizes_partial : forall n u,
  0 <= n -> n * unit_bytes u < 2 ^ 64 -> literal n u = n * unit_bytes u.
Proof.
  intros n u H L. assert (1 <= unit_bytes u) by (destruct u; vm_compute; congruence).
  rewrite literal_mod by nia. apply Z.mod_small. nia.
Qed.
Print Assumptions C135_literal_sizes_partial.
(** C135 for the functions, at every unsigned width *)
Theorem C135_unsigned_sizes_partial : forall w n, 32 <= w -> 0 <= n ->
  (n * 2 ^ 10 < 2 ^ w -> kibibytes w n = n * 2 ^ 10) /\
  (n * 2 ^ 20 < 2 ^ w -> mebibytes w n = n * 2 ^ 20) /\
  (n * 2 ^ 30 < 2 ^ w -> gibibytes w n = n * 2 ^ 30) /\
  (n * 2 ^ 40 < 2 ^ w -> tebibytes w n = n * 2 ^ 40).
Proof.
  intros w n W H. unfold tebibytes, gibibytes, mebibytes, kibibytes.
  assert (P : forall k, 0 <= k -> n * 2 ^ k < 2 ^ w -> wrap w (n * 2 ^ k) = n * 2 ^ k).
  { intros k K L. apply Z.mod_small. assert (0 < 2 ^ k) by (apply Z.pow_pos_nonneg; lia). nia. }
  conjs; intros L.
  - rewrite <- P by (lia || exact L). f_equal. lia.
  - rewrite wrap_nested by lia. rewrite <- P by (lia || exact L). f_equal. lia.
  - rewrite wrap_nested, Z.mul_assoc, wrap_nested by lia. rewrite <- P by (lia || exact L). f_equal. lia.
  - rewrite wrap_nested by lia. rewrite Z.mul_assoc, wrap_nested, Z.mul_assoc, wrap_nested by lia.
    rewrite <- P by (lia || exact L). f_equal. lia.
Qed.
Print Assumptions C135_unsigned_sizes_partial.
(** For int, negative numbers included: the size, where it is an int, and undefined behaviour otherwise *)
Theorem C135_int_sizes : forall n r,
  (kibibytes_int n = Ok r <-> r = n * 2 ^ 10 /\ - 2 ^ 31 <= r < 2 ^ 31) /\
  (~ - 2 ^ 31 <= n * 2 ^ 10 < 2 ^ 31 -> kibibytes_int n = UB SignedOverflow).
Proof.
  intros n r. unfold kibibytes_int. change (2 ^ 10) with 1024. change (- 2 ^ 31) with (-2147483648). change (2 ^ 31) with 2147483648.
  destruct (Z.leb_spec (-2147483648) (1024 * n)), (Z.ltb_spec (1024 * n) 2147483648); cbn [andb]; (split; [split|]); intros G;
    try discriminate; try (assert (1024 * n = r) by congruence; clear G); try reflexivity; solve [lia | f_equal; lia].
Qed.
Print Assumptions C135_int_sizes.
Example int_sizes_meet : kibibytes_int (- 2 ^ 21) = Ok (- 2 ^ 31) /\ kibibytes_int (- 2 ^ 21 - 1) = UB SignedOverflow.
Proof. split; vm_compute; reflexivity. Qed.
(** C135 fails: a size that does not fit wraps to a smaller one without a diagnostic, and is
    undefined for int *)
Theorem C135_sizes_refuted :
  (forall u, u <> B -> exists n, 0 <= n < 2 ^ 64 /\ literal n u = 0 /\ n * unit_bytes u = 2 ^ 64) /\
  kibibytes_int (2 ^ 21) = UB SignedOverflow.
Proof.
  split; [|vm_compute; reflexivity].
  intros u H. exists (2 ^ 64 / unit_bytes u). destruct u; [congruence| | |]; (split; [split; vm_compute; congruence|split; vm_compute; reflexivity]).
Qed.
Print Assumptions C135_sizes_refuted.

(** the sum of the bits: the specification of popcount *)
Fixpoint sum_bits (w : nat) (x : Z) : Z :=
  match w with O => 0 | S w => (if Z.testbit x (Z.of_nat w) then 1 else 0) + sum_bits w x end.
Lemma sum_bits_spec : forall w x,
  sum_bits (S w) x = (if Z.testbit x 0 then 1 else 0) + sum_bits w (x / 2).
Proof.
  induction w as [|w IH]; intros x; [reflexivity|].
  cbn [sum_bits] in *. rewrite IH. rewrite <- Z.div2_div, Z.div2_spec, Z.shiftr_spec by lia.
  replace (Z.of_nat w + 1) with (Z.of_nat (S w)) by lia. lia.
Qed.
Lemma sum_bits_0 w : sum_bits w 0 = 0.
Proof. induction w; cbn [sum_bits]; [reflexivity|]. now rewrite Z.testbit_0_l, IHw. Qed.
Theorem C135_popcount : forall w x, 0 <= x < 2 ^ Z.of_nat w -> popcount x = sum_bits w x.
Proof.
  induction w as [|w IH]; intros x H.
  - cbn in H. replace x with 0 by lia. reflexivity.
  - rewrite sum_bits_spec. rewrite <- IH.
    + destruct x as [|p|p]; [reflexivity| |lia].
      destruct p as [p|p|]; [| |reflexivity].
      * change (Z.pos p~1 / 2) with (Z.pos p~1 / 2). replace (Z.pos p~1 / 2) with (Z.pos p). { reflexivity. }
        symmetry. rewrite <- Z.div2_div. reflexivity.
      * replace (Z.pos p~0 / 2) with (Z.pos p). { reflexivity. }
        symmetry. rewrite <- Z.div2_div. reflexivity.
    + rewrite Nat2Z.inj_succ, Z.pow_succ_r in H by lia. split; [apply Z.div_pos; lia|].
      apply Z.div_lt_upper_bound; lia.
Qed.
Print Assumptions C135_popcount.
Example sizes_meet : literal 4 MiB = 4194304 /\ kibibytes 32 1 = 1024 /\ popcount 255 = 8.
Proof. vm_compute. auto. Qed.

(** * C136: ab help and ab version, as started through ab *)
Definition status (r : help_result) : option Z := match r with Printed _ _ s => Some s | Became _ _ => None end.
Definition stdout (r : help_result) : list string := match r with Printed o _ _ => o | Became _ _ => [] end.
(** the command is one the help text has a line for *)
Definition advertised (r : help_result) (cmd : string) : Prop :=
  exists line, In line (stdout r) /\ String.prefix ("  ab " ++ cmd ++ " ") line = true.
(** what happens when ab is given [argv] and starts ab-help or ab-version, found at [exe] *)
Definition started (fs : dirs) (e : env) (prog : list str -> help_result) (argv : list str) (r : help_result) : Prop :=
  exists exe args, ab_main fs e argv = Ok (Exec exe args) /\ r = prog args.

Lemma ab_starts fs e name cmd args exe :
  find_cmd fs e (lit cmd) = Ok (Some exe) -> (cmd = "help"%string \/ cmd = "version"%string) ->
  ab_main fs e (name :: lit cmd :: args) = Ok (Exec exe (lit cmd :: args)).
Proof.
  intros F [->| ->]; unfold ab_main; cbn [ab_options nth_error skipn];
    (destruct (is _ "-h" || is _ "--help") eqn:E1; [discriminate E1|]);
    (destruct (is _ "-v" || is _ "--version") eqn:E2; [discriminate E2|]);
    (destruct (is _ "--") eqn:E3; [discriminate E3|]);
    (destruct (starts_with_dash _) eqn:E4; [discriminate E4|]);
    unfold run_cmd; cbn [nth_error]; rewrite F; reflexivity.
Qed.

Theorem C136_help : forall fs e man_runs name args exe,
  find_cmd fs e (lit "help") = Ok (Some exe) ->
  exists r, started fs e (help_main man_runs) (name :: lit "help" :: args) r /\
    (args = [] -> status r = Some 0 /\ forall c, In c ["run"; "asm"; "disasm"; "help"; "version"]%string -> advertised r c) /\
    (forall topic, args = [topic] -> if man_runs then r = Became (lit "man") [lit "man"; topic] else status r = Some 2 /\ stdout r = []) /\
    ((2 <= length args)%nat -> status r = Some 1 /\ stdout r = []).
Proof.
  intros fs e mr name args exe F. eexists. split.
  - exists exe, (lit "help" :: args). split; [|reflexivity]. apply ab_starts; auto.
  - conjs.
    + intros ->. split; [reflexivity|]. intros c H. unfold advertised.
      assert (D : existsb (fun l => String.prefix ("  ab " ++ c ++ " ") l) (stdout (help_main mr [lit "help"])) = true)
        by (cbn [In] in H; repeat (destruct H as [<-|H]); [| | | | |contradiction]; vm_compute; reflexivity).
      apply existsb_exists in D. exact D.
    + intros topic ->. cbn. destruct mr; [reflexivity|split; reflexivity].
    + destruct args as [|a [|b l]]; cbn [length]; intros H; try lia. split; reflexivity.
Qed.
Print Assumptions C136_help.

(** ab version always reports the version and succeeds, whatever else is on its command line *)
Theorem C136_version : forall fs e v name args exe,
  find_cmd fs e (lit "version") = Ok (Some exe) ->
  exists r, started fs e (version_main v) (name :: lit "version" :: args) r /\ status r = Some 0 /\
            exists more, stdout r = ("ab: version " ++ v)%string :: more.
Proof.
  intros fs e v name args exe F. eexists. split.
  - exists exe, (lit "version" :: args). split; [|reflexivity]. apply ab_starts; auto.
  - split; [reflexivity|]. eexists. reflexivity.
Qed.
Print Assumptions C136_version.

(** C136 fails for ab -- help: ab-help takes its own name for the topic *)
Theorem C136_help_refuted : forall fs e name exe,
  find_cmd fs e (lit "help") = Ok (Some exe) ->
  started fs e (help_main true) [name; lit "--"; lit "help"] (Became (lit "man") [lit "man"; lit "help"]).
Proof.
  intros fs e name exe F. exists exe, [lit "--"; lit "help"]. split; [|reflexivity].
  unfold ab_main. cbn [ab_options nth_error skipn].
  (destruct (is _ "-h" || is _ "--help") eqn:E1; [discriminate E1|]).
  (destruct (is _ "-v" || is _ "--version") eqn:E2; [discriminate E2|]).
  (destruct (is _ "--") eqn:E3; [|discriminate E3]).
  unfold run_cmd; cbn [nth_error]; rewrite F; reflexivity.
Qed.
Print Assumptions C136_help_refuted.

(** a system where both programs are found *)
Definition demo_fs : dirs := fun d => if str_eqb d (lit "/bin") then Some [lit "ab-help"; lit "ab-version"] else None.
Definition demo_env : env := fun v => if str_eqb v (lit "PATH") then Some (lit "/opt:/bin") else None.
Example help_found :
  find_cmd demo_fs demo_env (lit "help") = Ok (Some (lit "/bin/ab-help")) /\
  find_cmd demo_fs demo_env (lit "version") = Ok (Some (lit "/bin/ab-version")).
Proof. vm_compute. auto. Qed.
