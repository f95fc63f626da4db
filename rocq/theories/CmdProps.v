From Coq Require Import String Ascii List Bool Arith Lia.
From Verif Require Import Outcome CmdModel CmdSpec.
Import ListNotations.
Local Open Scope nat_scope.

(** * Proofs *)
Lemma str_eqb_eq a b : str_eqb a b = true <-> a = b.
Proof. unfold str_eqb. destruct list_eq_dec; split; congruence. Qed.
Lemma scan_in names name : scan names name = true <-> In name names.
Proof.
  induction names as [|n names IH]; cbn; [split; [discriminate|tauto]|].
  destruct (str_eqb name n) eqn:E.
  - apply str_eqb_eq in E. subst. tauto.
  - rewrite IH. split; [tauto|]. intros [->|H]; [|exact H].
    assert (str_eqb name name = true) by (apply str_eqb_eq; reflexivity). congruence.
Qed.
Lemma in_dir_some fs name d : has fs d name -> find_file_in_dir fs name d = Some (in_dir d name).
Proof. intros (ns & E & I). unfold find_file_in_dir. rewrite E. apply scan_in in I. rewrite I. reflexivity. Qed.
Lemma in_dir_none fs name d : ~ has fs d name -> find_file_in_dir fs name d = None.
Proof.
  intros H. unfold find_file_in_dir. destruct (fs d) as [ns|] eqn:E; [|reflexivity].
  destruct (scan ns name) eqn:F; [|reflexivity]. apply scan_in in F. exfalso. apply H. exists ns. auto.
Qed.
Lemma has_dec fs d name : has fs d name \/ ~ has fs d name.
Proof.
  destruct (fs d) as [ns|] eqn:E; [|right; intros (x & y & z); congruence].
  destruct (scan ns name) eqn:F.
  - left. apply scan_in in F. exists ns. auto.
  - right. intros (x & y & z). rewrite E in y. injection y as <-. apply scan_in in z. congruence.
Qed.

(** every string is a list of components in exactly one way *)
Lemma path_of_cons d ds : ds <> [] -> path_of (d :: ds) = d ++ ":"%char :: path_of ds.
Proof. destruct ds; [congruence|reflexivity]. Qed.
Lemma index_skip d s : no_colon d -> index_of ":" (d ++ ":"%char :: s) = Some (length d).
Proof.
  induction d as [|x d IH]; intros H; cbn [app index_of length].
  - reflexivity.
  - destruct ascii_dec as [->|N]; [exfalso; apply H; left; reflexivity|].
    rewrite IH; [reflexivity|]. intros I. apply H. right. exact I.
Qed.
Lemma index_none d : no_colon d -> index_of ":" d = None.
Proof.
  induction d as [|x d IH]; intros H; cbn [index_of]; [reflexivity|].
  destruct ascii_dec as [->|N]; [exfalso; apply H; left; reflexivity|].
  rewrite IH; [reflexivity|]. intros I. apply H. right. exact I.
Qed.
Lemma skipn_app_len (a b : str) : skipn (length a) (a ++ b) = b.
Proof. rewrite skipn_app, skipn_all, Nat.sub_diag. reflexivity. Qed.
Lemma path_length_cons d ds : ds <> [] -> length (path_of (d :: ds)) = length d + 1 + length (path_of ds).
Proof. intros H. rewrite path_of_cons by exact H. rewrite app_length. cbn. lia. Qed.

Lemma find_sep_last done d : no_colon d -> find_sep (done ++ d) ":" (length done) = length (done ++ d).
Proof. intros H. unfold find_sep, find_char. rewrite skipn_app_len, index_none by exact H. reflexivity. Qed.
Lemma find_sep_more done d rest : no_colon d ->
  find_sep (done ++ d ++ ":"%char :: rest) ":" (length done) = length done + length d.
Proof. intros H. unfold find_sep, find_char. rewrite skipn_app_len, index_skip by exact H. reflexivity. Qed.

Lemma search_spec fs name : forall ds fuel done b r,
  ds <> [] -> Forall no_colon ds -> found_first fs name ds r ->
  b < length (done ++ path_of ds) -> length ds < fuel ->
  search_loop fuel fs name (done ++ path_of ds) (length done) b = Ok r.
Proof.
  induction ds as [|d ds IH]; intros fuel done b r Hne Hc Hf Hb Hfuel; [congruence|].
  inversion Hc as [|x y Hd Hc']. subst x y.
  destruct fuel as [|fuel]; [lia|]. cbn [search_loop].
  destruct (Nat.ltb_spec b (length (done ++ path_of (d :: ds)))) as [_|]; [|lia].
  destruct ds as [|d2 ds].
  - cbn [path_of] in *. rewrite find_sep_last by exact Hd.
    unfold substr. destruct (Nat.ltb_spec (length (done ++ d)) (length done)) as [L|_]; [rewrite app_length in L; lia|].
    cbn [bind]. rewrite skipn_app_len. rewrite firstn_all2 by (rewrite app_length; lia).
    inversion Hf as [| x y Hh | x y z Hn Hr]; subst.
    + rewrite in_dir_some by exact Hh. reflexivity.
    + rewrite in_dir_none by exact Hn. inversion Hr; subst.
      destruct fuel as [|fuel]; [cbn in Hfuel; lia|]. cbn [search_loop]. rewrite Nat.ltb_irrefl. reflexivity.
  - rewrite path_of_cons in * by discriminate. rewrite find_sep_more by exact Hd.
    unfold substr. destruct (Nat.ltb_spec (length (done ++ d ++ ":"%char :: path_of (d2 :: ds))) (length done)) as [L|_]; [rewrite app_length in L; lia|].
    cbn [bind]. rewrite skipn_app_len. replace (length done + length d - length done) with (length d) by lia.
    rewrite firstn_app, firstn_all, Nat.sub_diag. cbn [firstn]. rewrite app_nil_r.
    inversion Hf as [| x y Hh | x y z Hn Hr]; subst.
    + rewrite in_dir_some by exact Hh. reflexivity.
    + rewrite in_dir_none by exact Hn.
      replace (done ++ d ++ ":"%char :: path_of (d2 :: ds)) with ((done ++ d ++ [":"%char]) ++ path_of (d2 :: ds))
        by (rewrite <- !app_assoc; reflexivity).
      replace (length done + length d + 1) with (length (done ++ d ++ [":"%char])) by (rewrite !app_length; cbn; lia).
      apply IH; auto; [discriminate| rewrite !app_length; cbn [length]; lia | cbn [length] in *; lia].
Qed.
Lemma path_of_length ds : ds <> [] -> length ds <= S (length (path_of ds)).
Proof.
  induction ds as [|d ds IH]; [congruence|]. intros _. destruct ds as [|d2 ds]; [cbn; lia|].
  rewrite path_length_cons by discriminate. specialize (IH ltac:(discriminate)). cbn [length] in *. lia.
Qed.
Lemma search_path fs name ds r : ds <> [] -> Forall no_colon ds -> path_of ds <> [] -> found_first fs name ds r ->
  find_file_in_search_path fs name (path_of ds) = Ok r.
Proof.
  intros Hne Hc Hp Hf. unfold find_file_in_search_path.
  destruct (Nat.eqb_spec (length (path_of ds)) 0) as [E|N]; [apply length_zero_iff_nil in E; congruence|].
  change (path_of ds) with ([] ++ path_of ds) at 2. change 0 with (length (@nil ascii)) at 1.
  apply search_spec; auto; [cbn; lia|]. pose proof (path_of_length ds Hne). lia.
Qed.
Lemma env_path fs e name var ds r : lists_dirs e var ds -> found_first fs name ds r ->
  find_file_in_env_search_path fs e name (lit var) = Ok r.
Proof.
  intros [[-> H]|(Hne & Hc & p & He & Hp & ->)] Hf; unfold find_file_in_env_search_path.
  - inversion Hf; subst. destruct H as [-> | ->]; reflexivity.
  - rewrite He. apply search_path; assumption.
Qed.
Lemma found_app fs name a b ra rb : found_first fs name a ra -> found_first fs name b rb ->
  found_first fs name (a ++ b) (match ra with Some x => Some x | None => rb end).
Proof.
  induction 1 as [|d ds Hh|d ds r Hn Hr IH]; intros Hb; cbn [app].
  - exact Hb.
  - apply ff_here. exact Hh.
  - apply ff_next; auto.
Qed.
Lemma found_total fs name ds : exists r, found_first fs name ds r.
Proof.
  induction ds as [|d ds [r IH]]; [exists None; constructor|].
  destruct (has_dec fs d name); eexists; [apply ff_here; assumption|apply ff_next; eassumption].
Qed.
Lemma found_det fs name ds r : found_first fs name ds r -> forall r', found_first fs name ds r' -> r = r'.
Proof. induction 1; intros r' Hr; inversion Hr; subst; auto; contradiction. Qed.

(** The only way to split a string *)
Lemma split_exists (s : str) : exists ds, ds <> [] /\ Forall no_colon ds /\ s = path_of ds.
Proof.
  induction s as [|c s (ds & Hne & Hc & ->)].
  - exists [[]]. repeat split; [discriminate|repeat constructor; intros []].
  - destruct ds as [|d ds]; [congruence|]. inversion Hc; subst.
    destruct (ascii_dec c ":") as [->|N].
    + exists ([] :: d :: ds). repeat split; [discriminate| constructor; auto; intros [] ].
    + exists ((c :: d) :: ds). split; [discriminate|]. split.
      * constructor; auto. intros [E|I]; [congruence|]. auto.
      * destruct ds; reflexivity.
Qed.
Lemma lists_total e var : exists ds, lists_dirs e var ds.
Proof.
  unfold lists_dirs. destruct (e (lit var)) as [[|c p]|] eqn:E.
  - exists []. left. auto.
  - destruct (split_exists (c :: p)) as (ds & Hne & Hc & Hp). exists ds. right. repeat split; auto.
    exists (c :: p). repeat split; auto. discriminate.
  - exists []. left. auto.
Qed.

(** * C41 *)
(** [ab <cmd>] looks for ab-<cmd> in the directories of AB_PATH, then AB_HOME/bin, then those of
    PATH, in order; the first directory that has it wins, and if none has it no command is found.
    This never fails in another way. *)
Theorem C41_first_match fs e cmd ab path r :
  lists_dirs e "AB_PATH" ab -> lists_dirs e "PATH" path ->
  (find_cmd fs e cmd = Ok r <-> found_first fs (lit "ab-" ++ cmd) (ab ++ home_dirs e ++ path) r).
Proof.
  intros Hab Hpath.
  set (name := lit "ab-" ++ cmd).
  destruct (found_total fs name ab) as (r1 & F1).
  destruct (found_total fs name (home_dirs e)) as (r2 & F2).
  destruct (found_total fs name path) as (r3 & F3).
  assert (F : found_first fs name (ab ++ home_dirs e ++ path)
    (match r1 with Some x => Some x | None => match r2 with Some x => Some x | None => r3 end end)).
  { apply found_app; [exact F1|]. apply found_app; assumption. }
  assert (H : find_cmd fs e cmd = Ok (match r1 with Some x => Some x | None => match r2 with Some x => Some x | None => r3 end end)).
  { unfold find_cmd, cmd_exe_name. fold name. rewrite (env_path _ _ _ _ _ _ Hab F1). cbn [bind].
    destruct r1 as [x|]; [reflexivity|].
    rewrite (env_path _ _ _ _ _ _ Hpath F3).
    unfold home_dirs in F2. destruct (e (lit "AB_HOME")) as [h|].
    - inversion F2 as [|d ds Hh|d ds q Hn Hr]; subst.
      + rewrite in_dir_some by exact Hh. reflexivity.
      + rewrite in_dir_none by exact Hn. inversion Hr; subst. reflexivity.
    - inversion F2; subst. reflexivity. }
  rewrite H. split.
  - intros E. injection E as <-. exact F.
  - intros G. f_equal. exact (found_det _ _ _ _ F _ G).
Qed.
Print Assumptions C41_first_match.

(** ... and the lists in the theorem always exist, so a lookup always ends with an answer *)
Theorem C41_always_answers fs e cmd : exists r, find_cmd fs e cmd = Ok r.
Proof.
  destruct (lists_total e "AB_PATH") as (ab & Ha). destruct (lists_total e "PATH") as (p & Hp).
  destruct (found_total fs (lit "ab-" ++ cmd) (ab ++ home_dirs e ++ p)) as (r & F).
  exists r. apply (C41_first_match fs e cmd ab p r Ha Hp). exact F.
Qed.
Print Assumptions C41_always_answers.

(** A search that meets: a directory that cannot be opened, an empty trailing component, a hit in
    AB_HOME/bin that shadows one in PATH *)
Definition demo_fs : dirs := fun d =>
  if str_eqb d (lit "/h/bin") then Some [lit "x"; lit "ab-run"]
  else if str_eqb d (lit "/usr/bin") then Some [lit "ab-run"; lit "ab-asm"]
  else if str_eqb d [] then Some [lit "ab-here"] else None.
Definition demo_env : env := fun v =>
  if str_eqb v (lit "AB_PATH") then Some (lit "/nope:/nope2:")
  else if str_eqb v (lit "AB_HOME") then Some (lit "/h")
  else if str_eqb v (lit "PATH") then Some (lit "/bin:/usr/bin") else None.
Example C41_example :
  lists_dirs demo_env "AB_PATH" [lit "/nope"; lit "/nope2"; []] /\
  lists_dirs demo_env "PATH" [lit "/bin"; lit "/usr/bin"] /\
  find_cmd demo_fs demo_env (lit "run") = Ok (Some (lit "/h/bin/ab-run")) /\
  find_cmd demo_fs demo_env (lit "asm") = Ok (Some (lit "/usr/bin/ab-asm")) /\
  find_cmd demo_fs demo_env (lit "here") = Ok (Some (lit "/ab-here")) /\
  find_cmd demo_fs demo_env (lit "nope") = Ok None.
Proof.
  repeat split; try reflexivity; right; (split; [discriminate|]); (split; [repeat constructor; unfold no_colon; cbn; intuition discriminate|]);
    eexists; repeat split; try reflexivity; discriminate.
Qed.

(** * C77 *)
Lemma is_eq s l : is s l = true <-> s = lit l.
Proof. apply str_eqb_eq. Qed.
Definition option_like (s : str) : Prop := exists t, s = "-"%char :: t.
Lemma not_option s : ~ option_like s -> starts_with_dash s = false /\ forall t, is s (String "-" t) = false.
Proof.
  intros H. split.
  - destruct s as [|c s]; [reflexivity|]. cbn. destruct ascii_dec as [->|N]; [|reflexivity].
    exfalso. apply H. exists s. reflexivity.
  - intros t. destruct (is s (String "-" t)) eqn:E; [|reflexivity]. apply is_eq in E. exfalso. apply H.
    exists (lit t). exact E.
Qed.

(** [ab cmd args...], where cmd does not look like an option: if the command's program is found it
    is executed with cmd as its name and the args, whatever they look like; otherwise ab says that
    there is no such command. *)
Theorem C77_ab_runs_the_command_partial fs e self cmd args r :
  ~ option_like cmd -> find_cmd fs e cmd = Ok r ->
  ab_main fs e (self :: cmd :: args) =
  Ok (match r with Some file => Exec file (cmd :: args) | None => UnknownCommand cmd end).
Proof.
  intros H Hr. apply not_option in H as [H1 H2].
  unfold ab_main, ab_options. cbn [nth_error]. rewrite !H2, H1. cbn [orb nth_error skipn].
  unfold run_cmd. rewrite Hr. cbn [bind]. destruct r; reflexivity.
Qed.
Print Assumptions C77_ab_runs_the_command_partial.
Example C77_example : ~ option_like (lit "run") /\
  ab_main demo_fs demo_env [lit "ab"; lit "run"; lit "-h"] = Ok (Exec (lit "/h/bin/ab-run") [lit "run"; lit "-h"]) /\
  ab_main demo_fs demo_env [lit "ab"; lit "nope"] = Ok (UnknownCommand (lit "nope")).
Proof. split; [intros (t & H); discriminate|]. split; reflexivity. Qed.

(** What is missing: [ab -- cmd args...] ("Usage: ab [<option>...] [--] <command>") finds the same
    program but executes it with "--" as its name and its own name as the first argument. *)
Theorem C77_double_dash fs e self cmd args r : find_cmd fs e cmd = Ok r ->
  ab_main fs e (self :: lit "--" :: cmd :: args) =
  Ok (match r with Some file => Exec file (lit "--" :: cmd :: args) | None => UnknownCommand cmd end).
Proof. intros Hr. unfold ab_main. cbn. unfold run_cmd. rewrite Hr. cbn [bind]. destruct r; reflexivity. Qed.
Print Assumptions C77_double_dash.
Theorem C77_ab_runs_the_command_refuted :
  ~ (forall fs e self cmd args file, find_cmd fs e cmd = Ok (Some file) ->
       ab_main fs e (self :: lit "--" :: cmd :: args) = Ok (Exec file (cmd :: args))).
Proof.
  intros H. specialize (H demo_fs demo_env (lit "ab") (lit "run") [] (lit "/h/bin/ab-run") eq_refl). discriminate H.
Qed.
Print Assumptions C77_ab_runs_the_command_refuted.

(** Nothing else makes ab execute a program. *)
Theorem C77_only_then fs e self args file argv :
  ab_main fs e (self :: args) = Ok (Exec file argv) ->
  argv = args /\ exists cmd, find_cmd fs e cmd = Ok (Some file) /\
    ((exists rest, args = cmd :: rest /\ ~ option_like cmd) \/ exists rest, args = lit "--" :: cmd :: rest).
Proof.
  unfold ab_main, ab_options. destruct args as [|a args]; [intros H; discriminate H|].
  cbn [nth_error skipn].
  destruct (is a "-h" || is a "--help"); [intros H; discriminate H|].
  destruct (is a "-v" || is a "--version"); [intros H; discriminate H|].
  destruct (is a "--") eqn:E.
  - apply is_eq in E. subst a. cbn [nth_error]. destruct args as [|cmd args]; [intros H; discriminate H|].
    cbn [nth_error]. unfold run_cmd. intros H. apply bind_ok in H as (x & Hm & Hk). destruct x as [f|]; [|discriminate Hk].
    injection Hk as <- <-. split; [reflexivity|]. exists cmd. split; [exact Hm|]. right. eauto.
  - destruct (starts_with_dash a) eqn:D; [intros H; discriminate H|]. cbn [nth_error].
    unfold run_cmd. intros H. apply bind_ok in H as (x & Hm & Hk). destruct x as [f|]; [|discriminate Hk].
    injection Hk as <- <-. split; [reflexivity|]. exists a. split; [exact Hm|]. left. exists args. split; [reflexivity|].
    intros (t & ->). cbn in D. discriminate D.
Qed.
Print Assumptions C77_only_then.

(** * C78 *)
(** [ab-run] loads a file exactly when its arguments are one name that does not look like an
    option, or "--" and one name; the file it loads is the one named. *)
Theorem C78_run_loads_the_file self args file :
  run_main (self :: args) = Ok (Load file) <->
  (args = [file] /\ ~ option_like file) \/ args = [lit "--"; file].
Proof.
  unfold run_main, run_options. split.
  - destruct args as [|a args]; [intros H; discriminate H|]. cbn [nth_error].
    destruct (is a "--") eqn:E.
    + apply is_eq in E. subst a. destruct args as [|f [|g args]]; cbn; intros H; try discriminate H.
      injection H as <-. right. reflexivity.
    + destruct (is a "--help" || is a "-h"); [intros H; discriminate H|].
      destruct (starts_with_dash a) eqn:D; [intros H; discriminate H|].
      destruct args as [|f args]; cbn; intros H; try discriminate H.
      injection H as <-. left. split; [reflexivity|]. intros (t & ->). discriminate D.
  - intros [[-> H]| ->].
    + apply not_option in H as [H1 H2]. cbn [nth_error]. rewrite !H2, H1. reflexivity.
    + reflexivity.
Qed.
Print Assumptions C78_run_loads_the_file.
(** Whatever the arguments, it does one of the documented things. *)
Theorem C78_run_never_fails self args :
  exists a, run_main (self :: args) = Ok a /\ (forall f, a = UnexpectedArgument f -> In f args) /\ (forall f, a = BadOption f -> In f args).
Proof.
  unfold run_main, run_options. destruct args as [|a args].
  { eexists. split; [reflexivity|]. split; intros f H; discriminate H. }
  cbn [nth_error].
  destruct (is a "--") eqn:E.
  - destruct args as [|f [|g args]]; cbn; (eexists; split; [reflexivity|]); split; intros h H; try discriminate H.
    injection H as <-. auto.
  - destruct (is a "--help" || is a "-h"); [eexists; split; [reflexivity|]; split; intros f H; discriminate H|].
    destruct (starts_with_dash a); [eexists; split; [reflexivity|]; split; intros f H; try discriminate H; injection H as <-; left; reflexivity|].
    destruct args as [|f args]; cbn; (eexists; split; [reflexivity|]); split; intros h H; try discriminate H.
    injection H as <-. auto.
Qed.
Print Assumptions C78_run_never_fails.
Example C78_example :
  run_main [lit "ab-run"; lit "a.abx"] = Ok (Load (lit "a.abx")) /\
  run_main [lit "ab-run"; lit "--"; lit "-x"] = Ok (Load (lit "-x")) /\
  run_main [lit "ab-run"; lit "-x"] = Ok (BadOption (lit "-x")) /\
  run_main [lit "ab-run"; lit "a"; lit "b"; lit "c"] = Ok (UnexpectedArgument (lit "b")) /\
  run_main [lit "ab-run"] = Ok MissingArgument.
Proof. repeat split. Qed.

(** * C79 *)
(** What ab-asm should read: its first argument, after "--" if that is there
    ("Usage: ab-asm [<option>...] [--] <abt> <abx>", and in the man page <abx> is optional). *)
Definition asm_operands (args ops : list str) : Prop :=
  (exists f rest, args = f :: rest /\ ~ option_like f /\ ops = args) \/ args = lit "--" :: ops.
Theorem C79_asm_reads_its_input_partial self abt abx :
  ~ option_like abt -> asm_main (self :: [abt; abx]) = Ok (Load abt).
Proof.
  intros H. apply not_option in H as [H1 H2]. unfold asm_main, asm_options. cbn [nth_error]. rewrite !H2. reflexivity.
Qed.
Print Assumptions C79_asm_reads_its_input_partial.
(** What is missing: with the output name left out, a null pointer is used as the input's name, and
    with "--" the file called "--" is opened. *)
Theorem C79_asm_reads_its_input_refuted :
  (forall self abt, ~ option_like abt -> asm_main [self; abt] = UB NullDeref) /\
  (forall self abt abx, asm_main [self; lit "--"; abt; abx] = Ok (Load (lit "--"))) /\
  ~ (forall self args abt rest, asm_operands args (abt :: rest) -> length rest <= 1 -> asm_main (self :: args) = Ok (Load abt)).
Proof.
  assert (A : forall self abt, ~ option_like abt -> asm_main [self; abt] = UB NullDeref).
  { intros self abt H. apply not_option in H as [H1 H2]. unfold asm_main, asm_options. cbn [nth_error]. rewrite !H2. reflexivity. }
  split; [exact A|]. split; [reflexivity|].
  intros H. specialize (H (lit "ab-asm") [lit "f"] (lit "f") []).
  rewrite A in H by (intros (t & E); discriminate E).
  discriminate H; [left; exists (lit "f"), []; repeat split; intros (t & E); discriminate E | cbn; auto].
Qed.
Print Assumptions C79_asm_reads_its_input_refuted.
(** Exactly: ab-asm reads a file only when given two operands, and then it is its first argument;
    with no operand, or with three or more, it says so, and names an argument it was given. *)
Theorem C79_asm_exactly self args ops : asm_operands args ops ->
  match length ops with
  | 0 => asm_main (self :: args) = Ok MissingArgument
  | 1 => asm_main (self :: args) = UB NullDeref
  | 2 => exists a, hd_error args = Some a /\ asm_main (self :: args) = Ok (Load a)
  | _ => exists a, In a args /\ asm_main (self :: args) = Ok (UnexpectedArgument a)
  end.
Proof.
  intros [(f & rest & -> & H & ->)| ->]; unfold asm_main, asm_options; cbn [nth_error].
  - apply not_option in H as [H1 H2]. rewrite !H2. cbn [orb length].
    destruct rest as [|g [|h rest]]; cbn [length Nat.sub nth_error]; [reflexivity|eexists; split; reflexivity|].
    destruct (nth_error (g :: h :: rest) (length rest)) as [a|] eqn:E.
    + exists a. split; [right; eapply nth_error_In; exact E|reflexivity].
    + apply nth_error_None in E. cbn in E. lia.
  - change (is (lit "--") "--") with true. cbn iota.
    destruct ops as [|g [|h [|k ops]]]; cbn [length Nat.sub nth_error]; [reflexivity|reflexivity|eexists; split; reflexivity|].
    destruct (nth_error (g :: h :: k :: ops) (length ops)) as [a|] eqn:E.
    + exists a. split; [right; eapply nth_error_In; exact E|reflexivity].
    + apply nth_error_None in E. cbn in E. lia.
Qed.
Print Assumptions C79_asm_exactly.
Example C79_example :
  asm_main [lit "ab-asm"; lit "a.abt"; lit "a.abx"] = Ok (Load (lit "a.abt")) /\
  asm_main [lit "ab-asm"; lit "a"; lit "b"; lit "c"] = Ok (UnexpectedArgument (lit "b")) /\
  asm_operands [lit "a"; lit "b"; lit "c"] [lit "a"; lit "b"; lit "c"].
Proof. repeat split. left. exists (lit "a"), [lit "b"; lit "c"]. repeat split. intros (t & E); discriminate E. Qed.
