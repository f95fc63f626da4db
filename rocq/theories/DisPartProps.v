(** What does hold where the wishes about ab-disasm, the text lexer and the tools are not met: parts
    of C99, C101, C107, C114, C115 and C123. *)

From Coq Require Import ZArith String Ascii List Bool Lia.
From Verif Require Import Outcome LebSpec StreamModel SexprModel SexprSpec WasmModel WasmSpec WasmProofs WasmProps
  DisModel DisSpec DisProofs DisProps.
Import ListNotations.
Local Open Scope Z_scope.

(** C99: indices below 256 can be told apart in the text, and only they. *)
Theorem C99_below_256_partial : forall lim strict i g j h, 2 <= lim -> enc_u32 i g -> enc_u32 j h -> i < 256 -> j < 256 ->
  disassemble lim strict (one_export g) = disassemble lim strict (one_export h) -> i = j.
Proof.
  intros lim strict i g j h Hl Hg Hh Hi Hj. rewrite (one_export_text lim strict i g), (one_export_text lim strict j h) by assumption.
  pose proof Hg as (_ & _ & _ & Bi). pose proof Hh as (_ & _ & _ & Bj).
  intros E. apply (f_equal (fun r => match r with Ok (t, _) => t | _ => [] end)) in E.
  apply app_inv_head in E. apply (app_inv_head [NL]) in E. apply app_inv_head in E. 
  assert (C : chr i = chr j) by (injection E; auto). unfold chr in C.
  apply (f_equal nat_of_ascii) in C. rewrite !nat_ascii_embedding in C by (rewrite Z.mod_small by lia; lia).
  rewrite !Z.mod_small in C by lia. lia.
Qed.
Print Assumptions C99_below_256_partial.
Example C99_case : enc_u32 255 [255; 1] /\ disassemble 100 true (one_export [255; 1]) <> disassemble 100 true (one_export [7]).
Proof. split; [|vm_compute; discriminate]. split; [repeat constructor; lia|]. split; [cbn; lia|]. split; [reflexivity|lia]. Qed.

(** C101: a br_table with one target is printed with its default and its target. *)
Theorem C101_one_target_partial : forall ty b t d,
  exists pre, buffer (p_out (print_events (function_events ty b [mkExpr 14 (IBranchTable [t] d)]))) =
    pre ++ [NL] ++ lit "    br_table default " ++ [chr d] ++ [SP] ++ [chr t] ++ lit "))" ++ [NL].
Proof.
  intros ty b t d.
  destruct (C102_indentation_partial ty b [mkExpr 14 (IBranchTable [t] d)] [(0%nat, mkExpr 14 (IBranchTable [t] d))] eq_refl) with (ds := [(0%nat, mkExpr 14 (IBranchTable [t] d))]) as (pre & E).
  - constructor; [discriminate|constructor].
  - reflexivity.
  - exists pre. rewrite E. reflexivity.
Qed.
Print Assumptions C101_one_target_partial.
(** ... and one without targets with its default. *)
Theorem C101_no_target_partial : forall ty b d,
  exists pre, buffer (p_out (print_events (function_events ty b [mkExpr 14 (IBranchTable [] d)]))) =
    pre ++ [NL] ++ lit "    br_table default " ++ [chr d] ++ lit "))" ++ [NL].
Proof.
  intros ty b d.
  destruct (C102_indentation_partial ty b [mkExpr 14 (IBranchTable [] d)] [(0%nat, mkExpr 14 (IBranchTable [] d))] eq_refl) with (ds := [(0%nat, mkExpr 14 (IBranchTable [] d))]) as (pre & E).
  - constructor; [discriminate|constructor].
  - reflexivity.
  - exists pre. rewrite E. reflexivity.
Qed.
Print Assumptions C101_no_target_partial.

(** C107: no other command line does anything undefined: only those that are options and then a last
    -o (or --ouput, as the program spells it). *)
Inductive spelled_there : option_arg -> list str -> Prop :=
| St_spelled o s : spelled o s -> spelled_there o s
| St_ouput f : spelled_there (OOut f) [lit "--ouput"; f].
Lemma is_eq a s : is a s = true -> a = lit s.
Proof. unfold is, seq_eqb. destruct (list_eq_dec ascii_dec a (lit s)); [auto|discriminate]. Qed.
Lemma scan_total : forall fuel c args, (length args < fuel)%nat ->
  (exists r, scan_args fuel c args = Ok r) \/
  (scan_args fuel c args = UB NullDeref /\
   exists os ss, Forall2 spelled_there os ss /\ (args = concat ss ++ [lit "-o"] \/ args = concat ss ++ [lit "--ouput"])).
Proof.
  assert (G : forall n fuel c args, (length args <= n)%nat -> (length args < fuel)%nat ->
    (exists r, scan_args fuel c args = Ok r) \/
    (scan_args fuel c args = UB NullDeref /\
     exists os ss, Forall2 spelled_there os ss /\ (args = concat ss ++ [lit "-o"] \/ args = concat ss ++ [lit "--ouput"]))).
  { induction n as [|n IH]; intros [|fuel] c [|a args] Hn Hf; cbn [length] in *; try lia; try (left; eexists; reflexivity).
    cbn [scan_args].
    assert (Step : forall c' o s rest, spelled_there o s -> a :: args = s ++ rest -> (length rest <= n)%nat -> (length rest < fuel)%nat ->
      (exists r, scan_args fuel c' rest = Ok r) \/
      (scan_args fuel c' rest = UB NullDeref /\
       exists os ss, Forall2 spelled_there os ss /\ (a :: args = concat ss ++ [lit "-o"] \/ a :: args = concat ss ++ [lit "--ouput"]))).
    { intros c' o s rest Hs E L1 L2. destruct (IH fuel c' rest L1 L2) as [H|(H & os & ss & F & X)]; [left; exact H|]. right. split; [exact H|].
      exists (o :: os), (s :: ss). split; [constructor; auto|]. cbn [concat]. rewrite <- !app_assoc, E.
      destruct X as [-> | ->]; auto. }
    destruct (is a "-o" || is a "--ouput") eqn:E1.
    - destruct args as [|f args].
      + right. split; [reflexivity|]. exists [], []. split; [constructor|]. cbn [concat app].
        apply orb_prop in E1. destruct E1 as [E1|E1]; apply is_eq in E1; rewrite E1; auto.
      + cbn [length] in *. apply orb_prop in E1. destruct E1 as [E1|E1]; apply is_eq in E1; rewrite E1 in *.
        * eapply (Step _ (OOut f) [lit "-o"; f]); [do 2 constructor|reflexivity|lia|lia].
        * eapply (Step _ (OOut f) [lit "--ouput"; f]); [apply St_ouput|reflexivity|lia|lia].
    - destruct (is a "-h" || is a "--help"); [left; eexists; reflexivity|].
      destruct (is a "--version"); [left; eexists; reflexivity|].
      destruct (is a "--debug" || is a "-d") eqn:E2.
      { apply orb_prop in E2. destruct E2 as [E2|E2]; apply is_eq in E2; rewrite E2 in *.
        - eapply (Step _ ODebug [lit "--debug"]); [do 2 constructor|reflexivity|lia|lia].
        - eapply (Step _ ODebug [lit "-d"]); [do 2 constructor|reflexivity|lia|lia]. }
      destruct (is a "--verbose" || is a "-v") eqn:E3.
      { apply orb_prop in E3. destruct E3 as [E3|E3]; apply is_eq in E3; rewrite E3 in *.
        - eapply (Step _ OVerbose [lit "--verbose"]); [do 2 constructor|reflexivity|lia|lia].
        - eapply (Step _ OVerbose [lit "-v"]); [do 2 constructor|reflexivity|lia|lia]. }
      destruct (is a "--"); left; eexists; reflexivity. }
  intros fuel c args H. now apply (G (length args)).
Qed.
Theorem C107_the_only_undefined_lines_partial : forall name args,
  (exists r, parse_arguments (name :: args) = Ok r) \/
  (parse_arguments (name :: args) = UB NullDeref /\
   exists os ss, Forall2 spelled_there os ss /\ (args = concat ss ++ [lit "-o"] \/ args = concat ss ++ [lit "--ouput"])).
Proof. intros name args. unfold parse_arguments. cbn [tl]. apply scan_total. cbn [length]. lia. Qed.
Print Assumptions C107_the_only_undefined_lines_partial.
Example C107_case : parse_arguments [lit "ab-disasm"; lit "-d"; lit "--ouput"] = UB NullDeref /\
  parse_arguments [lit "ab-disasm"; lit "-d"; lit "--ouput"; lit "x"] = Ok (Go (mkConf None (Some (lit "x")) true false)).
Proof. split; vm_compute; reflexivity. Qed.
