(** Theorems about what ab-asm and ab-run do with a file: C121-C124. *)

From Coq Require Import String Ascii ZArith List Bool Lia.
From Verif Require Import Outcome CmdModel SpellSpec WastModel WastSpec WastProps AsmModel AsmSpec AsmProofs.
Import ListNotations.
Local Open Scope Z_scope.

(** Standard input is open, and the file can be examined and mapped at [addr], where nothing is yet. *)
Definition can_map (addr : Z) (s : sys) (text : list Z) : Prop :=
  In O (y_fds s) /\ y_stat_ok s = true /\ y_map_ok s = true /\ addr <> 0 /\ ~ In (addr, Z.of_nat (length text)) (y_maps s).

(** ** C121 *)

(** The tokens of the file, each with the place of its ends, in order; afterwards no descriptor and no
    mapping is left. *)
Theorem C121_tokens_of_the_file addr s name text ks tail :
  y_files s name = Some (Regular text) -> text <> [] -> Z.of_nat (length text) + 1 < 2 ^ 31 -> can_map addr s text ->
  lexes [] text ks tail ->
  exists s' t, asm_file addr s name = Ok (0, s') /\ same_but_printed s s' t /\ shows_all (map range_of ks) t.
Proof.
  intros F N Sm (Fd & St & Mp & Ad & Mn) L.
  destruct (C111_tokens_and_locations addr text Sm) as (_ & H). destruct (H ks tail L) as (lx & El & Ol).
  assert (Nz : Z.of_nat (length text) =? 0 = false) by (apply Z.eqb_neq; destruct text; [easy|cbn [length]; lia]).
  assert (Na : addr =? 0 = false) by now apply Z.eqb_neq.
  unfold asm_file, input_open. rewrite F, lowest_pos by auto. cbn [y_stat_ok y_map_ok with_fds]. rewrite St, Mp, Nz. cbn [negb andb].
  unfold input_ok. cbn [i_buffer]. rewrite Na. cbn [negb]. unfold go. cbn [i_buffer i_text]. rewrite El. cbn [bind].
  eexists. exists (flat_map token_line (map (token_of addr) ks)). split; [reflexivity|]. split; [|apply lines_show].
  unfold same_but_printed, input_close, unmap, close_fd, with_maps, with_fds, print_out. cbn [i_buffer i_nbytes i_fd y_files y_fds y_maps y_err y_out].
  conjs; try reflexivity.
  - now apply remove_new, lowest_unused.
  - now apply remove_new.
  - now rewrite Ol.
Qed.

(** The lines determine the places. *)
Theorem C121_lines_read_back rs rs' t : shows_all rs t -> shows_all rs' t -> rs = rs'.
Proof. intros H H'. eapply shows_all_fun; eauto. Qed.

(** A file that cannot be opened, examined or mapped: a message, status 1, and nothing left. *)
Theorem C121_refused addr s name : In O (y_fds s) ->
  (y_files s name = None \/ y_files s name = Some Other \/ y_stat_ok s = false \/ y_map_ok s = false) ->
  exists s', asm_file addr s name = Ok (1, s') /\ y_files s' = y_files s /\ y_fds s' = y_fds s /\ y_maps s' = y_maps s /\ y_out s' = y_out s /\
    y_err s' = y_err s ++ lit "error: could not open file " ++ [ascii_of_nat 34] ++ name ++ [ascii_of_nat 34].
Proof.
  intros Fd H. unfold asm_file, input_open. destruct (y_files s name) as [f|] eqn:F; [|eexists; split; [reflexivity|conjs; reflexivity]].
  rewrite lowest_pos by auto. cbn [y_stat_ok y_map_ok with_fds].
  assert (G : exists s', Ok (1, print_err (close_fd (with_fds s (lowest (y_fds s) :: y_fds s)) (lowest (y_fds s))) (lit "error: could not open file " ++ quoted name)) = Ok (1, s') /\
    y_files s' = y_files s /\ y_fds s' = y_fds s /\ y_maps s' = y_maps s /\ y_out s' = y_out s /\
    y_err s' = y_err s ++ lit "error: could not open file " ++ [ascii_of_nat 34] ++ name ++ [ascii_of_nat 34]).
  { eexists. split; [reflexivity|]. conjs; try reflexivity.
    unfold print_err, close_fd, with_fds. cbn [y_fds]. now apply remove_new, lowest_unused. }
  destruct (y_stat_ok s) eqn:St; cbn [negb]; [|exact G]. destruct f as [text|]; [|exact G].
  destruct H as [H|[H|[H|H]]]; try discriminate H. rewrite H. exact G.
Qed.

(** ** C122: every readable file *)
Theorem C122_empty_file_refuted addr s name : In O (y_fds s) -> y_files s name = Some (Regular []) ->
  exists s', asm_file addr s name = Ok (1, s') /\ y_out s' = y_out s /\ y_fds s' = y_fds s.
Proof.
  intros Fd F. unfold asm_file, input_open. rewrite F, lowest_pos by auto. cbn [y_stat_ok y_map_ok with_fds length].
  destruct (y_stat_ok s); cbn [negb]; (eexists; split; [rewrite ?andb_false_r; reflexivity|]; split; [reflexivity|];
    unfold print_err, close_fd, with_fds; cbn [y_fds]; now apply remove_new, lowest_unused).
Qed.
(** With standard input closed no file is read, and the descriptor that was opened is lost. *)
Theorem C122_standard_input_closed_refuted addr s name f : ~ In O (y_fds s) -> y_files s name = Some f ->
  exists s', asm_file addr s name = Ok (1, s') /\ y_out s' = y_out s /\ y_fds s' = O :: y_fds s.
Proof.
  intros Fd F. unfold asm_file, input_open. rewrite F, lowest_zero by auto. eexists. split; [reflexivity|]. split; reflexivity.
Qed.
Theorem C122_other_files_partial addr s name text : y_files s name = Some (Regular text) -> text <> [] ->
  Z.of_nat (length text) + 1 < 2 ^ 31 -> can_map addr s text -> exists s', asm_file addr s name = Ok (0, s').
Proof.
  intros F N Sm C. destruct (C111_tokens_and_locations addr text Sm) as ((ks & tail & L) & _).
  destruct (C121_tokens_of_the_file addr s name text ks tail F N Sm C L) as (s' & t & E & _). eauto.
Qed.

(** ** C123: assembling *)
(** Whatever the text is, nothing is written to any file, there is no message, and the status is 0. *)
Theorem C123_assembles_refuted addr s name text : y_files s name = Some (Regular text) -> text <> [] ->
  Z.of_nat (length text) + 1 < 2 ^ 31 -> can_map addr s text ->
  exists s', asm_file addr s name = Ok (0, s') /\ y_files s' = y_files s /\ y_err s' = y_err s.
Proof.
  intros F N Sm C. destruct (C111_tokens_and_locations addr text Sm) as ((ks & tail & L) & _).
  destruct (C121_tokens_of_the_file addr s name text ks tail F N Sm C L) as (s' & t & E & S1 & _). exists s'. unfold same_but_printed in S1. tauto.
Qed.

(** ** C124: ab-run stops at whatever file its command line names. *)
Theorem C124_runs_refuted argv file s : run_main argv = Ok (Load file) -> run_file s file = Trap Assertion.
Proof. reflexivity. Qed.
Example C124_case : run_main [lit "ab-run"; lit "add.abx"] = Ok (Load (lit "add.abx")).
Proof. reflexivity. Qed.

(** A file with two tokens on two lines; and a bad text. *)
Definition two_files (n : str) : option file :=
  if str_eqb n (lit "a.wast") then Some (Regular (chars "(" ++ [10] ++ chars "nop"))
  else if str_eqb n (lit "b.wast") then Some (Regular (chars "???")) else None.
Definition sys0 : sys := mkSys two_files [2; 1; 0]%nat [] [] [] true true.
Example C121_case : can_map 4096 sys0 (chars "(" ++ [10] ++ chars "nop") /\
  exists s', asm_file 4096 sys0 (lit "a.wast") = Ok (0, s') /\
    y_out s' = lit "!(token  :range 1:1 @0 - 1:2 @1)" ++ [NL] ++ lit "!(token  :range 2:1 @2 - 2:4 @5)" ++ [NL] /\ y_fds s' = [2; 1; 0]%nat.
Proof.
  split. { unfold can_map. cbn. conjs; auto; lia. }
  eexists. split; [vm_compute; reflexivity|]. split; vm_compute; reflexivity.
Qed.
Example C121_missing : exists s', asm_file 4096 sys0 (lit "c") = Ok (1, s') /\ y_err s' = lit "error: could not open file " ++ [ascii_of_nat 34] ++ lit "c" ++ [ascii_of_nat 34].
Proof. eexists. split; [vm_compute; reflexivity|vm_compute; reflexivity]. Qed.
Example C123_case : exists s', asm_file 4096 sys0 (lit "b.wast") = Ok (0, s') /\ y_out s' = [] /\ y_err s' = [].
Proof. eexists. split; [vm_compute; reflexivity|]. split; reflexivity. Qed.

Print Assumptions C121_tokens_of_the_file.
Print Assumptions C121_lines_read_back.
Print Assumptions C121_refused.
Print Assumptions C122_empty_file_refuted.
Print Assumptions C122_standard_input_closed_refuted.
Print Assumptions C122_other_files_partial.
Print Assumptions C123_assembles_refuted.
Print Assumptions C124_runs_refuted.
