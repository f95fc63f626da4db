(** Property theorems about ab-disasm --verbose (C138). *)
From Coq Require Import ZArith String Ascii List Bool Lia.
From Verif Require Import Outcome StreamModel SexprModel WasmModel WasmSpec DisModel DisSpec DisProofs
  DisVerboseModel DisVerboseSpec DisVerboseProofs.
Import ListNotations.
Local Open Scope Z_scope.

(** * C138 *)
(** With --verbose the text is, apart from indentation, the text without it with comment lines added,
    provided every section heading is followed by an entry and none contains a line break (its length,
    mod 256, and the bytes of its name are not 10). *)
Theorem C138_only_comments_partial :
  forall lim strict input evs text dbg,
    read_module (disasm_cfg lim strict) input = Ok evs ->
    Forall one_line evs -> sections_shown evs ->
    disassemble lim strict input = Ok (text, dbg) ->
    exists text', disassemble_verbose lim strict input = Ok (text', dbg) /\ only_comments_added text text'.
Proof.
  intros lim strict input evs t dbg E Ho Hs D. unfold disassemble, disassemble_verbose in *. rewrite E in *. cbn [bind] in *.
  injection D as <- <-. destruct (verbose_texts lim strict input evs E Ho Hs) as [H1 H2].
  eexists. rewrite H2. split; [reflexivity|exact H1].
Qed.
Print Assumptions C138_only_comments_partial.

(** Whether a run ends normally does not depend on the option. *)
Theorem C138_same_outcome : forall lim strict input,
  match disassemble lim strict input, disassemble_verbose lim strict input with
  | Ok (_, dbg), Ok (_, dbg') => True
  | Throw e, Throw e' => e = e'
  | Trap a, Trap b => a = b
  | UB a, UB b => a = b
  | OutOfFuel, OutOfFuel => True
  | _, _ => False
  end.
Proof. intros lim strict input. unfold disassemble, disassemble_verbose. destruct (read_module _ _); cbn [bind]; auto. Qed.
Print Assumptions C138_same_outcome.

(** A module with two function types and an export *)
Definition small_module : bytes :=
  [0; 97; 115; 109; 1; 0; 0; 0] ++ [1; 8; 2; 96; 1; 127; 0; 96; 0; 0] ++ [3; 2; 1; 1] ++ [7; 5; 1; 1; 97; 0; 0].
Definition small_events : list event :=
  match read_module (disasm_cfg 100 true) small_module with Ok e => e | _ => [] end.
Example small_read : read_module (disasm_cfg 100 true) small_module = Ok small_events /\ Forall one_line small_events.
Proof.
  split; [vm_compute; reflexivity|]. let e := eval vm_compute in small_events in change small_events with e.
  repeat constructor; discriminate.
Qed.
Example small_shown : sections_shown small_events.
Proof.
  intros pre a post H Ha. assert (L : exists q, small_events = q ++ [EvExport [97] 0 0; EvSectionEnd 7 5; EvModuleEnd]).
  { exists (removelast (removelast (removelast small_events))). vm_compute. reflexivity. }
  assert (N : Forall (fun e => announced e = false) [EvExport [97] 0 0; EvSectionEnd 7 5; EvModuleEnd]) by (repeat constructor).
  destruct L as (q & Hq). rewrite Hq in H. exists (EvExport [97] 0 0). split; [|reflexivity].
  clear Hq. revert q H. induction pre as [|x pre IH]; intros q H.
  - destruct q as [|y q]; cbn [app] in H; [injection H as <- _; discriminate|]. injection H as _ <-. apply in_app_iff. right. now left.
  - destruct q as [|y q]; cbn [app] in H.
    + injection H as <- H. rewrite <- H in N || idtac. exfalso. inversion N as [|? ? _ N']; subst. rewrite H in N'.
      rewrite Forall_app in N'. destruct N' as [_ N']. inversion N'; subst. congruence.
    + injection H as _ H. eauto.
Qed.
Example small_text : exists v, disassemble_verbose 100 true small_module = Ok (v, []) /\
  disassemble 100 true small_module = Ok (lit "(module" ++ [NL] ++ lit "  (func (param i32))" ++ [NL] ++ lit "  (func)" ++ [NL]
     ++ lit "  (export ""a"" (func " ++ ["000"%char] ++ lit ")))" ++ [NL], []) /\
  map unindented (lines v) =
    [lit "(module"; lit ";;;;;;;;;;;;;; (section (code TYPE) (size " ++ ["008"%char] ++ lit "))"; lit ";; count: 2";
     lit "(func (param i32))"; lit "(func)"; lit ";;;;;;;;;;;;;; (section (code FUNCTION) (size " ++ ["002"%char] ++ lit "))";
     lit ";;;;;;;;;;;;;; (section (code EXPORT) (size " ++ ["005"%char] ++ lit "))";
     lit "(export ""a"" (func " ++ ["000"%char] ++ lit ")))"; []].
Proof. eexists. split; [vm_compute; reflexivity|]. split; vm_compute; reflexivity. Qed.

(** C138 is false of the code as it stands.  Where the last heading has no entry after it, the closing
    parenthesis of the module is written at the end of that heading, in the comment: the verbose text is
    that without the option, less its closing parenthesis, with comments added. *)
Definition silent (e : event) : Prop := match e with EvSectionEnd _ _ | EvFunction _ _ => True | _ => False end.
Theorem C138_closing_parenthesis_refuted :
  forall lim strict input pre code len name post,
    read_module (disasm_cfg lim strict) input =
      Ok (pre ++ [EvSectionStart code len name] ++ post ++ [EvModuleEnd]) ->
    Forall silent post -> Forall one_line (pre ++ [EvSectionStart code len name]) ->
    exists text text' dbg,
      disassemble lim strict input = Ok (text ++ [")"%char; NL], dbg) /\
      disassemble_verbose lim strict input = Ok (text' ++ [NL], dbg) /\
      only_comments_added text text'.
Proof.
  intros lim strict input pre code len name post E Hp Ho. unfold disassemble, disassemble_verbose. rewrite E. cbn [bind].
  destruct (reports_shape (disasm_cfg lim strict) input _ (inner_disasm_body lim) E) as (l & Hl & Hn).
  assert (exists x, pre = EvModuleStart :: x) as (x & ->).
  { destruct pre as [|e x]; cbn [app] in Hl; [discriminate|]. injection Hl as -> _. eauto. }
  assert (Hx : l = x ++ [EvSectionStart code len name] ++ post).
  { cbn [app] in Hl. injection Hl as Hl. apply (f_equal (@rev event)) in Hl.
    assert (forall a : list event, rev (a ++ [EvModuleEnd]) = EvModuleEnd :: rev a) as R by (intros; now rewrite rev_app_distr).
    rewrite R in Hl.
    replace (x ++ EvSectionStart code len name :: post ++ [EvModuleEnd]) with ((x ++ [EvSectionStart code len name] ++ post) ++ [EvModuleEnd]) in Hl
      by (rewrite <- !app_assoc; reflexivity).
    rewrite R in Hl. injection Hl as Hl. apply (f_equal (@rev event)) in Hl. rewrite !rev_involutive in Hl. first [exact Hl | symmetry; exact Hl]. }
  subst l. clear Hl. unfold print_events, print_verbose. cbn [app fold_left].
  change (handle_verbose new_printer EvModuleStart) with (handle new_printer EvModuleStart).
  set (p0 := handle new_printer EvModuleStart).
  assert (T : together false p0 p0).
  { split; [repeat split|]. split; [reflexivity|]. split; [reflexivity|]. split; [reflexivity|].
    exists [], (lit "(module"), [], (lit "(module"). repeat split; constructor || discriminate. }
  destruct (Hn false) as (b & Hb). rewrite steps_app in Hb. destruct (steps false x) as [b1|] eqn:Hsx; [|discriminate].
  assert (Hox : Forall one_line (x ++ [EvSectionStart code len name])) by (inversion Ho; assumption).
  rewrite !fold_left_app. cbn [fold_left]. rewrite !fold_left_app. cbn [fold_left].
  assert (T2 := together_steps (x ++ [EvSectionStart code len name]) false p0 p0 true T Hox).
  rewrite steps_app, Hsx in T2. cbn [steps step announced] in T2. specialize (T2 eq_refl).
  rewrite !fold_left_app in T2. cbn [fold_left] in T2.
  set (q1 := fold_left handle_verbose x p0) in *. set (p1 := fold_left handle x p0) in *.
  assert (Fq : fresh (p_out (handle_verbose q1 (EvSectionStart code len name))) = false).
  { cbn [handle_verbose send_all p_out]. apply writes_dirty. cbn [app]. do 2 apply writes_cons.
    assert (I : forall l, writes_last l = true -> writes_last (l ++ [Inc]) = true).
    { clear. intros l Hl. revert Hl. induction l as [|x l IH]; cbn [writes_last app]; [discriminate|].
      intros Hl. apply orb_prop in Hl as [Hl|Hl]; [now rewrite IH|]. apply andb_prop in Hl as (Hl & Hx). apply orb_true_intro. right.
      rewrite forallb_app, Hl, Hx. reflexivity. }
    apply I. unfold p_section. apply writes_paren. }
  set (p2 := handle p1 _) in *. set (q2 := handle_verbose q1 _) in *. clearbody p2 q2. clear p1 q1 Hsx Hb b b1 E Hn Ho Hox T p0.
  destruct T2 as (S & D & P).
  assert (Q : same (fold_left handle post p2) (fold_left handle_verbose post q2) /\ dirty (fold_left handle post p2) /\
      pending (p_out (fold_left handle post p2)) (p_out (fold_left handle_verbose post q2)) /\ fresh (p_out (fold_left handle_verbose post q2)) = false).
  { revert p2 q2 S D P Fq. induction post as [|e post IH]; intros p2 q2 S D P Fq; cbn [fold_left]; [auto|].
    inversion Hp as [|? ? He Hpost]; subst. destruct e; try contradiction; apply IH; auto.
    destruct S as (S1 & S2 & S3). split; [|split]; cbn [handle handle_verbose p_types p_depth p_stdout]; auto. now rewrite S1. }
  clear S D P Fq. destruct Q as ((S1 & S2 & S3) & D & (_ & B & y & EB & HB & Hy) & Fq).
  set (p3 := fold_left handle post p2) in *. set (q3 := fold_left handle_verbose post q2) in *.
  exists (buffer (p_out p3)), (buffer (p_out q3) ++ [")"%char]), (p_stdout p3).
  cbn [handle handle_verbose send_all p_out p_stdout fold_left send put fresh buffer freshen]. rewrite <- !app_assoc. cbn [app].
  split; [reflexivity|]. split; [now rewrite S3|].
  unfold only_comments_added. rewrite Fq in Hy.
  rewrite (lines_app_plain _ [")"%char] _ _ EB) by (intros [H|[]]; discriminate).
  apply wc_last; [exact HB|]. destruct Hy as (u & Hu). exists (u ++ [")"%char]).
  assert (G : forall z s, unindented z <> [] -> unindented (z ++ s) = unindented z ++ s).
  { clear. induction z as [|c z IH]; intros s H; cbn [app unindented] in *; [contradiction|]. destruct (Ascii.eqb c SP); [auto|reflexivity]. }
  rewrite G by (rewrite Hu; discriminate). now rewrite Hu.
Qed.
Print Assumptions C138_closing_parenthesis_refuted.
(** Such as: a module whose last section declares the types of functions *)
Example closing_lost : exists pre,
  read_module (disasm_cfg 100 true) ([0; 97; 115; 109; 1; 0; 0; 0] ++ [1; 4; 1; 96; 0; 0] ++ [3; 3; 2; 0; 0]) =
    Ok (pre ++ [EvSectionStart 3 3 []] ++ [EvFunction 0 0; EvFunction 1 0; EvSectionEnd 3 3] ++ [EvModuleEnd]) /\
  Forall silent [EvFunction 0 0; EvFunction 1 0; EvSectionEnd 3 3] /\ Forall one_line (pre ++ [EvSectionStart 3 3 []]).
Proof.
  exists [EvModuleStart; EvHeader 1836278016 1; EvSectionStart 1 4 []; EvTypeSection 1; EvFunctionType (mkFtype [] None); EvSectionEnd 1 4].
  split; [vm_compute; reflexivity|]. split; repeat constructor; discriminate.
Qed.
Lemma wc_in a b l : with_comments a b -> In l b -> ~ is_comment l -> In l a.
Proof. induction 1; cbn [In]; intros Hin Hc; [auto|destruct Hin; auto|destruct Hin as [<-|Hin]; [contradiction|auto]]. Qed.
(** And the length of a section of ten bytes is printed as a line break: the rest of the heading is on a
    line of its own, which is no comment. *)
Theorem C138_section_of_ten_bytes_refuted :
  exists input text text' dbg,
    disassemble 100 true input = Ok (text, dbg) /\ disassemble_verbose 100 true input = Ok (text', dbg) /\
    balanced text /\ In (lit "))") (map unindented (lines text')) /\ ~ only_comments_added text text'.
Proof.
  exists ([0; 97; 115; 109; 1; 0; 0; 0] ++ [7; 10; 1; 6; 97; 98; 99; 100; 101; 102; 0; 0]). eexists. eexists. eexists.
  split; [vm_compute; reflexivity|]. split; [vm_compute; reflexivity|]. split; [vm_compute; reflexivity|].
  split; [vm_compute; tauto|]. intros H. unfold only_comments_added in H.
  apply (wc_in _ _ (lit "))")) in H; [|vm_compute; tauto|intros (u & Hu); discriminate].
  vm_compute in H. repeat destruct H as [H|H]; discriminate || contradiction.
Qed.
Print Assumptions C138_section_of_ten_bytes_refuted.

(** ** What the comments say *)
Lemma send_grows f o : exists t, buffer (send f o) = buffer f ++ t.
Proof.
  destruct o as [[s| | |]| |]; cbn [send put]; unfold spacing, freshen; repeat match goal with |- context [if ?b then _ else _] => destruct b end;
    cbn [buffer]; rewrite <- ?app_assoc; solve [eexists; reflexivity | exists []; now rewrite app_nil_r].
Qed.
Lemma sends_grow l : forall f, exists t, buffer (fold_left send l f) = buffer f ++ t.
Proof.
  induction l as [|o l IH]; intros f; cbn [fold_left]; [exists []; now rewrite app_nil_r|].
  destruct (IH (send f o)) as (t & ->), (send_grows f o) as (u & ->). exists (u ++ t). now rewrite app_assoc.
Qed.
Lemma code_name code : section_name code = word (section_title code).
Proof.
  unfold section_name, section_title.
  repeat match goal with |- context [if (?a =? ?b)%Z then _ else _] => destruct (Z.eqb_spec a b) as [->|]; [reflexivity|] end.
  destruct (Z.ltb_spec code 0); f_equal. symmetry. apply nth_overflow. cbn [length format_sections]. lia.
Qed.
Lemma spaced f s r : fresh f = true -> exists a, buffer (fold_left send (Rq (Atom s) :: r) f) =
  buffer (fold_left send r (mkF (buffer f ++ a ++ s) (SexprModel.indent f) false true)).
Proof.
  intros H. cbn [fold_left send put]. unfold spacing. rewrite H. cbn [buffer SexprModel.indent].
  exists (indent_string (SexprModel.indent f)). now rewrite <- app_assoc.
Qed.
Lemma fresh_send f : fresh (send f (Rq Fresh)) = true.
Proof. cbn [send put]. unfold freshen. destruct (fresh f) eqn:E; [exact E|reflexivity]. Qed.

Lemma handle_out p e : exists l, p_out (handle p e) = fold_left send l (p_out p).
Proof.
  destruct (printed p e) as [l|] eqn:E; [exists l; now apply handle_printed|].
  destruct e; try discriminate; first [exists []; reflexivity | eexists; unfold handle, send_all; cbn [p_out]; reflexivity].
Qed.
Lemma announced_written p e : exists t u, buffer (p_out (handle_verbose p e)) = buffer (p_out p) ++ t ++ concat (announcement e) ++ u.
Proof.
  assert (G : announcement e = [] -> handle_verbose p e = handle p e ->
    exists t u, buffer (p_out (handle_verbose p e)) = buffer (p_out p) ++ t ++ concat (announcement e) ++ u).
  { intros A H. rewrite H, A. destruct (handle_out p e) as (l & ->). destruct (sends_grow l (p_out p)) as (t & ->).
    exists t, []. cbn [concat app]. now rewrite app_nil_r. }
  destruct e as [| |code len name| |count| |count| | | | | | | | | | | |]; try (now apply G); clear G.
  - cbn [handle_verbose send_all p_out]. unfold send_all. cbn [p_out].
    cbn [app fold_left]. pose proof (fresh_send (p_out p)) as F.
    destruct (send_grows (p_out p) (Rq Fresh)) as (t & Ht).
    destruct (spaced (send (p_out p) (Rq Fresh)) (lit ";;;;;;;;;;;;;;") (p_section code len name ++ [Inc]) F) as (a & E).
    unfold word at 1. cbn [fold_left] in E. rewrite E, Ht. exists (t ++ a). exists []. unfold p_section. rewrite code_name.
    cbn [announcement concat]. unfold text, lit, ascii_text.
    destruct (code =? 0); cbn [app DisModel.paren fold_left send put spacing word num buffer fresh needsSpacing SexprModel.indent];
      unfold lit; cbn [list_ascii_of_string app]; rewrite <- ?app_assoc; cbn [app]; rewrite ?app_nil_r, <- ?app_assoc; cbn [app]; rewrite <- ?app_assoc; reflexivity.
  - exists [], []. cbn. now rewrite app_nil_r.
  - cbn [handle_verbose]. unfold send_all, p_count. cbn [p_out announcement concat].
    destruct (send_grows (p_out p) (Rq Fresh)) as (t & Ht).
    destruct (spaced (send (p_out p) (Rq Fresh)) (lit ";; count: " ++ decimal count) [Rq Fresh] (fresh_send (p_out p))) as (a & E).
    cbn [fold_left] in *. rewrite E, Ht. exists (t ++ a), [NL]. cbn [send put]. unfold freshen. cbn [fresh buffer].
    rewrite app_nil_r, <- ?app_assoc. reflexivity.
  - cbn [handle_verbose]. unfold send_all, p_count. cbn [p_out announcement concat].
    destruct (send_grows (p_out p) (Rq Fresh)) as (t & Ht).
    destruct (spaced (send (p_out p) (Rq Fresh)) (lit ";; count: " ++ decimal count) [Rq Fresh] (fresh_send (p_out p))) as (a & E).
    cbn [fold_left] in *. rewrite E, Ht. exists (t ++ a), [NL]. cbn [send put]. unfold freshen. cbn [fresh buffer].
    rewrite app_nil_r, <- ?app_assoc. reflexivity.
Qed.
Lemma oio_weaken ns s : occur_in_order ns s -> forall a, occur_in_order ns (a ++ s).
Proof. intros H a. destruct H as [s|b n ns s H]; [constructor|]. rewrite app_assoc. now constructor. Qed.
Lemma announced_all l : forall p, exists t, buffer (p_out (fold_left handle_verbose l p)) = buffer (p_out p) ++ t /\
  occur_in_order (flat_map announcement l) t.
Proof.
  induction l as [|e l IH]; intros p; cbn [fold_left flat_map]; [exists []; rewrite app_nil_r; split; [reflexivity|constructor]|].
  destruct (announced_written p e) as (t & u & E), (IH (handle_verbose p e)) as (v & -> & O).
  exists (t ++ concat (announcement e) ++ u ++ v). split; [now rewrite E, <- !app_assoc|].
  assert (L : announcement e = [] \/ exists a, announcement e = [a]) by (destruct e; cbn; eauto).
  destruct L as [->|(a & ->)]; cbn [concat app].
  - apply oio_weaken, oio_weaken, O.
  - rewrite app_nil_r. constructor. apply oio_weaken, O.
Qed.
(** The comments announce the sections of the file, in the order in which they stand, each with its name
    in the format and its length, and the numbers of types and of imports.  (That the lengths are written
    as characters is C99's defect.) *)
Theorem C138_announcements : forall lim strict input evs text' dbg,
  read_module (disasm_cfg lim strict) input = Ok evs ->
  disassemble_verbose lim strict input = Ok (text', dbg) ->
  occur_in_order (flat_map announcement evs) text'.
Proof.
  intros lim strict input evs t dbg E D. unfold disassemble_verbose in D. rewrite E in D. cbn [bind] in D. injection D as <- _.
  destruct (announced_all evs new_printer) as (v & Hv & O). unfold print_verbose. rewrite Hv. exact O.
Qed.
Print Assumptions C138_announcements.
Example small_announcements : flat_map announcement small_events =
  [lit ";;;;;;;;;;;;;; (section (code TYPE) (size " ++ ["008"%char] ++ lit "))"; lit ";; count: 2";
   lit ";;;;;;;;;;;;;; (section (code FUNCTION) (size " ++ ["002"%char] ++ lit "))";
   lit ";;;;;;;;;;;;;; (section (code EXPORT) (size " ++ ["005"%char] ++ lit "))"].
Proof. vm_compute. reflexivity. Qed.
