From Coq Require Import ZArith String Ascii List Bool Lia DecimalString.
From Verif Require Import Outcome StreamModel SexprModel WasmModel DisModel DisProofs DisVerboseModel DisVerboseSpec.
Import ListNotations.
Local Open Scope Z_scope.

(** * Lines *)
Lemma lines_not_nil s : lines s <> [].
Proof. destruct s as [|c s]; cbn [lines]; [discriminate|]. destruct (Ascii.eqb c NL); [discriminate|]. destruct (lines s); discriminate. Qed.
(** All but the last line, and the last one *)
Lemma lines_app a s la x : lines a = la ++ [x] ->
  lines (a ++ s) = la ++ match lines s with y :: l => (x ++ y) :: l | [] => [x] end.
Proof.
  revert la x. induction a as [|c a IH]; intros la x H.
  - cbn [lines] in H. destruct la as [|y la]; [|destruct la; discriminate]. injection H as <-. cbn [app].
    pose proof (lines_not_nil s). destruct (lines s); [contradiction|reflexivity].
  - cbn [lines app] in *. destruct (Ascii.eqb c NL).
    + destruct la as [|y la].
      * cbn [app] in H. pose proof (lines_not_nil a). destruct (lines a); [contradiction|]. discriminate.
      * cbn [app] in H. injection H as <- H. rewrite (IH la x H). reflexivity.
    + destruct (lines a) as [|l ls] eqn:E; [exfalso; eapply lines_not_nil; eauto|].
      destruct la as [|y la]; cbn [app] in H; injection H as <- H.
      * subst ls. rewrite (IH [] l) by reflexivity. cbn [app]. destruct (lines s); reflexivity.
      * subst ls. rewrite (IH (l :: la) x) by reflexivity. reflexivity.
Qed.
Lemma lines_split a : exists la x, lines a = la ++ [x].
Proof. destruct (exists_last (lines_not_nil a)) as (la & x & H). eauto. Qed.
Lemma lines_plain s : ~ In NL s -> lines s = [s].
Proof.
  induction s as [|c s IH]; intros H; cbn [lines]; [reflexivity|].
  destruct (Ascii.eqb_spec c NL) as [->|_]; [exfalso; apply H; now left|].
  rewrite IH by (intros G; apply H; now right). reflexivity.
Qed.
Lemma lines_nl a : lines (a ++ [NL]) = lines a ++ [[]].
Proof. destruct (lines_split a) as (la & x & E). rewrite (lines_app _ _ _ _ E), E, <- app_assoc. cbn. now rewrite app_nil_r. Qed.
Lemma lines_app_plain a s la x : lines a = la ++ [x] -> ~ In NL s -> lines (a ++ s) = la ++ [x ++ s].
Proof. intros E H. rewrite (lines_app _ _ _ _ E), (lines_plain s H). reflexivity. Qed.

Lemma unindented_app x y s : unindented x = unindented y -> unindented (x ++ s) = unindented (y ++ s).
Proof.
  intros H.
  assert (G : forall z, unindented (z ++ s) = match unindented z with [] => unindented s | u => u ++ s end).
  { induction z as [|c z IH]; cbn [app unindented]; [reflexivity|]. destruct (Ascii.eqb c SP); [exact IH|reflexivity]. }
  rewrite !G, H. reflexivity.
Qed.
Lemma unindented_indent n s : unindented (indent_string n ++ s) = unindented s.
Proof. induction n; cbn [indent_string]; [reflexivity|]. rewrite <- app_assoc. rewrite (unindented_app _ [] _); [reflexivity|].
  clear. induction n; cbn [indent_string]; [reflexivity|]. rewrite (unindented_app _ [] _ IHn). reflexivity. Qed.
Lemma indent_plain n : ~ In NL (indent_string n).
Proof. induction n; cbn [indent_string]; [intros []|]. rewrite in_app_iff. intros [H|[H|[H|[]]]]; [auto|discriminate H|discriminate H]. Qed.

Lemma wc_app a b c d : with_comments a b -> with_comments c d -> with_comments (a ++ c) (b ++ d).
Proof. induction 1; cbn [app]; intros; [assumption|apply wc_same; auto|apply wc_comment; auto]. Qed.
Lemma wc_refl a : with_comments a a.
Proof. induction a; constructor; auto. Qed.

(** * The two formatters *)
Definition last_rel (a b : str) (fr : bool) : Prop :=
  exists A x B y, lines a = A ++ [x] /\ lines b = B ++ [y] /\
    with_comments (map unindented A) (map unindented B) /\ unindented x = unindented y /\ (fr = true -> x = [] /\ y = []).
(** Both at the same place of a line *)
Definition clean (fn fv : formatter) : Prop :=
  fresh fn = fresh fv /\ (fresh fn = false -> needsSpacing fn = needsSpacing fv) /\ last_rel (buffer fn) (buffer fv) (fresh fn).
(** The second one has written comments that the first does not have *)
Definition pending (fn fv : formatter) : Prop :=
  fresh fn = false /\
  exists B y, lines (buffer fv) = B ++ [y] /\ with_comments (map unindented (lines (buffer fn))) (map unindented B) /\
    (if fresh fv then y = [] else is_comment (unindented y)).

Lemma last_rel_app a b s : last_rel a b false -> last_rel (a ++ s) (b ++ s) false.
Proof.
  intros (A & x & B & y & Ea & Eb & Hw & Hu & _). destruct (lines_split s) as (S0 & z & Es).
  pose proof (lines_app a s _ _ Ea) as La. pose proof (lines_app b s _ _ Eb) as Lb.
  destruct S0 as [|s0 S0].
  - rewrite Es in La, Lb. cbn [app] in La, Lb. exists A, (x ++ z), B, (y ++ z). repeat split; auto; try discriminate.
    now apply unindented_app.
  - rewrite Es in La, Lb. cbn [app] in La, Lb. exists (A ++ (x ++ s0) :: S0), z, (B ++ (y ++ s0) :: S0), z.
    repeat split; try discriminate.
    + now rewrite La, <- app_assoc.
    + now rewrite Lb, <- app_assoc.
    + rewrite !map_app. apply wc_app; [exact Hw|]. cbn [map]. rewrite (unindented_app _ _ s0 Hu). apply wc_same, wc_refl.
Qed.
Lemma clean_last_false fn fv fr : last_rel fn fv fr -> last_rel fn fv false.
Proof. intros (A & x & B & y & H1 & H2 & H3 & H4 & _). exists A, x, B, y. repeat split; auto; discriminate. Qed.
Lemma clean_spacing fn fv : clean fn fv ->
  last_rel (buffer (spacing fn)) (buffer (spacing fv)) false.
Proof.
  intros (Hf & Hn & Hr). unfold spacing. cbn [buffer]. rewrite <- Hf. destruct (fresh fn).
  - destruct Hr as (A & x & B & y & H1 & H2 & H3 & H4 & H5). destruct (H5 eq_refl) as [-> ->].
    exists A, (indent_string (indent fn)), B, (indent_string (indent fv)).
    rewrite (lines_app_plain _ _ _ _ H1 (indent_plain _)), (lines_app_plain _ _ _ _ H2 (indent_plain _)).
    repeat split; auto; try discriminate.
    rewrite <- (app_nil_r (indent_string (indent fn))), <- (app_nil_r (indent_string (indent fv))).
    now rewrite !unindented_indent.
  - rewrite <- (Hn eq_refl). destruct (needsSpacing fn); [now apply last_rel_app|exact Hr].
Qed.
Lemma clean_send fn fv o : clean fn fv -> clean (send fn o) (send fv o).
Proof.
  intros H. pose proof (clean_spacing fn fv H) as Hs. destruct o as [[s| | |]| |]; cbn [send put].
  - repeat split; cbn [fresh needsSpacing buffer]. now apply last_rel_app.
  - repeat split; cbn [fresh needsSpacing buffer]. now apply last_rel_app.
  - destruct H as (Hf & Hn & Hr). repeat split; cbn [fresh needsSpacing buffer]. apply last_rel_app. eapply clean_last_false; eauto.
  - destruct H as (Hf & Hn & Hr). unfold freshen. rewrite <- Hf. destruct (fresh fn) eqn:E.
    + unfold clean. rewrite E, <- Hf. repeat split; auto; discriminate.
    + repeat split; cbn [fresh needsSpacing buffer].
      destruct Hr as (A & x & B & y & H1 & H2 & H3 & H4 & _). exists (A ++ [x]), [], (B ++ [y]), [].
      rewrite !lines_nl, H1, H2. repeat split; auto. rewrite !map_app. apply wc_app; [exact H3|]. cbn [map]. rewrite H4. apply wc_refl.
  - exact H.
  - exact H.
Qed.
Lemma clean_sends l : forall fn fv, clean fn fv -> clean (fold_left send l fn) (fold_left send l fv).
Proof. induction l as [|o l IH]; intros fn fv H; cbn [fold_left]; [exact H|]. apply IH, clean_send, H. Qed.

(** A request to start a line ends the comments. *)
Lemma wc_last a b y : with_comments a (map unindented b) -> is_comment (unindented y) -> with_comments a (map unindented (b ++ [y])).
Proof. intros H Hy. rewrite map_app, <- (app_nil_r a). apply wc_app; [exact H|]. apply wc_comment; [exact Hy|constructor]. Qed.
Lemma pending_fresh fn fv : pending fn fv -> clean (send fn (Rq Fresh)) (send fv (Rq Fresh)).
Proof.
  intros (Hf & B & y & Eb & Hw & Hy). cbn [send put]. unfold freshen. rewrite Hf. destruct (fresh fv) eqn:E.
  - subst y. repeat split; cbn [fresh needsSpacing buffer]; [now rewrite E|discriminate|].
    exists (lines (buffer fn)), [], B, []. rewrite lines_nl. repeat split; auto.
  - repeat split; cbn [fresh needsSpacing buffer].
    exists (lines (buffer fn)), [], (B ++ [y]), []. rewrite !lines_nl, Eb. repeat split; auto. now apply wc_last.
Qed.
Lemma pending_indent fn fv o o' : pending fn fv -> (o = Inc \/ o = Dec) -> (o' = Inc \/ o' = Dec) ->
  pending (send fn o) fv /\ pending fn (send fv o') /\ pending (send fn o) (send fv o').
Proof. intros H [->| ->] [->| ->]; repeat split; cbn [send]; exact H || (destruct H as [H ?]; (exact H || assumption)). Qed.
Lemma clean_dec fn fv : clean fn fv -> clean fn (send fv Dec).
Proof. intros H. exact H. Qed.
Lemma pending_dec fn fv : pending fn fv -> pending fn (send fv Dec).
Proof. intros H. exact H. Qed.

(** ** Writing a comment *)
Definition plain_out (o : out) : Prop :=
  match o with Rq (Atom s) => ~ In NL s | Rq Fresh => False | _ => True end.
Lemma plain_send f o B x : plain_out o -> lines (buffer f) = B ++ [x] -> fresh f = false ->
  exists t, lines (buffer (send f o)) = B ++ [x ++ t] /\ fresh (send f o) = false.
Proof.
  intros Hp E Hf. destruct o as [[s| | |]| |]; cbn [send put plain_out] in *; unfold spacing; rewrite ?Hf; cbn [buffer fresh].
  - exists ((if needsSpacing f then [SP] else []) ++ s). split; [|reflexivity]. destruct (needsSpacing f).
    + rewrite <- app_assoc. apply lines_app_plain; [exact E|]. rewrite in_app_iff. intros [[H|[]]|H]; [discriminate|auto].
    + apply lines_app_plain; auto.
  - exists ((if needsSpacing f then [SP] else []) ++ ["("%char]). split; [|reflexivity]. destruct (needsSpacing f).
    + rewrite <- app_assoc. apply lines_app_plain; [exact E|]. intros [H|[H|[]]]; discriminate.
    + apply lines_app_plain; auto. intros [H|[]]; discriminate.
  - exists [")"%char]. split; [|reflexivity]. apply lines_app_plain; auto. intros [H|[]]; discriminate.
  - destruct Hp.
  - exists []. now rewrite app_nil_r.
  - exists []. now rewrite app_nil_r.
Qed.
Lemma plain_sends l : forall f B x, Forall plain_out l -> lines (buffer f) = B ++ [x] -> fresh f = false ->
  exists t, lines (buffer (fold_left send l f)) = B ++ [x ++ t] /\ fresh (fold_left send l f) = false.
Proof.
  induction l as [|o l IH]; intros f B x Hl E Hf; cbn [fold_left].
  - exists []. now rewrite app_nil_r.
  - inversion Hl; subst. destruct (plain_send f o B x) as (t & E1 & F1); auto.
    destruct (IH (send f o) B (x ++ t)) as (u & E2 & F2); auto. exists (t ++ u). now rewrite app_assoc.
Qed.
(** FRESH, and a comment on the new line *)
Lemma comment_written f s l : fresh f = false \/ (exists B, lines (buffer f) = B ++ [[]]) ->
  ~ In NL s -> Forall plain_out l ->
  exists t, lines (buffer (fold_left send (Rq Fresh :: Rq (Atom s) :: l) f)) =
    (if fresh f then removelast (lines (buffer f)) else lines (buffer f)) ++ [t] /\
    fresh (fold_left send (Rq Fresh :: Rq (Atom s) :: l) f) = false /\ exists u, unindented t = unindented (s ++ u).
Proof.
  intros Hf Hs Hl. cbn [fold_left].
  assert (F : exists f1, f1 = send f (Rq Fresh) /\ fresh f1 = true /\
     lines (buffer f1) = (if fresh f then removelast (lines (buffer f)) else lines (buffer f)) ++ [[]]).
  { eexists. split; [reflexivity|]. cbn [send put]. unfold freshen. destruct (fresh f) eqn:E.
    - split; [exact E|]. destruct Hf as [Hf|(B & Hf)]; [discriminate|]. rewrite Hf. now rewrite removelast_last.
    - cbn [fresh buffer]. split; [reflexivity|]. apply lines_nl. }
  destruct F as (f1 & <- & F1 & E1).
  assert (G : lines (buffer (send f1 (Rq (Atom s)))) =
     (if fresh f then removelast (lines (buffer f)) else lines (buffer f)) ++ [indent_string (indent f1) ++ s] /\
     fresh (send f1 (Rq (Atom s))) = false).
  { split; [|reflexivity]. cbn [send put buffer]. unfold spacing. rewrite F1. cbn [buffer]. rewrite <- app_assoc.
    rewrite (lines_app_plain _ (indent_string (indent f1) ++ s) _ _ E1); [reflexivity|].
    rewrite in_app_iff. intros [H|H]; [eapply indent_plain; eauto|auto]. }
  destruct G as (G1 & G2). destruct (plain_sends l _ _ _ Hl G1 G2) as (t & E2 & F2).
  exists ((indent_string (indent f1) ++ s) ++ t). repeat split; auto. exists t. rewrite <- app_assoc. apply unindented_indent.
Qed.
Definition dirty (p : printer) : Prop := fresh (p_out p) = false.
Lemma comment_pending fn fv s l : fresh fn = false -> clean fn fv \/ pending fn fv ->
  (exists u, s = ";"%char :: ";"%char :: u) -> ~ In NL s -> Forall plain_out l ->
  pending fn (fold_left send (Rq Fresh :: Rq (Atom s) :: l) fv).
Proof.
  intros Hn H (v & Hc) Hs Hl.
  destruct (comment_written fv s l) as (t & E2 & F2 & u & Hu); auto.
  { destruct H as [(Hf & _)|(_ & B & y & E & _ & Hy)]; [left; congruence|].
    destruct (fresh fv); [right; subst y; eauto|left; reflexivity]. }
  assert (C : is_comment (unindented t)) by (rewrite Hu, Hc; cbn; unfold is_comment; eauto).
  split; [exact Hn|]. rewrite F2. rewrite E2. eexists. exists t. split; [reflexivity|]. split; [|exact C].
  destruct H as [(Hf & _ & (A & x & B & y & H1 & H2 & H3 & H4 & _))|(_ & B & y & E & Hw & Hy)].
  - rewrite <- Hf, Hn, H1, H2, !map_app. apply wc_app; [exact H3|]. cbn [map]. rewrite H4. apply wc_refl.
  - destruct (fresh fv); [now rewrite E, removelast_last|]. rewrite E. now apply wc_last.
Qed.
Lemma pending_fresh_again fn fv : pending fn fv -> pending fn (send fv (Rq Fresh)).
Proof.
  intros (Hn & B & y & E & Hw & Hy). split; [exact Hn|]. cbn [send put]. unfold freshen. destruct (fresh fv) eqn:F.
  - rewrite F. eauto.
  - exists (B ++ [y]), []. cbn [fresh buffer]. rewrite lines_nl, E. split; [reflexivity|]. split; [now apply wc_last|reflexivity].
Qed.

(** * Printers *)
Definition same (p q : printer) : Prop := p_types p = p_types q /\ p_depth p = p_depth q /\ p_stdout p = p_stdout q.
(** [b]: comments are pending *)
Definition together (b : bool) (p q : printer) : Prop :=
  same p q /\ dirty p /\ (if b then pending (p_out p) (p_out q) else clean (p_out p) (p_out q)).

Lemma dirty_atom f s : fresh (send f (Rq (Atom s))) = false. Proof. reflexivity. Qed.
Definition ends_dirty (l : list out) : Prop :=
  forall f, fresh (fold_left send l f) = false.
(** Lists of requests whose last one that is not about indentation writes something *)
Fixpoint writes_last (l : list out) : bool :=
  match l with
  | [] => false
  | o :: l => writes_last l ||
              (forallb (fun o => match o with Inc | Dec => true | _ => false end) l &&
               match o with Rq (Atom _) | Rq Start | Rq End => true | _ => false end)
  end.
Lemma writes_dirty l : writes_last l = true -> forall f, fresh (fold_left send l f) = false.
Proof.
  induction l as [|o l IH]; cbn [writes_last]; [discriminate|]. intros H f. cbn [fold_left].
  apply orb_prop in H as [H|H]; [now apply IH|]. apply andb_prop in H as (Hl & Ho).
  assert (Hs : fresh (send f o) = false) by (destruct o as [[s| | |]| |]; cbn in *; congruence || reflexivity).
  clear - Hl Hs. revert Hs. generalize (send f o). induction l as [|x l IH]; intros g Hg; cbn [fold_left]; [exact Hg|].
  cbn [forallb] in Hl. apply andb_prop in Hl as (Hx & Hl). apply IH; [exact Hl|].
  destruct x as [[]| |]; try discriminate; exact Hg.
Qed.
Lemma writes_last_app a b : writes_last b = true -> writes_last (a ++ b) = true.
Proof. intros H. induction a as [|o a IH]; [exact H|]. cbn [app writes_last]. now rewrite IH. Qed.
Lemma writes_cons o b : writes_last b = true -> writes_last (o :: b) = true.
Proof. apply (writes_last_app [o]). Qed.
Lemma writes_paren l : writes_last (DisModel.paren l) = true.
Proof. unfold DisModel.paren. apply writes_last_app, writes_last_app. reflexivity. Qed.
Lemma writes_imm i : i = INone \/ writes_last (p_imm i) = true.
Proof.
  destruct i as [|c|v|x r|ts d|f o|v|v]; [now left|right..]; try reflexivity.
  cbn [p_imm]. destruct ts; reflexivity.
Qed.
Lemma writes_expr e : writes_last (p_expr e) = true.
Proof. unfold p_expr. destruct (writes_imm (e_imm e)) as [->|H]; [reflexivity|]. now apply writes_cons. Qed.

(** What a report prints: [None] for those of which a verbose run says more *)
Definition printed (p : printer) (e : event) : option (list out) :=
  match e with
  | EvModuleStart => Some [Rq Start; word "module"]
  | EvFunctionType t => Some (Rq Fresh :: p_ftype t)
  | EvImport m f d => Some (Rq Fresh :: p_import m f d)
  | EvGlobal g i => Some (Rq Fresh :: DisModel.paren (word "global" :: p_gtype g ++ DisModel.paren (p_expr i)))
  | EvExport f k i => Some (Rq Fresh :: p_export f k i)
  | EvElementEntry _ o _ => Some ([Rq Fresh; Rq Start; word "elem"] ++ DisModel.paren (p_expr o))
  | EvElement i => Some [num i]
  | EvElementEnd => Some [Rq End]
  | EvBody i b => Some ([Rq Fresh; Rq Start; word "func"] ++
                 DisModel.paren [word "typezz"; Rq (Atom (decimal (nth (Z.to_nat i) (p_types p) 0)))] ++
                 [Rq Fresh] ++ p_locals (fb_locals b))
  | EvExpr e => Some (fst (p_body_expr (p_depth p) e))
  | EvBodyEnd => Some [Rq End]
  | EvData _ i d => Some (Rq Fresh :: p_data i d)
  | _ => None
  end.
Lemma handle_printed p e l : printed p e = Some l -> p_out (handle p e) = fold_left send l (p_out p).
Proof.
  destruct e; cbn [printed]; intros H; inversion H; subst; try reflexivity.
  cbn [handle]. destruct (p_body_expr (p_depth p) e). reflexivity.
Qed.
Lemma handle_same p q e : same p q -> same (handle p e) (handle q e).
Proof.
  intros (H1 & H2 & H3). destruct e; cbn [handle]; unfold same, send_all; cbn [p_types p_depth p_stdout]; auto;
    try (repeat split; congruence).
  rewrite H2. destruct (p_body_expr (p_depth q) e); cbn [p_types p_depth p_stdout]. auto.
Qed.
Lemma printed_same p q e : same p q -> printed p e = printed q e.
Proof. intros (H1 & H2 & H3). destruct e; cbn [printed]; auto; now rewrite ?H1, ?H2. Qed.
(** An [Inc] or [Dec] first changes nothing but the indentation. *)
Definition starts_line (l : list out) : Prop :=
  exists l', l = Rq Fresh :: l' \/ l = Dec :: Rq Fresh :: l'.
Definition breaks (e : event) : bool := match e with EvExpr _ => true | _ => entry e end.
Lemma breaks_starts p e l : breaks e = true -> printed p e = Some l -> starts_line l.
Proof.
  unfold starts_line. destruct e; cbn [breaks entry printed]; try discriminate; intros _ H; inversion H; subst; clear H;
    try (eexists; left; reflexivity).
  unfold p_body_expr. destruct (_ || _ || _); [eexists; left; reflexivity|].
  destruct (e_op e =? 11); [destruct (p_depth p); eexists; [left|right]; reflexivity|].
  destruct (e_op e =? 5); eexists; [right|left]; reflexivity.
Qed.
Lemma printed_writes p e l : printed p e = Some l -> writes_last l = true.
Proof.
  destruct e; cbn [printed]; intros H; inversion H; subst; clear H;
    try reflexivity; try (unfold p_ftype, p_import, p_export, p_data; do 2 (try apply writes_paren; apply writes_cons); apply writes_paren); try (unfold p_ftype, p_import, p_export, p_data; apply writes_cons; apply writes_paren).
  - do 3 apply writes_cons. apply writes_paren.
  - do 8 apply writes_cons. unfold p_locals. apply writes_paren.
  - unfold p_body_expr.
    assert (I : forall l o, writes_last l = true -> (o = Inc \/ o = Dec) -> writes_last (l ++ [o]) = true).
    { intros l o Hl Ho. revert Hl. induction l as [|x l IH]; cbn [writes_last app]; [discriminate|].
      intros Hl. apply orb_prop in Hl as [Hl|Hl]; [now rewrite IH|]. apply andb_prop in Hl as (Hl & Hx). apply orb_true_intro. right.
      rewrite forallb_app, Hl, Hx. destruct Ho as [->| ->]; reflexivity. }
    repeat match goal with |- writes_last (fst (if ?b then _ else _)) = true => destruct b
           | |- writes_last (fst (match ?b with _ => _ end)) = true => destruct b end; cbn [fst];
      solve [ apply writes_cons; apply writes_expr | apply writes_cons; apply writes_cons; apply writes_expr
            | apply writes_cons; apply I; [apply writes_expr|auto] | apply writes_cons; apply writes_cons; apply I; [apply writes_expr|auto] ].
Qed.
Lemma pending_starts l fn fv : starts_line l -> pending fn fv -> clean (fold_left send l fn) (fold_left send l fv).
Proof.
  intros (l' & [->| ->]) H; cbn [fold_left].
  - apply clean_sends, pending_fresh, H.
  - apply clean_sends. apply (pending_fresh (send fn Dec) (send fv Dec)). exact H.
Qed.

(** ** Line breaks in headings *)
Lemma word_plain s : ~ In NL (lit s) -> plain_out (word s). Proof. intros H. exact H. Qed.
Lemma chr_plain v : v mod 256 <> 10 -> chr v <> NL.
Proof.
  intros H E. apply H. apply (f_equal nat_of_ascii) in E. unfold chr in E.
  rewrite nat_ascii_embedding in E by (pose proof (Z.mod_pos_bound v 256); lia).
  change (nat_of_ascii NL) with 10%nat in E. pose proof (Z.mod_pos_bound v 256). lia.
Qed.
Lemma decimal_plain n : ~ In NL (decimal n).
Proof.
  unfold decimal. generalize (N.to_uint (Z.to_N n)). intros u H.
  assert (G : forall u, ~ In NL (list_ascii_of_string (NilEmpty.string_of_uint u))).
  { clear. induction u; cbn; intros H; auto; destruct H as [H|H]; auto; discriminate. }
  destruct u; cbn in H; try (destruct H as [H|[]]; discriminate); destruct H as [H|H]; try discriminate; eapply G; eauto.
Qed.
Lemma plain_paren l : Forall plain_out l -> Forall plain_out (DisModel.paren l).
Proof. intros H. unfold DisModel.paren. apply Forall_app. split; [repeat constructor|]. apply Forall_app. split; [exact H|repeat constructor]. Qed.
Ltac plain_words := repeat first [apply Forall_nil | apply Forall_cons | apply plain_paren];
  try (intros H; cbn in H; repeat destruct H as [H|H]; discriminate || contradiction).
Lemma section_plain code len name : one_line (EvSectionStart code len name) -> Forall plain_out (p_section code len name ++ [Inc]).
Proof.
  intros (Hl & Hn). apply Forall_app. split; [|repeat constructor]. unfold p_section. apply plain_paren.
  apply Forall_app. split; [plain_words|]. apply Forall_app. split; [|apply Forall_app; split].
  - apply plain_paren. constructor; [plain_words|]. constructor; [|constructor].
    unfold section_name. repeat match goal with |- context [if ?b then _ else _] => destruct b end; plain_words.
  - destruct (code =? 0); [|constructor]. apply plain_paren. constructor; [plain_words|].
    constructor; [|constructor]. cbn [plain_out]. unfold text. rewrite in_map_iff. intros (b & E & Hb).
    rewrite Forall_forall in Hn. exact (chr_plain b (Hn b Hb) E).
  - apply plain_paren. constructor; [plain_words|]. constructor; [|constructor]. cbn [plain_out num]. intros [H|[]]. exact (chr_plain len Hl H).
Qed.

(** * One report *)
Definition step (b : bool) (e : event) : option bool :=
  if announced e then Some true
  else if breaks e then Some false
  else match e with
       | EvElement _ | EvElementEnd | EvBodyEnd => if b then None else Some false
       | EvModuleStart | EvModuleEnd => None
       | _ => Some b
       end.
Lemma together_step b p q e b' : together b p q -> one_line e -> step b e = Some b' ->
  together b' (handle p e) (handle_verbose q e).
Proof.
  intros (Hs & Hd & Hb) Ho Hst. unfold step in Hst.
  destruct (announced e) eqn:Ha.
  { injection Hst as <-. assert (Hc : clean (p_out p) (p_out q) \/ pending (p_out p) (p_out q)) by (destruct b; auto).
    destruct e as [| |code len name| |count| |count| | | | | | | | | | | |]; try discriminate; cbn [handle handle_verbose].
    - split; [exact Hs|]. split; [exact Hd|]. cbn [send_all p_out].
      apply (comment_pending (p_out p) (p_out q) (lit ";;;;;;;;;;;;;;") (p_section code len name ++ [Inc]) Hd Hc).
      + eexists. reflexivity.
      + intros H; cbn in H; repeat destruct H as [H|H]; discriminate || contradiction.
      + apply section_plain, Ho.
    - split; [exact Hs|]. split; [exact Hd|]. cbn [send_all p_out]. unfold p_count.
      change (fold_left send [Rq Fresh; Rq (Atom (lit ";; count: " ++ decimal count)); Rq Fresh] (p_out q))
        with (send (fold_left send [Rq Fresh; Rq (Atom (lit ";; count: " ++ decimal count))] (p_out q)) (Rq Fresh)).
      apply pending_fresh_again, comment_pending; auto; [eexists; reflexivity|]. rewrite in_app_iff. intros [H|H]; [|eapply decimal_plain; eauto].
      cbn in H; repeat destruct H as [H|H]; discriminate || contradiction.
    - split; [exact Hs|]. split; [exact Hd|]. cbn [send_all p_out]. unfold p_count.
      change (fold_left send [Rq Fresh; Rq (Atom (lit ";; count: " ++ decimal count)); Rq Fresh] (p_out q))
        with (send (fold_left send [Rq Fresh; Rq (Atom (lit ";; count: " ++ decimal count))] (p_out q)) (Rq Fresh)).
      apply pending_fresh_again, comment_pending; auto; [eexists; reflexivity|]. rewrite in_app_iff. intros [H|H]; [|eapply decimal_plain; eauto].
      cbn in H; repeat destruct H as [H|H]; discriminate || contradiction. }
  assert (Hv : (exists c l, e = EvSectionEnd c l) \/ handle_verbose q e = handle q e) by (destruct e; try discriminate; eauto).
  destruct Hv as [(c & l & ->)|Hv].
  { cbn in Hst. injection Hst as <-. split; [exact Hs|]. split; [exact Hd|]. cbn [handle handle_verbose send_all p_out fold_left].
    destruct b; [apply pending_dec|apply clean_dec]; exact Hb. }
  rewrite Hv.
  destruct (printed p e) as [l|] eqn:Hp.
  - pose proof (handle_printed p e l Hp) as Ep. assert (Hq : printed q e = Some l) by (now rewrite <- (printed_same p q e Hs)).
    pose proof (handle_printed q e l Hq) as Eq. split; [now apply handle_same|].
    split. { unfold dirty. rewrite Ep. apply writes_dirty. eapply printed_writes; eauto. }
    rewrite Ep, Eq. destruct (breaks e) eqn:Hbr.
    + injection Hst as <-. destruct b; [|now apply clean_sends]. apply pending_starts; [|exact Hb]. eapply breaks_starts; eauto.
    + assert (b = false /\ b' = false) as [-> ->] by (destruct e; try discriminate; destruct b; try discriminate; injection Hst as <-; auto).
      now apply clean_sends.
  - destruct (breaks e) eqn:Hbr; [destruct e; discriminate|].
    assert (b' = b) as -> by (destruct e; try discriminate; now injection Hst as <-).
    split; [now apply handle_same|]. destruct e; try discriminate; cbn [handle]; auto.
Qed.

(** * All reports *)
Fixpoint steps (b : bool) (l : list event) : option bool :=
  match l with [] => Some b | e :: l => match step b e with Some b' => steps b' l | None => None end end.
Lemma steps_app b x y : steps b (x ++ y) = match steps b x with Some b' => steps b' y | None => None end.
Proof. revert b. induction x as [|e x IH]; intros b; cbn [app steps]; [reflexivity|]. destruct (step b e); auto. Qed.
Lemma together_steps l : forall b p q b', together b p q -> Forall one_line l -> steps b l = Some b' ->
  together b' (fold_left handle l p) (fold_left handle_verbose l q).
Proof.
  induction l as [|e l IH]; intros b p q b' H Ho Hs; cbn [steps fold_left] in *; [now injection Hs as <-|].
  inversion Ho; subst. destruct (step b e) as [b1|] eqn:E; [|discriminate]. eapply IH; eauto. eapply together_step; eauto.
Qed.

(** * The shape of what the reader reports *)
(** As a part of the report, whatever came before it *)
Definition neat (l : list event) : Prop := forall b, exists b', steps b l = Some b'.
(** Inside an entry *)
Definition inner (l : list event) : Prop := steps false l = Some false.
Lemma neat_app x y : neat x -> neat y -> neat (x ++ y).
Proof. intros Hx Hy b. rewrite steps_app. destruct (Hx b) as (b1 & ->). apply Hy. Qed.
Lemma inner_app x y : inner x -> inner y -> inner (x ++ y).
Proof. intros Hx Hy. unfold inner. rewrite steps_app, Hx. apply Hy. Qed.
Lemma neat_nil : neat []. Proof. intros b. eexists. reflexivity. Qed.
Lemma quietly_neat {A} (m : M A) : quietly m -> logs neat m.
Proof. intros H s a s' E. exists []. rewrite app_nil_r. split; [eapply H; eauto|apply neat_nil]. Qed.
Lemma quietly_inner {A} (m : M A) : quietly m -> logs inner m.
Proof. intros H s a s' E. exists []. rewrite app_nil_r. split; [eapply H; eauto|reflexivity]. Qed.
Lemma neat_bind {A B} (m : M A) (k : A -> M B) : logs neat m -> (forall a, logs neat (k a)) -> logs neat (mbind m k).
Proof. intros Hm Hk. eapply logs_bind; eauto using neat_app. Qed.
Lemma inner_bind {A B} (m : M A) (k : A -> M B) : logs inner m -> (forall a, logs inner (k a)) -> logs inner (mbind m k).
Proof. intros Hm Hk. eapply logs_bind; eauto using inner_app. Qed.
Lemma neat_iter (f : Z -> M unit) : (forall i, logs neat (f i)) -> forall n i, logs neat (iter n i f).
Proof. intros Hf. induction n; intros i; cbn [iter]; [apply quietly_neat, q_ret|]. apply neat_bind; auto. Qed.
Lemma inner_iter (f : Z -> M unit) : (forall i, logs inner (f i)) -> forall n i, logs inner (iter n i f).
Proof. intros Hf. induction n; intros i; cbn [iter]; [apply quietly_inner, q_ret|]. apply inner_bind; auto. Qed.
Lemma neat_emit e : (forall b, step b e <> None) -> logs neat (emit e).
Proof.
  intros H s a s' E. destruct (logs_emit e s a s' E) as (x & Hx & ->). exists [e]. split; [exact Hx|]. intros b. cbn [steps].
  specialize (H b). destruct (step b e); [eauto|contradiction].
Qed.
Lemma inner_emit e : step false e = Some false -> logs inner (emit e).
Proof. intros H s a s' E. destruct (logs_emit e s a s' E) as (x & Hx & ->). exists [e]. split; [exact Hx|]. unfold inner. cbn [steps]. now rewrite H. Qed.
Lemma neat_between {A} a z (m : M A) : logs inner m -> (forall b, step b a = Some false) -> step false z = Some false ->
  forall k : A -> M unit, (forall x, k x = emit z) -> logs neat (mbind (emit a) (fun _ => mbind m k)).
Proof.
  intros Hm Ha Hz k Hk. eapply (logs_bind (fun l => l = [a]) inner).
  - apply logs_emit.
  - intros _. apply inner_bind; [exact Hm|]. intros x. rewrite Hk. now apply inner_emit.
  - intros x y -> Hy b. cbn [app steps]. rewrite Ha. eauto.
Qed.
Ltac nt :=
  repeat first [ match goal with |- logs neat (emit _) => apply neat_emit; intros; discriminate end
               | match goal with |- logs inner (emit _) => apply inner_emit; reflexivity end
               | match goal with |- logs neat (ret _) => apply quietly_neat, q_ret end
               | match goal with |- logs neat (throw _) => apply quietly_neat, q_throw end
               | match goal with |- logs inner (throw _) => apply quietly_inner, q_throw end
               | match goal with |- logs neat (iter _ _ _) => apply neat_iter; intros end
               | match goal with |- logs inner (iter _ _ _) => apply inner_iter; intros end
               | match goal with |- logs _ (for_count _ _) => unfold for_count end
               | match goal with |- logs neat (mbind (emit (EvElementEntry _ _ _)) _) =>
                   apply (neat_between (EvElementEntry _ _ _) EvElementEnd); try (intros; reflexivity) end
               | match goal with |- logs neat (mbind (emit (EvBody _ _)) _) =>
                   apply (neat_between (EvBody _ _) EvBodyEnd); try (intros; reflexivity) end
               | match goal with |- logs neat (mbind _ _) => apply neat_bind; [|intros] end
               | match goal with |- logs inner (mbind _ _) => apply inner_bind; [|intros] end
               | match goal with |- logs neat (init_expr _) => apply quietly_neat, q_init end
               | match goal with |- logs _ (if ?b then _ else _) => destruct b end
               | apply quietly_neat; qt; fail
               | apply quietly_inner; qt; fail ].
Lemma neat_sections c : (forall i b, logs inner (c_body c i b)) -> forall fuel, logs neat (sections c fuel).
Proof.
  intros Hv.
  assert (Hs : forall code, logs neat (section c code)).
  { intros code. unfold section. apply neat_bind; [nt|intros l]. apply neat_bind; [nt|intros nm]. apply neat_bind; [nt|intros _].
    apply neat_bind; [|intros; nt].
    repeat match goal with |- logs neat (if ?b then _ else _) => destruct b end; try (nt; fail).
    - unfold type_section, function_type. nt.
    - unfold import_section, import_entry. nt.
    - unfold function_section. nt.
    - unfold global_section. nt.
    - unfold export_section. nt.
    - unfold element_section. unfold element_entry. nt.
    - unfold code_section. unfold function_body. nt. apply Hv.
    - unfold data_section, data_segment. nt. }
  induction fuel as [|fuel IH]; cbn [sections]; [intros s a s' E; discriminate|].
  intros s a s' E. destruct (w_eof s).
  { injection E as <- <-. exists []. rewrite app_nil_r. split; [reflexivity|apply neat_nil]. }
  revert s a s' E. apply neat_bind; [nt|]. intros code s a s' E. destruct (w_eof s).
  { injection E as <- <-. exists []. rewrite app_nil_r. split; [reflexivity|apply neat_nil]. }
  revert s a s' E. apply neat_bind; auto.
Qed.
Lemma inner_expr_loop c f start size : (forall e, logs inner (f e)) -> forall fuel, logs inner (expr_loop c fuel start size f).
Proof.
  intros Hf. induction fuel as [|fuel IH]; cbn [expr_loop]; [intros s a s' E; discriminate|].
  apply inner_bind; [apply quietly_inner, q_expr|]. intros e. apply inner_bind; [apply Hf|]. intros _ s a s' E.
  destruct (_ <? size); [eapply IH; eauto|]. injection E as <- <-. exists []. rewrite app_nil_r. split; [reflexivity|reflexivity].
Qed.
Lemma inner_disasm_body lim i b : logs inner (disasm_body lim i b).
Proof.
  intros s a s' E. unfold disasm_body in E. destruct (_ <=? i); [discriminate|]. revert E. unfold read_exprs. apply inner_expr_loop.
  intros e. unfold print_expr. destruct (e_imm e); nt.
Qed.
Lemma reports_shape c input evs : (forall i b, logs inner (c_body c i b)) -> read_module c input = Ok evs ->
  exists l, evs = EvModuleStart :: l ++ [EvModuleEnd] /\ neat l.
Proof.
  intros Hv H. unfold read_module in H. apply bind_ok in H as ((u & s) & E & H). injection H as <-.
  assert (L : logs (fun x => exists l, x = EvModuleStart :: l ++ [EvModuleEnd] /\ neat l) (module c)).
  { unfold module. eapply (logs_bind (fun l => l = [EvModuleStart]) (fun y => exists z, y = z ++ [EvModuleEnd] /\ neat z)).
    - apply logs_emit.
    - intros _. eapply (logs_bind neat (fun y => exists z, y = z ++ [EvModuleEnd] /\ neat z)).
      + unfold header. nt.
      + intros _. eapply (logs_bind neat (fun l => l = [EvModuleEnd])).
        * intros s0 a s' E0. revert E0. apply neat_sections, Hv.
        * intros; apply logs_emit.
        * intros x y Hx ->. exists x. auto.
      + intros x y Hx (z & -> & Hz). exists (x ++ z). rewrite app_assoc. auto using neat_app.
    - intros x y -> (z & -> & Hz). exists z. auto. }
  destruct (L _ _ _ E) as (ext & Hx & l & Hl & Hn). cbn [w_log app] in Hx. exists l. rewrite Hx. auto.
Qed.
(** After an entry and no announcement nothing is pending. *)
Lemma quiet_tail l : forall b', existsb announced l = false -> steps false l = Some b' -> b' = false.
Proof.
  induction l as [|e l IH]; intros b' H Hs; cbn [steps existsb] in *; [congruence|].
  apply orb_false_elim in H as (He & Hl). unfold step in Hs. rewrite He in Hs.
  destruct (breaks e); [eauto|]. destruct e; try discriminate; eauto.
Qed.
Lemma entry_cleans l : forall b b', existsb announced l = false -> existsb entry l = true -> steps b l = Some b' -> b' = false.
Proof.
  induction l as [|e l IH]; intros b b' H He Hs; cbn [steps existsb] in *; [discriminate|].
  apply orb_false_elim in H as (Ha & Hl). unfold step in Hs. rewrite Ha in Hs.
  destruct (entry e) eqn:Ee.
  - assert (breaks e = true) as Hb by (destruct e; auto). rewrite Hb in Hs. eapply quiet_tail; eauto.
  - cbn [orb] in He. destruct (breaks e); [eapply IH; eauto|]. destruct e; try discriminate; destruct b; try discriminate; eapply IH; eauto.
Qed.
Lemma last_announcement (l : list event) : existsb announced l = true ->
  exists x a y, l = x ++ a :: y /\ announced a = true /\ existsb announced y = false.
Proof.
  induction l as [|e l IH]; cbn [existsb]; [discriminate|]. intros H. destruct (existsb announced l) eqn:E.
  - destruct (IH eq_refl) as (x & a & y & -> & Ha & Hy). exists (e :: x), a, y. auto.
  - rewrite orb_false_r in H. exists [], e, l. auto.
Qed.
Lemma shown_clean l : neat l -> sections_shown (EvModuleStart :: l ++ [EvModuleEnd]) -> steps false l = Some false.
Proof.
  intros Hn Hs. destruct (Hn false) as (b & E). rewrite E. f_equal.
  destruct (existsb announced l) eqn:Ea.
  - destruct (last_announcement l Ea) as (x & a & y & -> & Ha & Hy).
    destruct (Hs (EvModuleStart :: x) a (y ++ [EvModuleEnd])) as (e & Hin & He).
    { cbn [app]. now rewrite <- app_assoc. } { exact Ha. }
    rewrite steps_app in E. destruct (steps false x) as [b1|]; [|discriminate]. cbn [steps] in E.
    destruct (step b1 a) as [b2|]; [|discriminate]. eapply entry_cleans; [exact Hy| |exact E].
    apply existsb_exists. rewrite in_app_iff in Hin. destruct Hin as [Hin|[<-|[]]]; [eauto|discriminate].
  - eapply quiet_tail; eauto.
Qed.

Lemma verbose_texts lim strict input evs : read_module (disasm_cfg lim strict) input = Ok evs ->
  Forall one_line evs -> sections_shown evs ->
  only_comments_added (buffer (p_out (print_events evs))) (buffer (p_out (print_verbose evs))) /\
  p_stdout (print_verbose evs) = p_stdout (print_events evs).
Proof.
  intros E Ho Hs.
  destruct (reports_shape (disasm_cfg lim strict) input evs (inner_disasm_body lim) E) as (l & -> & Hn).
  pose proof (shown_clean l Hn Hs) as Hst. unfold print_events, print_verbose. cbn [fold_left].
  change (handle_verbose new_printer EvModuleStart) with (handle new_printer EvModuleStart).
  rewrite !fold_left_app. cbn [fold_left].
  assert (T : together false (handle new_printer EvModuleStart) (handle new_printer EvModuleStart)).
  { split; [repeat split|]. split; [reflexivity|]. split; [reflexivity|]. split; [reflexivity|].
    cbn. exists [], (lit "(module"), [], (lit "(module"). repeat split; constructor || discriminate. }
  assert (Ho' : Forall one_line l).
  { inversion Ho; subst. apply Forall_app in H2 as [H2 _]. exact H2. }
  destruct (together_steps l false _ _ false T Ho' Hst) as ((S1 & S2 & S3) & _ & C).
  set (p := fold_left handle l _) in *. set (q := fold_left handle_verbose l _) in *.
  cbn [handle handle_verbose send_all p_out p_stdout]. split; [|now symmetry].
  pose proof (clean_sends [Rq End; Rq Fresh] _ _ C) as (_ & _ & (A & x & B & y & H1 & H2 & H3 & H4 & _)).
  unfold only_comments_added. rewrite H1, H2, !map_app. apply wc_app; [exact H3|]. cbn [map]. rewrite H4. apply wc_refl.
Qed.
