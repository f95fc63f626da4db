From Coq Require Import ZArith String Ascii List Bool Lia Decimal DecimalString.
From Verif Require Import Outcome VarIntModel StreamModel SexprModel SexprSpec WasmModel WasmSpec WasmProofs DisModel DisSpec.
Import ListNotations.
Local Open Scope Z_scope.

(** * Characters *)
Definition is_paren (c : ascii) : bool := Ascii.eqb c "("%char || Ascii.eqb c ")"%char.
Definition silent (s : str) : Prop := forallb (fun c => negb (is_paren c)) s = true.
Lemma silent_app a b : silent a -> silent b -> silent (a ++ b).
Proof. unfold silent. rewrite forallb_app. intros -> ->. reflexivity. Qed.
Lemma nesting_app a : forall d b, nesting d (a ++ b) = match nesting d a with Some d' => nesting d' b | None => None end.
Proof.
  induction a as [|c a IH]; intros d b; [reflexivity|]; rewrite <- app_comm_cons; cbn [nesting].
  destruct (Ascii.eqb c "("); [apply IH|]. destruct (Ascii.eqb c ")"); [destruct d; [reflexivity|apply IH]|apply IH].
Qed.
Lemma nesting_silent s : silent s -> forall d, nesting d s = Some d.
Proof.
  unfold silent. induction s as [|c s IH]; cbn [forallb nesting]; intros H d; [reflexivity|].
  apply andb_prop in H as [Hc H]. unfold is_paren in Hc. apply negb_true_iff, orb_false_iff in Hc as [-> ->]. auto.
Qed.
Lemma chr_paren v : quiet v -> is_paren (chr v) = false.
Proof.
  unfold quiet, chr, is_paren. intros [H1 H2]. pose proof (Z.mod_pos_bound v 256 ltac:(lia)) as Hb.
  apply orb_false_iff. split; apply Ascii.eqb_neq; intros E.
  - apply (f_equal nat_of_ascii) in E. rewrite nat_ascii_embedding in E by lia. cbn in E. lia.
  - apply (f_equal nat_of_ascii) in E. rewrite nat_ascii_embedding in E by lia. cbn in E. lia.
Qed.
Lemma chr_inj a b : 0 <= a < 256 -> 0 <= b < 256 -> chr a = chr b -> a = b.
Proof.
  unfold chr. intros Ha Hb E. rewrite !Z.mod_small in E by lia. apply (f_equal nat_of_ascii) in E.
  rewrite !nat_ascii_embedding in E by lia. lia.
Qed.
Lemma silent_num v : quiet v -> silent [chr v].
Proof. intros H. unfold silent. cbn. now rewrite chr_paren. Qed.
Lemma silent_text b : Forall quiet b -> silent (text b).
Proof. unfold silent, text. induction 1; cbn; [reflexivity|]. now rewrite chr_paren, IHForall. Qed.
Lemma silent_indent n : silent (indent_string n).
Proof. induction n; cbn [indent_string]; [reflexivity|]. apply silent_app; [exact IHn|reflexivity]. Qed.
Definition is_digit (c : ascii) : bool := existsb (Ascii.eqb c) (list_ascii_of_string "0123456789").
Lemma digits_of_uint d : forallb is_digit (lit (NilEmpty.string_of_uint d)) = true.
Proof. induction d; cbn [NilEmpty.string_of_uint lit list_ascii_of_string]; [reflexivity|..]; unfold lit in *; cbn [list_ascii_of_string forallb]; rewrite IHd; reflexivity. Qed.
Lemma decimal_digits n : forallb is_digit (decimal n) = true.
Proof.
  unfold decimal, NilZero.string_of_uint. destruct (N.to_uint (Z.to_N n)) eqn:E; [reflexivity|..]; rewrite <- E; apply digits_of_uint.
Qed.
Lemma decimal_nonempty n : decimal n <> [].
Proof. unfold decimal, NilZero.string_of_uint. destruct (N.to_uint (Z.to_N n)) eqn:E; discriminate. Qed.
Lemma digit_cases c : is_digit c = true -> In c (list_ascii_of_string "0123456789").
Proof. unfold is_digit. rewrite existsb_exists. intros (x & Hin & E). apply Ascii.eqb_eq in E. now subst. Qed.
Lemma silent_decimal n : silent (decimal n).
Proof.
  unfold silent. pose proof (decimal_digits n) as H. rewrite forallb_forall in *. intros c Hc. specialize (H c Hc).
  apply digit_cases in H. cbn in H. decompose [or] H; subst; try reflexivity; contradiction.
Qed.
(** the names of operators: lower-case letters, digits and '_' *)
Definition name_char (c : ascii) : bool :=
  negb (is_paren c) && negb (Ascii.eqb c SP) && negb (Ascii.eqb c NL).
Definition good_name (s : String.string) : bool :=
  match lit s with [] => false | l => forallb name_char l end.
Lemma lookup_good t op : forallb (fun p => forallb good_name (snd p)) t = true -> good_name (lookup_name t op) = true.
Proof.
  induction t as [|[f ns] t IH]; cbn [lookup_name forallb snd]; intros H; [reflexivity|].
  apply andb_prop in H as [Hn Ht]. destruct (_ && _); [|auto].
  rewrite forallb_forall in Hn. destruct (nth_in_or_default (Z.to_nat (op - f)) ns "unknown"%string) as [Hi|E]; [auto|].
  rewrite E. reflexivity.
Qed.
Lemma op_name_good op : good_name (lookup_name op_names op) = true.
Proof. apply lookup_good. vm_compute. reflexivity. Qed.
Lemma name_silent l : forallb name_char l = true -> silent l.
Proof.
  unfold silent. rewrite !forallb_forall. intros H c Hc. specialize (H c Hc). unfold name_char in H.
  apply andb_prop in H as [H _]. apply andb_prop in H as [H _]. exact H.
Qed.
Lemma good_name_silent s : good_name s = true -> silent (lit s).
Proof. unfold good_name. destruct (lit s) eqn:E; [discriminate|]. intros H. apply name_silent. exact H. Qed.

(** * What is sent to the formatter, as nesting *)
Definition step (d : nat) (o : out) : option nat :=
  match o with
  | Rq (Atom s) => nesting d s
  | Rq Start => Some (S d)
  | Rq End => match d with O => None | S d => Some d end
  | _ => Some d
  end.
Fixpoint steps (d : nat) (l : list out) : option nat :=
  match l with [] => Some d | o :: l => match step d o with Some d => steps d l | None => None end end.
Lemma steps_app a : forall d b, steps d (a ++ b) = match steps d a with Some d' => steps d' b | None => None end.
Proof. induction a as [|o a IH]; intros d b; [reflexivity|]. rewrite <- app_comm_cons. cbn [steps]. destruct (step d o); auto. Qed.
Lemma nesting_spacing f d : nesting 0 (buffer f) = Some d -> nesting 0 (buffer (spacing f)) = Some d.
Proof.
  intros H. unfold spacing. cbn [buffer]. destruct (fresh f).
  - rewrite nesting_app, H. apply nesting_silent, silent_indent.
  - destruct (needsSpacing f); [|exact H]. rewrite nesting_app, H. reflexivity.
Qed.
Lemma nesting_send f o d : nesting 0 (buffer f) = Some d -> nesting 0 (buffer (send f o)) = step d o.
Proof.
  intros H. destruct o as [[s| | |]| |]; cbn [send step buffer put]; auto.
  - rewrite nesting_app, (nesting_spacing f d H). reflexivity.
  - rewrite nesting_app, (nesting_spacing f d H). reflexivity.
  - rewrite nesting_app, H. destruct d; reflexivity.
  - unfold freshen. destruct (fresh f); [exact H|]. cbn [buffer]. rewrite nesting_app, H. reflexivity.
Qed.
Lemma nesting_sends l : forall f d d', nesting 0 (buffer f) = Some d -> steps d l = Some d' ->
  nesting 0 (buffer (fold_left send l f)) = Some d'.
Proof.
  induction l as [|o l IH]; intros f d d' H Hs; cbn [steps fold_left] in *; [congruence|].
  destruct (step d o) as [d1|] eqn:E; [|discriminate]. eapply IH; [|exact Hs]. rewrite (nesting_send f o d H). exact E.
Qed.

Definition level (l : list out) : Prop := forall d, steps d l = Some d.
Lemma level_nil : level []. Proof. intros d. reflexivity. Qed.
Lemma level_app a b : level a -> level b -> level (a ++ b).
Proof. intros Ha Hb d. rewrite steps_app, Ha. apply Hb. Qed.
Lemma level_cons o l : level [o] -> level l -> level (o :: l).
Proof. intros Ha Hb. apply (level_app [o] l Ha Hb). Qed.
Lemma level_paren l : level l -> level (paren l).
Proof. intros H d. unfold paren. change ([Rq Start] ++ l ++ [Rq End]) with (Rq Start :: (l ++ [Rq End])). change (steps (S d) (l ++ [Rq End]) = Some d). rewrite steps_app, H. reflexivity. Qed.
Lemma level_atom s : silent s -> level [Rq (Atom s)].
Proof. intros H d. cbn. now rewrite nesting_silent. Qed.
Lemma level_word s : silent (lit s) -> level [word s].
Proof. apply level_atom. Qed.
Lemma level_num v : quiet v -> level [num v].
Proof. intros H. apply level_atom, silent_num, H. Qed.
Lemma level_type c : level [type_name c].
Proof.
  apply level_word. repeat match goal with |- silent (lit (if ?b then _ else _)) => destruct b; [reflexivity|] end. reflexivity.
Qed.
Lemma level_kind c : level [kind_name c].
Proof.
  apply level_word. repeat match goal with |- silent (lit (if ?b then _ else _)) => destruct b; [reflexivity|] end. reflexivity.
Qed.
Lemma level_op c : level [op_name c].
Proof. apply level_word, good_name_silent, op_name_good. Qed.
Lemma level_map {A} (f : A -> list out) l : (forall a, In a l -> level (f a)) -> level (flat_map f l).
Proof. induction l as [|a l IH]; cbn [flat_map]; intros H; [apply level_nil|]. apply level_app; [apply H; now left|apply IH; intros; apply H; now right]. Qed.
Lemma level_nums l : Forall quiet l -> level (map num l).
Proof. induction 1; cbn [map]; [apply level_nil|]. apply level_cons; [now apply level_num|assumption]. Qed.
Lemma level_imm i : Forall quiet (imm_numbers i) -> level (p_imm i).
Proof.
  destruct i; cbn [imm_numbers p_imm]; intros H; [apply level_nil|apply level_type|..];
    try (apply level_nums in H; exact H).
  inversion H as [|? ? Hd Ht]; subst. apply level_app.
  - apply level_cons; [apply level_word; reflexivity|]. apply level_num, Hd.
  - destruct targets; [apply level_nil|]. inversion Ht; subst. now apply level_num.
Qed.
Lemma level_expr e : Forall quiet (imm_numbers (e_imm e)) -> level (p_expr e).
Proof. intros H. apply level_cons; [apply level_op|now apply level_imm]. Qed.
Lemma level_limits l : Forall quiet (limits_numbers l) -> level (p_limits l).
Proof.
  unfold limits_numbers, p_limits. intros H. inversion H as [|? ? H1 H2]; subst. apply level_cons; [now apply level_num|].
  destruct (li_max l); [|apply level_nil]. inversion H2; subst. now apply level_num.
Qed.
Lemma silent_string s : silent s -> silent (stringify s).
Proof. intros H. unfold stringify. apply (silent_app [_] _); [reflexivity|]. apply silent_app; [exact H|reflexivity]. Qed.
Lemma silent_data d : Forall quiet d -> silent (data_text d).
Proof.
  intros H. unfold data_text. apply (silent_app [_] _); [reflexivity|]. apply silent_app; [|reflexivity].
  induction H as [|b d Hb _ IH]; cbn [flat_map]; [reflexivity|]. apply silent_app; [|exact IH].
  unfold data_char. destruct (_ && _); [now apply silent_num|]. apply (silent_app [_] [_]); [reflexivity|now apply silent_num].
Qed.
Ltac lv :=
  repeat first [ apply level_nil | apply level_type | apply level_kind | apply level_op
               | apply level_num; assumption
               | match goal with |- level [word _] => apply level_word; reflexivity end
               | match goal with |- level [Rq Fresh] => intros ?; reflexivity end
               | match goal with |- level [Inc] => intros ?; reflexivity end
               | match goal with |- level [Dec] => intros ?; reflexivity end
               | apply level_paren | apply level_app
               | match goal with |- level (_ :: ?l) => match l with [] => fail 1 | _ => apply level_cons end end ].
Lemma level_ftype t : level (p_ftype t).
Proof.
  unfold p_ftype. apply level_cons; [lv|]. apply level_paren. apply level_cons; [lv|]. apply level_app.
  - destruct (ft_params t) as [|p ps]; [lv|]. apply level_paren, level_cons; [lv|].
    generalize (p :: ps) as l. induction l; cbn [map]; lv. exact IHl.
  - destruct (ft_return t); lv.
Qed.
Lemma level_gtype g : level (p_gtype g).
Proof. unfold p_gtype. destruct (gt_mutable g); lv. Qed.
Lemma level_import m f d : Forall quiet (event_numbers (EvImport m f d)) -> level (p_import m f d).
Proof.
  cbn [event_numbers]. intros H. apply Forall_app in H as [Hm H]. apply Forall_app in H as [Hf H].
  unfold p_import. apply level_paren. apply level_app.
  - apply level_cons; [lv|]. apply level_cons; [apply level_atom, silent_string, silent_text, Hm|].
    apply level_cons; [apply level_atom, silent_string, silent_text, Hf|].
    assert (Hk : silent [chr (import_kind d)]) by (destruct d; reflexivity).
    intros k. cbn [steps step word num]. change (nesting k (lit "(;")) with (Some (S k)). cbn [steps].
    rewrite (nesting_silent (lit "kind") eq_refl), (nesting_silent _ Hk). reflexivity.
  - destruct d; cbn [p_table p_memory].
    + inversion H; subst. lv.
    + unfold p_table. apply level_paren, level_cons; [lv|]. apply level_app; [now apply level_limits|lv].
    + unfold p_memory. apply level_paren, level_cons; [lv|]. now apply level_limits.
    + apply level_gtype.
Qed.
Lemma level_locals ls : level (p_locals ls).
Proof.
  unfold p_locals. apply level_paren, level_app.
  - apply level_cons; [lv|]. apply level_atom, silent_decimal.
  - apply level_map. intros l _. apply level_cons; [lv|]. apply level_map. intros. lv.
Qed.
Lemma level_body_expr d e : Forall quiet (imm_numbers (e_imm e)) -> level (fst (p_body_expr d e)).
Proof.
  intros H. pose proof (level_expr e H) as He. unfold p_body_expr.
  destruct (_ || _); [|destruct (_ =? 11); [destruct d|destruct (_ =? 5)]]; cbn [fst];
    repeat first [exact He | apply level_app; [exact He|] | apply level_cons; [lv; fail|] | lv; fail].
Qed.

(** * Nesting of the events *)
Definition ev_step (d : nat) (e : event) : option nat :=
  match e with
  | EvModuleStart | EvElementEntry _ _ _ | EvBody _ _ => Some (S d)
  | EvModuleEnd | EvElementEnd | EvBodyEnd => match d with O => None | S d => Some d end
  | _ => Some d
  end.
Fixpoint ev_steps (d : nat) (l : list event) : option nat :=
  match l with [] => Some d | e :: l => match ev_step d e with Some d => ev_steps d l | None => None end end.
Lemma ev_steps_app a : forall d b, ev_steps d (a ++ b) = match ev_steps d a with Some d' => ev_steps d' b | None => None end.
Proof. induction a as [|o a IH]; intros d b; [reflexivity|]. rewrite <- app_comm_cons. cbn [ev_steps]. destruct (ev_step d o); auto. Qed.
Lemma nesting_sent p l d d' : nesting 0 (buffer (p_out p)) = Some d -> steps d l = Some d' ->
  nesting 0 (buffer (p_out (send_all p l))) = Some d'.
Proof. intros H Hs. unfold send_all. cbn [p_out]. eapply nesting_sends; eauto. Qed.
Lemma nesting_handle p e d : nesting 0 (buffer (p_out p)) = Some d -> Forall quiet (event_numbers e) ->
  forall d', ev_step d e = Some d' -> nesting 0 (buffer (p_out (handle p e))) = Some d'.
Proof.
  intros H Hq d' Hs.
  destruct e; cbn [event_numbers] in Hq; cbn [ev_step] in Hs; cbn [handle];
    try (injection Hs as <-; exact H).
  - eapply nesting_sent; [exact H|]. cbn. congruence.
  - injection Hs as <-. eapply nesting_sent; [exact H|]. apply level_cons; [lv|apply level_ftype].
  - injection Hs as <-. eapply nesting_sent; [exact H|]. apply level_cons; [lv|now apply level_import].
  - injection Hs as <-. eapply nesting_sent; [exact H|]. apply level_cons; [lv|]. apply level_paren, level_cons; [lv|].
    apply level_app; [apply level_gtype|]. apply level_paren. now apply level_expr.
  - injection Hs as <-. eapply nesting_sent; [exact H|]. apply level_cons; [lv|].
    apply Forall_app in Hq as [Hf Hi]. inversion Hi; subst. unfold p_export. apply level_paren. apply level_app; [|lv].
    apply level_cons; [lv|]. apply level_atom, silent_string, silent_text, Hf.
  - injection Hs as <-. eapply nesting_sent; [exact H|]. rewrite steps_app. cbn [steps step].
    change (step (S d) (word "elem")) with (Some (S d)). cbv beta iota. apply level_paren. now apply level_expr.
  - injection Hs as <-. eapply nesting_sent; [exact H|]. inversion Hq; subst. lv.
  - eapply nesting_sent; [exact H|]. cbn. destruct d; congruence.
  - injection Hs as <-. cbn [p_out].
    match goal with |- nesting 0 (buffer (p_out (send_all p (?a ++ ?b)))) = _ => set (x := b) end.
    assert (Hx : level x).
    { subst x. apply level_app; [|apply level_app; [lv|apply level_locals]].
      apply level_paren, level_cons; [lv|]. apply level_atom, silent_decimal. }
    eapply nesting_sent; [exact H|]. exact (Hx (S d)).
  - injection Hs as <-. pose proof (level_body_expr (p_depth p) e Hq) as L. destruct (p_body_expr (p_depth p) e) as [l k].
    cbn [fst] in L. cbn [p_out]. fold (send_all p l). eapply nesting_sent; [exact H|apply L].
  - eapply nesting_sent; [exact H|]. cbn. destruct d; congruence.
  - injection Hs as <-. eapply nesting_sent; [exact H|]. apply Forall_app in Hq as [Hi Hd]. apply level_cons; [lv|].
    unfold p_data. apply level_paren, level_cons; [lv|]. apply level_app; [now apply level_expr|]. apply level_atom, silent_data, Hd.
  - eapply nesting_sent; [exact H|]. cbn. destruct d; congruence.
Qed.
Lemma nesting_events l : forall p d d', nesting 0 (buffer (p_out p)) = Some d ->
  Forall (fun e => Forall quiet (event_numbers e)) l -> ev_steps d l = Some d' ->
  nesting 0 (buffer (p_out (fold_left handle l p))) = Some d'.
Proof.
  induction l as [|e l IH]; intros p d d' H Hq Hs; cbn [fold_left ev_steps] in *; [congruence|].
  inversion Hq; subst. destruct (ev_step d e) as [d1|] eqn:E; [|discriminate].
  eapply IH; [|assumption|exact Hs]. eapply nesting_handle; eauto.
Qed.

(** * The shape of what the reader reports *)
Definition logs {A} (P : list event -> Prop) (m : M A) : Prop :=
  forall s a s', m s = Ok (a, s') -> exists ext, w_log s' = w_log s ++ ext /\ P ext.
Definition even (l : list event) : Prop := forall d, ev_steps d l = Some d.
Lemma logs_bind {A B} (P Q R : list event -> Prop) (m : M A) (k : A -> M B) :
  logs P m -> (forall a, logs Q (k a)) -> (forall x y, P x -> Q y -> R (x ++ y)) -> logs R (mbind m k).
Proof.
  intros Hm Hk Hr s b s' E. unfold mbind in E. apply bind_ok in E as ((a & s1) & E1 & E2).
  destruct (Hm s a s1 E1) as (x & Hx & Px). destruct (Hk a s1 b s' E2) as (y & Hy & Qy).
  exists (x ++ y). rewrite Hy, Hx, app_assoc. auto.
Qed.
Lemma even_app x y : even x -> even y -> even (x ++ y).
Proof. intros Hx Hy d. rewrite ev_steps_app, Hx. apply Hy. Qed.
Lemma even_nil : even []. Proof. intros d. reflexivity. Qed.
Definition quietly {A} (m : M A) : Prop := forall s a s', m s = Ok (a, s') -> w_log s' = w_log s.
Lemma quietly_even {A} (m : M A) : quietly m -> logs even m.
Proof. intros H s a s' E. exists []. rewrite app_nil_r. split; [eapply H; eauto|apply even_nil]. Qed.
Lemma even_bind {A B} (m : M A) (k : A -> M B) : logs even m -> (forall a, logs even (k a)) -> logs even (mbind m k).
Proof. intros Hm Hk. eapply logs_bind; eauto using even_app. Qed.
Lemma q_bind {A B} (m : M A) (k : A -> M B) : quietly m -> (forall a, quietly (k a)) -> quietly (mbind m k).
Proof.
  intros Hm Hk s b s' E. unfold mbind in E. apply bind_ok in E as ((a & s1) & E1 & E2).
  rewrite (Hk a s1 b s' E2). eauto.
Qed.
Lemma q_ret {A} (a : A) : quietly (ret a).
Proof. intros s b s' E. injection E as <- <-. reflexivity. Qed.
Lemma q_throw {A} e : quietly (@throw A e).
Proof. intros s b s' E. discriminate. Qed.
Lemma q_ub {A} u : quietly (fun _ => @UB (A * wst) u).
Proof. intros s b s' E. discriminate. Qed.
Lemma q_trap {A} u : quietly (fun _ => @Trap (A * wst) u).
Proof. intros s b s' E. discriminate. Qed.
Lemma q_on_stream {A} (f : stream -> outcome (A * stream)) : quietly (on_stream f).
Proof.
  intros s b s' E. unfold on_stream in E. destruct (w_stuck s).
  - apply bind_ok in E as ((a & i) & _ & E). injection E as <- <-. reflexivity.
  - apply bind_ok in E as ((a & i) & _ & E). injection E as <- <-. reflexivity.
Qed.
Lemma q_get : quietly get.
Proof.
  intros s b s' E. unfold get in E. destruct (w_stuck s); [injection E as <- <-; reflexivity|].
  destruct (s_get (w_in s)). injection E as <- <-. reflexivity.
Qed.
Lemma q_in_read n : quietly (in_read n).
Proof. intros s b s' E. unfold in_read in E. destruct (w_fail s); [|destruct (_ <=? _)]; injection E as <- <-; reflexivity. Qed.
Lemma q_uint n : quietly (uint n).
Proof.
  intros s b s' E. unfold uint in E. destruct (w_fail s); [discriminate|].
  revert E. apply (q_bind (in_read n) (fun b => ret (le_value b))); [apply q_in_read|intros; apply q_ret].
Qed.
Lemma q_number n : quietly (read_number n).
Proof.
  intros s b s' E. unfold read_number in E. destruct (w_stuck s); [discriminate|].
  apply bind_ok in E as ((a & i) & _ & E). injection E as <- <-. reflexivity.
Qed.
Lemma q_seekg b n : quietly (seekg b n).
Proof. intros s a s' E. unfold seekg in E. destruct (w_fail s); [|destruct (_ <=? _); [|destruct b]]; injection E as <- <-; reflexivity. Qed.
Lemma q_alloc c n : quietly (alloc c n).
Proof. unfold alloc. destruct (_ <=? _); [apply q_ret|apply q_throw]. Qed.
Lemma q_collect {A} (f : M A) : quietly f -> forall n, quietly (collect n f).
Proof. intros Hf. induction n; cbn [collect]; [apply q_ret|]. apply q_bind; [exact Hf|]. intros. apply q_bind; [exact IHn|]. intros. apply q_ret. Qed.
Ltac qt :=
  repeat first [ apply q_ret | apply q_throw | apply q_ub | apply q_trap | apply q_get | apply q_on_stream | apply q_in_read
               | apply q_uint | apply q_number | apply q_seekg | apply q_alloc | apply q_collect
               | match goal with |- quietly (mbind _ _) => apply q_bind; [|intros] end
               | match goal with |- quietly (if ?b then _ else _) => destruct b end
               | match goal with |- quietly (match ?b with _ => _ end) => destruct b end
               | progress unfold type_code, varuint, varint, string, resizable_limits, global_type, table_type, read_imm,
                   local_entry, custom_section ].
Lemma q_expr c : quietly (read_expr c).
Proof. unfold read_expr. qt. Qed.
Lemma q_init c : quietly (init_expr c).
Proof. unfold init_expr. qt; apply q_expr. Qed.
Lemma even_iter (f : Z -> M unit) : (forall i, logs even (f i)) -> forall n i, logs even (iter n i f).
Proof. intros Hf. induction n; intros i; cbn [iter]; [apply quietly_even, q_ret|]. apply even_bind; auto. Qed.
Lemma logs_emit e : logs (fun l => l = [e]) (emit e).
Proof. intros s a s' E. injection E as <- <-. eexists. split; reflexivity. Qed.
Lemma even_emit e : (forall d, ev_step d e = Some d) -> logs even (emit e).
Proof. intros H s a s' E. destruct (logs_emit e s a s' E) as (x & Hx & ->). exists [e]. split; [exact Hx|]. intros d. cbn. now rewrite H. Qed.
Lemma even_between {A} a b (m : M A) : logs even m -> (forall d, ev_step d a = Some (S d)) -> (forall d, ev_step (S d) b = Some d) ->
  forall k : A -> M unit, (forall x, k x = emit b) -> logs even (mbind (emit a) (fun _ => mbind m k)).
Proof.
  intros Hm Ha Hb k Hk. eapply (logs_bind (fun l => l = [a]) (fun y => exists z, y = z ++ [b] /\ even z)).
  - apply logs_emit.
  - intros _. eapply (logs_bind even (fun l => l = [b])); [exact Hm|intros; rewrite Hk; apply logs_emit|].
    intros x y Hx ->. exists x. auto.
  - intros x y -> (z & -> & Hz) d. rewrite ev_steps_app. cbn [ev_steps]. rewrite Ha. rewrite ev_steps_app, Hz. cbn [ev_steps]. now rewrite Hb.
Qed.
Ltac ev :=
  repeat first [ match goal with |- logs even (emit _) => apply even_emit; intros; reflexivity end
               | match goal with |- logs even (ret _) => apply quietly_even, q_ret end
               | match goal with |- logs even (throw _) => apply quietly_even, q_throw end
               | match goal with |- logs even (iter _ _ _) => apply even_iter; intros end
               | match goal with |- logs even (for_count _ _) => unfold for_count end
               | match goal with |- logs even (mbind (emit (EvElementEntry _ _ _)) _) =>
                   apply (even_between (EvElementEntry _ _ _) EvElementEnd); try (intros; reflexivity) end
               | match goal with |- logs even (mbind (emit (EvBody _ _)) _) =>
                   apply (even_between (EvBody _ _) EvBodyEnd); try (intros; reflexivity) end
               | match goal with |- logs even (mbind _ _) => apply even_bind; [|intros] end
               | match goal with |- logs even (init_expr _) => apply quietly_even, q_init end
               | match goal with |- logs even (if ?b then _ else _) => destruct b end
               | apply quietly_even; qt; fail ].
Lemma even_sections c : (forall i b, logs even (c_body c i b)) -> forall fuel, logs even (sections c fuel).
Proof.
  intros Hv.
  assert (Hs : forall code, logs even (section c code)).
  { intros code. unfold section. apply even_bind; [ev|intros l]. apply even_bind; [ev|intros nm]. apply even_bind; [ev|intros _].
    apply even_bind; [|intros; ev].
    repeat match goal with |- logs even (if ?b then _ else _) => destruct b end; try (ev; fail).
    - unfold type_section, function_type. ev.
    - unfold import_section, import_entry. ev.
    - unfold function_section. ev.
    - unfold global_section. ev.
    - unfold export_section. ev.
    - unfold element_section. unfold element_entry. ev.
    - unfold code_section. unfold function_body. ev. apply Hv.
    - unfold data_section, data_segment. ev. }
  induction fuel as [|fuel IH]; cbn [sections]; [intros s a s' E; discriminate|].
  intros s a s' E. destruct (w_eof s).
  { injection E as <- <-. exists []. rewrite app_nil_r. split; [reflexivity|apply even_nil]. }
  revert s a s' E. apply even_bind; [ev|]. intros code s a s' E. destruct (w_eof s).
  { injection E as <- <-. exists []. rewrite app_nil_r. split; [reflexivity|apply even_nil]. }
  revert s a s' E. apply even_bind; auto.
Qed.
Lemma even_expr_loop c f start size : (forall e, logs even (f e)) -> forall fuel, logs even (expr_loop c fuel start size f).
Proof.
  intros Hf. induction fuel as [|fuel IH]; cbn [expr_loop]; [intros s a s' E; discriminate|].
  apply even_bind; [apply quietly_even, q_expr|]. intros e. apply even_bind; [apply Hf|]. intros _ s a s' E.
  destruct (_ <? size); [eapply IH; eauto|]. injection E as <- <-. exists []. rewrite app_nil_r. split; [reflexivity|apply even_nil].
Qed.
Lemma even_disasm_body lim i b : logs even (disasm_body lim i b).
Proof.
  intros s a s' E. unfold disasm_body in E. destruct (_ <=? i); [discriminate|]. revert E. unfold read_exprs. apply even_expr_loop.
  intros e. unfold print_expr. destruct (e_imm e); ev.
Qed.
Lemma read_module_shape c input evs : (forall i b, logs even (c_body c i b)) -> read_module c input = Ok evs ->
  ev_steps 0 evs = Some 0%nat.
Proof.
  intros Hv H. unfold read_module in H. apply bind_ok in H as ((u & s) & E & H). injection H as <-.
  assert (L : logs even (module c)).
  { unfold module. eapply (logs_bind (fun l => l = [EvModuleStart]) (fun y => exists z, y = z ++ [EvModuleEnd] /\ even z)).
    - apply logs_emit.
    - intros _. eapply (logs_bind even (fun y => exists z, y = z ++ [EvModuleEnd] /\ even z)).
      + unfold header. ev.
      + intros _. eapply (logs_bind even (fun l => l = [EvModuleEnd])).
        * intros s0 a s' E0. revert E0. apply even_sections, Hv.
        * intros; apply logs_emit.
        * intros x y Hx ->. exists x. auto.
      + intros x y Hx (z & -> & Hz). exists (x ++ z). rewrite app_assoc. auto using even_app.
    - intros x y -> (z & -> & Hz) d. rewrite ev_steps_app. cbn [ev_steps ev_step]. rewrite ev_steps_app, Hz. reflexivity. }
  destruct (L _ _ _ E) as (ext & Hx & He). cbn [w_log app] in Hx. rewrite Hx. apply He.
Qed.
