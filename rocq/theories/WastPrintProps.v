(** Theorems about what the lexer of the WebAssembly text format, and ab-asm with it, prints: C159 and C160. *)

From Coq Require Import String Ascii ZArith List Bool Lia.
From Verif Require Import Outcome LexModel SpellSpec SpellProps WastModel WastSpec WastProofs WastProps CmdModel AsmModel AsmSpec AsmProofs AsmProps
  WastPrintModel WastPrintSpec WastPrintProofs.
Import ListNotations.
Local Open Scope Z_scope.

Lemma spells_bytes n : Forall (fun c => 0 <= c < 256) n -> spells n (byte_text n).
Proof.
  induction 1 as [|c n Hc _ IH]; [constructor|]. cbn [byte_text map].
  assert (E : c = Z.of_nat (nat_of_ascii (ascii_of_nat (Z.to_nat c)))) by (rewrite nat_ascii_embedding by lia; lia).
  rewrite E at 1. now constructor.
Qed.
Lemma word_byte c : word_char c -> 0 <= c < 256.
Proof.
  intros H. apply word_char_ok in H. unfold is_allowed, is_alnum, is_digit, is_alpha in H. cbn [existsb] in H. lia.
Qed.

Lemma texts_tell past w ps tail : pieces_of past w ps tail -> tells_all ps (flat_map piece_text ps).
Proof.
  assert (W : forall n, Forall word_char n -> spells n (byte_text n)).
  { intros n F. apply spells_bytes. eapply Forall_impl; [|exact F]. exact word_byte. }
  induction 1 as [past|past w ps tail Nx _ IH|past n w ps tail N N1 F Nx _ IH|past k c w ps tail K _ IH|past k n w ps tail K Nx _ IH|past c w N1 N2 N3 N4 N5];
    cbn [flat_map]; constructor; auto.
  - apply te_line.
  - apply te_blank.
  - destruct K as [(-> & _)|(-> & _)]; [apply te_lparen|apply te_rparen]; apply loc_text_shows, location_counted.
  - destruct K as [(-> & _ & F)|(-> & m & -> & _ & F)].
    + apply te_name; [auto|apply loc_text_shows, location_counted|apply loc_text_shows, location_counted].
    + apply te_identifier; [|apply loc_text_shows, location_counted|apply loc_text_shows, location_counted].
      apply spells_bytes. apply Forall_app. split; [repeat constructor; cbn; lia|]. eapply Forall_impl; [|exact F]. exact word_byte.
Qed.

(** ** C159 *)

(** Every text has a reading, and lexing it prints the lines of its pieces in order; the tokens that are
    given are the words among the pieces. *)
Theorem C159_printed_pieces b text : Z.of_nat (length text) + 1 < 2 ^ 31 ->
  (exists ps tail, pieces_of [] text ps tail) /\
  forall ps tail, pieces_of [] text ps tail ->
    exists lx t, plex (mapped text) (b, 0) text true (new_wlexer start_loc, []) = Ok (lx, t) /\
      tells_all ps t /\ wl_out lx = map (token_of b) (words_of ps).
Proof.
  intros Sm. split; [now apply (pieces_total (length text))|]. intros ps tail P.
  destruct (pieces_run b text Sm [] text ps tail P [] None (new_wlexer start_loc, [])) as (px & R & En).
  - reflexivity.
  - constructor; reflexivity.
  - discriminate.
  - destruct (ended_finish b text _ px En) as (lx & F). cbn [app] in F.
    assert (E : plex (mapped text) (b, 0) text true (new_wlexer start_loc, []) = Ok (lx, flat_map piece_text ps)).
    { unfold plex. change (b, 0) with (at_off b []). rewrite R. cbn [bind]. exact F. }
    exists lx, (flat_map piece_text ps). split; [exact E|]. split; [now apply (texts_tell [] text ps tail)|].
    assert (Same : unprinted (plex (mapped text) (b, 0) text true (new_wlexer start_loc, [])) = wlex (b, 0) text true (new_wlexer start_loc)) by apply plex_same.
    rewrite E in Same. cbn [unprinted bind fst] in Same.
    destruct (C111_tokens_and_locations b text Sm) as (_ & H). destruct (H _ _ (pieces_lexes _ _ _ _ P)) as (lx' & E' & O). congruence.
Qed.

(** Printing changes nothing else: for every state, every call of lex, whatever it does. *)
Theorem C159_printing_changes_nothing mem p text eof lx out :
  (do px <- plex mem p text eof (lx, out); Ok (fst px)) = wlex p text eof lx.
Proof. exact (plex_same mem p text eof lx out). Qed.

(** The whole standard output of ab-asm: the lines of the pieces, then those of the tokens. *)
Theorem C159_output_of_ab_asm addr s name text ps tail :
  y_files s name = Some (Regular text) -> text <> [] -> Z.of_nat (length text) + 1 < 2 ^ 31 -> can_map addr s text ->
  pieces_of [] text ps tail ->
  exists s' t u, asm_file_all addr s name = Ok (0, s') /\ same_but_printed s s' (t ++ u) /\
    tells_all ps t /\ shows_all (map range_of (words_of ps)) u.
Proof.
  intros F N Sm (Fd & St & Mp & Ad & Mn) P.
  destruct (C159_printed_pieces addr text Sm) as (_ & H). destruct (H ps tail P) as (lx & t & El & Tl & Ol).
  assert (Nz : Z.of_nat (length text) =? 0 = false) by (apply Z.eqb_neq; destruct text; [easy|cbn [length]; lia]).
  assert (Na : addr =? 0 = false) by now apply Z.eqb_neq.
  unfold asm_file_all, input_open. rewrite F, lowest_pos by auto. cbn [y_stat_ok y_map_ok with_fds]. rewrite St, Mp, Nz. cbn [negb andb].
  unfold input_ok. cbn [i_buffer]. rewrite Na. cbn [negb]. unfold go_all. cbn [i_buffer i_text]. rewrite El. cbn [bind fst snd].
  eexists. exists t, (flat_map token_line (map (token_of addr) (words_of ps))). split; [reflexivity|]. split; [|split; [exact Tl|apply lines_show]].
  unfold same_but_printed, input_close, unmap, close_fd, with_maps, with_fds, print_out. cbn [i_buffer i_nbytes i_fd y_files y_fds y_maps y_err y_out].
  conjs; try reflexivity.
  - now apply remove_new, lowest_unused.
  - now apply remove_new.
  - now rewrite Ol, app_assoc.
Qed.

(** In every case the lexer's lines are all the difference from what C121 to C123 speak of: its lines
    come before those of the tokens. *)
Theorem C159_nothing_else addr s name :
  match asm_file addr s name, asm_file_all addr s name with
  | Ok (rc, s1), Ok (rc2, s2) => rc2 = rc /\ y_files s2 = y_files s1 /\ y_fds s2 = y_fds s1 /\ y_maps s2 = y_maps s1 /\ y_err s2 = y_err s1 /\
      exists t u, y_out s1 = y_out s ++ u /\ y_out s2 = y_out s ++ t ++ u
  | Throw e1, Throw e2 => e1 = e2
  | Trap a, Trap b => a = b
  | UB a, UB b => a = b
  | OutOfFuel, OutOfFuel => True
  | _, _ => False
  end.
Proof.
  unfold asm_file, asm_file_all.
  assert (O : y_out (snd (input_open addr s name)) = y_out s).
  { unfold input_open. destruct (y_files s name) as [f|]; [|reflexivity]. destruct (_ <? 1)%nat; [reflexivity|].
    destruct (negb (y_stat_ok _)); [reflexivity|]. destruct f as [text|]; [|reflexivity]. destruct (_ && _); reflexivity. }
  destruct (input_open addr s name) as (i & s0). cbn [snd] in O. destruct (negb (input_ok i)).
  - conjs; try reflexivity. exists [], []. cbn [y_out print_err]. rewrite !app_nil_r. auto.
  - unfold go, go_all. 
    assert (Same : unprinted (plex (mapped (i_text i)) (i_buffer i, 0) (i_text i) true (new_wlexer start_loc, [])) = wlex (i_buffer i, 0) (i_text i) true (new_wlexer start_loc)) by apply plex_same.
    rewrite <- Same.
    destruct (plex _ _ _ _ _) as [[lx t]| | | |]; cbn [unprinted bind fst snd]; auto.
    assert (C : forall x, y_out (input_close x i) = y_out x) by (intros; unfold input_close; destruct (i_fd i); reflexivity).
    conjs; try (unfold input_close; destruct (i_fd i); reflexivity).
    exists t, (flat_map token_line (wl_out lx)). rewrite !C. cbn [print_out y_out]. rewrite O, app_assoc. auto.
Qed.

(** ** C160 *)

Lemma tells_in x ps t : In x ps -> tells_all ps t -> exists pre l post, t = pre ++ l ++ post /\ tells x l.
Proof.
  intros Hx T. induction T as [|p ps l u Hp _ IH]; [easy|]. destruct Hx as [->|Hx].
  - exists [], l, u. auto.
  - destruct (IH Hx) as (pre & l' & post & -> & H). exists (l ++ pre), l', post. rewrite <- app_assoc. auto.
Qed.

Lemma next_place past n : n <> [] -> location_after (past ++ n) <> location_after past.
Proof. intros N E. apply (f_equal l_offset) in E. unfold location_after in E. cbn [l_offset] in E. rewrite app_length in E. destruct n; [easy|cbn [length] in E; lia]. Qed.

(** The place called the start of a parenthesis is never where it starts: it is where it ends. *)
Theorem C160_start_of_a_parenthesis_refuted b text ps tail k past n :
  Z.of_nat (length text) + 1 < 2 ^ 31 -> pieces_of [] text ps tail -> In (Word k, past, n) ps -> k = KLParen \/ k = KRParen ->
  exists lx t pre kind place post, plex (mapped text) (b, 0) text true (new_wlexer start_loc, []) = Ok (lx, t) /\
    t = pre ++ (kind ++ lit " :start " ++ place ++ lit ")" ++ eol) ++ post /\ (kind = lit "(lparen" \/ kind = lit "(rparen") /\
    shows_loc (location_after (past ++ n)) place /\ ~ shows_loc (location_after past) place.
Proof.
  intros Sm P Hin K. destruct (C159_printed_pieces b text Sm) as (_ & H). destruct (H ps tail P) as (lx & t & E & T & _).
  destruct (tells_in _ _ _ Hin T) as (pre & l & post & -> & Tl).
  assert (Nn : n <> []).
  { clear - P Hin. revert P. generalize (@nil Z) at 1. intros l0 P. induction P as [past0|past0 w ps tail Nx _ IH|past0 m w ps tail N N1 F Nx _ IH|past0 k0 c w ps tail K _ IH|past0 k0 m w ps tail K Nx _ IH|past0 c w N1 N2 N3 N4 N5];
      cbn [In] in Hin; try easy; (destruct Hin as [Hin|Hin]; [try discriminate Hin|auto]).
    - injection Hin as _ _ <-. discriminate.
    - injection Hin as _ _ <-. destruct K as [(_ & N & _)|(_ & m' & -> & _)]; [exact N|discriminate]. }
  assert (D : forall a, shows_loc (location_after (past ++ n)) a -> ~ shows_loc (location_after past) a).
  { intros a A A'. destruct (read_loc _ _ a a " "%char " "%char [] [] A' A) as (L & _); try (intros X; vm_compute in X; discriminate X); [reflexivity|].
    apply (next_place past n Nn). auto. }
  destruct K as [-> | ->]; inversion Tl as [? ? a A E1 E2|? ? a A E1 E2| | | |]; subst.
  - exists lx, (pre ++ (lit "(lparen :start " ++ a ++ lit ")" ++ eol) ++ post), pre, (lit "(lparen"), a, post. conjs; auto.
  - exists lx, (pre ++ (lit "(rparen :start " ++ a ++ lit ")" ++ eol) ++ post), pre, (lit "(rparen"), a, post. conjs; auto.
Qed.

(** For names and identifiers there is a line with their characters, their start and their end. *)
Theorem C160_names_and_identifiers_partial b text ps tail k past n :
  Z.of_nat (length text) + 1 < 2 ^ 31 -> pieces_of [] text ps tail -> In (Word k, past, n) ps -> k = KName \/ k = KIdentifier ->
  exists lx t pre kind chars start stop post, plex (mapped text) (b, 0) text true (new_wlexer start_loc, []) = Ok (lx, t) /\
    t = pre ++ (kind ++ chars ++ lit " :start " ++ start ++ lit " :end " ++ stop ++ lit ")" ++ eol) ++ post /\
    kind = (match k with KName => lit "(name " | _ => lit "(indentifier " end) /\
    spells n chars /\ shows_loc (location_after past) start /\ shows_loc (location_after (past ++ n)) stop.
Proof.
  intros Sm P Hin K. destruct (C159_printed_pieces b text Sm) as (_ & H). destruct (H ps tail P) as (lx & t & E & T & _).
  destruct (tells_in _ _ _ Hin T) as (pre & l & post & -> & Tl).
  destruct K as [-> | ->]; inversion Tl as [| |? ? c a a' Sp A A' E1 E2|? ? c a a' Sp A A' E1 E2| |]; subst.
  - eexists lx, _, pre, _, c, a, a', post. conjs; eauto.
  - eexists lx, _, pre, _, c, a, a', post. conjs; eauto.
Qed.

(** * A case *)
Definition text159 : list Z := chars "(module" ++ [10] ++ chars " $f)" ++ [10; 40; 59].
Example C159_case :
  exists s', asm_file_all 4096 (mkSys (fun _ => Some (Regular text159)) [2; 1; 0]%nat [] [] [] true true) (lit "m.wast") = Ok (0, s') /\
    y_out s' = flat_map (fun l => lit l ++ [NL])
      ["(lparen :start 1:2 @1)"; "(name module :start 1:2 @1 :end 1:8 @7)"; "(whitespace)"; "(indentifier $f :start 2:2 @9 :end 2:4 @11)";
       "(rparen :start 2:5 @12)"; "(new-line :start)"; "(lparen :start 3:2 @14)";
       "!(token  :range 1:1 @0 - 1:2 @1)"; "!(token  :range 1:2 @1 - 1:8 @7)"; "!(token  :range 2:2 @9 - 2:4 @11)";
       "!(token  :range 2:4 @11 - 2:5 @12)"; "!(token  :range 3:1 @13 - 3:2 @14)"]%string.
Proof. eexists. split; [vm_compute; reflexivity|vm_compute; reflexivity]. Qed.
Example C160_case : exists ps tail, pieces_of [] text159 ps tail /\ In (Word KLParen, [], chars "(") ps /\ In (Word KName, chars "(", chars "module") ps.
Proof.
  assert (W : forall n, forallb is_allowed n = true -> Forall word_char n).
  { intros n H. apply Forall_forall. intros x Hx. apply word_char_ok. rewrite forallb_forall in H. auto. }
  destruct (pieces_total 100 (chars "(module") (skipn 7 text159)) as (ps & tail & P); [vm_compute; lia|].
  exists ((Word KLParen, [], chars "(") :: (Word KName, chars "(", chars "module") :: ps), tail. split; [|cbn; auto].
  refine (po_paren [] KLParen 40 _ _ _ (or_introl (conj eq_refl eq_refl)) _).
  refine (po_word (chars "(") KName (chars "module") (skipn 7 text159) _ _ _ _ P).
  - left. split; [reflexivity|]. split; [discriminate|]. apply W. reflexivity.
  - intros c w' H. injection H as <- <-. rewrite word_char_ok. discriminate.
Qed.

Print Assumptions C159_printed_pieces.
Print Assumptions C159_printing_changes_nothing.
Print Assumptions C159_output_of_ab_asm.
Print Assumptions C159_nothing_else.
Print Assumptions C160_start_of_a_parenthesis_refuted.
Print Assumptions C160_names_and_identifiers_partial.
