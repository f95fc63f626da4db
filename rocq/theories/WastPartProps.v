(** What does hold where the wishes about the text lexer and ab-asm are not met: parts of C114, C115
    and C123. *)

From Coq Require Import String Ascii ZArith List Bool Lia.
From Verif Require Import Outcome LexModel CmdModel SpellSpec WastModel WastSpec WastProofs WastProps AsmModel AsmSpec AsmProofs AsmProps.
Import ListNotations.
Local Open Scope Z_scope.

(** C114: the tokens before the first comment or string are given. *)
Theorem C114_before_the_comment_partial b before ks c rest :
  c = 59 \/ c = quote ->
  Z.of_nat (length (before ++ c :: rest)) + 1 < 2 ^ 31 -> lexes [] before ks [] ->
  gives (wlex (b, 0) (before ++ c :: rest) true (new_wlexer start_loc)) (map (token_of b) ks).
Proof.
  intros Hc Sm L. apply C115_bad_text_reported_refuted; auto; destruct Hc as [->| ->]; rewrite ?white_ok, ?word_char_ok; discriminate.
Qed.
Print Assumptions C114_before_the_comment_partial.

(** C115: bad text never becomes a token: every token given is a part of the text that is a
    parenthesis, a word or an identifier. *)
Definition legal (k : wkind) (n : list Z) : Prop :=
  match k with
  | KLParen => n = chars "("
  | KRParen => n = chars ")"
  | KName => n <> [] /\ Forall word_char n
  | KIdentifier => exists m, n = chars "$" ++ m /\ m <> [] /\ Forall word_char m
  end.
Theorem C115_only_tokens_partial b text toks : Z.of_nat (length text) + 1 < 2 ^ 31 ->
  gives (wlex (b, 0) text true (new_wlexer start_loc)) toks ->
  Forall (fun t => exists k past n rest, t = token_of b (k, past, n) /\ text = past ++ n ++ rest /\ legal k n) toks.
Proof.
  intros Sm (lx & E & O). destruct (C111_tokens_and_locations b text Sm) as ((ks & tail & L) & H).
  destruct (H ks tail L) as (lx' & E' & O'). assert (toks = map (token_of b) ks) as -> by congruence. clear - L.
  assert (G : forall past w ks tail, lexes past w ks tail -> forall whole, whole = past ++ w ->
    Forall (fun t => exists k p n rest, t = token_of b (k, p, n) /\ whole = p ++ n ++ rest /\ legal k n) (map (token_of b) ks)).
  { clear. induction 1 as [past|past d w ks tail Wh _ IH|past k d w ks tail K _ IH|past k n w ks tail K Nx _ IH|past d w]; intros whole E; cbn [map]; try constructor.
    - apply IH. rewrite E, <- app_assoc. reflexivity.
    - exists k, past, [d], w. split; [reflexivity|]. split; [exact E|]. destruct K as [(-> & K)|(-> & K)]; exact K.
    - apply IH. rewrite E, <- app_assoc. reflexivity.
    - exists k, past, n, w. split; [reflexivity|]. split; [exact E|]. destruct K as [(-> & K)|(-> & K)]; exact K.
    - apply IH. rewrite E, <- app_assoc. reflexivity. }
  apply (G [] text ks tail L text). reflexivity.
Qed.
Print Assumptions C115_only_tokens_partial.

(** C123: a file that cannot be opened, examined or mapped is reported: a message, status 1, and no
    file is changed. *)
Theorem C123_unreadable_file_partial addr s name : In O (y_fds s) ->
  (y_files s name = None \/ y_files s name = Some Other \/ y_stat_ok s = false \/ y_map_ok s = false) ->
  exists s' msg, asm_file addr s name = Ok (1, s') /\ y_files s' = y_files s /\ y_err s' = y_err s ++ msg /\ msg <> [].
Proof.
  intros Fd H. destruct (C121_refused addr s name Fd H) as (s' & E & F & _ & _ & _ & M). exists s'. eexists. conjs; eauto.
  discriminate.
Qed.
Print Assumptions C123_unreadable_file_partial.
