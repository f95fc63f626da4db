(** What the tokens of a text are, independently of how the lexer finds them. *)

From Coq Require Import ZArith List Bool.
From Verif Require Import Outcome FloatSpec LexModel.
Import ListNotations.
Local Open Scope Z_scope.

(** The strings a pattern describes. *)
Inductive lang : re -> list Z -> Prop :=
| l_eps : lang REps []
| l_chr f c : f c = true -> lang (RChr f) [c]
| l_cat a b u v : lang a u -> lang b v -> lang (RCat a b) (u ++ v)
| l_alt_l a b u : lang a u -> lang (RAlt a b) u
| l_alt_r a b u : lang b u -> lang (RAlt a b) u
| l_star_nil a : lang (RStar a) []
| l_star_cons a u v : lang a u -> lang (RStar a) v -> lang (RStar a) (u ++ v).

Definition matches (r : rule) (w : list Z) : Prop := lang (pattern r) w.

(** [r'] is listed before [r]. *)
Definition before (r' r : rule) : Prop :=
  exists l1 l2 l3, rules = l1 ++ r' :: l2 ++ r :: l3.

(** [w] is the longest non-empty beginning of [text] that some pattern describes and [r] the first
    pattern that describes it. *)
Definition longest (text w : list Z) (r : rule) : Prop :=
  w <> [] /\ (exists rest, text = w ++ rest) /\ matches r w /\
  (forall r', before r' r -> ~ matches r' w) /\
  (forall w' rest r', text = w' ++ rest -> (length w < length w')%nat -> ~ matches r' w').

(** No pattern describes a non-empty beginning of [text]. *)
Definition no_match (text : list Z) : Prop :=
  forall w rest r, text = w ++ rest -> w <> [] -> ~ matches r w.

(** Decimal digits to their value. *)
Definition decimal (ds : list Z) : Z := fold_left (fun v c => 10 * v + (c - 48)) ds 0.
Definition digits (ds : list Z) : Prop := ds <> [] /\ Forall (fun c => is_digit c = true) ds.

(** The value of an optionally signed integer literal. *)
Inductive int_value : list Z -> Z -> Prop :=
| iv_plain ds : digits ds -> int_value ds (decimal ds)
| iv_plus ds : digits ds -> int_value (43 :: ds) (decimal ds)
| iv_minus ds : digits ds -> int_value (45 :: ds) (- decimal ds).

(** The double a real literal is computed as: the digits before the point one by one, each digit
    after it with a tenth of the factor of the one before, then the sign, then the power of ten. *)
Section Reals.
Local Notation float := SpecFloat.spec_float.
Definition whole_part (ds : list Z) : float :=
  fold_left (fun v c => dadd (dmul v (double_of 10)) (double_of (c - 48))) ds (double_of 0).
Definition tenths (n : nat) : float := Nat.iter n (fun f => ddiv f (double_of 10)) (double_of 1).
Fixpoint add_fraction (n : nat) (v : float) (ds : list Z) : float :=
  match ds with
  | [] => v
  | c :: ds => add_fraction (S n) (dadd v (dmul (double_of (c - 48)) (tenths (S n)))) ds
  end.
Definition negate (neg : bool) (v : float) : float := if neg then dmul v (double_of (-1)) else v.
End Reals.

(** White space and comments, and what the other patterns stand for.  Integers have their value,
    which must be in the range -(2^63-1) .. 2^63-1; for reals see C66. *)
Definition is_gap (r : rule) : Prop := r = RuWhitespace \/ r = RuComment.
Definition stands_for (pow10 : Z -> SpecFloat.spec_float) (r : rule) (w : list Z) (d : token_data) : Prop :=
  match r with
  | RuNil => d = TkNil
  | RuTrue => d = TkBool true
  | RuFalse => d = TkBool false
  | RuInteger => exists v, int_value w v /\ - 2 ^ 63 < v < 2 ^ 63 /\ d = TkInteger v
  | RuReal => exists x, parse_real pow10 w = Ok x /\ d = TkReal (bits_of x)
  | RuLParen => d = TkLParen
  | RuRParen => d = TkRParen
  | RuLBracket => d = TkLBracket
  | RuRBracket => d = TkRBracket
  | RuLBrace => d = TkLBrace
  | RuRBrace => d = TkRBrace
  | RuKeyword => d = TkKeyword
  | RuSymbol => d = TkSymbol
  | RuString => d = TkString
  | RuWhitespace | RuComment => False
  end.

(** [text], which starts at offset [pos], consists of [toks] and gaps, each the longest match where
    it starts, and [tail], which begins nothing. *)
Inductive tiles (pow10 : Z -> SpecFloat.spec_float) : nat -> list Z -> list token -> list Z -> Prop :=
| t_end pos text : no_match text -> tiles pow10 pos text [] text
| t_gap pos w text r toks tail :
    longest (w ++ text) w r -> is_gap r ->
    tiles pow10 (pos + length w) text toks tail ->
    tiles pow10 pos (w ++ text) toks tail
| t_tok pos w text r d toks tail :
    longest (w ++ text) w r -> stands_for pow10 r w d ->
    tiles pow10 (pos + length w) text toks tail ->
    tiles pow10 pos (w ++ text) (mkTok d pos (pos + length w) :: toks) tail.

(** White space (spaces, tabs, commas, newlines) and comments. *)
Inductive blank : list Z -> Prop :=
| b_nil : blank []
| b_char c w : c = 32 \/ c = 9 \/ c = 44 \/ c = 10 -> blank w -> blank (c :: w)
| b_comment body w : ~ In 10 body -> blank w -> blank (59 :: body ++ 10 :: w).

(** The text of a token is of the kind the token says. *)
Definition has_shape (d : token_data) (w : list Z) : Prop :=
  match d with
  | TkEnd => False
  | TkNil => w = [110; 105; 108]                     (* nil *)
  | TkBool true => w = [116; 114; 117; 101]          (* true *)
  | TkBool false => w = [102; 97; 108; 115; 101]     (* false *)
  | TkString => exists body, w = 34 :: body ++ [34]
  | TkKeyword => exists body, w = 58 :: body /\ body <> [] /\ Forall (fun c => is_name_char c = true \/ c = 47) body
  | TkSymbol => w <> [] /\ Forall (fun c => is_name_char c = true \/ c = 47) w
  | TkInteger v => int_value w v
  | TkReal _ => exists c u, w = c :: u /\ (is_digit c = true \/ c = 43 \/ c = 45)
  | TkLParen => w = [40] | TkRParen => w = [41]
  | TkLBracket => w = [91] | TkRBracket => w = [93]
  | TkLBrace => w = [123] | TkRBrace => w = [125]
  end.

(** From offset [pos] on, [text] is blank up to the next token, whose text is not empty and has the
    right shape, and so on; what follows the last token is blank up to [tail]. *)
Fixpoint laid_out (text : list Z) (pos : nat) (ts : list token) (tail : list Z) : Prop :=
  match ts with
  | [] => exists g, skipn pos text = g ++ tail /\ blank g
  | t :: ts =>
      (pos <= tk_begin t < tk_end t)%nat /\ (tk_end t <= length text)%nat /\
      blank (firstn (tk_begin t - pos) (skipn pos text)) /\
      has_shape (tk_data t) (firstn (tk_end t - tk_begin t) (skipn (tk_begin t) text)) /\
      laid_out text (tk_end t) ts tail
  end.

(** The text with the newlines inside tokens turned into spaces. *)
Definition in_token (ts : list token) (i : nat) : bool :=
  existsb (fun t => (tk_begin t <=? i)%nat && (i <? tk_end t)%nat) ts.
Fixpoint blot (ts : list token) (i : nat) (text : list Z) : list Z :=
  match text with
  | [] => []
  | c :: text => (if (c =? 10) && in_token ts i then 32 else c) :: blot ts (S i) text
  end.

(** Every quote and apostrophe has a backslash directly before it; [prev] is the character before. *)
Fixpoint quotes_escaped (prev : Z) (w : list Z) : Prop :=
  match w with
  | [] => True
  | c :: w => (c = 34 \/ c = 39 -> prev = 92) /\ quotes_escaped c w
  end.
