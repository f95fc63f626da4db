(** Model of the EDN lexer: edn/src/ab-edn-lexer.cpp.rl and edn/include/Ab/Edn/Lexer.hpp, Token.hpp.

    The scanner is written in Ragel.  What Ragel generates for a |* ... *| block is taken from its
    manual: from the start state it follows the union of the patterns as far as any of them can
    still match, running embedded actions as characters are consumed; when it can go no further
    (or the input ends) it goes back to the end of the longest match seen, and among the patterns
    matching there runs the action of the first one; if there was no match it enters the error
    state, leaving p at the character that could not be consumed.  Here the state of the union of
    the patterns is the list of what is left of each pattern (its Brzozowski derivative).

    Characters are bytes 0..255 (the C++ char may be signed; every pattern mentions only ASCII
    characters or complements of them, so only the numbering differs). *)

From Coq Require Import ZArith List Bool SpecFloat.
From Verif Require Import Outcome TablesModel.
Import ListNotations.
Local Open Scope Z_scope.

(** * Patterns *)

Inductive re :=
| RNone
| REps
| RChr (f : Z -> bool)
| RCat (a b : re)
| RAlt (a b : re)
| RStar (a : re).

Fixpoint nullable (r : re) : bool :=
  match r with
  | RNone => false
  | REps => true
  | RChr _ => false
  | RCat a b => nullable a && nullable b
  | RAlt a b => nullable a || nullable b
  | RStar _ => true
  end.

(** Concatenation and alternation, dropping parts that match nothing. *)
Definition cat (a b : re) : re :=
  match a, b with
  | RNone, _ => RNone
  | _, RNone => RNone
  | REps, _ => b
  | _, _ => RCat a b
  end.
Definition alt (a b : re) : re :=
  match a, b with
  | RNone, _ => b
  | _, RNone => a
  | _, _ => RAlt a b
  end.

(** What is left of a pattern after one character. *)
Fixpoint deriv (c : Z) (r : re) : re :=
  match r with
  | RNone => RNone
  | REps => RNone
  | RChr f => if f c then REps else RNone
  | RCat a b => if nullable a then alt (cat (deriv c a) b) (deriv c b) else cat (deriv c a) b
  | RAlt a b => alt (deriv c a) (deriv c b)
  | RStar a => cat (deriv c a) (RStar a)
  end.

(** The pattern can no longer match (the patterns below have no empty character class, so this is
    exactly when the derivative has been reduced to [RNone]). *)
Definition dead (r : re) : bool := match r with RNone => true | _ => false end.

(** * The patterns of the lexer, ab-edn-lexer.cpp.rl 150-238 *)

Definition ch (x : Z) : re := RChr (fun c => c =? x).
Definition one_of (xs : list Z) : re := RChr (fun c => existsb (Z.eqb c) xs).
Definition opt (r : re) : re := RAlt r REps.
Definition plus (r : re) : re := RCat r (RStar r).
Fixpoint lit (s : list Z) : re := match s with [] => REps | c :: s => RCat (ch c) (lit s) end.

(** Ragel's built-in classes *)
Definition is_digit (c : Z) : bool := (48 <=? c) && (c <=? 57).
Definition is_alpha (c : Z) : bool := ((65 <=? c) && (c <=? 90)) || ((97 <=? c) && (c <=? 122)).
Definition is_alnum (c : Z) : bool := is_digit c || is_alpha c.

(** 156-171; the newline action is modelled in [scan] below *)
Definition re_comment : re := RCat (ch 59) (RCat (RStar (RChr (fun c => negb (c =? 10)))) (ch 10)).
Definition is_ws (c : Z) : bool := (c =? 32) || (c =? 9) || (c =? 44) || (c =? 10).
Definition re_whitespace : re := plus (RChr is_ws).
(** 177-181 *)
Definition re_nil : re := lit [110; 105; 108].
Definition re_true : re := lit [116; 114; 117; 101].
Definition re_false : re := lit [102; 97; 108; 115; 101].
(** 185-189 *)
Definition is_str_char (c : Z) : bool := negb ((c =? 34) || (c =? 39)).
Definition re_str_escape : re := RCat (ch 92) (one_of [116; 110; 114; 92; 34; 39]).
Definition re_string : re :=
  RCat (ch 34) (RCat (RStar (RAlt (RChr is_str_char) re_str_escape)) (ch 34)).
(** 191-199: . + -   # :   . * ! _ ? $ % & = < *)
Definition is_num_char (c : Z) : bool := existsb (Z.eqb c) [46; 43; 45].
Definition is_inner_only (c : Z) : bool := existsb (Z.eqb c) [35; 58].
Definition is_misc (c : Z) : bool := existsb (Z.eqb c) [46; 42; 33; 95; 63; 36; 37; 38; 61; 60].
Definition is_special (c : Z) : bool := is_num_char c || is_inner_only c || is_misc c.
Definition is_name_char (c : Z) : bool := is_alnum c || is_special c.
(** 201-214 *)
Definition re_name0 : re := RCat (RChr (fun c => is_alpha c || is_misc c)) (RStar (RChr is_name_char)).
Definition re_name1 : re :=
  RCat (RChr is_num_char)
       (RCat (RChr (fun c => is_alpha c || is_special c)) (RStar (RChr is_name_char))).
Definition re_name : re := RAlt re_name0 re_name1.
Definition re_symbol : re := RCat (opt (RCat re_name (ch 47))) re_name.
Definition re_keyword : re := RCat (ch 58) (RCat (opt (RCat re_name (ch 47))) re_name).
(** 218-238; the delimiters (216-230) are in [pattern] below *)
Definition re_sign : re := opt (one_of [43; 45]).
Definition re_integer : re :=
  RCat re_sign (RAlt (ch 48) (RCat (RChr (fun c => (49 <=? c) && (c <=? 57))) (RStar (RChr is_digit)))).
Definition re_real_pt : re := RCat (ch 46) (plus (RChr is_digit)).
Definition re_real_ex : re := RCat (one_of [101; 69]) (RCat re_sign (plus (RChr is_digit))).
Definition re_real : re :=
  RCat re_sign (RCat (plus (RChr is_digit)) (RAlt re_real_pt (RAlt re_real_ex (RCat re_real_pt re_real_ex)))).

(** 240-352: the patterns of main, in the order in which they are listed. *)
Inductive rule :=
| RuNil | RuTrue | RuFalse | RuReal | RuInteger
| RuLParen | RuRParen | RuLBracket | RuRBracket | RuLBrace | RuRBrace
| RuKeyword | RuSymbol | RuString | RuWhitespace | RuComment.

Definition pattern (r : rule) : re :=
  match r with
  | RuNil => re_nil | RuTrue => re_true | RuFalse => re_false
  | RuReal => re_real | RuInteger => re_integer
  | RuLParen => lit [40] | RuRParen => lit [41] | RuLBracket => lit [91] | RuRBracket => lit [93]
  | RuLBrace => ch 123 | RuRBrace => ch 125
  | RuKeyword => re_keyword | RuSymbol => re_symbol | RuString => re_string
  | RuWhitespace => re_whitespace | RuComment => re_comment
  end.

Definition rules : list rule :=
  [RuNil; RuTrue; RuFalse; RuReal; RuInteger; RuLParen; RuRParen; RuLBracket; RuRBracket; RuLBrace;
   RuRBrace; RuKeyword; RuSymbol; RuString; RuWhitespace; RuComment].

(** * Scanning *)

(** What is left of the patterns that can still match. *)
Definition scan_state := list (rule * re).
Definition start_state : scan_state := map (fun r => (r, pattern r)) rules.
Definition advance (c : Z) (s : scan_state) : scan_state :=
  filter (fun x => negb (dead (snd x))) (map (fun x => (fst x, deriv c (snd x))) s).
(** The first pattern that matches what was consumed. *)
Definition accepts (s : scan_state) : option rule :=
  option_map fst (find (fun x => nullable (snd x)) s).

(** The newline action (151-154) is embedded in the newlines of whitespace and comment only: it
    runs when one of these takes the transition. *)
Definition in_gap (s : scan_state) : bool :=
  existsb (fun x => match fst x with RuWhitespace | RuComment => true | _ => false end) s.

(** Consume characters while a pattern can still match.  [n] counts them, [last] is the last match
    and [pos] the offset of the next character; the result also has the line breaks. *)
Fixpoint scan (s : scan_state) (n : nat) (last : option (rule * nat)) (li : line_info) (pos : Z)
    (rest : list Z) : nat * option (rule * nat) * line_info :=
  match rest with
  | [] => (n, last, li)
  | c :: rest =>
      let s := advance c s in
      match s with
      | [] => (n, last, li)
      | _ :: _ =>
          let li := if (c =? 10) && in_gap s then record_br li (pos + 1) else li in
          let last := match accepts s with Some r => Some (r, S n) | None => last end in
          scan s (S n) last li (pos + 1) rest
      end
  end.

(** * Numbers *)

(** A value of std::intptr_t: anything outside is a signed overflow. *)
Definition intptr (x : Z) : outcome Z :=
  if (- 2 ^ 63 <=? x) && (x <? 2 ^ 63) then Ok x else UB SignedOverflow.

(** ab-edn-lexer.cpp.rl 35-38, 73-76, 87-90: val *= 10; val += fc - '0' *)
Definition push_digit (val c : Z) : outcome Z :=
  do v <- intptr (val * 10); intptr (v + (c - 48)).

(** The machine of 28-41.  States: 0 start, 1 after the sign, 2 after a digit. *)
Fixpoint integer_exec (st : Z) (neg : bool) (val : Z) (s : list Z) : outcome (Z * bool * Z) :=
  match s with
  | [] => Ok (st, neg, val)
  | c :: s =>
      if is_digit c then do v <- push_digit val c; integer_exec 2 neg v s
      else if (st =? 0) && (c =? 45) then integer_exec 1 true val s
      else if (st =? 0) && (c =? 43) then integer_exec 1 neg val s
      else Ok (-1, neg, val)
  end.

(** 45-60 *)
Definition parse_integer (s : list Z) : outcome Z :=
  do (st, neg, val) <- integer_exec 0 false 0 s;
  do val <- (if neg : bool then intptr (val * -1) else Ok val);
  ab_assert (st =? 2);; Ok val.

(** IEEE binary64 arithmetic (the standard library's executable specification). *)
Definition f64_mul : spec_float -> spec_float -> spec_float := SFmul 53 1024.
Definition f64_add : spec_float -> spec_float -> spec_float := SFadd 53 1024.
Definition f64_div : spec_float -> spec_float -> spec_float := SFdiv 53 1024.
Definition f64_of_Z (x : Z) : spec_float := binary_normalize 53 1024 x 0 false.

(** The locals of parse_real: 111-123. *)
Record real_state := mkRS { rs_neg : bool; rs_val : spec_float; rs_factor : spec_float;
                            rs_ex : Z; rs_ex_neg : bool }.

(** The machine of 66-107.  States: 0 start, 1 after the sign, 2 digits, 3 after the point, 4
    fraction digits, 5 after the e, 6 after the exponent's sign, 7 exponent digits. *)
Fixpoint real_exec (st : Z) (r : real_state) (s : list Z) : outcome (Z * real_state) :=
  match s with
  | [] => Ok (st, r)
  | c :: s =>
      if is_digit c then
        if st <=? 2 then
          real_exec 2 (mkRS (rs_neg r) (f64_add (f64_mul (rs_val r) (f64_of_Z 10)) (f64_of_Z (c - 48)))
                            (rs_factor r) (rs_ex r) (rs_ex_neg r)) s
        else if st <=? 4 then
          let factor := f64_div (rs_factor r) (f64_of_Z 10) in
          real_exec 4 (mkRS (rs_neg r) (f64_add (rs_val r) (f64_mul (f64_of_Z (c - 48)) factor))
                            factor (rs_ex r) (rs_ex_neg r)) s
        else
          do ex <- push_digit (rs_ex r) c;
          real_exec 7 (mkRS (rs_neg r) (rs_val r) (rs_factor r) ex (rs_ex_neg r)) s
      else if (st =? 0) && ((c =? 45) || (c =? 43)) then
        real_exec 1 (mkRS (rs_neg r || (c =? 45)) (rs_val r) (rs_factor r) (rs_ex r) (rs_ex_neg r)) s
      else if (st =? 2) && (c =? 46) then real_exec 3 r s
      else if ((st =? 2) || (st =? 4)) && ((c =? 101) || (c =? 69)) then real_exec 5 r s
      else if (st =? 5) && ((c =? 45) || (c =? 43)) then
        real_exec 6 (mkRS (rs_neg r) (rs_val r) (rs_factor r) (rs_ex r) (c =? 45)) s
      else Ok (-1, r)
  end.

(** 111-145.  [pow10 ex] is pow(10, ex), whose accuracy the C library leaves open. *)
Definition parse_real (pow10 : Z -> spec_float) (s : list Z) : outcome spec_float :=
  do (st, r) <- real_exec 0 (mkRS false (f64_of_Z 0) (f64_of_Z 1) 0 false) s;
  let val := if rs_neg r then f64_mul (rs_val r) (f64_of_Z (-1)) else rs_val r in
  do ex <- (if rs_ex_neg r then intptr (rs_ex r * -1) else Ok (rs_ex r));
  let val := f64_mul val (pow10 ex) in
  ab_assert ((st =? 4) || (st =? 7));; Ok val.

(** The bits of a double (the sign and payload of a NaN are unspecified: the default one here). *)
Definition bits_of (x : spec_float) : Z :=
  match x with
  | S754_zero s => if s then 2 ^ 63 else 0
  | S754_infinity s => (if s then 2 ^ 63 else 0) + 2047 * 2 ^ 52
  | S754_nan => 2047 * 2 ^ 52 + 2 ^ 51
  | S754_finite s m e =>
      (if s then 2 ^ 63 else 0) +
      (if Z.pos m <? 2 ^ 52 then Z.pos m else (e + 1075) * 2 ^ 52 + (Z.pos m - 2 ^ 52))
  end.

(** * Tokens *)

(** edn/include/Ab/Edn/Token.hpp 19-41 (the kinds the lexer makes) with the data of 43-57 *)
Inductive token_data :=
| TkEnd | TkNil | TkBool (b : bool) | TkString | TkKeyword | TkSymbol | TkInteger (v : Z) | TkReal (x : Z)
| TkLParen | TkRParen | TkLBracket | TkRBracket | TkLBrace | TkRBrace.

(** Token.hpp 59-105: the data and the source range *)
Record token := mkTok { tk_data : token_data; tk_begin : nat; tk_end : nat }.

(** The actions of main, 240-352: [None] for fgoto main. *)
Definition action (pow10 : Z -> spec_float) (r : rule) (text : list Z) : outcome (option token_data) :=
  match r with
  | RuNil => Ok (Some TkNil)
  | RuTrue => Ok (Some (TkBool true))
  | RuFalse => Ok (Some (TkBool false))
  | RuReal => do x <- parse_real pow10 text; Ok (Some (TkReal (bits_of x)))
  | RuInteger => do v <- parse_integer text; Ok (Some (TkInteger v))
  | RuLParen => Ok (Some TkLParen)
  | RuRParen => Ok (Some TkRParen)
  | RuLBracket => Ok (Some TkLBracket)
  | RuRBracket => Ok (Some TkRBracket)
  | RuLBrace => Ok (Some TkLBrace)
  | RuRBrace => Ok (Some TkRBrace)
  | RuKeyword => Ok (Some TkKeyword)
  | RuSymbol => Ok (Some TkSymbol)
  | RuString => Ok (Some TkString)
  | RuWhitespace | RuComment => Ok None
  end.

(** Lexer.hpp 63-78: [lx_p] is p - block_start, [lx_rest] the text from p to pe (= eof), [lx_error]
    whether cs is the error state; ts, te and act have no meaning between calls. *)
Record lexer := mkLexer { lx_text : list Z; lx_p : nat; lx_rest : list Z; lx_error : bool;
                          lx_lines : line_info }.

(** ab-edn-lexer.cpp.rl 357-373 *)
Definition new_lexer (li : line_info) (text : list Z) : lexer := mkLexer text 0 text false li.

Definition end_token (p : nat) : token := mkTok TkEnd p p.

(** The exec loop of next (387): scan from p; at a match run its action (fgoto main goes on, fbreak
    leaves with p = te); without one the error state is entered, except at the end of the text. *)
Fixpoint lex_exec (pow10 : Z -> spec_float) (fuel : nat) (lx : lexer) : outcome (token * lexer) :=
  match fuel with
  | O => OutOfFuel
  | S fuel =>
      let '(n, last, li) := scan start_state 0 None (lx_lines lx) (Z.of_nat (lx_p lx)) (lx_rest lx) in
      match last with
      | None =>
          let p := (lx_p lx + n)%nat in
          Ok (end_token p,
              mkLexer (lx_text lx) p (skipn n (lx_rest lx)) (Nat.ltb n (length (lx_rest lx))) li)
      | Some (r, m) =>
          let p := (lx_p lx + m)%nat in
          let lx' := mkLexer (lx_text lx) p (skipn m (lx_rest lx)) false li in
          do a <- action pow10 r (firstn m (lx_rest lx));
          match a with
          | Some d => Ok (mkTok d (lx_p lx) p, lx')
          | None => lex_exec pow10 fuel lx'
          end
      end
  end.

(** Lexer::next, 375-402.  Each round of the loop consumes a character, so that one more than the
    number of characters left is fuel enough. *)
Definition next (pow10 : Z -> spec_float) (lx : lexer) : outcome (token * lexer) :=
  match lx_rest lx with
  | [] => Ok (end_token (lx_p lx), lx)
  | _ :: _ =>
      if lx_error lx then Ok (end_token (lx_p lx), lx)
      else lex_exec pow10 (S (length (lx_rest lx))) lx
  end.

(** Token::strv (Token.hpp 97, Lexer.hpp 43-45, parse/include/Ab/Parse/Location.hpp 66-68) *)
Definition strv (lx : lexer) (t : token) : list Z :=
  firstn (tk_end t - tk_begin t) (skipn (tk_begin t) (lx_text lx)).

(** Reading tokens until the end token, as TokenIter does (Lexer.hpp 84-118): the tokens before it,
    its offset, and the lexer. *)
Fixpoint lex_all (pow10 : Z -> spec_float) (fuel : nat) (lx : lexer) : outcome (list token * token * lexer) :=
  match fuel with
  | O => OutOfFuel
  | S fuel =>
      do (t, lx) <- next pow10 lx;
      match tk_data t with
      | TkEnd => Ok ([], t, lx)
      | _ => do (ts, e, lx) <- lex_all pow10 fuel lx; Ok (t :: ts, e, lx)
      end
  end.
