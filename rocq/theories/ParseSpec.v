(** What an EDN text says, independently of the parser. *)

From Coq Require Import ZArith List Bool Permutation.
From Verif Require Import Outcome TablesModel IrModel IrSpec LexModel LexSpec.
Import ListNotations.
Local Open Scope Z_scope.

(** * Trees *)

(** Symbols and keywords are known by their text (a keyword's begins with a colon), strings by
    their source text with its quotes; a real is a double's bits. *)
Inductive tree :=
| TNil
| TBool (b : bool)
| TInt (v : Z)
| TReal (x : Z)
| TSym (s : list Z)
| TStr (s : list Z)
| TList (l : list tree)
| TVec (l : list tree)
| TMap (es : list (tree * tree)).

(** Keys and values in writing order. *)
Fixpoint flat (es : list (tree * tree)) : list tree :=
  match es with [] => [] | (k, v) :: es => k :: v :: flat es end.

(** [n] is the node of the tree [t] when symbols mean what the table [st] says; the entries of a map
    may be in any order. *)
Fixpoint shows (st : symtab) (n : node) (t : tree) {struct t} : Prop :=
  match t, n with
  | TNil, NNil => True
  | TBool b, NBool b' => b' = b
  | TInt v, NInteger v' => v' = v
  | TReal x, NReal x' => x' = x
  | TSym s, NSymbol id => sym_string st id = Ok s /\ sym_id st s = Ok id
  | TStr s, NString s' => s' = s
  | TList l, NList l' => (fix go (l : list tree) (l' : list node) := match l, l' with
      | [], [] => True
      | t :: l, n :: l' => shows st n t /\ go l l'
      | _, _ => False end) l l'
  | TVec l, NVector l' => (fix go (l : list tree) (l' : list node) := match l, l' with
      | [], [] => True
      | t :: l, n :: l' => shows st n t /\ go l l'
      | _, _ => False end) l l'
  | TMap es, NMap es' => exists es'', Permutation es' es'' /\
      (fix go (es : list (tree * tree)) (es' : list (node * node)) := match es, es' with
      | [], [] => True
      | (k, v) :: es, (k', v') :: es' => (shows st k' k /\ shows st v' v) /\ go es es'
      | _, _ => False end) es es''
  | _, _ => False
  end.

(** * Distinct keys *)

(** The same value (for trees without maps). *)
Fixpoint tsame (a b : tree) : Prop :=
  match a, b with
  | TNil, TNil => True
  | TBool x, TBool y => x = y
  | TInt x, TInt y => x = y
  | TReal x, TReal y => same_real x y
  | TSym x, TSym y => x = y
  | TStr x, TStr y => x = y
  | TList l, TList r => (fix go (l r : list tree) := match l, r with
      | [], [] => True | x :: l, y :: r => tsame x y /\ go l r | _, _ => False end) l r
  | TVec l, TVec r => (fix go (l r : list tree) := match l, r with
      | [], [] => True | x :: l, y :: r => tsame x y /\ go l r | _, _ => False end) l r
  | _, _ => False
  end.

(** No maps and no NaNs inside. *)
Fixpoint tsimple (t : tree) : Prop :=
  match t with
  | TReal x => ~ nan x
  | TList l | TVec l => (fix go (l : list tree) := match l with [] => True | x :: l => tsimple x /\ go l end) l
  | TMap _ => False
  | _ => True
  end.

Fixpoint tdistinct (es : list (tree * tree)) : Prop :=
  match es with
  | [] => True
  | (k, _) :: es => (forall k' v', In (k', v') es -> ~ tsame k k') /\ tdistinct es
  end.

(** Every map has simple keys. *)
Fixpoint tkeyed (t : tree) : Prop :=
  match t with
  | TList l | TVec l => (fix go (l : list tree) := match l with [] => True | x :: l => tkeyed x /\ go l end) l
  | TMap es => (fix go (es : list (tree * tree)) := match es with
      | [] => True | (k, v) :: es => (tsimple k /\ tkeyed v) /\ go es end) es
  | _ => True
  end.

(** Every map has simple keys, no two of them the same. *)
Fixpoint tgood (t : tree) : Prop :=
  match t with
  | TList l | TVec l => (fix go (l : list tree) := match l with [] => True | x :: l => tgood x /\ go l end) l
  | TMap es => tdistinct es /\ (fix go (es : list (tree * tree)) := match es with
      | [] => True | (k, v) :: es => (tsimple k /\ tgood v) /\ go es end) es
  | _ => True
  end.

(** * Writing trees as tokens of a text *)

Section Spelling.
Context (text : list Z).

Definition text_of (t : token) : list Z := firstn (tk_end t - tk_begin t) (skipn (tk_begin t) text).

Inductive spells : tree -> list token -> Prop :=
| sp_nil k : tk_data k = TkNil -> spells TNil [k]
| sp_bool k b : tk_data k = TkBool b -> spells (TBool b) [k]
| sp_int k v : tk_data k = TkInteger v -> spells (TInt v) [k]
| sp_real k x : tk_data k = TkReal x -> spells (TReal x) [k]
| sp_sym k : tk_data k = TkSymbol \/ tk_data k = TkKeyword -> spells (TSym (text_of k)) [k]
| sp_str k : tk_data k = TkString -> spells (TStr (text_of k)) [k]
| sp_list o l ts c : tk_data o = TkLParen -> spells_all l ts -> tk_data c = TkRParen -> spells (TList l) (o :: ts ++ [c])
| sp_vec o l ts c : tk_data o = TkLBracket -> spells_all l ts -> tk_data c = TkRBracket -> spells (TVec l) (o :: ts ++ [c])
| sp_map o es ts c : tk_data o = TkLBrace -> spells_all (flat es) ts -> tk_data c = TkRBrace -> spells (TMap es) (o :: ts ++ [c])
with spells_all : list tree -> list token -> Prop :=
| sp_none : spells_all [] []
| sp_more t ts l us : spells t ts -> spells_all l us -> spells_all (t :: l) (ts ++ us).

End Spelling.

(** * Writing trees as text *)

Section Writing.
Context (pow10 : Z -> SpecFloat.spec_float).

(** The words of a tree; [w] is a symbol unless it is nil, true or false. *)
Definition reserved (w : list Z) : Prop :=
  w = [110; 105; 108] \/ w = [116; 114; 117; 101] \/ w = [102; 97; 108; 115; 101].

Inductive writes : tree -> list (list Z) -> Prop :=
| wr_nil : writes TNil [[110; 105; 108]]
| wr_true : writes (TBool true) [[116; 114; 117; 101]]
| wr_false : writes (TBool false) [[102; 97; 108; 115; 101]]
| wr_int w v : matches RuInteger w -> int_value w v -> - 2 ^ 63 < v < 2 ^ 63 -> writes (TInt v) [w]
| wr_real w x : matches RuReal w -> parse_real pow10 w = Ok x -> writes (TReal (bits_of x)) [w]
| wr_sym w : matches RuSymbol w -> ~ reserved w -> writes (TSym w) [w]
| wr_key w : matches RuKeyword w -> writes (TSym w) [w]
| wr_str w : matches RuString w -> writes (TStr w) [w]
| wr_list l ws : writes_all l ws -> writes (TList l) ([40] :: ws ++ [[41]])
| wr_vec l ws : writes_all l ws -> writes (TVec l) ([91] :: ws ++ [[93]])
| wr_map es ws : writes_all (flat es) ws -> writes (TMap es) ([123] :: ws ++ [[125]])
with writes_all : list tree -> list (list Z) -> Prop :=
| wr_none : writes_all [] []
| wr_more t ws l us : writes t ws -> writes_all l us -> writes_all (t :: l) (ws ++ us).

(** A word is set apart from what follows: a bracket always is; a string is if its closing quote
    does not come after a backslash or there is no quote in what follows; anything else is if nothing
    follows or what follows is not part of a name. *)
Definition set_apart (w rest : list Z) : Prop :=
  In w [[40]; [41]; [91]; [93]; [123]; [125]] \/
  match w with
  | 34 :: body => (forall b, body <> b ++ [92; 34]) \/ ~ In 34 rest
  | _ => match rest with [] => True | c :: _ => is_name_char c = false /\ c <> 47 end
  end.

(** The words in order, with any white space and comments between them. *)
Inductive written : list (list Z) -> list Z -> Prop :=
| wn_end g : blank g -> written [] g
| wn_word g w ws rest : blank g -> written ws rest -> set_apart w rest -> written (w :: ws) (g ++ w ++ rest).

End Writing.

(** * Brackets *)

(** Where the parser is: inside a list or vector, or in a map before a key or before a value. *)
Inductive frame := FList | FVec | FKey | FVal.

(** A node has been completed. *)
Definition filled (st : list frame) : list frame :=
  match st with FKey :: st => FVal :: st | FVal :: st => FKey :: st | _ => st end.

(** One token; [None] when reporting the mistake fails. *)
Definition bracket_step (st : list frame) (d : token_data) : option (list frame) :=
  match d with
  | TkLParen => Some (FList :: st)
  | TkLBracket => Some (FVec :: st)
  | TkLBrace => Some (FKey :: st)
  | TkRParen => match st with
                | [] => Some [] | FVal :: _ => None | _ :: st => Some (filled st) end
  | TkRBracket => match st with
                  | [] => Some [] | FVal :: st => Some (FKey :: st) | _ :: st => Some (filled st) end
  | TkRBrace => match st with
                | [] => Some [] | FKey :: st => Some (filled st) | _ :: _ => None end
  | _ => Some (filled st)
  end.

Fixpoint brackets (st : list frame) (ds : list token_data) : option (list frame) :=
  match ds with
  | [] => Some st
  | d :: ds => match bracket_step st d with Some st => brackets st ds | None => None end
  end.

Definition map_open (st : list frame) : bool :=
  existsb (fun f => match f with FKey | FVal => true | _ => false end) st.
