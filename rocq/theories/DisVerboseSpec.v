(** What "only comments were added" means for a text, independently of how it was printed. *)
From Coq Require Import String Ascii List Bool ZArith DecimalString.
From Verif Require Import SexprModel WasmModel.
Import ListNotations.
Local Open Scope Z_scope.

(** The lines of a text *)
Fixpoint lines (s : str) : list str :=
  match s with
  | [] => [[]]
  | c :: s => if Ascii.eqb c NL then [] :: lines s
              else match lines s with l :: ls => (c :: l) :: ls | [] => [[c]] end
  end.
(** A line without its indentation *)
Fixpoint unindented (l : str) : str :=
  match l with
  | c :: l' => if Ascii.eqb c SP then unindented l' else l
  | [] => []
  end.
Definition is_comment (l : str) : Prop := exists l', l = ";"%char :: ";"%char :: l'.
(** The second list of lines is the first with comment lines added. *)
Inductive with_comments : list str -> list str -> Prop :=
| wc_nil : with_comments [] []
| wc_same l a b : with_comments a b -> with_comments (l :: a) (l :: b)
| wc_comment c a b : is_comment c -> with_comments a b -> with_comments a (c :: b).
(** Apart from indentation, [b] is [a] with comment lines added. *)
Definition only_comments_added (a b : str) : Prop :=
  with_comments (map unindented (lines a)) (map unindented (lines b)).

(** Which of the reader's reports are announced by a comment, and which are printed as entries of the module *)
Definition announced (e : event) : bool :=
  match e with EvSectionStart _ _ _ | EvTypeSection _ | EvImportSection _ => true | _ => false end.
Definition entry (e : event) : bool :=
  match e with
  | EvFunctionType _ | EvImport _ _ _ | EvGlobal _ _ | EvExport _ _ _ | EvElementEntry _ _ _ | EvBody _ _
  | EvData _ _ _ => true
  | _ => false
  end.
(** Every announcement is followed, sooner or later, by an entry. *)
Definition sections_shown (evs : list event) : Prop :=
  forall pre a post, evs = pre ++ a :: post -> announced a = true -> exists e, In e post /\ entry e = true.
(** A heading in which no byte is a line break: neither the section's length, mod 256, nor a byte of its name *)
Definition one_line (e : event) : Prop :=
  match e with
  | EvSectionStart _ len name => len mod 256 <> 10 /\ Forall (fun b => b mod 256 <> 10) name
  | _ => True
  end.

(** ** What the comments say *)
(** The sections of the binary format, by their codes *)
Definition format_sections : list String.string :=
  ["NAME"; "TYPE"; "IMPORT"; "FUNCTION"; "TABLE"; "MEMORY"; "GLOBAL"; "EXPORT"; "START"; "ELEMENT"; "CODE"; "DATA"]%string.
Definition section_title (code : Z) : String.string :=
  if code <? 0 then "UNKNOWN_SECTION_CODE"%string else nth (Z.to_nat code) format_sections "UNKNOWN_SECTION_CODE"%string.
Definition ascii_text (s : String.string) : str := list_ascii_of_string s.
Definition char_of (z : Z) : ascii := ascii_of_nat (Z.to_nat (z mod 256)).
(** The comment that announces a report: a section by its name in the format, for a custom section with
    the name it carries, and its length (written as a character, as all numbers are); a number of entries
    in decimal. *)
Definition announcement (e : event) : list str :=
  match e with
  | EvSectionStart code len name =>
      [ascii_text ";;;;;;;;;;;;;; (section (code " ++
       ascii_text (section_title code) ++ ascii_text ")" ++
       (if code =? 0 then ascii_text " (name " ++ map char_of name ++ ascii_text ")" else []) ++
       ascii_text " (size " ++ [char_of len] ++ ascii_text "))"]
  | EvTypeSection n | EvImportSection n =>
      [ascii_text ";; count: " ++ ascii_text (NilZero.string_of_uint (N.to_uint (Z.to_N n)))]
  | _ => []
  end.
(** The texts [ns] occur in [s], one after the other. *)
Inductive occur_in_order : list str -> str -> Prop :=
| oio_nil s : occur_in_order [] s
| oio_cons a n ns s : occur_in_order ns s -> occur_in_order (n :: ns) (a ++ n ++ s).
