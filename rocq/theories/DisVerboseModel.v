(** ab-disasm --verbose: the parts of disasm/src/ab-disasm-main.cpp that run only when cfg_.verbose is
    set (47-66, 72-78), and what they print (core/include/Ab/Wasm/Printing.hpp 46-94).  The visitor's
    function_section, global_section and code_section have such parts too (84-91, 101-107, 140-146), but
    the reader never calls them (core/include/Ab/Wasm/Reader.hpp 305-311, 325-329, 436-441). *)

From Coq Require Import ZArith String Ascii List Bool.
From Verif Require Import Outcome StreamModel SexprModel WasmModel DisModel.
Import ListNotations.
Local Open Scope Z_scope.

(** Printing.hpp 46-75 with core/include/Ab/Wasm/Section.hpp 13-29: to_string(SectionCode) *)
Definition section_name (code : Z) : out := word (
  if (code =? 0)%Z then "NAME" else if (code =? 1)%Z then "TYPE" else if (code =? 2)%Z then "IMPORT"
  else if (code =? 3)%Z then "FUNCTION" else if (code =? 4)%Z then "TABLE" else if (code =? 5)%Z then "MEMORY"
  else if (code =? 6)%Z then "GLOBAL" else if (code =? 7)%Z then "EXPORT" else if (code =? 8)%Z then "START"
  else if (code =? 9)%Z then "ELEMENT" else if (code =? 10)%Z then "CODE" else if (code =? 11)%Z then "DATA"
  else "UNKNOWN_SECTION_CODE")%string.

(** Printing.hpp 81-94: a section's description; its length is a number, printed as any other (DisModel.v) *)
Definition p_section (code len : Z) (name : bytes) : list out :=
  DisModel.paren ([word "section"] ++ DisModel.paren [word "code"; section_name code] ++
         (if code =? 0 then DisModel.paren [word "name"; Rq (Atom (text name))] else []) ++
         DisModel.paren [word "size"; num len]).

(** ab-disasm-main.cpp 61-63, 74-76 *)
Definition p_count (n : Z) : list out := [Rq Fresh; Rq (Atom (lit ";; count: " ++ decimal n)); Rq Fresh].

(** 36-169 with cfg_.verbose set *)
Definition handle_verbose (p : printer) (e : event) : printer :=
  match e with
  | EvSectionStart code len name =>                                                        (* 47-52 *)
      send_all p ([Rq Fresh; word ";;;;;;;;;;;;;;"] ++ p_section code len name ++ [Inc])
  | EvSectionEnd _ _ => send_all p [Dec]                                                   (* 54-58 *)
  | EvTypeSection n | EvImportSection n => send_all p (p_count n)                          (* 60-66, 72-78 *)
  | _ => handle p e
  end.
Definition print_verbose (l : list event) : printer := fold_left handle_verbose l new_printer.

(** 181-187: dump *)
Definition disassemble_verbose (lim : Z) (strict : bool) (input : bytes) : outcome (str * str) :=
  do evs <- read_module (disasm_cfg lim strict) input;
  let p := print_verbose evs in Ok (buffer (p_out p), p_stdout p).
