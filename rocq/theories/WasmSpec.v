(** The WebAssembly binary format (MVP, as on webassembly.org/docs/binary-encoding and as the
    comments of core/include/Ab/Wasm/Reader.hpp cite it), independently of the reader: which byte
    strings spell which module. *)

From Coq Require Import ZArith List.
From Verif Require Import Outcome LebSpec StreamModel WasmModel.
Import ListNotations.
Local Open Scope Z_scope.

(** A number in LEB128, with any number of padding bytes the format allows. *)
Definition enc_u32 (v : Z) (g : bytes) : Prop :=
  leb_shape g /\ (length g <= 5)%nat /\ uleb_value g = v /\ 0 <= v < 2 ^ 32.
Definition enc_s (maxlen : nat) (v : Z) (g : bytes) : Prop :=
  leb_shape g /\ (length g <= maxlen)%nat /\ sleb_value g = v.
(** A fixed-width little-endian number. *)
Fixpoint enc_le (n : nat) (v : Z) : bytes :=
  match n with O => [] | S n => v mod 256 :: enc_le n (v / 256) end.

(** A vector: the number of elements, then the elements. *)
Definition enc_vec {A} (enc : A -> bytes -> Prop) (l : list A) (b : bytes) : Prop :=
  exists g bs, enc_u32 (Z.of_nat (length l)) g /\ Forall2 enc l bs /\ b = g ++ concat bs.
Definition enc_byte (x : Z) (b : bytes) : Prop := is_byte x /\ b = [x].
Definition enc_string (lim : Z) (name : bytes) (b : bytes) : Prop :=
  enc_vec enc_byte name b /\ Z.of_nat (length name) < lim /\ ~ In 0 name.

(** Instructions: the immediates each opcode has in the format. *)
Definition nullary_op (op : Z) : Prop :=
  op = 0 \/ op = 1 \/ op = 5 \/ op = 11 \/ op = 15 \/ op = 26 \/ op = 27 \/ 69 <= op <= 166.
Inductive enc_instr (lim : Z) : expr -> bytes -> Prop :=
| In_nullary : forall op, nullary_op op -> enc_instr lim (mkExpr op INone) [op]
| In_block : forall op t, op = 2 \/ op = 3 \/ op = 4 -> is_byte t -> enc_instr lim (mkExpr op (IType t)) [op; t]
| In_index : forall op v g, op = 12 \/ op = 13 \/ op = 16 \/ 32 <= op <= 36 -> enc_u32 v g ->
    enc_instr lim (mkExpr op (IVaruint v)) (op :: g)
| In_br_table : forall ts d gt gd, enc_vec enc_u32 ts gt -> enc_u32 d gd -> 4 * Z.of_nat (length ts) <= lim ->
    enc_instr lim (mkExpr 14 (IBranchTable ts d)) (14 :: gt ++ gd)
| In_call_indirect : forall v g, enc_u32 v g -> enc_instr lim (mkExpr 17 (ISignature v 0)) (17 :: g ++ [0])
| In_memory : forall op f o gf go, 40 <= op <= 62 -> enc_u32 f gf -> enc_u32 o go ->
    enc_instr lim (mkExpr op (IMemory f o)) (op :: gf ++ go)
| In_i32 : forall v g, enc_s 5 v g -> enc_instr lim (mkExpr 65 (IVarint v)) (65 :: g)
| In_i64 : forall v g, enc_s 9 v g -> enc_instr lim (mkExpr 66 (IVarint v)) (66 :: g)
| In_f32 : forall v, 0 <= v < 2 ^ 32 -> enc_instr lim (mkExpr 67 (IBits v)) (67 :: enc_le 4 v)
| In_f64 : forall v, 0 <= v < 2 ^ 64 -> enc_instr lim (mkExpr 68 (IBits v)) (68 :: enc_le 8 v).
(** [In_i64]: the format also allows ten bytes, see C44.  The other instructions of the format:
    memory.size (0x3f) and memory.grow (0x40) with their reserved byte, and the conversions. *)
Inductive enc_other_instr : bytes -> Prop :=
| In_memory_op : forall op, op = 63 \/ op = 64 -> enc_other_instr [op; 0]
| In_conversion : forall op, 167 <= op <= 191 -> enc_other_instr [op].

(** An initializer: a constant or get_global, then end. *)
Definition const_op (op : Z) : Prop := op = 35 \/ op = 65 \/ op = 66 \/ op = 67 \/ op = 68.
Definition enc_init (lim : Z) (e : expr) (b : bytes) : Prop :=
  const_op (e_op e) /\ exists be, enc_instr lim e be /\ b = be ++ [11].

(** The entries of the sections. *)
Definition enc_ftype (lim : Z) (t : ftype) (b : bytes) : Prop :=
  exists bp br, enc_vec enc_byte (ft_params t) bp /\ Z.of_nat (length (ft_params t)) <= lim /\
    br = match ft_return t with None => [0] | Some r => [1; r] end /\
    (forall r, ft_return t = Some r -> is_byte r) /\ b = [96] ++ bp ++ br.
Definition enc_limits (l : limits) (b : bytes) : Prop :=
  exists bi, enc_u32 (li_initial l) bi /\
    match li_max l with
    | None => b = [0] ++ bi
    | Some m => exists bm, enc_u32 m bm /\ b = [1] ++ bi ++ bm
    end.
Definition enc_gtype (g : gtype) (b : bytes) : Prop :=
  is_byte (gt_content g) /\ b = [gt_content g; if gt_mutable g then 1 else 0].
Definition enc_desc (d : import_desc) (b : bytes) : Prop :=
  match d with
  | ImFunction t => exists g, enc_u32 t g /\ b = [0] ++ g
  | ImTable e l => exists g, is_byte e /\ enc_limits l g /\ b = [1; e] ++ g
  | ImMemory l => exists g, enc_limits l g /\ b = [2] ++ g
  | ImGlobal gt => exists g, enc_gtype gt g /\ b = [3] ++ g
  end.
Record import_s := mkImportS { is_module : bytes; is_field : bytes; is_desc : import_desc }.
Definition enc_import (lim : Z) (i : import_s) (b : bytes) : Prop :=
  exists bm bf bd, enc_string lim (is_module i) bm /\ enc_string lim (is_field i) bf /\
    enc_desc (is_desc i) bd /\ b = bm ++ bf ++ bd.
Record global_s := mkGlobalS { gs_type : gtype; gs_init : expr }.
Definition enc_global (lim : Z) (g : global_s) (b : bytes) : Prop :=
  exists bt bi, enc_gtype (gs_type g) bt /\ enc_init lim (gs_init g) bi /\ b = bt ++ bi.
Record export_s := mkExportS { es_field : bytes; es_kind : Z; es_index : Z }.
Definition enc_export (lim : Z) (x : export_s) (b : bytes) : Prop :=
  exists bf bi, enc_string lim (es_field x) bf /\ is_byte (es_kind x) /\ enc_u32 (es_index x) bi /\
    b = bf ++ [es_kind x] ++ bi.
Record element_s := mkElementS { ls_table : Z; ls_offset : expr; ls_items : list Z }.
Definition enc_element (lim : Z) (x : element_s) (b : bytes) : Prop :=
  exists bt bo bi, enc_u32 (ls_table x) bt /\ enc_init lim (ls_offset x) bo /\
    enc_vec enc_u32 (ls_items x) bi /\ b = bt ++ bo ++ bi.
Record data_s := mkDataS { ds_memory : Z; ds_offset : expr; ds_bytes : bytes }.
Definition enc_data (lim : Z) (x : data_s) (b : bytes) : Prop :=
  exists bm bo bd, enc_u32 (ds_memory x) bm /\ enc_init lim (ds_offset x) bo /\
    enc_vec enc_byte (ds_bytes x) bd /\ Z.of_nat (length (ds_bytes x)) <= lim /\ b = bm ++ bo ++ bd.
(** A function body: its size in bytes (counting everything after the size), its local variables,
    its code. *)
Definition enc_local (l : local) (b : bytes) : Prop :=
  exists g, enc_u32 (lo_count l) g /\ is_byte (lo_type l) /\ b = g ++ [lo_type l].
Record body_s := mkBodyS { bs_locals : list local; bs_code : bytes; bs_size : Z }.
Definition enc_body (lim : Z) (x : body_s) (b : bytes) : Prop :=
  exists gs bl, enc_u32 (bs_size x) gs /\ enc_vec enc_local (bs_locals x) bl /\
    8 * Z.of_nat (length (bs_locals x)) <= lim /\
    bs_size x = Z.of_nat (length bl + length (bs_code x)) /\ b = gs ++ bl ++ bs_code x.

(** Sections and modules.  The sections the format has but the reader does not read (custom,
    table, memory, start) are [enc_other]. *)
Inductive sec :=
| SType (l : list ftype) | SImport (l : list import_s) | SFunction (l : list Z)
| SGlobal (l : list global_s) | SExport (l : list export_s) | SElement (l : list element_s)
| SCode (l : list body_s) | SData (l : list data_s).
Definition enc_payload (lim : Z) (x : sec) (b : bytes) : Prop :=
  match x with
  | SType l => enc_vec (enc_ftype lim) l b
  | SImport l => enc_vec (enc_import lim) l b
  | SFunction l => enc_vec enc_u32 l b
  | SGlobal l => enc_vec (enc_global lim) l b
  | SExport l => enc_vec (enc_export lim) l b
  | SElement l => enc_vec (enc_element lim) l b
  | SCode l => enc_vec (enc_body lim) l b
  | SData l => enc_vec (enc_data lim) l b
  end.
Definition sec_code (x : sec) : Z :=
  match x with
  | SType _ => 1 | SImport _ => 2 | SFunction _ => 3 | SGlobal _ => 6 | SExport _ => 7
  | SElement _ => 9 | SCode _ => 10 | SData _ => 11
  end.
Definition enc_section (lim : Z) (x : sec) (len : Z) (b : bytes) : Prop :=
  exists gl p, enc_u32 len gl /\ len = Z.of_nat (length p) /\ enc_payload lim x p /\
    b = [sec_code x] ++ gl ++ p.
Definition wasm_header : bytes := [0; 97; 115; 109; 1; 0; 0; 0].

(** What the visitor should be told about a section of [len] bytes; [bev] is what the visitor's own
    reading of a function body adds. *)
Fixpoint numbered {A} (f : Z -> A -> list event) (i : Z) (l : list A) : list event :=
  match l with [] => [] | x :: l => f i x ++ numbered f (i + 1) l end.
Definition entry_events (bev : Z -> body_s -> list event) (x : sec) : list event :=
  match x with
  | SType l => EvTypeSection (Z.of_nat (length l)) :: map EvFunctionType l
  | SImport l => EvImportSection (Z.of_nat (length l)) :: map (fun i => EvImport (is_module i) (is_field i) (is_desc i)) l
  | SFunction l => numbered (fun i t => [EvFunction i t]) 0 l
  | SGlobal l => map (fun g => EvGlobal (gs_type g) (gs_init g)) l
  | SExport l => map (fun e => EvExport (es_field e) (es_kind e) (es_index e)) l
  | SElement l => flat_map (fun e => EvElementEntry (ls_table e) (ls_offset e) (Z.of_nat (length (ls_items e)))
                                       :: map EvElement (ls_items e) ++ [EvElementEnd]) l
  | SCode l => numbered (fun i b => EvBody i (mkBody (bs_locals b) (bs_size b)) :: bev i b ++ [EvBodyEnd]) 0 l
  | SData l => map (fun d => EvData (ds_memory d) (ds_offset d) (ds_bytes d)) l
  end.
Definition section_events (bev : Z -> body_s -> list event) (p : sec * Z) : list event :=
  EvSectionStart (sec_code (fst p)) (snd p) [] :: entry_events bev (fst p) ++ [EvSectionEnd (sec_code (fst p)) (snd p)].
Definition module_events (bev : Z -> body_s -> list event) (l : list (sec * Z)) : list event :=
  [EvModuleStart; EvHeader 1836278016 1] ++ flat_map (section_events bev) l ++ [EvModuleEnd].

(** A visitor whose function_body takes exactly the code of the body and notes [bev]. *)
Definition takes_code (vb : Z -> fbody -> M unit) (bev : Z -> body_s -> list event) (b : body_s) : Prop :=
  forall i post off log,
    vb i (mkBody (bs_locals b) (bs_size b)) (mkW (mkStream (bs_code b ++ post) false off) false log)
    = Ok (tt, mkW (mkStream post false (off + Z.of_nat (length (bs_code b)))) false (log ++ bev i b)).
Definition bodies_of (x : sec) : list body_s := match x with SCode l => l | _ => [] end.

(** Nine bytes with the top bit set in a row (what a ten-byte LEB128 number starts with). *)
Definition nine_free (b : bytes) : Prop :=
  forall pre mid post, b = pre ++ mid ++ post -> length mid = 9%nat -> Forall (fun x => 128 <= x) mid -> False.
