(** The [Debug] texts the derives of the parse tree write (component.rs:8,
    component_alternation.rs:4, component_class.rs:24, ascii_component_class.rs:5,
    component_sequence.rs:6, parser_util.rs:4, charreach.rs:11, bitfield.rs:8), with [{:?}]
    and with [{:#?}].  A derived [Debug] hands its name and fields to the builders of
    [core::fmt]; [dv] is what is handed over. *)
From Verif Require Import Base ModelUtil ModelBitField ModelCharReach ModelParser ModelDump ModelDebug.
Local Open Scope N_scope.
Local Open Scope list_scope.

(** A word is a number, a [bool] or a variant without fields. *)
Inductive dv :=
| DWord (w : str)
| DText (s : str)
| DStruct (name : str) (fields : list (str * dv))
| DTuple (name : str) (items : list dv)
| DList (items : list dv).

(** The loops of the builders with [{:?}]: what comes before the first entry and between
    two. *)
Fixpoint separated (l : list str) : str :=
  match l with
  | [] => []
  | [a] => a
  | a :: t => a ++ lit ", " ++ separated t
  end.
(** [DebugStruct], [DebugTuple] and [DebugList] with [{:?}] *)
Fixpoint debug_line (x : escapes) (d : dv) : str :=
  match d with
  | DWord w => w
  | DText s => debug_str x s
  | DStruct name [] => name
  | DStruct name fields => name ++ lit " { " ++ separated (map (fun f => fst f ++ lit ": " ++ debug_line x (snd f)) fields) ++ lit " }"
  | DTuple name [] => name
  | DTuple name items => name ++ lit "(" ++ separated (map (fun v => debug_line x v) items) ++ lit ")"
  | DList items => lit "[" ++ separated (map (fun v => debug_line x v) items) ++ lit "]"
  end.
(** [PadAdapter]: four blanks at the beginning of every line; [fresh] is [on_newline]. *)
Fixpoint pad (fresh : bool) (s : str) : str :=
  match s with
  | [] => []
  | c :: t => (if fresh then lit "    " else []) ++ c :: pad (c =? 10) t
  end.
(** One entry with [{:#?}]: a new [PadAdapter], the entry, a comma and a new line. *)
Definition padded (s : str) : str := pad true (s ++ [44; 10]).
(** [DebugStruct], [DebugTuple] and [DebugList] with [{:#?}] *)
Fixpoint debug_lines (x : escapes) (d : dv) : str :=
  match d with
  | DWord w => w
  | DText s => debug_str x s
  | DStruct name [] => name
  | DStruct name fields => name ++ lit " {" ++ [10] ++ flat_map (fun f => padded (fst f ++ lit ": " ++ debug_lines x (snd f))) fields ++ lit "}"
  | DTuple name [] => name
  | DTuple name items => name ++ lit "(" ++ [10] ++ flat_map (fun v => padded (debug_lines x v)) items ++ lit ")"
  | DList [] => lit "[]"
  | DList items => lit "[" ++ [10] ++ flat_map (fun v => padded (debug_lines x v)) items ++ lit "]"
  end.

(** [bool], [u32], [u64], [usize] and [Option] *)
Definition dv_bool (b : bool) : dv := DWord (if b then lit "true" else lit "false").
Definition dv_number (n : N) : dv := DWord (show n).
Definition dv_option {A} (f : A -> dv) (o : option A) : dv := match o with None => DWord (lit "None") | Some a => DTuple (lit "Some") [f a] end.
(** parser_util.rs:4-12 *)
Definition dv_mode (m : parse_mode) : dv := DStruct (lit "ParseMode")
  [ (lit "caseless", dv_bool (caseless m)); (lit "dotall", dv_bool (dotall m)); (lit "ignore_space", dv_bool (ignore_space m));
    (lit "multiline", dv_bool (multiline m)); (lit "ucp", dv_bool (ucp m)); (lit "utf8", dv_bool (utf8 m)) ].
(** bitfield.rs:8-11 *)
Definition dv_field (b : bitfield) : dv := DStruct (lit "BitField256") [(lit "bits", DList (map dv_number (match b with BF w0 w1 w2 w3 => [w0; w1; w2; w3] end)))].
(** charreach.rs:11-15 *)
Definition dv_reach (c : charreach) : dv := DStruct (lit "CharReach") [(lit "bits", dv_field c)].
(** component_class.rs:24-27, ascii_component_class.rs:5-9 *)
Definition dv_class (k : ascii_class) : dv := DTuple (lit "Ascii")
  [DStruct (lit "AsciiComponentClass") [(lit "mode", dv_mode (ac_mode k)); (lit "cr", dv_reach (ac_cr k))]].
(** component.rs:8-13, component_alternation.rs:4-7, component_sequence.rs:6-14 *)
Fixpoint dv_component (c : component) : dv :=
  match c with
  | CAlternation bs => DTuple (lit "Alternation") [DStruct (lit "ComponentAlternation") [(lit "children", DList (map (fun s => dv_seqn s) bs))]]
  | CClass k => DTuple (lit "Class") [dv_class k]
  | CSequence s => DTuple (lit "Sequence") [dv_seqn s]
  end
with dv_seqn (s : seqn) : dv :=
  match s with
  | Seqn ch alt ci cn => DStruct (lit "ComponentSequence")
    [ (lit "children", DList (map (fun c => dv_component c) ch));
      (lit "alternation", match alt with
                          | None => DWord (lit "None")
                          | Some bs => DTuple (lit "Some") [DStruct (lit "ComponentAlternation") [(lit "children", DList (map (fun s => dv_seqn s) bs))]]
                          end);
      (lit "capture_index", dv_option dv_number ci);
      (lit "capture_name", dv_option DText cn) ]
  end.
(** depth.rs:13-16 *)
Definition dv_depth (d : depth) : dv := DStruct (lit "Depth") [(lit "val", dv_number (depth_val d))].
(** dump_charclass.rs:6-12 *)
Definition dv_output (o : cc_output) : dv := DWord (match o with Text => lit "Text" | Dot => lit "Dot" end).
(** compile_error.rs:4-26 *)
Definition dv_error (e : compile_error) : dv := DStruct (lit "CompileError")
  [ (lit "kind", DWord (debug_kind (err_kind e))); (lit "reason", DText (err_reason e)); (lit "index", dv_option dv_number (err_index e)) ].
