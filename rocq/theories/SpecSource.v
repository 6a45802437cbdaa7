(** How the values of the model appear in a run of the source text: what the theorems about
    the text say it is given and gives back. *)
From Verif Require Import Base ModelUtil ModelBitField ModelDump ModelParser ModelRust ModelInterp ModelSource.
Local Open Scope string_scope.
Local Open Scope N_scope.
Local Open Scope list_scope.

(** the types whose functions are called *)
Definition BFo : option string := Some "BitField256".
Definition CRo : option string := Some "CharReach".
(** the four words of a [BitField256] *)
Definition v_bf (b : bitfield) : val :=
  VStruct "BitField256" [("bits", VList [VInt U64 (w0 b); VInt U64 (w1 b); VInt U64 (w2 b); VInt U64 (w3 b)])].
(** a [CharReach] *)
Definition v_cr (b : bitfield) : val := VStruct "CharReach" [("bits", v_bf b)].
(** an [Option<u8>] *)
Definition v_opt (o : option N) : val := match o with Some n => some_ (VInt U8 n) | None => none_ end.
(** an [Option<(u8, u8)>] *)
Definition v_pair (o : option (N * N)) : val :=
  match o with Some (a, b) => some_ (VTuple [VInt U8 a; VInt U8 b]) | None => none_ end.
(** a [&[u8]] *)
Definition v_bytes (l : list N) : val := VList (map (VInt U8) l).
(** a [CcOutput] *)
Definition v_out (o : cc_output) : val :=
  VCtor (match o with Text => "CcOutput::Text" | Dot => "CcOutput::Dot" end) [].

(** ** Values of the parser *)
(** an [ErrorKind], an [Option<u32>], an [Option<String>], a [CompileError] *)
Definition v_kind (k : error_kind) : val :=
  VCtor (match k with EParse => "ErrorKind::Parse" | ELocatedParse => "ErrorKind::LocatedParse" | EResourceLimit => "ErrorKind::ResourceLimit" | EOther => "ErrorKind::Other" end) [].
Definition v_u32 (o : option N) : val := match o with Some n => some_ (VInt U32 n) | None => none_ end.
Definition v_text (o : option str) : val := match o with Some s => some_ (VStr s) | None => none_ end.
Definition v_err (e : compile_error) : val :=
  VStruct "CompileError" [("kind", v_kind (err_kind e)); ("reason", VStr (err_reason e)); ("index", v_u32 (err_index e))].
(** a [Result<A, CompileError>] *)
Definition v_res {A} (f : A -> val) (r : result compile_error A) : val :=
  match r with ROk a => ok_ (f a) | RErr e => VCtor "Err" [v_err e] end.
(** a [ParseMode] *)
Definition v_mode (m : parse_mode) : val :=
  VStruct "ParseMode" [("caseless", VBool (caseless m)); ("dotall", VBool (dotall m)); ("ignore_space", VBool (ignore_space m)); ("multiline", VBool (multiline m)); ("ucp", VBool (ucp m)); ("utf8", VBool (utf8 m))].
(** an [AsciiComponentClass], a [ComponentClass] *)
Definition v_ac (c : ascii_class) : val := VStruct "AsciiComponentClass" [("mode", v_mode (ac_mode c)); ("cr", v_cr (ac_cr c))].
Definition v_cc (c : ascii_class) : val := VCtor "ComponentClass::Ascii" [v_ac c].
(** a [Component], a [ComponentSequence], a [ComponentAlternation] *)
Fixpoint v_comp (c : component) : val :=
  match c with
  | CAlternation l => VCtor "Component::Alternation" [VStruct "ComponentAlternation" [("children", VList (map v_seqn l))]]
  | CClass k => VCtor "Component::Class" [v_cc k]
  | CSequence s => VCtor "Component::Sequence" [v_seqn s]
  end
with v_seqn (s : seqn) : val :=
  match s with
  | Seqn ch alt ci cn =>
    VStruct "ComponentSequence"
      [("children", VList (map v_comp ch));
       ("alternation", match alt with Some l => some_ (VStruct "ComponentAlternation" [("children", VList (map v_seqn l))]) | None => none_ end);
       ("capture_index", v_u32 ci); ("capture_name", v_text cn)]
  end.
Definition v_alt (l : list seqn) : val := VStruct "ComponentAlternation" [("children", VList (map v_seqn l))].
(** an [ExprState], a [Context]: its stack has the latest state last *)
Definition v_es (e : expr_state) : val :=
  VStruct "ExprState" [("seq", v_seqn (es_seq e)); ("offset", VInt Usize (es_offset e)); ("mode", v_mode (es_mode e))].
Definition v_cx (c : context) : val :=
  VStruct "Context" [("ptr", VStr (cx_ptr c)); ("p", VStr (cx_p c)); ("mode", v_mode (cx_mode c));
    ("sequences", VList (map v_es (rev (cx_sequences c)))); ("group_index", VInt U32 (cx_group_index c)); ("current_seq", v_seqn (cx_current c))].

(** Calling function [f] of [own] on [vs] comes to [r], the result together with the values the
    parameters end with, however much a run may be unfolded beyond [n] turns of each loop and twenty
    nested calls. [Ret None] would be a run the interpreter has no rule for. *)
Definition runs (p : profile) (n : nat) (own : option string) (f : string) (vs : list val)
  (r : outcome (option (val * list val))) : Prop :=
  forall turns depth, (n <= turns)%nat -> (20 <= depth)%nat -> call p util_program turns depth own f vs = r.
