(** Model of the parser: src/parser.rs and src/parser/{parser_util,
    ascii_component_class, component_class, component_sequence,
    component_alternation, component, const_component_visitor, control_verbs,
    prefilter}.rs *)
From Verif Require Import Base ModelUtil ModelBitField ModelCharReach.
Local Open Scope N_scope.
Local Open Scope list_scope.

(** ** src/parser/parser_util.rs *)

(** parser_util.rs:5-12 *)
Record parse_mode := ParseMode {
  caseless : bool; dotall : bool; ignore_space : bool;
  multiline : bool; ucp : bool; utf8 : bool }.
(** derived [Default], parser_util.rs:4 *)
Definition mode_default : parse_mode := ParseMode false false false false false false.
(** parser_util.rs:15-24 *)
Definition mode_new (f : flags) : parse_mode :=
  ParseMode (contains f CASELESS) (contains f DOTALL) false
            (contains f MULTILINE) (contains f UCP) (contains f UTF8).
(** [mode.ucp = true], [mode.utf8 = true] (control_verbs.rs:21,24) *)
Definition mode_set_ucp (m : parse_mode) : parse_mode :=
  ParseMode (caseless m) (dotall m) (ignore_space m) (multiline m) true (utf8 m).
(** control_verbs.rs:21,24 *)
Definition mode_set_utf8 (m : parse_mode) : parse_mode :=
  ParseMode (caseless m) (dotall m) (ignore_space m) (multiline m) (ucp m) true.

(** ** Parse trees *)

(** ascii_component_class.rs:6-9; [ComponentClass] (component_class.rs:25-27)
    has this single variant and is identified with it. *)
Record ascii_class := AsciiClass { ac_mode : parse_mode; ac_cr : charreach }.

(** component.rs:9-13, component_alternation.rs:5-7, component_sequence.rs:7-14.
    [Seqn children alternation capture_index capture_name]; an alternation is
    the list of its branches. *)
Inductive component :=
| CAlternation (branches : list seqn)
| CClass (c : ascii_class)
| CSequence (s : seqn)
with seqn :=
| Seqn (children : list component) (alternation : option (list seqn))
       (capture_index : option N) (capture_name : option str).

(** component_sequence.rs:8,49-51 *)
Definition sq_children (s : seqn) := let (c, _, _, _) := s in c.
(** component_sequence.rs:7-14 *)
Definition sq_alternation (s : seqn) := let (_, a, _, _) := s in a.
(** component_sequence.rs:7-14 *)
Definition sq_capture_index (s : seqn) := let (_, _, i, _) := s in i.
(** component_sequence.rs:7-14 *)
Definition sq_capture_name (s : seqn) := let (_, _, _, n) := s in n.

(** derived [Default], component_sequence.rs:6 *)
Definition seqn_default : seqn := Seqn [] None None None.

(** ascii_component_class.rs:12-17 *)
Definition ac_new (m : parse_mode) : ascii_class := AsciiClass m cr_default.
(** ascii_component_class.rs:19-26 *)
Definition ac_add (p : profile) (cc : ascii_class) (c : N) : outcome ascii_class :=
  let! ncr := cr_from_char p c in
  let! ncr' := (if caseless (ac_mode cc) then make_caseless p ncr else Ret ncr) in
  Ret (AsciiClass (ac_mode cc) (cr_or_assign (ac_cr cc) ncr')).
(** component_class.rs:5-7 *)
Definition get_component_class (m : parse_mode) : ascii_class := ac_new m.
(** component_class.rs:30-43; [c as u8] after the range test. *)
Definition class_add (p : profile) (cc : ascii_class) (c : N)
  : outcome (result compile_error ascii_class) :=
  if 255 <? c then
    Ret (RErr (error_new ELocatedParse (lit "Hexadecimal value is greater than \xFF")))
  else
    let! cc' := ac_add p cc (cast 8 c) in Ret (ROk cc').
(** component_class.rs:11-22 *)
Definition get_literal_component_class (p : profile) (c : N) (nocase : bool)
  : outcome (result compile_error ascii_class) :=
  let mode := ParseMode nocase (dotall mode_default) (ignore_space mode_default)
                (multiline mode_default) (ucp mode_default) (utf8 mode_default) in
  class_add p (get_component_class mode) c.

(** component_alternation.rs:10-12 *)
Definition alt_append (a : list seqn) (s : seqn) : list seqn := a ++ [s].

(** component_sequence.rs:17-26 *)
Definition add_alternation (s : seqn) : seqn :=
  let (ch, alt, ci, cn) := s in
  let alternation := match alt with None => [] | Some a => a end in
  let seq := Seqn ch None None None in
  Seqn [] (Some (alt_append alternation seq)) ci cn.
(** component_sequence.rs:37-39 *)
Definition add_component (s : seqn) (c : component) : seqn :=
  let (ch, alt, ci, cn) := s in Seqn (ch ++ [c]) alt ci cn.
(** component_sequence.rs:28-35 *)
Definition finalize (p : profile) (s : seqn) : outcome seqn :=
  match sq_alternation s with
  | None => Ret s
  | Some _ =>
    let s' := add_alternation s in
    let! _ := rs_debug_assert p (match sq_children s' with [] => true | _ => false end) in
    let! alternation := expect (sq_alternation s') in
    Ret (Seqn (sq_children s' ++ [CAlternation alternation]) None
              (sq_capture_index s') (sq_capture_name s'))
  end.

(** ** src/parser/control_verbs.rs, with nom's complete combinators on [&str]. *)

(** nom [tag] (control_verbs.rs:53) *)
Fixpoint nom_tag (t s : str) : option str :=
  match t, s with
  | [], _ => Some s
  | x :: t', y :: s' => if x =? y then nom_tag t' s' else None
  | _ :: _, [] => None
  end.
(** nom [char] (control_verbs.rs:53) *)
Definition nom_char (c : N) (s : str) : option str :=
  match s with x :: s' => if x =? c then Some s' else None | [] => None end.
(** longest prefix of characters different from [c], and the rest (control_verbs.rs:53) *)
Fixpoint span_not (c : N) (s : str) : str * str :=
  match s with
  | [] => ([], [])
  | x :: s' => if x =? c then ([], s) else let (a, b) := span_not c s' in (x :: a, b)
  end.
(** nom [is_not] with a one-character set: fails on an empty match. (control_verbs.rs:53) *)
Definition nom_is_not (c : N) (s : str) : option (str * str) :=
  match span_not c s with
  | ([], _) => None
  | (a, b) => Some (a, b)
  end.
(** control_verbs.rs:52-54: [delimited(tag("( *"), is_not(")"), char(')'))];
    returns the rest of the input and the verb. *)
Definition control_verb (input : str) : option (str * str) :=
  match nom_tag (lit "(*") input with
  | None => None
  | Some s1 =>
    match nom_is_not 41 s1 with
    | None => None
    | Some (verb, s2) =>
      match nom_char 41 s2 with
      | None => None
      | Some s3 => Some (s3, verb)
      end
    end
  end.

(** the list of control_verbs.rs:26-27 *)
Definition unsupported_verbs : list str :=
  [ lit "NO_AUTO_POSSESS"; lit "NO_START_OPT"; lit "UTF16"; lit "UTF32"; lit "CR"; lit "LF";
    lit "CRLF"; lit "ANYCRLF"; lit "ANY"; lit "BSR_ANYCRLF"; lit "BSR_UNICODE" ].

(** control_verbs.rs:12-50; [start + 2] is a usize. Returns the remaining input
    and the updated mode. *)
Definition read_control_verbs (p : profile) (input : str) (start : N) (m : parse_mode)
  : outcome (result compile_error (str * parse_mode)) :=
  match control_verb input with
  | None => Ret (ROk (input, m))
  | Some (rest, verb) =>
    if str_eqb verb (lit "UCP") then Ret (ROk (rest, mode_set_ucp m))
    else if str_eqb verb (lit "UTF8") || str_eqb verb (lit "UTF") then
      Ret (ROk (rest, mode_set_utf8 m))
    else if existsb (str_eqb verb) unsupported_verbs then
      let! at_ := chk_add p (usize_bits p) start 2 in
      Ret (RErr (error_new ELocatedParse
        (lit "Unsupported control verb " ++ verb ++ lit " at index " ++ show at_)))
    else if starts_with (lit "LIMIT_MATCH=") verb || starts_with (lit "LIMIT_RECURSION=") verb then
      let! at_ := chk_add p (usize_bits p) start 2 in
      Ret (RErr (error_new ELocatedParse
        (lit "Unsupported control verb " ++ verb ++ lit " at index " ++ show at_)))
    else
      let! at_ := chk_add p (usize_bits p) start 2 in
      Ret (RErr (error_new ELocatedParse
        (lit "Unknown control verb " ++ verb ++ lit " at index " ++ show at_)))
  end.

(** ** src/parser.rs *)

(** parser.rs:39-49 *)
Record expr_state := ExprState { es_seq : seqn; es_offset : N; es_mode : parse_mode }.

(** parser.rs:52-60 *)
Definition add_literal (p : profile) (cur : seqn) (c : N) (m : parse_mode)
  : outcome (result compile_error seqn) :=
  let? cc := get_literal_component_class p c (caseless m) in
  Ret (ROk (add_component cur (CClass cc))).

(** parser.rs:62-78; the top of the [sequences] stack is the head of the list. *)
Record context := Context {
  cx_ptr : str;
  cx_p : str;
  cx_mode : parse_mode;
  cx_sequences : list expr_state;
  cx_group_index : N;
  cx_current : seqn
}.
(** parser.rs:81-93 *)
Definition context_new (ptr p_ : str) (m : parse_mode) : context :=
  Context ptr p_ m [] 1 (Seqn [] None (Some 0) None).

(** [self.p = p] (parser.rs:132,135,138,147) *)
Definition cx_advance (cx : context) (p_ : str) : context :=
  Context (cx_ptr cx) p_ (cx_mode cx) (cx_sequences cx) (cx_group_index cx) (cx_current cx).
(** assignment to [self.current_seq] (parser.rs:99,113,115) *)
Definition cx_set_current (cx : context) (s : seqn) : context :=
  Context (cx_ptr cx) (cx_p cx) (cx_mode cx) (cx_sequences cx) (cx_group_index cx) s.

(** parser.rs:95-102: note the usize subtraction [ts.len() - self.ptr.len()]. *)
Definition push_sequence (p : profile) (cx : context) (ts : str) : outcome context :=
  let seq := Seqn [] None (Some (cx_group_index cx)) None in
  let! gi := chk_add p 32 (cx_group_index cx) 1 in
  let! off := chk_sub p (usize_bits p) (str_len ts) (str_len (cx_ptr cx)) in
  Ret (Context (cx_ptr cx) (cx_p cx) (cx_mode cx)
         (ExprState (cx_current cx) off (cx_mode cx) :: cx_sequences cx) gi seq).

(** parser.rs:104-118 *)
Definition pop_sequence (p : profile) (cx : context)
  : outcome (result compile_error context) :=
  match cx_sequences cx with
  | [] => Ret (RErr (error_new ELocatedParse (lit "Unmatched parentheses")))
  | v :: rest =>
    let! seq := finalize p (cx_current cx) in
    Ret (ROk (Context (cx_ptr cx) (cx_p cx) (es_mode v) rest (cx_group_index cx)
                (add_component (es_seq v) (CSequence seq))))
  end.
(** parser.rs:120-122 *)
Definition enter_capturing_group (p : profile) (cx : context) (ts : str) : outcome context :=
  push_sequence p cx ts.
(** parser.rs:124-127 *)
Definition exit_group (p : profile) (cx : context) : outcome (result compile_error context) :=
  let? cx' := pop_sequence p cx in Ret (ROk cx').

(** parser.rs:182-190: nom [take(1)] then the first char. *)
Definition take_any (input : str) : option (str * N) :=
  match input with [] => None | c :: rest => Some (rest, c) end.

(** parser.rs:129-150.  40, 41 and 124 are the code points of the two parentheses
    and the vertical bar. *)
Definition cx_main (p : profile) (cx : context) (ts : str)
  : outcome (result compile_error context) :=
  match nom_char 40 ts with
  | Some p_ =>
    let! cx' := enter_capturing_group p cx ts in
    Ret (ROk (cx_advance cx' p_))
  | None =>
  match nom_char 41 ts with
  | Some p_ =>
    let? cx' := exit_group p cx in
    Ret (ROk (cx_advance cx' p_))
  | None =>
  match nom_char 124 ts with
  | Some p_ =>
    Ret (ROk (cx_advance (cx_set_current cx (add_alternation (cx_current cx))) p_))
  | None =>
  match take_any ts with
  | Some (p_, c) =>
    let! _ := rs_assert (is_ascii_char c) in
    let! r := add_literal p (cx_current cx) c (cx_mode cx) in
    match r with
    | RErr e =>
      let! at_ := chk_sub p (usize_bits p) (str_len (cx_ptr cx)) (str_len (cx_p cx)) in
      Ret (RErr (CompileError (err_kind e) (err_reason e ++ lit " at index " ++ show at_)
                   (err_index e)))
    | ROk cur' => Ret (ROk (cx_advance (cx_set_current cx cur') p_))
    end
  | None => Ret (ROk cx)
  end end end end.

(** parser.rs:153-155: the main loop, on fuel. *)
Fixpoint cx_loop (p : profile) (fuel : nat) (cx : context)
  : outcome (result compile_error context) :=
  match cx_p cx with
  | [] => Ret (ROk cx)
  | _ :: _ =>
    match fuel with
    | O => Diverge
    | S fuel' =>
      let? cx' := cx_main p cx (cx_p cx) in
      cx_loop p fuel' cx'
    end
  end.

(** parser.rs:152-171.  Every step consumes a character, so one unit of fuel per
    character is enough. *)
Definition cx_parse (p : profile) (cx : context) : outcome (result compile_error seqn) :=
  let? cx' := cx_loop p (List.length (cx_p cx)) cx in
  match cx_sequences cx' with
  | seq :: _ =>
    Ret (RErr (error_new EParse
      (lit "Missing close parenthesis for group started at index " ++ show (es_offset seq)
       ++ lit ".")))
  | [] =>
    let! s := finalize p (cx_current cx') in
    Ret (ROk s)
  end.

(** parser.rs:174-180; the second component is the final [global_mode]. *)
Definition parse (p : profile) (ptr : str) (global_mode : parse_mode)
  : outcome (result compile_error (component * parse_mode)) :=
  let? (p_, m) := read_control_verbs p ptr 0 global_mode in
  let? root_seq := cx_parse p (context_new ptr p_ m) in
  Ret (ROk (CSequence root_seq, m)).

(** prefilter.rs:3 *)
Definition prefilter_tree (root : component) : unit := tt.

(** ** Visitors: const_component_visitor.rs and the walk functions *)

(** const_component_visitor.rs:4-18.  [V] is the visitor's state, [E] its error
    type.  The [during] hooks take [&self] in Rust; here they may change the
    state, which is more general.  A failing [pre] hook's state is not kept: the
    walk stops there. *)
Record visitor (V E : Type) := Visitor {
  pre_class : V -> ascii_class -> outcome (result E V);
  pre_alternation : V -> list seqn -> outcome (result E V);
  pre_sequence : V -> seqn -> outcome (result E V);
  during_class : V -> ascii_class -> V;
  during_alternation : V -> list seqn -> V;
  during_sequence : V -> seqn -> V;
  post_class : V -> ascii_class -> outcome V;
  post_alternation : V -> list seqn -> outcome V;
  post_sequence : V -> seqn -> outcome V
}.
Arguments pre_class {V E}. Arguments pre_alternation {V E}. Arguments pre_sequence {V E}.
Arguments during_class {V E}. Arguments during_alternation {V E}. Arguments during_sequence {V E}.
Arguments post_class {V E}. Arguments post_alternation {V E}. Arguments post_sequence {V E}.

(** the child loop of component_sequence.rs:62-69 and
    component_alternation.rs:28-35: [during] runs between children. *)
Section WalkList.
  Context {V E A : Type} (walk1 : V -> A -> outcome (result E V)) (during : V -> V).
  Fixpoint walk_list (v : V) (l : list A) : outcome (result E V) :=
    match l with
    | [] => Ret (ROk v)
    | x :: t =>
      let? v1 := walk1 v x in
      walk_list (match t with [] => v1 | _ :: _ => during v1 end) t
    end.
End WalkList.

(** ascii_component_class.rs:36-44 (and component_class.rs:54-61) *)
Definition walk_class {V E} (vis : visitor V E) (v : V) (c : ascii_class)
  : outcome (result E V) :=
  let? v1 := pre_class vis v c in
  let! v2 := post_class vis (during_class vis v1 c) c in
  Ret (ROk v2).

(** component.rs:39-48, component_alternation.rs:22-40, component_sequence.rs:54-74 *)
Fixpoint walk_component {V E} (p : profile) (vis : visitor V E) (v : V) (c : component)
  {struct c} : outcome (result E V) :=
  match c with
  | CAlternation branches =>
    let? v1 := pre_alternation vis v branches in
    let? v2 := walk_list (fun v s => walk_seqn p vis v s)
                 (fun v => during_alternation vis v branches) v1 branches in
    let! v3 := post_alternation vis v2 branches in
    Ret (ROk v3)
  | CClass k => walk_class vis v k
  | CSequence s => walk_seqn p vis v s
  end
with walk_seqn {V E} (p : profile) (vis : visitor V E) (v : V) (s : seqn)
  {struct s} : outcome (result E V) :=
  match s with
  | Seqn children alternation ci cn =>
    let! _ := rs_debug_assert p (match alternation with None => true | Some _ => false end) in
    let? v1 := pre_sequence vis v s in
    let? v2 := walk_list (fun v c => walk_component p vis v c)
                 (fun v => during_sequence vis v s) v1 children in
    let! v3 := post_sequence vis v2 s in
    Ret (ROk v3)
  end.
