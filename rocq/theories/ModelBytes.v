(** The text handling of the parser once more, on the bytes of a [&str] instead of its
    characters: what core's string functions and nom's complete combinators do to
    slices, down to the check that a slice starts and ends between two characters.
    Everything that does not look at text is shared with the other model files. *)
From Verif Require Import Base ModelUtil ModelParser ModelNfa ModelReport ModelCompiler.
Local Open Scope N_scope.
Local Open Scope list_scope.

(** ** [str] of core *)

(** [str::len] (parser.rs:101, compiler.rs:69) *)
Definition b_len (b : list N) : N := N.of_nat (List.length b).
(** the six payload bits of a continuation byte added below those read so far (used by
    [str::chars], parser.rs:185) *)
Definition acc_cont (ch byte : N) : N := N.lor (N.shiftl ch 6) (N.land byte 63).
(** [str::char_indices], [str::chars]: the characters and where they start, decoded from
    one to four bytes; a text is always valid UTF-8, so where the bytes run out inside a
    character nothing is modelled. (parser.rs:183-188) *)
Fixpoint char_indices (i : N) (b : list N) : list (N * N) :=
  match b with
  | [] => []
  | x :: b1 =>
    if x <? 128 then (i, x) :: char_indices (i + 1) b1 else
    match b1 with
    | [] => []
    | y :: b2 =>
      let init := N.land x 31 in
      if x <? 224 then (i, acc_cont init y) :: char_indices (i + 2) b2 else
      match b2 with
      | [] => []
      | z :: b3 =>
        let y_z := acc_cont (N.land y 63) z in
        if x <? 240 then (i, N.lor (N.shiftl init 12) y_z) :: char_indices (i + 3) b3 else
        match b3 with
        | [] => []
        | w :: b4 => (i, N.lor (N.shiftl (N.land init 7) 18) (acc_cont y_z w)) :: char_indices (i + 4) b4
        end
      end
    end
  end.
(** [str::is_char_boundary]: at the ends, or at a byte that is not a continuation
    (checked by every slicing of a [&str]; control_verbs.rs:53, parser.rs:183) *)
Definition is_char_boundary (b : list N) (k : N) : bool :=
  if k =? 0 then true
  else match nth_error b (N.to_nat k) with
       | None => k =? b_len b
       | Some x => (x <? 128) || (192 <=? x)
       end.
(** [&b[k..]] (control_verbs.rs:53, parser.rs:130-138,183) *)
Definition slice_from (b : list N) (k : N) : outcome (list N) :=
  if is_char_boundary b k then Ret (skipn (N.to_nat k) b) else Panic PIndex.
(** [&b[..k]] (control_verbs.rs:53, parser.rs:183) *)
Definition slice_to (b : list N) (k : N) : outcome (list N) :=
  if is_char_boundary b k then Ret (firstn (N.to_nat k) b) else Panic PIndex.

(** ** nom *)

(** [char]: the first character compared, then the slice after it (control_verbs.rs:53,
    parser.rs:130-138) *)
Definition b_char (c : N) (b : list N) : outcome (option (list N)) :=
  match char_indices 0 b with
  | (_, x) :: _ => if x =? c then let! r := slice_from b (char_len c) in Ret (Some r) else Ret None
  | [] => Ret None
  end.
(** [tag]: the bytes compared, then both slices (control_verbs.rs:53) *)
Definition b_tag (t b : list N) : outcome (option (list N * list N)) :=
  if starts_with t b then
    let! r := slice_from b (b_len t) in let! l := slice_to b (b_len t) in Ret (Some (r, l))
  else Ret None.
(** [str::find] with a test on characters (control_verbs.rs:53) *)
Definition b_find (f : N -> bool) (b : list N) : option N :=
  option_map fst (find (fun x : N * N => f (snd x)) (char_indices 0 b)).
(** [is_not] with a one-character set (control_verbs.rs:53) *)
Definition b_is_not (c : N) (b : list N) : outcome (option (list N * list N)) :=
  match b_find (fun x => x =? c) b with
  | Some n =>
    if n =? 0 then Ret None
    else let! r := slice_from b n in let! l := slice_to b n in Ret (Some (r, l))
  | None =>
    match b with
    | [] => Ret None
    | _ :: _ => let! r := slice_from b (b_len b) in let! l := slice_to b (b_len b) in Ret (Some (r, l))
    end
  end.
(** [take(1)]: where the second character starts, or the end after the only one
    (parser.rs:183) *)
Definition b_take1 (b : list N) : outcome (option (list N * list N)) :=
  match char_indices 0 b with
  | [] => Ret None
  | [_] => let! r := slice_from b (b_len b) in let! l := slice_to b (b_len b) in Ret (Some (r, l))
  | _ :: (n, _) :: _ => let! r := slice_from b n in let! l := slice_to b n in Ret (Some (r, l))
  end.

(** ** src/parser/control_verbs.rs *)

(** control_verbs.rs:52-54 *)
Definition b_control_verb (input : list N) : outcome (option (list N * list N)) :=
  let! o1 := b_tag (lit "(*") input in
  match o1 with
  | None => Ret None
  | Some (s1, _) =>
    let! o2 := b_is_not 41 s1 in
    match o2 with
    | None => Ret None
    | Some (s2, verb) =>
      let! o3 := b_char 41 s2 in
      match o3 with
      | None => Ret None
      | Some s3 => Ret (Some (s3, verb))
      end
    end
  end.
(** control_verbs.rs:12-50 *)
Definition b_read_control_verbs (p : profile) (input : list N) (start : N) (m : parse_mode)
  : outcome (result compile_error (list N * parse_mode)) :=
  let! o := b_control_verb input in
  match o with
  | None => Ret (ROk (input, m))
  | Some (rest, verb) =>
    if str_eqb verb (lit "UCP") then Ret (ROk (rest, mode_set_ucp m))
    else if str_eqb verb (lit "UTF8") || str_eqb verb (lit "UTF") then
      Ret (ROk (rest, mode_set_utf8 m))
    else if existsb (str_eqb verb) unsupported_verbs then
      let! at_ := chk_add p (usize_bits p) start 2 in
      Ret (RErr (error_new ELocatedParse
        (lit "Unsupported control verb " ++ verb ++ lit " at index " ++ show at_)))
    else if starts_with (lit "LIMIT_MATCH=") verb || starts_with (lit "LIMIT_RECURSION=") verb then
      let! at_ := chk_add p (usize_bits p) start 2 in
      Ret (RErr (error_new ELocatedParse
        (lit "Unsupported control verb " ++ verb ++ lit " at index " ++ show at_)))
    else
      let! at_ := chk_add p (usize_bits p) start 2 in
      Ret (RErr (error_new ELocatedParse
        (lit "Unknown control verb " ++ verb ++ lit " at index " ++ show at_)))
  end.

(** ** src/parser.rs: the two texts of a [context] are bytes here *)

(** parser.rs:182-190 *)
Definition b_take_any (input : list N) : outcome (option (list N * N)) :=
  let! o := b_take1 input in
  match o with
  | None => Ret None
  | Some (r, l) =>
    let! c := expect (hd_error (map snd (char_indices 0 l))) in
    Ret (Some (r, c))
  end.
(** parser.rs:95-102 *)
Definition b_push_sequence (p : profile) (cx : context) (ts : list N) : outcome context :=
  let seq := Seqn [] None (Some (cx_group_index cx)) None in
  let! gi := chk_add p 32 (cx_group_index cx) 1 in
  let! off := chk_sub p (usize_bits p) (b_len ts) (b_len (cx_ptr cx)) in
  Ret (Context (cx_ptr cx) (cx_p cx) (cx_mode cx)
         (ExprState (cx_current cx) off (cx_mode cx) :: cx_sequences cx) gi seq).
(** parser.rs:129-150 *)
Definition b_main (p : profile) (cx : context) (ts : list N)
  : outcome (result compile_error context) :=
  let! o1 := b_char 40 ts in
  match o1 with
  | Some p_ =>
    let! cx' := b_push_sequence p cx ts in
    Ret (ROk (cx_advance cx' p_))
  | None =>
  let! o2 := b_char 41 ts in
  match o2 with
  | Some p_ =>
    let? cx' := exit_group p cx in
    Ret (ROk (cx_advance cx' p_))
  | None =>
  let! o3 := b_char 124 ts in
  match o3 with
  | Some p_ =>
    Ret (ROk (cx_advance (cx_set_current cx (add_alternation (cx_current cx))) p_))
  | None =>
  let! o4 := b_take_any ts in
  match o4 with
  | Some (p_, c) =>
    let! _ := rs_assert (is_ascii_char c) in
    let! r := add_literal p (cx_current cx) c (cx_mode cx) in
    match r with
    | RErr e =>
      let! at_ := chk_sub p (usize_bits p) (b_len (cx_ptr cx)) (b_len (cx_p cx)) in
      Ret (RErr (CompileError (err_kind e) (err_reason e ++ lit " at index " ++ show at_)
                   (err_index e)))
    | ROk cur' => Ret (ROk (cx_advance (cx_set_current cx cur') p_))
    end
  | None => Ret (ROk cx)
  end end end end.
(** parser.rs:153-155, on fuel *)
Fixpoint b_loop (p : profile) (fuel : nat) (cx : context)
  : outcome (result compile_error context) :=
  match cx_p cx with
  | [] => Ret (ROk cx)
  | _ :: _ =>
    match fuel with
    | O => Diverge
    | S fuel' =>
      let? cx' := b_main p cx (cx_p cx) in
      b_loop p fuel' cx'
    end
  end.
(** parser.rs:152-171; one unit of fuel per byte *)
Definition b_cx_parse (p : profile) (cx : context) : outcome (result compile_error seqn) :=
  let? cx' := b_loop p (List.length (cx_p cx)) cx in
  match cx_sequences cx' with
  | seq :: _ =>
    Ret (RErr (error_new EParse
      (lit "Missing close parenthesis for group started at index " ++ show (es_offset seq)
       ++ lit ".")))
  | [] =>
    let! s := finalize p (cx_current cx') in
    Ret (ROk s)
  end.
(** parser.rs:174-180 *)
Definition b_parse (p : profile) (ptr : list N) (global_mode : parse_mode)
  : outcome (result compile_error (component * parse_mode)) :=
  let? (p_, m) := b_read_control_verbs p ptr 0 global_mode in
  let? root_seq := b_cx_parse p (context_new ptr p_ m) in
  Ret (ROk (CSequence root_seq, m)).

(** ** src/compiler.rs and src/lib.rs *)

(** compiler.rs:22-52 *)
Definition b_parsed_expression_new (p : profile) (index : N) (expression : list N) (f : flags) (id : N)
  : outcome (result compile_error parsed_expression) :=
  let highlander := contains f SINGLEMATCH in
  let prefilter := contains f PREFILTER in
  let quiet := contains f QUIET in
  if contains f (N.lor QUIET SOM_LEFTMOST) then
    Ret (RErr (error_new EOther
      (lit "QUIET is not supported in combination with SOM_LEFTMOST.")))
  else
    let f' := N.land f (flags_not QUIET) in
    let? (component, m) := b_parse p expression (mode_new f') in
    Ret (ROk (ParsedExpression
      (ExpressionInfo index id false highlander (utf8 m) prefilter SomNone quiet) component)).
(** compiler.rs:60-99 *)
Definition b_add_expression (p : profile) (n : ng) (index : N) (expression : list N) (f : flags) (id : N)
  : outcome (ng * result compile_error unit) :=
  if limit_pattern_length (cc_grey (ng_cc n)) <? b_len expression then
    Ret (n, RErr (error_new EOther (lit "Pattern length exceeds limit.")))
  else
    let! r := b_parsed_expression_new p index expression f id in
    match r with
    | RErr e => Ret (n, RErr e)
    | ROk pe =>
      let _ := if ex_prefilter (pe_expr pe) then prefilter_tree (pe_component pe) else tt in
      let! (n1, sl) := shortcut_literal p n pe in
      match sl with
      | RErr e => Ret (n1, RErr e)
      | ROk true => Ret (n1, ROk tt)
      | ROk false =>
        let! (ei, g) := build_graph p pe in
        Ret (add_graph n1 ei g, ROk tt)
      end
    end.
(** lib.rs:124-129 *)
Fixpoint b_add_all (p : profile) (n : ng) (i : N) (l : list (list N * flags * N))
  : outcome (result compile_error ng) :=
  match l with
  | [] => Ret (ROk n)
  | (exp, fl, id) :: t =>
    let! (n', r) := b_add_expression p n i exp fl id in
    match r with
    | RErr e =>
      let! i32 := to_u32 i in
      let! e' := set_expression_index p e i32 in
      Ret (RErr e')
    | ROk _ => b_add_all p n' (i + 1) t
    end
  end.
(** lib.rs:96-132 *)
Definition b_compile_multi_int (p : profile) (expressions : list (list N)) (fs : list flags)
  (ids : list N) (m : mode) (g : grey) : outcome (result compile_error database) :=
  match expressions with
  | [] => Ret (RErr (error_new EOther (lit "Invalid parameter: expressions is empty")))
  | _ :: _ =>
    let count := N.of_nat (List.length expressions) in
    if limit_pattern_count g <? count then
      Ret (RErr (error_new EOther (lit "Number of patterns too large")))
    else
      let cc := CompileContext (is_streaming m) (is_vectored m) g in
      let n := ng_new cc count (som_precision m) in
      let? n' := b_add_all p n 0 (zip3 expressions fs ids) in
      Ret (ROk (build n'))
  end.
(** lib.rs:87-94 *)
Definition b_compile_multi (p : profile) (expressions : list (list N)) (fs : list flags)
  (ids : list N) (m : mode) : outcome (result compile_error database) :=
  b_compile_multi_int p expressions fs ids m grey_default.
(** lib.rs:78-80 *)
Definition b_compile (p : profile) (expression : list N) (f : flags) (m : mode)
  : outcome (result compile_error database) :=
  b_compile_multi_int p [expression] [f] [0] m grey_default.
