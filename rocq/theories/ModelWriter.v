(** The dumps written to any [W: Write]: src/util/dump_charclass.rs and
    src/parser/dump.rs with the writer as a parameter.  [ModelDump] has the case of a
    [String], which takes everything.  A writer may refuse a piece (having changed
    its own state); [?] then ends the dump with [fmt::Error], which carries nothing,
    so the error is the writer as it was left. *)
From Verif Require Import Base ModelUtil ModelBitField ModelCharReach ModelParser ModelDump.
Local Open Scope N_scope.
Local Open Scope list_scope.

(** [std::fmt::Write]: the two methods the crate calls; the answer says whether the
    piece was taken. *)
Record writer (W : Type) := Writer { w_str : W -> str -> W * bool; w_char : W -> N -> W * bool }.
Arguments w_str {W}. Arguments w_char {W}.
Definition write_str {W} (w : writer W) (f : W) (t : str) : result W W :=
  let (f', ok) := w_str w f t in if ok : bool then ROk f' else RErr f'.
Definition write_char {W} (w : writer W) (f : W) (c : N) : result W W :=
  let (f', ok) := w_char w f c in if ok : bool then ROk f' else RErr f'.
(** [?] *)
Definition and_then {W} (r : result W W) (k : W -> result W W) : result W W :=
  match r with ROk f => k f | RErr f => RErr f end.

Section To.
  Context {W : Type} (w : writer W).
  (** dump_charclass.rs:18-47 *)
  Definition describe_char_to (f : W) (c : N) (o : cc_output) : result W W :=
    if (33 <=? c) && (c <? 127) && negb (c =? 92) then
      if existsb (N.eqb c) ESCAPED then and_then (write_str w f (backslash o)) (fun f => write_char w f c)
      else if is_dot o && existsb (N.eqb c) DOT_SINGLE_ESCAPED then and_then (write_char w f 92) (fun f => write_char w f c)
      else write_char w f c
    else if c =? 9 then and_then (write_str w f (backslash o)) (fun f => write_char w f 116)
    else if c =? 10 then and_then (write_str w f (backslash o)) (fun f => write_char w f 110)
    else if c =? 13 then and_then (write_str w f (backslash o)) (fun f => write_char w f 114)
    else write_str w f (backslash o ++ lit "x" ++ show_hex2 c).
  (** dump_charclass.rs:186-231; the two calls of [describe_class_int] write to
      [String]s of their own. *)
  Definition describe_class_to (p : profile) (f : W) (incr : charreach) (max_length : N) (o : cc_output)
    : outcome (result W W) :=
    if cr_all incr then Ret (write_str w f (lit "<any>"))
    else if cr_none incr then Ret (write_str w f (lit "<empty>"))
    else if cr_count incr =? 1 then
      let! x := cr_find_first p incr in
      let! c := expect x in
      Ret (describe_char_to f c o)
    else if cr_count (cr_not incr) =? 1 then
      let? f1 := Ret (write_str w f (lit "[^")) in
      let! x := cr_find_first p (cr_not incr) in
      let! c := expect x in
      let? f2 := Ret (describe_char_to f1 c o) in
      Ret (write_char w f2 93)
    else
      let! (out, out_count) := describe_class_int p incr max_length o in
      let! (neg, _) := describe_class_int p (cr_not incr) max_length o in
      Ret (if str_len out <=? str_len neg then
             if 1 <? out_count then
               and_then (write_char w f 91) (fun f => and_then (write_str w f out) (fun f => write_char w f 93))
             else write_str w f out
           else write_str w f (lit "[^" ++ neg ++ lit "]")).

  (** dump.rs:7-15 *)
  Record dump_to := DumpTo { dt_out : W; dt_level : N }.
  (** dump.rs:26-28 *)
  Definition filler_to (d : dump_to) : str := repeat 32 (N.to_nat (dt_level d * 2)).
  (** dump.rs:21-24 *)
  Definition outdent_to (p : profile) (d : dump_to) : outcome dump_to :=
    let! _ := rs_debug_assert p (0 <? dt_level d) in
    let! l := chk_sub p (usize_bits p) (dt_level d) 1 in
    Ret (DumpTo (dt_out d) l).
  (** dump.rs:34-41 *)
  Definition pre_class_to (p : profile) (d : dump_to) (c : ascii_class) : outcome (result W dump_to) :=
    let? f1 := Ret (write_str w (dt_out d) (filler_to d ++ lit "ASCII CLASS" ++ [10] ++ filler_to d ++ lit "  ")) in
    let? f2 := describe_class_to p f1 (ac_cr c) 256 Text in
    let? f3 := Ret (write_char w f2 10) in
    Ret (ROk (DumpTo f3 (dt_level d + 1))).
  (** dump.rs:47-51 *)
  Definition pre_alternation_to (d : dump_to) (_ : list seqn) : outcome (result W dump_to) :=
    let? f1 := Ret (write_str w (dt_out d) (filler_to d ++ lit "ALTERNATION" ++ [10])) in
    Ret (ROk (DumpTo f1 (dt_level d + 1))).
  (** dump.rs:57-77 *)
  Definition pre_sequence_to (d : dump_to) (s : seqn) : outcome (result W dump_to) :=
    let? f1 := Ret (write_str w (dt_out d) (filler_to d ++ lit "SEQUENCE")) in
    let? f2 := Ret (match sq_capture_index s with
                    | Some i => write_str w f1 (lit " (capture index " ++ show i ++ lit ")")
                    | None => write_str w f1 (lit " (not captured)") end) in
    let? f3 := Ret (match sq_capture_name s with
                    | Some n => write_str w f2 (lit " (capture name '" ++ n ++ lit "')" ++ [10])
                    | None => write_char w f2 10 end) in
    let d4 := DumpTo f3 (dt_level d + 1) in
    match sq_children s with
    | [] => let? f4 := Ret (write_str w f3 (filler_to d4 ++ lit " <empty>" ++ [10])) in Ret (ROk (DumpTo f4 (dt_level d4)))
    | _ :: _ => Ret (ROk d4)
    end.
  (** dump.rs:31-87 *)
  Definition dump_visitor_to (p : profile) : visitor dump_to W := {|
    pre_class := pre_class_to p;
    pre_alternation := pre_alternation_to;
    pre_sequence := pre_sequence_to;
    during_class := fun d _ => d;
    during_alternation := fun d _ => d;
    during_sequence := fun d _ => d;
    post_class := fun d _ => outdent_to p d;
    post_alternation := fun d _ => outdent_to p d;
    post_sequence := fun d _ => outdent_to p d
  |}.
  (** dump.rs:89-92 *)
  Definition dump_tree_to (p : profile) (f : W) (root : component) : outcome (result W W) :=
    let? d := walk_component p (dump_visitor_to p) (DumpTo f 0) root in
    Ret (ROk (dt_out d)).
End To.
(** [impl Write for String] *)
Definition string_writer : writer str := Writer str (fun f t => (f ++ t, true)) (fun f c => (f ++ [c], true)).
