(** Model of the textual dumps: src/util/dump_charclass.rs and
    src/parser/dump.rs.  Writing to a [String] cannot fail, so a writer is the
    text written so far and [fmt::Error] does not occur; [ModelWriter] has other writers. *)
From Verif Require Import Base ModelUtil ModelBitField ModelCharReach ModelParser.
Local Open Scope N_scope.
Local Open Scope list_scope.

(** ** src/util/dump_charclass.rs *)

(** dump_charclass.rs:6-12 *)
Inductive cc_output := Text | Dot.
(** the tests [out_type == CcOutput::Dot], dump_charclass.rs:19,29,81 *)
Definition is_dot (o : cc_output) : bool := match o with Dot => true | Text => false end.

(** dump_charclass.rs:15: the bytes of [^-[].] *)
Definition ESCAPED : list N := [94; 45; 91; 93; 46].
(** dump_charclass.rs:16: the double and the single quote. *)
Definition DOT_SINGLE_ESCAPED : list N := [34; 39].

(** dump_charclass.rs:19-23 and 81-85; 92 is the backslash. *)
Definition backslash (o : cc_output) : str := if is_dot o then [92; 92] else [92].

(** dump_charclass.rs:18-47: the text written for one byte. *)
Definition describe_char (c : N) (o : cc_output) : str :=
  if (33 <=? c) && (c <? 127) && negb (c =? 92) then
    if existsb (N.eqb c) ESCAPED then backslash o ++ [c]
    else if is_dot o && existsb (N.eqb c) DOT_SINGLE_ESCAPED then [92; c]
    else [c]
  else if c =? 9 then backslash o ++ lit "t"
  else if c =? 10 then backslash o ++ lit "n"
  else if c =? 13 then backslash o ++ lit "r"
  else backslash o ++ lit "x" ++ show_hex2 c.

(** dump_charclass.rs:60-66: the [loop]; [c1] is a u8.  [fuel] bounds the number
    of iterations; running out of it is [Diverge]. *)
Fixpoint describe_range_loop (p : profile) (fuel : nat) (c1 c2 : N) (o : cc_output) (out : str)
  : outcome str :=
  match fuel with
  | O => Diverge
  | S fuel' =>
    let out' := out ++ describe_char c1 o in
    let! c1' := chk_add p 8 c1 1 in
    if c2 <? c1' then Ret out' else describe_range_loop p fuel' c1' c2 o out'
  end.
(** dump_charclass.rs:54-74.  A terminating run of the loop needs at most four
    iterations because [c2 - c1 < 4]. *)
Definition describe_range (p : profile) (c1 c2 : N) (o : cc_output) : outcome str :=
  if c1 =? c2 then Ret (describe_char c1 o)
  else
    let! d := chk_sub p 8 c2 c1 in
    if d <? 4 then describe_range_loop p 5 c1 c2 o []
    else Ret (describe_char c1 o ++ lit "-" ++ describe_char c2 o).

(** dump_charclass.rs:89; the literal lists Y before X. *)
Definition WORD_BYTES : list N :=
  lit "_0123456789abcdefghijklmnopqrstuvwxyzABCDEFGHIJKLMNOPQRSTUVWYXZ".
(** dump_charclass.rs:97 *)
Definition DIGIT_BYTES : list N := lit "0123456789".
(** dump_charclass.rs:105 *)
Definition SPACE_BYTES : list N := [9; 10; 11; 12; 13; 32].

(** dump_charclass.rs:76-113: the text written and the remaining class. *)
Definition extract_mnemonic (p : profile) (cr : charreach) (o : cc_output)
  : outcome (option (str * charreach)) :=
  let! words := cr_from_bytes p WORD_BYTES in
  if cr_is_subset_of words cr then
    Ret (Some (backslash o ++ lit "w", cr_and cr (cr_not words)))
  else
    let! digits := cr_from_bytes p DIGIT_BYTES in
    if cr_is_subset_of digits cr then
      Ret (Some (backslash o ++ lit "d", cr_and cr (cr_not digits)))
    else
      let! whitespace := cr_from_bytes p SPACE_BYTES in
      if cr_is_subset_of whitespace cr then
        Ret (Some (backslash o ++ lit "s", cr_and cr (cr_not whitespace)))
      else Ret None.

(** dump_charclass.rs:122-127: the loop; returns [None] for an early exit. *)
Fixpoint contiguous_loop (p : profile) (fuel : nat) (cr : charreach) (last : N)
  : outcome (option N) :=
  match fuel with
  | O => Diverge
  | S fuel' =>
    let! next := cr_find_next p cr last in
    match next with
    | None => Ret (Some last)
    | Some c =>
      let! l1 := chk_add p 8 last 1 in
      if negb (c =? l1) then Ret None else contiguous_loop p fuel' cr c
    end
  end.
(** dump_charclass.rs:115-129 *)
Definition contiguous_range (p : profile) (cr : charreach) : outcome (option (N * N)) :=
  let! f := cr_find_first p cr in
  match f with
  | None => Ret None
  | Some first =>
    let! r := contiguous_loop p LOOP_FUEL cr first in
    Ret (option_map (fun last => (first, last)) r)
  end.

(** dump_charclass.rs:149-156: extraction of mnemonics.  [inr] is the early
    return at [max_length].  Each extraction removes the digits or the spaces, so
    at most two succeed.  [i] counts them (a usize; no overflow check). *)
Fixpoint mnemonic_loop (p : profile) (fuel : nat) (cr : charreach) (i max_length : N)
  (o : cc_output) (out : str) : outcome ((charreach * N * str) + str) :=
  match fuel with
  | O => Diverge
  | S fuel' =>
    let! r := extract_mnemonic p cr o in
    match r with
    | None => Ret (inl (cr, i, out))
    | Some (s, remaining) =>
      let i' := i + 1 in
      if i' =? max_length then Ret (inr (out ++ s ++ lit "...]"))
      else mnemonic_loop p fuel' remaining i' max_length o (out ++ s)
    end
  end.

(** dump_charclass.rs:166-177: the loop rendering ranges. *)
Fixpoint ranges_loop (p : profile) (fuel : nat) (cr : charreach) (c_start c_last : N)
  (i max_length : N) (o : cc_output) (out : str) : outcome ((N * N * N * str) + str) :=
  match fuel with
  | O => Diverge
  | S fuel' =>
    let! next := cr_find_next p cr c_last in
    match next with
    | None => Ret (inl (c_start, c_last, i, out))
    | Some c =>
      let! l1 := chk_add p 8 c_last 1 in
      if negb (c =? l1) then
        let! s := describe_range p c_start c_last o in
        let i' := i + 1 in
        if i' =? max_length then Ret (inr (out ++ s ++ lit "...]"))
        else ranges_loop p fuel' cr c c i' max_length o (out ++ s)
      else ranges_loop p fuel' cr c_start c i max_length o out
    end
  end.

(** dump_charclass.rs:131-184: the text written and the size estimate. *)
Definition describe_class_int (p : profile) (incr : charreach) (max_length : N) (o : cc_output)
  : outcome (str * N) :=
  let! c := contiguous_range p incr in
  match c with
  | Some (first, last) =>
    let! s := describe_range p first last o in Ret (s, 2)
  | None =>
    let! m := mnemonic_loop p 4 incr 0 max_length o [] in
    match m with
    | inr s => Ret (s, max_length)
    | inl (cr, i, out) =>
      if cr_none cr then Ret (out, i)
      else
        let! f := cr_find_first p cr in
        match f with
        | None => Ret (out, i)
        | Some c_start =>
          let! r := ranges_loop p LOOP_FUEL cr c_start c_start i max_length o out in
          match r with
          | inr s => Ret (s, max_length)
          | inl (c_start', c_last, i', out') =>
            if c_last =? 255 then
              let! s := describe_range p c_start' c_last o in
              Ret (out' ++ s, i' + 1)
            else Ret (out', i')
          end
        end
    end
  end.

(** dump_charclass.rs:186-231 *)
Definition describe_class (p : profile) (incr : charreach) (max_length : N) (o : cc_output)
  : outcome str :=
  if cr_all incr then Ret (lit "<any>")
  else if cr_none incr then Ret (lit "<empty>")
  else if cr_count incr =? 1 then
    let! f := cr_find_first p incr in
    let! c := expect f in
    Ret (describe_char c o)
  else if cr_count (cr_not incr) =? 1 then
    let! f := cr_find_first p (cr_not incr) in
    let! c := expect f in
    Ret (lit "[^" ++ describe_char c o ++ lit "]")
  else
    let! (out, out_count) := describe_class_int p incr max_length o in
    let! (neg, _) := describe_class_int p (cr_not incr) max_length o in
    Ret (if str_len out <=? str_len neg then
           if 1 <? out_count then lit "[" ++ out ++ lit "]" else out
         else lit "[^" ++ neg ++ lit "]").

(** ** src/parser/dump.rs *)

(** dump.rs:7-15; [level] is a usize bounded by the depth of the tree: written
    without the overflow checks of [+= 1] and [* 2]. *)
Record dump_state := DumpState { ds_out : str; ds_level : N }.
(** dump.rs:26-28 *)
Definition filler (d : dump_state) : str := repeat 32 (N.to_nat (ds_level d * 2)).
(** [self.out.write_str(s)] (dump.rs:36,48,59-67,74) *)
Definition ds_write (d : dump_state) (s : str) : dump_state := DumpState (ds_out d ++ s) (ds_level d).
(** dump.rs:17-19 *)
Definition indent (d : dump_state) : dump_state := DumpState (ds_out d) (ds_level d + 1).
(** dump.rs:21-24 *)
Definition outdent (p : profile) (d : dump_state) : outcome dump_state :=
  let! _ := rs_debug_assert p (0 <? ds_level d) in
  let! l := chk_sub p (usize_bits p) (ds_level d) 1 in
  Ret (DumpState (ds_out d) l).

(** dump.rs:34-41; 10 is the newline. *)
Definition dump_pre_class (p : profile) (d : dump_state) (c : ascii_class)
  : outcome (result unit dump_state) :=
  let d1 := ds_write d (filler d ++ lit "ASCII CLASS" ++ [10] ++ filler d ++ lit "  ") in
  let! s := describe_class p (ac_cr c) 256 Text in
  Ret (ROk (indent (ds_write d1 (s ++ [10])))).
(** dump.rs:47-51 *)
Definition dump_pre_alternation (d : dump_state) (_ : list seqn)
  : outcome (result unit dump_state) :=
  Ret (ROk (indent (ds_write d (filler d ++ lit "ALTERNATION" ++ [10])))).
(** dump.rs:57-77 *)
Definition dump_pre_sequence (d : dump_state) (s : seqn) : outcome (result unit dump_state) :=
  let d1 := ds_write d (filler d ++ lit "SEQUENCE") in
  let d2 := ds_write d1 (match sq_capture_index s with
                         | Some i => lit " (capture index " ++ show i ++ lit ")"
                         | None => lit " (not captured)" end) in
  let d3 := ds_write d2 (match sq_capture_name s with
                         | Some n => lit " (capture name '" ++ n ++ lit "')" ++ [10]
                         | None => [10] end) in
  let d4 := indent d3 in
  Ret (ROk (match sq_children s with
            | [] => ds_write d4 (filler d4 ++ lit " <empty>" ++ [10])
            | _ :: _ => d4 end)).
(** dump.rs:31-87 *)
Definition dump_visitor (p : profile) : visitor dump_state unit := {|
  pre_class := dump_pre_class p;
  pre_alternation := dump_pre_alternation;
  pre_sequence := dump_pre_sequence;
  during_class := fun d _ => d;
  during_alternation := fun d _ => d;
  during_sequence := fun d _ => d;
  post_class := fun d _ => outdent p d;
  post_alternation := fun d _ => outdent p d;
  post_sequence := fun d _ => outdent p d
|}.
(** dump.rs:89-92: the text written to an empty [String]. *)
Definition dump_tree (p : profile) (root : component) : outcome (result unit str) :=
  let? d := walk_component p (dump_visitor p) (DumpState [] 0) root in
  Ret (ROk (ds_out d)).
