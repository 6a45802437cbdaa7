(** Model of the small value types and helpers of the crate:
    src/util/compare.rs, src/util/ue2common.rs, src/util/depth.rs,
    src/util/unicode_def.rs, src/util/compile_error.rs, src/grey.rs,
    src/util/compile_context.rs, src/som.rs, and [Mode]/[Flags] of src/lib.rs. *)
From Verif Require Import Base.
Local Open Scope N_scope.

(** ** src/util/compare.rs *)

(** compare.rs:1-3 *)
Definition myisupper (c : N) : bool := (65 <=? c) && (c <=? 90).
(** compare.rs:5-7 *)
Definition myislower (c : N) : bool := (97 <=? c) && (c <=? 122).
(** compare.rs:10-16; [c + 0x20] cannot overflow because [c <= b'Z']; written
    without the check. *)
Definition mytolower (c : N) : N := if myisupper c then c + 32 else c.
(** compare.rs:19-25; [c - 0x20] cannot underflow because [c >= b'a']. *)
Definition mytoupper (c : N) : N := if myislower c then c - 32 else c.
(** compare.rs:29-31 *)
Definition ourisalpha (c : N) : bool := negb (mytolower c =? mytoupper c).

(** ** src/util/ue2common.rs.  [w] is the bit width of the type parameter [T]
    (u8, u16, u32, u64/usize).  [u8::into::<T>] is the zero extension. *)

(** ue2common.rs:13-20 *)
Definition round_up_16 (p : profile) (w a : N) : outcome N :=
  let! s := chk_add p w a 15 in
  Ret (N.land s (bnot 8 15)).
(** ue2common.rs:25-31 *)
Definition round_down_16 (a : N) : N := N.land a (bnot 8 15).
(** ue2common.rs:35-42; [n] is a u8. *)
Definition round_up_n (p : profile) (w a n : N) : outcome N :=
  let! n1 := chk_sub p 8 n 1 in
  let! s := chk_add p w a n1 in
  Ret (N.land s (bnot 8 n1)).
(** ue2common.rs:47-53 *)
Definition round_down_n (p : profile) (a n : N) : outcome N :=
  let! n1 := chk_sub p 8 n 1 in
  Ret (N.land a (bnot 8 n1)).
(** ue2common.rs:58-65 *)
Definition round_up_cache_line (p : profile) (w a : N) : outcome N :=
  let! s := chk_add p w a 63 in
  Ret (N.land s (bnot 8 63)).

(** ** src/util/unicode_def.rs:1-3; the subtraction is a constant. *)
Definition UTF_TWO_BYTE_HEADER : N := 192.
(** unicode_def.rs:3 *)
Definition UTF_CONT_MAX : N := UTF_TWO_BYTE_HEADER - 1.

(** ** src/util/depth.rs *)

(** depth.rs:4 *)
Definition INFINITY : N := 2 ^ 31 - 1.
(** depth.rs:7 *)
Definition MAX_VALUE : N := INFINITY - 1.
(** depth.rs:14-16 *)
Record depth := Depth { depth_val : N }.
(** depth.rs:19-21 *)
Definition depth_infinity : depth := Depth INFINITY.
(** depth.rs:24-34 (u32); [DepthOverflowError] is [tt]. *)
Definition depth_try_from_u32 (v : N) : result unit depth :=
  if v <=? MAX_VALUE then ROk (Depth v) else RErr tt.
(** depth.rs:36-47 (usize): the value is cast to u32 after the test. *)
Definition depth_try_from_usize (v : N) : result unit depth :=
  if v <=? MAX_VALUE then ROk (Depth (cast 32 v)) else RErr tt.
(** depth.rs:49-53 *)
Definition depth_eq (a b : depth) : bool := depth_val a =? depth_val b.
(** depth.rs:55-59 *)
Definition depth_cmp (a b : depth) : comparison := depth_val a ?= depth_val b.
(** depth.rs:61-65 *)
Definition depth_partial_cmp (a b : depth) : option comparison := Some (depth_cmp a b).
(** [std::cmp::min]: returns the first argument when equal. (used in ng.rs:118-123) *)
Definition depth_min (a b : depth) : depth :=
  match depth_cmp a b with Gt => b | _ => a end.

(** ** src/util/compile_error.rs *)

(** compile_error.rs:17-26 *)
Inductive error_kind := EParse | ELocatedParse | EResourceLimit | EOther.
(** compile_error.rs:5-13 *)
Record compile_error := CompileError {
  err_kind : error_kind;
  err_reason : str;
  err_index : option N
}.
(** compile_error.rs:29-35 *)
Definition error_new (k : error_kind) (why : str) : compile_error :=
  CompileError k why None.
(** compile_error.rs:37-43 *)
Definition error_with_index (i : N) (why : str) : compile_error :=
  CompileError EOther why (Some i).
(** compile_error.rs:45-48 *)
Definition set_expression_index (p : profile) (e : compile_error) (i : N)
  : outcome compile_error :=
  let! _ := rs_debug_assert p (match err_index e with None => true | Some _ => false end) in
  Ret (CompileError (err_kind e) (err_reason e) (Some i)).
(** compile_error.rs:51-58 (Display) *)
Definition error_display (e : compile_error) : str :=
  match err_index e with
  | Some i => err_reason e ++ lit " in expression " ++ show i
  | None => err_reason e
  end.

(** ** src/grey.rs *)

(** grey.rs:3-19 *)
Record grey := Grey {
  allow_literal : bool;
  flood_as_puffette : bool;
  shortcut_literals : bool;
  allow_small_write : bool;
  small_write_largest_buffer : N;
  small_write_max_patterns : N;
  small_write_max_literals : N;
  limit_pattern_count : N;
  limit_pattern_length : N;
  limit_report_count : N
}.
(** grey.rs:21-36 *)
Definition grey_default : grey := {|
  allow_literal := true;
  flood_as_puffette := false;
  shortcut_literals := true;
  allow_small_write := true;
  small_write_largest_buffer := 70;
  small_write_max_patterns := 10000;
  small_write_max_literals := 10000;
  limit_pattern_count := 8000000;
  limit_pattern_length := 16000;
  limit_report_count := 4 * 8000000
|}.

(** src/util/compile_context.rs:6-21 *)
Record compile_context := CompileContext {
  streaming : bool;
  vectored : bool;
  cc_grey : grey
}.

(** src/som.rs:5-12 *)
Inductive som_type := SomNone | SomLeft.

(** ** [Mode] and [SomHorizon], src/lib.rs:34-71 *)
Inductive som_horizon := HLarge | HMedium | HSmall.
(** lib.rs:34-41 *)
Inductive mode := Block | Stream (h : option som_horizon) | Vectored.
(** lib.rs:45-47 *)
Definition is_streaming (m : mode) : bool :=
  match m with Stream _ | Vectored => true | Block => false end.
(** lib.rs:49-51 *)
Definition is_vectored (m : mode) : bool :=
  match m with Vectored => true | _ => false end.
(** lib.rs:54-64 *)
Definition som_precision (m : mode) : N :=
  match m with
  | Stream (Some HLarge) => 8
  | Stream (Some HMedium) => 4
  | Stream (Some HSmall) => 2
  | Vectored => 8
  | _ => 0
  end.

(** ** [Flags], src/lib.rs:134-148 (bitflags over u16). *)
Definition flags := N.
(** lib.rs:136 *)
Definition CASELESS : flags := 1.
(** lib.rs:137 *)
Definition DOTALL : flags := 2.
(** lib.rs:138 *)
Definition MULTILINE : flags := 4.
(** lib.rs:139 *)
Definition SINGLEMATCH : flags := 8.
(** lib.rs:140 *)
Definition ALLOWEMPTY : flags := 16.
(** lib.rs:141 *)
Definition UTF8 : flags := 32.
(** lib.rs:142 *)
Definition UCP : flags := 64.
(** lib.rs:143 *)
Definition PREFILTER : flags := 128.
(** lib.rs:144 *)
Definition SOM_LEFTMOST : flags := 256.
(** lib.rs:145 *)
Definition COMBINATION : flags := 512.
(** lib.rs:146 *)
Definition QUIET : flags := 1024.
(** all flags declared in lib.rs:136-146 *)
Definition ALL_FLAGS : flags := 2047.
(** bitflags [contains]: all bits of [x] are set in [f]. (lib.rs:134 ([bitflags!])) *)
Definition contains (f x : N) : bool := N.land f x =? x.
(** bitflags [!]: complement truncated to the declared bits. (lib.rs:134 ([bitflags!])) *)
Definition flags_not (f : flags) : flags := N.land (bnot 16 f) ALL_FLAGS.
