(** Model of the compile pipeline and the runtime: src/nfagraph/ng.rs,
    src/rose/*.rs, src/parser/shortcut_literal.rs, src/compiler.rs, src/lib.rs,
    src/database.rs, src/scratch.rs, src/runtime.rs *)
From Verif Require Import Base ModelUtil ModelBitField ModelCharReach ModelLiteral ModelReport
  ModelPetgraph ModelParser ModelNfa ModelSmallWrite.
Local Open Scope N_scope.

(** ** src/rose *)

(** rose_internal.rs:3-7 *)
Inductive runtime_impl := FullRose | PureLiteral | SingleOutfix.
(** rose_internal.rs:9-16 *)
Record rose_engine := RoseEngine { re_runtime_impl : runtime_impl; re_mode : mode }.

(** rose_build_resources.rs:8-25 *)
Record rose_resources := RoseResources {
  has_outfixes : bool; has_suffixes : bool; has_leftfixes : bool; has_literals : bool;
  has_states : bool; checks_groups : bool; has_lit_delay : bool; has_lit_check : bool;
  has_anchored : bool; has_anchored_multiple : bool; has_anchored_large : bool;
  has_floating : bool; has_eod : bool }.
(** derived [Default] (rose_build_resources.rs:7) *)
Definition resources_default : rose_resources :=
  RoseResources false false false false false false false false false false false false false.

(** rose_build_bytecode.rs:10-44 *)
Definition is_pure_floating (r : rose_resources) (cc : compile_context) : bool :=
  if negb (has_floating r) then false
  else if has_outfixes r || has_suffixes r || has_leftfixes r then false
  else if has_anchored r then false
  else if has_eod r then false
  else if has_states r then false
  else if has_lit_delay r then false
  else if streaming cc && has_lit_check r then false
  else if checks_groups r then false
  else true.

(** rose_build.rs:7-10 *)
Record rose_build := RoseBuild { rb_cc : compile_context; rb_has_som : bool }.
(** rose_build_bytecode.rs:46-48 *)
Definition is_single_outfix (tbi : rose_build) : bool := false.
(** rose_build_bytecode.rs:50-60 *)
Definition pick_runtime_impl (b : rose_build) (r : rose_resources) : runtime_impl :=
  if is_pure_floating r (rb_cc b) then PureLiteral
  else if is_single_outfix b then SingleOutfix
  else FullRose.
(** rose_build.rs:14-24: no effect whatever the configuration. *)
Definition rose_add (b : rose_build) (anchored eod : bool) (l : literal) (reports_ : list N)
  : rose_build :=
  if flood_as_puffette (cc_grey (rb_cc b)) then b else b.
(** rose_build.rs:30-50 *)
Definition build_final_engine (b : rose_build) : rose_engine :=
  let m := if streaming (rb_cc b) then
             if vectored (rb_cc b) then Vectored else Stream None
           else Block in
  RoseEngine (pick_runtime_impl b resources_default) m.
(** rose_build.rs:26-28 *)
Definition build_rose (b : rose_build) : rose_engine := build_final_engine b.

(** ** src/nfagraph/ng.rs *)

(** ng.rs:17-31 *)
Record ng := Ng {
  ng_min_width : depth;
  ng_rm : report_manager;
  ng_boundary : boundary_reports;
  ng_cc : compile_context;
  ng_smwr : small_write;
  ng_rose : rose_build }.

(** ng.rs:34-59 *)
Definition ng_new (cc : compile_context) (num_patterns som_precision_ : N) : ng :=
  Ng depth_infinity (rm_new (limit_report_count (cc_grey cc))) boundary_default cc
     (smwr_new num_patterns (cc_grey cc)) (RoseBuild cc false).

(** assignment through [self.rm], ng.rs:91,98,103,111 *)
Definition ng_set_rm (n : ng) (rm : report_manager) : ng :=
  Ng (ng_min_width n) rm (ng_boundary n) (ng_cc n) (ng_smwr n) (ng_rose n).
(** ng.rs:63,112 *)
Definition ng_set_has_som (n : ng) : ng :=
  Ng (ng_min_width n) (ng_rm n) (ng_boundary n) (ng_cc n) (ng_smwr n)
     (RoseBuild (rb_cc (ng_rose n)) true).

(** ng.rs:61-65 *)
Definition add_graph (n : ng) (expr : expression_info) (g : ng_holder) : ng :=
  match ex_som expr with
  | SomNone => n
  | SomLeft => ng_set_has_som n
  end.

(** ng.rs:96-114: the internal id of the report of a literal. *)
Definition literal_report_id (p : profile) (n : ng) (l : literal) (external_report : N)
  (highlander : bool) (som : som_type) (quiet : bool)
  : outcome (ng * result compile_error N) :=
  match som with
  | SomNone =>
    let! (rm1, ekey) :=
      (if highlander then
         let! (rm1, k) := get_exhaustible_key (ng_rm n) external_report in Ret (rm1, Some k)
       else Ret (ng_rm n, None)) in
    let r := make_e_callback external_report 0 ekey quiet in
    let! (rm2, id) := get_internal_id rm1 r in
    Ret (ng_set_rm n rm2, id)
  | SomLeft =>
    let! _ := rs_debug_assert p (negb highlander) in
    (* usize -> u64 never fails *)
    let r := make_som_relative_callback external_report 0 (lit_len l) in
    let! (rm2, id) := get_internal_id (ng_rm n) r in
    Ret (ng_set_has_som (ng_set_rm n rm2), id)
  end.

(** ng.rs:67-130 *)
Definition ng_add_literal (p : profile) (n : ng) (l : literal) (expr_index external_report : N)
  (highlander : bool) (som : som_type) (quiet : bool)
  : outcome (ng * result compile_error bool) :=
  let! _ := rs_debug_assert p (negb (lit_is_empty l)) in
  if negb (shortcut_literals (cc_grey (ng_cc n))) then Ret (n, ROk false)
  else if mixed_sensitivity (lit_iter l) then Ret (n, ROk false)
  else
    let (rm1, reg) := register_ext_report (ng_rm n) external_report (ExtInfo highlander expr_index) in
    let n1 := ng_set_rm n rm1 in
    match reg with
    | RErr e => Ret (n1, RErr e)
    | ROk _ =>
      let! (n2, rid) := literal_report_id p n1 l external_report highlander som quiet in
      match rid with
      | RErr e => Ret (n2, RErr e)
      | ROk id =>
        let rose' := rose_add (ng_rose n2) false false l [id] in
        match depth_try_from_usize (lit_len l) with
        | RErr _ => Ret (n2, RErr (error_new EOther (lit "depth overflow")))
        | ROk d =>
          let! smwr' := smwr_add_literal p (ng_smwr n2) l id in
          Ret (Ng (depth_min (ng_min_width n2) d) (ng_rm n2) (ng_boundary n2) (ng_cc n2)
                 smwr' rose', ROk true)
        end
      end
    end.

(** ** src/parser/shortcut_literal.rs *)

(** shortcut_literal.rs:21-34; [NotLiteral] is [tt]. *)
Definition lit_pre_class (p : profile) (l : literal) (c : ascii_class)
  : outcome (result unit literal) :=
  let cr := ac_cr c in
  let width := cr_count cr in
  if width =? 1 then
    let! f := cr_find_first p cr in
    let! b := expect f in
    Ret (ROk (lit_push l b false))
  else
    let! caseless := (if width =? 2 then cr_is_caseless_char p cr else Ret false) in
    if caseless : bool then
      let! f := cr_find_first p cr in
      let! b := expect f in
      Ret (ROk (lit_push l b true))
    else Ret (RErr tt).
(** shortcut_literal.rs:18-52 *)
Definition construct_literal_visitor (p : profile) : visitor literal unit := {|
  pre_class := lit_pre_class p;
  pre_alternation := fun _ _ => Ret (RErr tt);
  pre_sequence := fun v _ => Ret (ROk v);
  during_class := fun v _ => v;
  during_alternation := fun v _ => v;
  during_sequence := fun v _ => v;
  post_class := fun v _ => Ret v;
  post_alternation := fun v _ => Ret v;
  post_sequence := fun v _ => Ret v
|}.

(** ** src/compiler.rs *)

(** compiler.rs:16-19 *)
Record parsed_expression := ParsedExpression { pe_expr : expression_info; pe_component : component }.

(** compiler.rs:22-52 *)
Definition parsed_expression_new (p : profile) (index : N) (expression : str) (f : flags) (id : N)
  : outcome (result compile_error parsed_expression) :=
  let highlander := contains f SINGLEMATCH in
  let prefilter := contains f PREFILTER in
  let quiet := contains f QUIET in
  if contains f (N.lor QUIET SOM_LEFTMOST) then
    Ret (RErr (error_new EOther
      (lit "QUIET is not supported in combination with SOM_LEFTMOST.")))
  else
    let f' := N.land f (flags_not QUIET) in
    let? (component, m) := parse p expression (mode_new f') in
    Ret (ROk (ParsedExpression
      (ExpressionInfo index id false highlander (utf8 m) prefilter SomNone quiet) component)).

(** [usize.try_into::<u32>().unwrap()] (shortcut_literal.rs:79, lib.rs:126) *)
Definition to_u32 (n : N) : outcome N := if n <? 2 ^ 32 then Ret n else Panic PExpect.

(** shortcut_literal.rs:55-86 *)
Definition shortcut_literal (p : profile) (n : ng) (pe : parsed_expression)
  : outcome (ng * result compile_error bool) :=
  if negb (allow_literal (cc_grey (ng_cc n))) then Ret (n, ROk false)
  else
    let! w := walk_component p (construct_literal_visitor p) lit_default (pe_component pe) in
    match w with
    | RErr _ => Ret (n, ROk false)
    | ROk l =>
      if lit_is_empty l then Ret (n, ROk false)
      else
        let! i := to_u32 (ex_index (pe_expr pe)) in
        ng_add_literal p n l i (ex_report (pe_expr pe)) (ex_highlander (pe_expr pe))
          (ex_som (pe_expr pe)) (ex_quiet (pe_expr pe))
    end.

(** compiler.rs:55-58, 115-124 and ng_builder.rs:57-62 *)
Definition build_graph (p : profile) (pe : parsed_expression)
  : outcome (expression_info * ng_holder) :=
  let! builder := make_nfa_builder (pe_expr pe) in
  let! bs := make_glushkov_build_state p builder in
  let! bs' := note_positions bs (pe_component pe) in
  Ret (nb_expr (bs_builder bs'), nb_graph (bs_builder bs')).

(** compiler.rs:60-99 *)
Definition add_expression (p : profile) (n : ng) (index : N) (expression : str) (f : flags) (id : N)
  : outcome (ng * result compile_error unit) :=
  if limit_pattern_length (cc_grey (ng_cc n)) <? str_len expression then
    Ret (n, RErr (error_new EOther (lit "Pattern length exceeds limit.")))
  else
    let! r := parsed_expression_new p index expression f id in
    match r with
    | RErr e => Ret (n, RErr e)
    | ROk pe =>
      let _ := if ex_prefilter (pe_expr pe) then prefilter_tree (pe_component pe) else tt in
      let! (n1, sl) := shortcut_literal p n pe in
      match sl with
      | RErr e => Ret (n1, RErr e)
      | ROk true => Ret (n1, ROk tt)
      | ROk false =>
        let! (ei, g) := build_graph p pe in
        Ret (add_graph n1 ei g, ROk tt)
      end
    end.

(** src/database.rs:3-15 *)
Record database := Database { db_rose : rose_engine }.
(** database.rs:13-15 *)
Definition get_bytecode (db : database) : rose_engine := db_rose db.

(** compiler.rs:101-113 *)
Definition build (n : ng) : database := Database (build_rose (ng_rose n)).

(** ** src/lib.rs *)

(** [izip!] of three slices: stops at the shortest. (lib.rs:124) *)
Fixpoint zip3 {A B C} (a : list A) (b : list B) (c : list C) : list (A * B * C) :=
  match a, b, c with
  | x :: a', y :: b', z :: c' => (x, y, z) :: zip3 a' b' c'
  | _, _, _ => []
  end.

(** lib.rs:124-129: the loop over the zipped slices, [i] being the enumeration
    index. *)
Fixpoint add_all (p : profile) (n : ng) (i : N) (l : list (str * flags * N))
  : outcome (result compile_error ng) :=
  match l with
  | [] => Ret (ROk n)
  | (exp, fl, id) :: t =>
    let! (n', r) := add_expression p n i exp fl id in
    match r with
    | RErr e =>
      let! i32 := to_u32 i in
      let! e' := set_expression_index p e i32 in
      Ret (RErr e')
    | ROk _ => add_all p n' (i + 1) t
    end
  end.

(** lib.rs:96-132 *)
Definition compile_multi_int (p : profile) (expressions : list str) (fs : list flags)
  (ids : list N) (m : mode) (g : grey) : outcome (result compile_error database) :=
  match expressions with
  | [] => Ret (RErr (error_new EOther (lit "Invalid parameter: expressions is empty")))
  | _ :: _ =>
    let count := N.of_nat (List.length expressions) in
    if limit_pattern_count g <? count then
      Ret (RErr (error_new EOther (lit "Number of patterns too large")))
    else
      let cc := CompileContext (is_streaming m) (is_vectored m) g in
      let n := ng_new cc count (som_precision m) in
      let? n' := add_all p n 0 (zip3 expressions fs ids) in
      Ret (ROk (build n'))
  end.

(** lib.rs:87-94 *)
Definition compile_multi (p : profile) (expressions : list str) (fs : list flags)
  (ids : list N) (m : mode) : outcome (result compile_error database) :=
  compile_multi_int p expressions fs ids m grey_default.
(** lib.rs:78-80 *)
Definition compile (p : profile) (expression : str) (f : flags) (m : mode)
  : outcome (result compile_error database) :=
  compile_multi_int p [expression] [f] [0] m grey_default.

(** ** src/scratch.rs:1-7 and src/runtime.rs *)

(** scratch.rs: the raw pointer is an address. (scratch.rs:5-7) *)
Record scratch := Scratch { sc_state : N }.
(** runtime.rs:5-12 *)
Inductive rt_error := RInvalid | RScanTerminated | RUnknown.
(** runtime.rs:15; the pointer is not dereferenced *)
Definition init_som_state (r : rose_engine) (state : N) : unit := tt.
(** rose/block.rs:3 *)
Definition rose_block_exec (r : rose_engine) : unit := tt.
(** runtime.rs:17-21 *)
Definition raw_block_exec (r : rose_engine) (s : scratch) : scratch :=
  let _ := init_som_state r (sc_state s) in
  let _ := rose_block_exec r in s.
(** runtime.rs:23 *)
Definition pure_literal_block_exec (r : rose_engine) (s : scratch) : scratch := s.
(** runtime.rs:25 *)
Definition single_outfix_block_exec (r : rose_engine) (s : scratch) : scratch := s.
(** runtime.rs:32-42; returns the scratch after the call and the result. *)
Definition scan (db : database) (data : list N) (s : scratch) : scratch * result rt_error unit :=
  let rose := get_bytecode db in
  let s' := match re_runtime_impl rose with
            | FullRose => raw_block_exec rose s
            | PureLiteral => pure_literal_block_exec rose s
            | SingleOutfix => single_outfix_block_exec rose s
            end in
  (s', ROk tt).
