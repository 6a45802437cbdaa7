(** How the values of the compiler appear in a run of the source text (the values of the utilities
    and of the parser are in SpecSource.v). *)
From Verif Require Import Base ModelUtil ModelBitField ModelLiteral ModelReport ModelPetgraph ModelParser ModelNfa ModelSmallWrite ModelCompiler
  ModelRust ModelInterp ModelSource SpecSource.
Local Open Scope string_scope.
Local Open Scope N_scope.
Local Open Scope list_scope.

(** ** lib.rs, grey.rs, som.rs, depth.rs, compile_context.rs *)
Definition v_flags (f : flags) : val := VStruct "Flags" [("bits", VInt U16 f)].
Definition v_horizon (h : som_horizon) : val :=
  VCtor (match h with HLarge => "SomHorizon::Large" | HMedium => "SomHorizon::Medium" | HSmall => "SomHorizon::Small" end) [].
Definition v_scan (m : ModelUtil.mode) : val :=
  match m with
  | Block => VCtor "Mode::Block" []
  | Stream h => VCtor "Mode::Stream" [match h with Some h => some_ (v_horizon h) | None => none_ end]
  | Vectored => VCtor "Mode::Vectored" []
  end.
Definition v_grey (g : grey) : val :=
  VStruct "Grey" [("allow_literal", VBool (allow_literal g)); ("flood_as_puffette", VBool (flood_as_puffette g));
    ("shortcut_literals", VBool (shortcut_literals g)); ("allow_small_write", VBool (allow_small_write g));
    ("small_write_largest_buffer", VInt Usize (small_write_largest_buffer g)); ("small_write_max_patterns", VInt Usize (small_write_max_patterns g));
    ("small_write_max_literals", VInt Usize (small_write_max_literals g)); ("limit_pattern_count", VInt Usize (limit_pattern_count g));
    ("limit_pattern_length", VInt Usize (limit_pattern_length g)); ("limit_report_count", VInt Usize (limit_report_count g))].
Definition v_ctx (c : compile_context) : val :=
  VStruct "CompileContext" [("streaming", VBool (streaming c)); ("vectored", VBool (vectored c)); ("grey", v_grey (cc_grey c))].
Definition v_depth (d : depth) : val := VStruct "Depth" [("val", VInt U32 (depth_val d))].
Definition v_deep (r : result unit depth) : val :=
  match r with ROk d => ok_ (v_depth d) | RErr _ => VCtor "Err" [VStruct "DepthOverflowError" []] end.
Definition v_som (s : som_type) : val := VCtor (match s with SomNone => "SomType::None" | SomLeft => "SomType::Left" end) [].

(** ** report.rs, report_manager.rs, boundary_reports.rs.  The manager holds the grey box, of which
    the model keeps the limit. *)
Definition v_report (r : report) : val := VStruct "Report" [("min_length", VInt U64 (min_length r))].
Definition v_ext (e : ext_info) : val :=
  VStruct "ExternalReportInfo" [("highlander", VBool (ei_highlander e)); ("first_pattern_index", VInt U32 (ei_first_index e))].
Definition v_map {K V} (k : K -> val) (v : V -> val) (m : list (K * V)) : val := VCtor "HashMap" (map (fun x => VTuple [k (fst x); v (snd x)]) m).
Definition v_ids (s : list N) : val := VCtor "HashSet" (map (VInt U32) s).
Definition v_rm (g : grey) (r : report_manager) : val :=
  VStruct "ReportManager" [("grey", v_grey g); ("report_ids", VList (map v_report (report_ids r)));
    ("report_id_to_internal_map", v_map v_report (VInt U32) (internal_map r)); ("external_id_map", v_map (VInt U32) v_ext (external_map r));
    ("to_exhaustible_key_map", v_map (VInt U32) (VInt U32) (exhaust_map r)); ("global_exhaust", VBool (global_exhaust r))].
Definition v_boundary (b : boundary_reports) : val :=
  VStruct "BoundaryReports" [("report_at_0", v_ids (report_at_0 b)); ("report_at_0_eod", v_ids (report_at_0_eod b)); ("report_at_eod", v_ids (report_at_eod b))].

(** ** ue2string.rs *)
Definition v_lit (l : literal) : val := VStruct "Ue2Literal" [("s", VList (map (VInt U8) (lit_s l))); ("nocase", VList (map VBool (lit_nocase l)))].
Definition v_elem (e : lit_elem) : val := VStruct "Ue2LiteralElem" [("c", VInt U8 (el_c e)); ("nocase", VBool (el_nocase e))].
Definition v_iter (l : literal) (i : N) : val := VStruct "Ue2LiteralIter" [("lit", v_lit l); ("idx", VInt Usize i)].

(** ** rose, database.rs, scratch.rs, runtime.rs *)
Definition v_impl (r : runtime_impl) : val :=
  VCtor (match r with FullRose => "RoseRuntimeImpl::FullRose" | PureLiteral => "RoseRuntimeImpl::PureLiteral" | SingleOutfix => "RoseRuntimeImpl::SingleOutfix" end) [].
Definition v_engine (r : rose_engine) : val := VStruct "RoseEngine" [("runtime_impl", v_impl (re_runtime_impl r)); ("mode", v_scan (re_mode r))].
Definition v_resources (r : rose_resources) : val :=
  VStruct "RoseResources" [("has_outfixes", VBool (has_outfixes r)); ("has_suffixes", VBool (has_suffixes r)); ("has_leftfixes", VBool (has_leftfixes r));
    ("has_literals", VBool (has_literals r)); ("has_states", VBool (has_states r)); ("checks_groups", VBool (checks_groups r));
    ("has_lit_delay", VBool (has_lit_delay r)); ("has_lit_check", VBool (has_lit_check r)); ("has_anchored", VBool (has_anchored r));
    ("has_anchored_multiple", VBool (has_anchored_multiple r)); ("has_anchored_large", VBool (has_anchored_large r)); ("has_floating", VBool (has_floating r));
    ("has_eod", VBool (has_eod r))].
Definition v_rose (b : rose_build) : val := VStruct "RoseBuild" [("cc", v_ctx (rb_cc b)); ("has_som", VBool (rb_has_som b))].
Definition v_db (d : database) : val := VStruct "Database" [("rose", v_engine (db_rose d))].
Definition v_scratch (s : scratch) : val := VStruct "Scratch" [("core_info", VStruct "CoreInfo" [("state", VInt Usize (sc_state s))])].

(** ** ng_holder.rs, expression_info.rs, ng_builder.rs, position_info.rs, build_state.rs *)
Definition v_graph {A} (f : A -> val) (g : graph A) : val :=
  graph_ (map f (nodes g)) (map (fun e => VTuple [VInt U32 (fst e); VInt U32 (snd e)]) (edges g)).
Definition v_posflags (f : pos_flags) : val := VStruct "PosFlags" [("bits", VInt U32 f)].
Definition v_props (v : vertex_props) : val :=
  VStruct "NfaGraphVertexProps" [("char_reach", v_cr (char_reach v)); ("reports", v_ids (reports v)); ("assert_flags", v_posflags (assert_flags v))].
Definition v_holder (h : ng_holder) : val :=
  VStruct "NgHolder" [("inner", v_graph v_props (inner h)); ("start", ix_ (start h)); ("start_ds", ix_ (start_ds h)); ("accept", ix_ (accept h)); ("accept_eod", ix_ (accept_eod h))].
Definition v_info (e : expression_info) : val :=
  VStruct "ExpressionInfo" [("index", VInt Usize (ex_index e)); ("report", VInt U32 (ex_report e)); ("allow_vacuous", VBool (ex_allow_vacuous e));
    ("highlander", VBool (ex_highlander e)); ("utf8", VBool (ex_utf8 e)); ("prefilter", VBool (ex_prefilter e)); ("som", v_som (ex_som e)); ("quiet", VBool (ex_quiet e))].
Definition v_builder (b : nfa_builder) : val := VStruct "NfaBuilder" [("graph", v_holder (nb_graph b)); ("expr", v_info (nb_expr b))].
Definition v_pos (i : position_info) : val := VStruct "PositionInfo" [("pos", ix_ (pi_pos i)); ("flags", v_posflags (pi_flags i))].
Definition v_positions (l : list position_info) : val := VCtor "HashSet" (map v_pos l).
Definition v_bs (b : build_state) : val :=
  VStruct "GlushkovBuildState" [("start_state", ix_ (bs_start b)); ("start_dot_star_state", ix_ (bs_start_ds b)); ("accept_state", ix_ (bs_accept b));
    ("accept_eod_state", ix_ (bs_accept_eod b)); ("builder", v_builder (bs_builder b)); ("successors", v_map ix_ v_positions (bs_successors b))].

(** ** smallwrite_build.rs.  The pointer to the report manager is not looked at. *)
Definition v_trie_props (t : trie_props) : val := VStruct "LitTrieVertexProps" [("c", VInt U8 (tp_c t)); ("reports", v_ids (tp_reports t))].
Definition v_trie (t : lit_trie) : val := VStruct "LitTrie" [("inner", v_graph v_trie_props (lt_inner t)); ("root", ix_ (lt_root t))].
(** its context is the one of the [Ng] it is part of *)
Definition v_smwr (c : compile_context) (s : small_write) : val :=
  VStruct "SmallWriteBuild" [("rm", VCtor "NonNull" []); ("cc", v_ctx c); ("lit_trie", v_trie (sw_trie s)); ("lit_trie_nocase", v_trie (sw_trie_nocase s));
    ("num_literals", VInt Usize (sw_num_literals s)); ("poisoned", VBool (sw_poisoned s))].

(** ** ng.rs, compiler.rs *)
Definition v_ng (n : ng) : val :=
  VStruct "Ng" [("min_width", v_depth (ng_min_width n)); ("rm", v_rm (cc_grey (ng_cc n)) (ng_rm n)); ("boundary", v_boundary (ng_boundary n));
    ("cc", v_ctx (ng_cc n)); ("smwr", v_smwr (ng_cc n) (ng_smwr n)); ("rose", v_rose (ng_rose n)); ("_pin", VUnit)].
(** the report manager and the small-write builder read the grey box of the context they were made from *)
Definition one_grey (n : ng) : Prop := rm_limit (ng_rm n) = limit_report_count (cc_grey (ng_cc n)) /\ sw_grey (ng_smwr n) = cc_grey (ng_cc n).
Definition v_pexpr (e : parsed_expression) : val := VStruct "ParsedExpression" [("expr", v_info (pe_expr e)); ("component", v_comp (pe_component e))].
Definition v_built (x : expression_info * ng_holder) : val := VStruct "BuiltExpression" [("expr", v_info (fst x)); ("g", v_holder (snd x))].
