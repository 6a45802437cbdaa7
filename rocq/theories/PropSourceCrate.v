(** C94: the text of the compiler's source files, read by the parser of ModelRust.v and run by
    the interpreter of ModelInterp.v: the functions below [compile]. *)
From Verif Require Import Base ModelRust ModelInterp ModelSource ModelUtil ModelLiteral ModelReport ModelPetgraph ModelParser ModelNfa ModelSmallWrite ModelCompiler SpecSource SpecSourceCrate
  ProofSourceA ProofSourceR ProofSourceS ProofSourceT PropSource PropSourceParse.
Local Open Scope string_scope.
Local Open Scope N_scope.
Local Open Scope list_scope.

Ltac into H := intros; intros turns depth Hturns Hdepth; rewrite program_is; do 14 (destruct depth as [|depth]; [lia|]); rewrite H by (assumption || lia); try reflexivity.

(** lib.rs: the constants and operators of [Flags], [Mode]; grey.rs; compile_context.rs; position_info.rs: [PosFlags] *)
Theorem C94_flags : forall p,
  (runs p 300 (Some "Flags") "ALLOWEMPTY" []
     (Ret (Some (v_flags ALLOWEMPTY, [])))) /\
  (runs p 300 (Some "Flags") "COMBINATION" []
     (Ret (Some (v_flags COMBINATION, [])))) /\
  (runs p 300 (Some "Flags") "SINGLEMATCH" []
     (Ret (Some (v_flags SINGLEMATCH, [])))) /\
  (runs p 300 (Some "Flags") "PREFILTER" []
     (Ret (Some (v_flags PREFILTER, [])))) /\
  (runs p 300 (Some "Flags") "QUIET" []
     (Ret (Some (v_flags QUIET, [])))) /\
  (runs p 300 (Some "Flags") "SOM_LEFTMOST" []
     (Ret (Some (v_flags SOM_LEFTMOST, [])))) /\
  (runs p 300 (Some "Flags") "CASELESS" []
     (Ret (Some (v_flags CASELESS, [])))) /\
  (runs p 300 (Some "Flags") "DOTALL" []
     (Ret (Some (v_flags DOTALL, [])))) /\
  (runs p 300 (Some "Flags") "MULTILINE" []
     (Ret (Some (v_flags MULTILINE, [])))) /\
  (runs p 300 (Some "Flags") "UCP" []
     (Ret (Some (v_flags UCP, [])))) /\
  (runs p 300 (Some "Flags") "UTF8" []
     (Ret (Some (v_flags UTF8, [])))) /\
  (forall a b, runs p 300 (Some "Flags") "contains" [v_flags a; v_flags b]
     (Ret (Some (VBool (contains a b), [v_flags a; v_flags b])))) /\
  (forall a b, runs p 300 (Some "Flags") "bitor" [v_flags a; v_flags b]
     (Ret (Some (v_flags (N.lor a b), [v_flags a; v_flags b])))) /\
  (forall a b, runs p 300 (Some "Flags") "bitand" [v_flags a; v_flags b]
     (Ret (Some (v_flags (N.land a b), [v_flags a; v_flags b])))) /\
  (forall a, runs p 300 (Some "Flags") "not" [v_flags a]
     (Ret (Some (v_flags (flags_not a), [v_flags a])))) /\
  (runs p 300 (Some "PosFlags") "NOFLOAT" []
     (Ret (Some (v_posflags NOFLOAT, [])))) /\
  (runs p 300 (Some "PosFlags") "MUST_FLOAT" []
     (Ret (Some (v_posflags MUST_FLOAT, [])))) /\
  (runs p 300 (Some "PosFlags") "MULTILINE_START" []
     (Ret (Some (v_posflags MULTILINE_START, [])))) /\
  (forall a b, runs p 300 (Some "PosFlags") "contains" [v_posflags a; v_posflags b]
     (Ret (Some (VBool (contains a b), [v_posflags a; v_posflags b])))) /\
  (forall a b, runs p 300 (Some "PosFlags") "bitor" [v_posflags a; v_posflags b]
     (Ret (Some (v_posflags (N.lor a b), [v_posflags a; v_posflags b])))) /\
  (forall a, runs p 300 (Some "PosFlags") "is_empty" [v_posflags a]
     (Ret (Some (VBool (a =? 0), [v_posflags a])))) /\
  (forall m, runs p 300 (Some "Mode") "is_streaming" [v_scan m]
     (Ret (Some (VBool (is_streaming m), [v_scan m])))) /\
  (forall m, runs p 300 (Some "Mode") "is_vectored" [v_scan m]
     (Ret (Some (VBool (is_vectored m), [v_scan m])))) /\
  (forall m, runs p 300 (Some "Mode") "som_precision" [v_scan m]
     (Ret (Some (VInt Usize (som_precision m), [v_scan m])))) /\
  (runs p 300 (Some "Grey") "default" []
     (Ret (Some (v_grey grey_default, [])))) /\
  (forall s v g, runs p 300 (Some "CompileContext") "new" [VBool s; VBool v; v_grey g]
     (Ret (Some (v_ctx (CompileContext s v g), [VBool s; VBool v; v_grey g])))).
Proof.
  intro p. split; [into n_ALLOWEMPTY|]. split; [into n_COMBINATION|]. split; [into n_SINGLEMATCH|]. split; [into n_PREFILTER|]. split; [into n_QUIET|]. split; [into n_SOM|]. split; [into n_CASELESS|]. split; [into n_DOTALL|]. split; [into n_MULTILINE|]. split; [into n_UCP|]. split; [into n_UTF8|]. split; [into n_contains|]. split; [into n_or|]. split; [into n_and|]. split; [into n_not|]. split; [into n_NOFLOAT|]. split; [into n_MUST_FLOAT|]. split; [into n_MULTILINE_START|]. split; [into n_pos_contains|]. split; [into n_pos_or|]. split; [into n_pos_empty|]. split; [into n_streaming|]. split; [into n_vectored|]. split; [into n_precision|]. split; [into n_grey|]. into n_ctx.
Qed.
(** depth.rs *)
Theorem C94_depth : forall p,
  (runs p 300 None "INFINITY" []
     (Ret (Some (VInt U32 2147483647, [])))) /\
  (runs p 300 None "MAX_VALUE" []
     (Ret (Some (VInt U32 2147483646, [])))) /\
  (runs p 300 (Some "Depth") "infinity" []
     (Ret (Some (v_depth depth_infinity, [])))) /\
  (forall n, runs p 300 (Some "Depth") "try_from<u32>" [VInt U32 n]
     (Ret (Some (v_deep (depth_try_from_u32 n), [VInt U32 n])))) /\
  (forall n, runs p 300 (Some "Depth") "try_from<usize>" [VInt Usize n]
     (Ret (Some (v_deep (depth_try_from_usize n), [VInt Usize n])))) /\
  (forall a b, runs p 300 (Some "Depth") "eq" [v_depth a; v_depth b]
     (Ret (Some (VBool (depth_eq a b), [v_depth a; v_depth b])))) /\
  (forall a b, runs p 300 (Some "Depth") "cmp" [v_depth a; v_depth b]
     (Ret (Some (ordering (depth_cmp a b), [v_depth a; v_depth b])))) /\
  (forall a b, runs p 300 (Some "Depth") "partial_cmp" [v_depth a; v_depth b]
     (Ret (Some (match depth_partial_cmp a b with Some c => some_ (ordering c) | None => none_ end, [v_depth a; v_depth b])))).
Proof.
  intro p. split; [into n_INFINITY|]. split; [into n_MAX_VALUE|]. split; [into n_infinity|]. split; [into n_try_u32|]. split; [into n_try_usize|]. split; [into n_depth_eq|]. split; [into n_depth_cmp|]. into n_depth_pcmp.
Qed.
(** report.rs, report_manager.rs. A manager holds the grey box it was made from, of which the model keeps the limit *)
Theorem C94_reports : forall p,
  (forall r e q, runs p 300 None "make_e_callback" [VInt U32 r; VLit 0; v_u32 e; VBool q]
     (Ret (Some (v_report (make_e_callback r 0 e q), [VInt U32 r; VLit 0; v_u32 e; VBool q])))) /\
  (forall r n, runs p 300 None "make_som_relative_callback" [VInt U32 r; VLit 0; VInt U64 n]
     (Ret (Some (v_report (make_som_relative_callback r 0 n), [VInt U32 r; VLit 0; VInt U64 n])))) /\
  (forall h i, runs p 300 (Some "ExternalReportInfo") "new" [VBool h; VInt U32 i]
     (Ret (Some (v_ext (ExtInfo h i), [VBool h; VInt U32 i])))) /\
  (forall g, runs p 300 (Some "ReportManager") "new" [v_grey g]
     (Ret (Some (v_rm g (rm_new (limit_report_count g)), [v_grey g])))) /\
  (forall g r, runs p 300 (Some "ReportManager") "num_reports" [v_rm g r]
     (Ret (Some (VInt Usize (num_reports r), [v_rm g r])))) /\
  (forall g r ir, rm_limit r = limit_report_count g -> runs p 300 (Some "ReportManager") "get_internal_id" [v_rm g r; v_report ir]
     (let! (r', x) := get_internal_id r ir in Ret (Some (v_res (VInt U32) x, [v_rm g r'; v_report ir])))) /\
  (forall g r id e, runs p 300 (Some "ReportManager") "register_ext_report" [v_rm g r; VInt U32 id; v_ext e]
     (let (r', x) := register_ext_report r id e in Ret (Some (v_res (fun _ => VUnit) x, [v_rm g r'; VInt U32 id; v_ext e])))) /\
  (forall g r a, runs p 300 (Some "ReportManager") "get_exhaustible_key" [v_rm g r; VInt U32 a]
     (let! (r', k) := get_exhaustible_key r a in Ret (Some (VInt U32 k, [v_rm g r'; VInt U32 a])))).
Proof.
  intro p. split; [into n_e_callback|]. split; [into n_som_callback|]. split; [into n_ext_new|]. split; [into n_rm_new|]. split; [into n_num_reports|]. split; [into n_internal|]. split; [into n_register|]. into n_key.
Qed.
(** ue2string.rs: a literal has fewer bytes than [usize] counts *)
Theorem C94_literals : forall p,
  (forall l, runs p 300 (Some "Ue2Literal") "len" [v_lit l]
     (Ret (Some (VInt Usize (lit_len l), [v_lit l])))) /\
  (forall l, runs p 300 (Some "Ue2Literal") "is_empty" [v_lit l]
     (Ret (Some (VBool (lit_is_empty l), [v_lit l])))) /\
  (forall l, runs p 300 (Some "Ue2Literal") "any_nocase" [v_lit l]
     (Ret (Some (VBool (lit_any_nocase l), [v_lit l])))) /\
  (forall l, runs p 300 (Some "Ue2Literal") "iter" [v_lit l]
     (Ret (Some (v_iter l 0, [v_lit l])))) /\
  (forall l, runs p 300 (Some "Ue2Literal") "into_iter" [v_lit l]
     (Ret (Some (v_iter l 0, [v_lit l])))) /\
  (forall l c n, runs p 300 (Some "Ue2Literal") "push" [v_lit l; VInt U8 c; VBool n]
     (Ret (Some (VUnit, [v_lit (lit_push l c n); VInt U8 (if n then mytoupper c else c); VBool n])))) /\
  (forall l i, N.of_nat (List.length (lit_s l)) < 2 ^ usize_bits p -> runs p 300 (Some "Ue2LiteralIter") "next" [v_iter l (N.of_nat i)]
     (Ret (Some (match lit_iter_next l i with Some (e, i') => (some_ (v_elem e), [v_iter l (N.of_nat i')]) | None => (none_, [v_iter l (N.of_nat i)]) end)))) /\
  (forall a b, runs p 300 (Some "Ue2Literal") "eq" [v_lit a; v_lit b]
     (Ret (Some (VBool (lit_eq a b), [v_lit a; v_lit b])))) /\
  (forall a b, runs p 300 (Some "Ue2Literal") "cmp" [v_lit a; v_lit b]
     (Ret (Some (ordering (lit_cmp a b), [v_lit a; v_lit b])))) /\
  (forall a b, runs p 300 (Some "Ue2Literal") "partial_cmp" [v_lit a; v_lit b]
     (Ret (Some (some_ (ordering (lit_cmp a b)), [v_lit a; v_lit b])))) /\
  (forall l, N.of_nat (List.length (lit_s l)) < 2 ^ usize_bits p -> runs p (300 + S (List.length (lit_s l))) None "mixed_sensitivity" [v_lit l]
     (Ret (Some (VBool (mixed_sensitivity (lit_iter l)), [v_lit l])))).
Proof.
  intro p. split; [into t_len|]. split; [into t_is_empty|]. split; [into t_any|]. split; [into t_iter|]. split; [into t_into_iter|]. split; [into t_push|]. split; [into t_next|]. split; [into t_eq|]. split; [into t_cmp|]. split; [into t_pcmp|]. into t_mixed.
Qed.
(** rose_build.rs, rose_build_misc.rs, rose_build_bytecode.rs, database.rs, runtime.rs *)
Theorem C94_rose : forall p,
  (forall r c, runs p 300 None "is_pure_floating" [v_resources r; v_ctx c]
     (Ret (Some (VBool (is_pure_floating r c), [v_resources r; v_ctx c])))) /\
  (forall b, runs p 300 None "is_single_outfix" [v_rose b]
     (Ret (Some (VBool (is_single_outfix b), [v_rose b])))) /\
  (forall b r, runs p 300 None "pick_runtime_impl" [v_rose b; v_resources r]
     (Ret (Some (v_impl (pick_runtime_impl b r), [v_rose b; v_resources r])))) /\
  (forall b x y l s, runs p 300 (Some "RoseBuild") "add" [v_rose b; VBool x; VBool y; v_lit l; v_ids s]
     (Ret (Some (VUnit, [v_rose (rose_add b x y l s); VBool x; VBool y; v_lit l; v_ids s])))) /\
  (forall b, runs p 300 (Some "RoseBuild") "build_final_engine" [v_rose b]
     (Ret (Some (v_engine (build_final_engine b), [v_rose b])))) /\
  (forall b, runs p 300 (Some "RoseBuild") "build_rose" [v_rose b]
     (Ret (Some (v_engine (build_rose b), [v_rose b])))) /\
  (forall r, runs p 300 (Some "Database") "new" [v_engine r]
     (Ret (Some (v_db (Database r), [v_engine r])))) /\
  (forall b, runs p 300 None "get_bytecode" [v_db b]
     (Ret (Some (v_engine (get_bytecode b), [v_db b])))) /\
  (forall r x, runs p 300 None "init_som_state" [v_engine r; VInt Usize x]
     (Ret (Some (VUnit, [v_engine r; VInt Usize x])))) /\
  (forall r, runs p 300 None "rose_block_exec" [v_engine r]
     (Ret (Some (VUnit, [v_engine r])))) /\
  (forall r s, runs p 300 None "raw_block_exec" [v_engine r; v_scratch s]
     (Ret (Some (VUnit, [v_engine r; v_scratch (raw_block_exec r s)])))) /\
  (forall r s, runs p 300 None "pure_literal_block_exec" [v_engine r; v_scratch s]
     (Ret (Some (VUnit, [v_engine r; v_scratch (pure_literal_block_exec r s)])))) /\
  (forall r s, runs p 300 None "single_outfix_block_exec" [v_engine r; v_scratch s]
     (Ret (Some (VUnit, [v_engine r; v_scratch (single_outfix_block_exec r s)])))) /\
  (forall b data s, runs p 300 None "scan" [v_db b; v_bytes data; v_scratch s]
     (Ret (Some (match snd (scan b data s) with ROk _ => ok_ VUnit | RErr _ => VCtor "Err" [VUnit] end, [v_db b; v_bytes data; v_scratch (fst (scan b data s))])))).
Proof.
  intro p. split; [into n_pure|]. split; [into n_single|]. split; [into n_pick|]. split; [into n_rose_add|]. split; [into n_final|]. split; [into n_build_rose|]. split; [into n_db|]. split; [into n_bytecode|]. split; [into n_init_som|]. split; [into n_block_exec|]. split; [into n_raw|]. split; [into n_pure_exec|]. split; [into n_single_exec|]. into n_scan.
Qed.

(** A run of the texts: the third report of a manager with a limit of two is refused, and a literal is
    pushed to upper-cased. *)
Example C94_case :
  let g := Grey true true true true 70000 10 100 8 100 2 in
  let r := ReportManager 2 [Report 0; Report 7] [(Report 0, 0); (Report 7, 1)] [] [] false in
  call (Profile true true W64) util_program 300 20 (Some "ReportManager") "get_internal_id" [v_rm g r; v_report (Report 7)] =
    Ret (Some (ok_ (VInt U32 1), [v_rm g r; v_report (Report 7)])) /\
  (exists reason, call (Profile true true W64) util_program 300 20 (Some "ReportManager") "get_internal_id" [v_rm g r; v_report (Report 9)] =
    Ret (Some (VCtor "Err" [VStruct "CompileError" [("kind", v_kind EResourceLimit); ("reason", VStr reason); ("index", none_)]], [v_rm g r; v_report (Report 9)]))) /\
  call (Profile true true W64) util_program 300 20 (Some "Ue2Literal") "push" [v_lit (Literal [65] [true]); VInt U8 98; VBool true] =
    Ret (Some (VUnit, [v_lit (Literal [65; 66] [true; true]); VInt U8 66; VBool true])) /\
  call (Profile true true W64) util_program 300 20 None "mixed_sensitivity" [v_lit (Literal [65; 66; 48] [true; false; false])] =
    Ret (Some (VBool true, [v_lit (Literal [65; 66; 48] [true; false; false])])).
Proof. cbv zeta. split; [vm_compute; reflexivity|]. split; [eexists; vm_compute; reflexivity|]. split; vm_compute; reflexivity. Qed.
Print Assumptions C94_flags.
Print Assumptions C94_depth.
Print Assumptions C94_reports.
Print Assumptions C94_literals.
Print Assumptions C94_rose.
