(** Runs of the source text: the small types of the compiler, rose and the runtime. *)
From Verif Require Import Base ModelUtil ModelBitField ModelCharReach ModelLiteral ModelReport ModelPetgraph ModelParser ModelNfa ModelSmallWrite ModelCompiler
  ModelRust ModelInterp ModelDump ModelSource SpecSource SpecSourceCrate.
From Verif Require Import ProofSourceA ProofSourceB ProofSourceC ProofSourceD ProofSourceE ProofSourceF ProofSourceL.
Local Open Scope string_scope.
Local Open Scope N_scope.
Local Open Scope list_scope.
#[export] Set Warnings "-simpl-never".
#[global] Arguments v_flags : simpl never.
#[global] Arguments v_horizon : simpl never.
#[global] Arguments v_scan : simpl never.
#[global] Arguments v_grey : simpl never.
#[global] Arguments v_ctx : simpl never.
#[global] Arguments v_depth : simpl never.
#[global] Arguments v_deep : simpl never.
#[global] Arguments v_som : simpl never.
#[global] Arguments v_report : simpl never.
#[global] Arguments v_ext : simpl never.
#[global] Arguments v_map {K V} : simpl never.
#[global] Arguments v_ids : simpl never.
#[global] Arguments v_rm : simpl never.
#[global] Arguments v_boundary : simpl never.
#[global] Arguments v_lit : simpl never.
#[global] Arguments v_elem : simpl never.
#[global] Arguments v_iter : simpl never.
#[global] Arguments v_impl : simpl never.
#[global] Arguments v_engine : simpl never.
#[global] Arguments v_resources : simpl never.
#[global] Arguments v_rose : simpl never.
#[global] Arguments v_db : simpl never.
#[global] Arguments v_scratch : simpl never.
#[global] Arguments v_graph {A} : simpl never.
#[global] Arguments v_posflags : simpl never.
#[global] Arguments v_props : simpl never.
#[global] Arguments v_holder : simpl never.
#[global] Arguments v_info : simpl never.
#[global] Arguments v_builder : simpl never.
#[global] Arguments v_pos : simpl never.
#[global] Arguments v_positions : simpl never.
#[global] Arguments v_bs : simpl never.
#[global] Arguments v_trie_props : simpl never.
#[global] Arguments v_trie : simpl never.
#[global] Arguments v_smwr : simpl never.
#[global] Arguments v_ng : simpl never.
#[global] Arguments v_pexpr : simpl never.
#[global] Arguments v_built : simpl never.
#[global] Arguments ix_ : simpl never.
(** a value of the model that is looked into *)
Ltac open_ t := lazymatch t with
  | bind ?m _ => open_ m
  | bindv ?m _ => open_ m
  | lift ?m _ => open_ m
  | match ?x with _ => _ end =>
    let x' := eval hnf in x in is_done x';
    match t with context C [x] => let r := context C [x'] in let r' := eval cbv beta iota in r in change t with r' end
  end.
Ltac lhs ::= match goal with |- ?L = _ => first [step_ L | open_ L] end.

(** such a value is no literal: no type changes it *)
Ltac coerced := let t := fresh in intro t; intros; induction t; cbn [coerce]; try reflexivity; try assumption;
  repeat (match goal with |- match ?l with _ => _ end = _ => is_var l; destruct l; try reflexivity; try assumption end);
  try (unfold v_horizon, v_scan, v_som, v_deep, v_impl, v_map, v_ids, v_positions;
       repeat (match goal with |- context [match ?x with _ => _ end] => is_var x; destruct x; try reflexivity end)); try reflexivity; try (match goal with |- context [map ?f ?l] => destruct l as [|? []]; reflexivity end).
Lemma co_flags : forall ty0 (f : flags), coerce ty0 (v_flags f) = v_flags f.
Proof. coerced. Qed.
Lemma co_horizon : forall ty0 (h : som_horizon), coerce ty0 (v_horizon h) = v_horizon h.
Proof. coerced. Qed.
Lemma co_scan : forall ty0 (m : ModelUtil.mode), coerce ty0 (v_scan m) = v_scan m.
Proof. coerced. Qed.
Lemma co_grey : forall ty0 (g : grey), coerce ty0 (v_grey g) = v_grey g.
Proof. coerced. Qed.
Lemma co_ctx : forall ty0 (c : compile_context), coerce ty0 (v_ctx c) = v_ctx c.
Proof. coerced. Qed.
Lemma co_depth : forall ty0 (d : depth), coerce ty0 (v_depth d) = v_depth d.
Proof. coerced. Qed.
Lemma co_som : forall ty0 (s : som_type), coerce ty0 (v_som s) = v_som s.
Proof. coerced. Qed.
Lemma co_report : forall ty0 (r : report), coerce ty0 (v_report r) = v_report r.
Proof. coerced. Qed.
Lemma co_ext : forall ty0 (e : ext_info), coerce ty0 (v_ext e) = v_ext e.
Proof. coerced. Qed.
Lemma co_map : forall ty0 (K V : Type) (k : K -> val) (v : V -> val) (m : list (K * V)), coerce ty0 (v_map k v m) = v_map k v m.
Proof. coerced. Qed.
Lemma co_ids : forall ty0 (s : list N), coerce ty0 (v_ids s) = v_ids s.
Proof. coerced. Qed.
Lemma co_rm : forall ty0 (g : grey) (r : report_manager), coerce ty0 (v_rm g r) = v_rm g r.
Proof. coerced. Qed.
Lemma co_boundary : forall ty0 (b : boundary_reports), coerce ty0 (v_boundary b) = v_boundary b.
Proof. coerced. Qed.
Lemma co_lit : forall ty0 (l : literal), coerce ty0 (v_lit l) = v_lit l.
Proof. coerced. Qed.
Lemma co_elem : forall ty0 (e : lit_elem), coerce ty0 (v_elem e) = v_elem e.
Proof. coerced. Qed.
Lemma co_iter : forall ty0 (l : literal) (i : N), coerce ty0 (v_iter l i) = v_iter l i.
Proof. coerced. Qed.
Lemma co_impl : forall ty0 (r : runtime_impl), coerce ty0 (v_impl r) = v_impl r.
Proof. coerced. Qed.
Lemma co_engine : forall ty0 (r : rose_engine), coerce ty0 (v_engine r) = v_engine r.
Proof. coerced. Qed.
Lemma co_resources : forall ty0 (r : rose_resources), coerce ty0 (v_resources r) = v_resources r.
Proof. coerced. Qed.
Lemma co_rose : forall ty0 (b : rose_build), coerce ty0 (v_rose b) = v_rose b.
Proof. coerced. Qed.
Lemma co_db : forall ty0 (d : database), coerce ty0 (v_db d) = v_db d.
Proof. coerced. Qed.
Lemma co_scratch : forall ty0 (s : scratch), coerce ty0 (v_scratch s) = v_scratch s.
Proof. coerced. Qed.
Lemma co_graph : forall ty0 (A : Type) (f : A -> val) (g : graph A), coerce ty0 (v_graph f g) = v_graph f g.
Proof. coerced. Qed.
Lemma co_posflags : forall ty0 (f : pos_flags), coerce ty0 (v_posflags f) = v_posflags f.
Proof. coerced. Qed.
Lemma co_props : forall ty0 (v : vertex_props), coerce ty0 (v_props v) = v_props v.
Proof. coerced. Qed.
Lemma co_holder : forall ty0 (h : ng_holder), coerce ty0 (v_holder h) = v_holder h.
Proof. coerced. Qed.
Lemma co_info : forall ty0 (e : expression_info), coerce ty0 (v_info e) = v_info e.
Proof. coerced. Qed.
Lemma co_builder : forall ty0 (b : nfa_builder), coerce ty0 (v_builder b) = v_builder b.
Proof. coerced. Qed.
Lemma co_pos : forall ty0 (i : position_info), coerce ty0 (v_pos i) = v_pos i.
Proof. coerced. Qed.
Lemma co_positions : forall ty0 (l : list position_info), coerce ty0 (v_positions l) = v_positions l.
Proof. coerced. Qed.
Lemma co_bs : forall ty0 (b : build_state), coerce ty0 (v_bs b) = v_bs b.
Proof. coerced. Qed.
Lemma co_trie_props : forall ty0 (t : trie_props), coerce ty0 (v_trie_props t) = v_trie_props t.
Proof. coerced. Qed.
Lemma co_trie : forall ty0 (t : lit_trie), coerce ty0 (v_trie t) = v_trie t.
Proof. coerced. Qed.
Lemma co_smwr : forall ty0 (c : compile_context) (s : small_write), coerce ty0 (v_smwr c s) = v_smwr c s.
Proof. coerced. Qed.
Lemma co_ng : forall ty0 (n : ng), coerce ty0 (v_ng n) = v_ng n.
Proof. coerced. Qed.
Lemma co_parsed : forall ty0 (e : parsed_expression), coerce ty0 (v_pexpr e) = v_pexpr e.
Proof. coerced. Qed.
Lemma co_built : forall ty0 (x : expression_info * ng_holder), coerce ty0 (v_built x) = v_built x.
Proof. coerced. Qed.
#[export] Hint Rewrite @co_flags @co_horizon @co_scan @co_grey @co_ctx @co_depth @co_som @co_report @co_ext @co_map @co_ids @co_rm @co_boundary @co_lit @co_elem @co_iter @co_impl @co_engine @co_resources @co_rose @co_db @co_scratch @co_graph @co_posflags @co_props @co_holder @co_info @co_builder @co_pos @co_positions @co_bs @co_trie_props @co_trie @co_smwr @co_ng @co_parsed @co_built : coerced.
Ltac enter ::= intros; lazymatch goal with
  | |- call _ G _ (S _) ?o ?f _ = _ =>
     let d := eval vm_compute in (find_fn G o f) in
     lazymatch d with Some ?d => rewrite (call_S _ _ _ o f d) by (vm_cast_no_check (eq_refl (Some d))) end
  end; cbn [fn_owner fn_body fn_ret fn_params]; cbn [bind_params]; autorewrite with coerced.

(** ** bitflags *)
Lemma n_ALLOWEMPTY : forall p lf d, call p G lf (S d) (Some "Flags") "ALLOWEMPTY" [] = Ret (Some (v_flags ALLOWEMPTY, [])).
Proof. pure_. Qed.
Lemma n_COMBINATION : forall p lf d, call p G lf (S d) (Some "Flags") "COMBINATION" [] = Ret (Some (v_flags COMBINATION, [])).
Proof. pure_. Qed.
Lemma n_SINGLEMATCH : forall p lf d, call p G lf (S d) (Some "Flags") "SINGLEMATCH" [] = Ret (Some (v_flags SINGLEMATCH, [])).
Proof. pure_. Qed.
Lemma n_PREFILTER : forall p lf d, call p G lf (S d) (Some "Flags") "PREFILTER" [] = Ret (Some (v_flags PREFILTER, [])).
Proof. pure_. Qed.
Lemma n_QUIET : forall p lf d, call p G lf (S d) (Some "Flags") "QUIET" [] = Ret (Some (v_flags QUIET, [])).
Proof. pure_. Qed.
Lemma n_SOM : forall p lf d, call p G lf (S d) (Some "Flags") "SOM_LEFTMOST" [] = Ret (Some (v_flags SOM_LEFTMOST, [])).
Proof. pure_. Qed.
Lemma n_CASELESS : forall p lf d, call p G lf (S d) (Some "Flags") "CASELESS" [] = Ret (Some (v_flags CASELESS, [])).
Proof. pure_. Qed.
Lemma n_DOTALL : forall p lf d, call p G lf (S d) (Some "Flags") "DOTALL" [] = Ret (Some (v_flags DOTALL, [])).
Proof. pure_. Qed.
Lemma n_MULTILINE : forall p lf d, call p G lf (S d) (Some "Flags") "MULTILINE" [] = Ret (Some (v_flags MULTILINE, [])).
Proof. pure_. Qed.
Lemma n_UCP : forall p lf d, call p G lf (S d) (Some "Flags") "UCP" [] = Ret (Some (v_flags UCP, [])).
Proof. pure_. Qed.
Lemma n_UTF8 : forall p lf d, call p G lf (S d) (Some "Flags") "UTF8" [] = Ret (Some (v_flags UTF8, [])).
Proof. pure_. Qed.
Lemma n_contains : forall p lf d a b, call p G lf (S d) (Some "Flags") "contains" [v_flags a; v_flags b] = Ret (Some (VBool (contains a b), [v_flags a; v_flags b])).
Proof. enter. unfold v_flags. auto_. Qed.
Lemma n_or : forall p lf d a b, call p G lf (S d) (Some "Flags") "bitor" [v_flags a; v_flags b] = Ret (Some (v_flags (N.lor a b), [v_flags a; v_flags b])).
Proof. enter. unfold v_flags. auto_. Qed.
Lemma n_and : forall p lf d a b, call p G lf (S d) (Some "Flags") "bitand" [v_flags a; v_flags b] = Ret (Some (v_flags (N.land a b), [v_flags a; v_flags b])).
Proof. enter. unfold v_flags. auto_. Qed.
Lemma n_not : forall p lf d a, call p G lf (S d) (Some "Flags") "not" [v_flags a] = Ret (Some (v_flags (flags_not a), [v_flags a])).
Proof. enter. unfold v_flags. auto_. Qed.
#[export] Hint Rewrite n_SINGLEMATCH n_PREFILTER n_QUIET n_SOM n_CASELESS n_DOTALL n_MULTILINE n_UCP n_UTF8 n_contains n_or n_and n_not : calls.
Lemma n_NOFLOAT : forall p lf d, call p G lf (S d) (Some "PosFlags") "NOFLOAT" [] = Ret (Some (v_posflags NOFLOAT, [])).
Proof. pure_. Qed.
Lemma n_MUST_FLOAT : forall p lf d, call p G lf (S d) (Some "PosFlags") "MUST_FLOAT" [] = Ret (Some (v_posflags MUST_FLOAT, [])).
Proof. pure_. Qed.
Lemma n_MULTILINE_START : forall p lf d, call p G lf (S d) (Some "PosFlags") "MULTILINE_START" [] = Ret (Some (v_posflags MULTILINE_START, [])).
Proof. pure_. Qed.
Lemma n_pos_contains : forall p lf d a b, call p G lf (S d) (Some "PosFlags") "contains" [v_posflags a; v_posflags b] = Ret (Some (VBool (contains a b), [v_posflags a; v_posflags b])).
Proof. enter. unfold v_posflags. auto_. Qed.
Lemma n_pos_or : forall p lf d a b, call p G lf (S d) (Some "PosFlags") "bitor" [v_posflags a; v_posflags b] = Ret (Some (v_posflags (N.lor a b), [v_posflags a; v_posflags b])).
Proof. enter. unfold v_posflags. auto_. Qed.
Lemma n_pos_empty : forall p lf d a, call p G lf (S d) (Some "PosFlags") "is_empty" [v_posflags a] = Ret (Some (VBool (a =? 0), [v_posflags a])).
Proof. enter. unfold v_posflags. auto_. Qed.
#[export] Hint Rewrite n_NOFLOAT n_MUST_FLOAT n_MULTILINE_START n_pos_contains n_pos_or n_pos_empty : calls.

(** ** lib.rs: [Mode]; grey.rs; compile_context.rs *)
Lemma n_streaming : forall p lf d m, call p G lf (S d) (Some "Mode") "is_streaming" [v_scan m] = Ret (Some (VBool (is_streaming m), [v_scan m])).
Proof. enter. destruct m as [|[[]|]|]; auto_. Qed.
Lemma n_vectored : forall p lf d m, call p G lf (S d) (Some "Mode") "is_vectored" [v_scan m] = Ret (Some (VBool (is_vectored m), [v_scan m])).
Proof. enter. destruct m as [|[[]|]|]; auto_. Qed.
Lemma n_precision : forall p lf d m, call p G lf (S d) (Some "Mode") "som_precision" [v_scan m] = Ret (Some (VInt Usize (som_precision m), [v_scan m])).
Proof. enter. destruct m as [|[[]|]|]; auto_. Qed.
Lemma n_grey : forall p lf d, call p G lf (S d) (Some "Grey") "default" [] = Ret (Some (v_grey grey_default, [])).
Proof. enter. destruct p as [oc da []]; auto_; revert Heqo; vm_compute; intro E; inversion E; reflexivity. Qed.
Lemma n_ctx : forall p lf d s v g, call p G lf (S d) (Some "CompileContext") "new" [VBool s; VBool v; v_grey g] =
  Ret (Some (v_ctx (CompileContext s v g), [VBool s; VBool v; v_grey g])).
Proof. enter. auto_. Qed.
#[export] Hint Rewrite n_streaming n_vectored n_precision n_grey n_ctx : calls.

(** ** depth.rs *)
Lemma n_INFINITY : forall p lf d, call p G lf (S d) None "INFINITY" [] = Ret (Some (VInt U32 2147483647, [])).
Proof. pure_. Qed.
#[export] Hint Rewrite n_INFINITY : calls.
Lemma n_MAX_VALUE : forall p lf d, call p G lf (S (S d)) None "MAX_VALUE" [] = Ret (Some (VInt U32 2147483646, [])).
Proof. enter. auto_. Qed.
#[export] Hint Rewrite n_MAX_VALUE : calls.
Lemma n_infinity : forall p lf d, call p G lf (S (S d)) (Some "Depth") "infinity" [] = Ret (Some (v_depth depth_infinity, [])).
Proof. pure_. Qed.
Lemma n_try_u32 : forall p lf d n, call p G lf (S (S (S d))) (Some "Depth") "try_from<u32>" [VInt U32 n] = Ret (Some (v_deep (depth_try_from_u32 n), [VInt U32 n])).
Proof. enter. unfold depth_try_from_u32. change MAX_VALUE with 2147483646. auto_. Qed.
Lemma n_try_usize : forall p lf d n, call p G lf (S (S (S d))) (Some "Depth") "try_from<usize>" [VInt Usize n] = Ret (Some (v_deep (depth_try_from_usize n), [VInt Usize n])).
Proof. enter. unfold depth_try_from_usize. change MAX_VALUE with 2147483646. auto_. Qed.
Lemma n_depth_eq : forall p lf d a b, call p G lf (S d) (Some "Depth") "eq" [v_depth a; v_depth b] = Ret (Some (VBool (depth_eq a b), [v_depth a; v_depth b])).
Proof. enter. unfold v_depth, depth_eq. auto_. Qed.
Lemma n_depth_cmp : forall p lf d a b, call p G lf (S d) (Some "Depth") "cmp" [v_depth a; v_depth b] = Ret (Some (ordering (depth_cmp a b), [v_depth a; v_depth b])).
Proof. enter. unfold v_depth, depth_cmp. auto_. Qed.
#[export] Hint Rewrite n_infinity n_try_u32 n_try_usize n_depth_eq n_depth_cmp : calls.
Lemma n_depth_pcmp : forall p lf d a b, call p G lf (S (S d)) (Some "Depth") "partial_cmp" [v_depth a; v_depth b] =
  Ret (Some (match depth_partial_cmp a b with Some c => some_ (ordering c) | None => none_ end, [v_depth a; v_depth b])).
Proof. enter. auto_. Qed.

(** ** report.rs *)
Lemma n_e_callback : forall p lf d r e q, call p G lf (S d) None "make_e_callback" [VInt U32 r; VLit 0; v_u32 e; VBool q] =
  Ret (Some (v_report (make_e_callback r 0 e q), [VInt U32 r; VLit 0; v_u32 e; VBool q])).
Proof. enter. destruct e; auto_. Qed.
Lemma n_e_some : forall p lf d r e q, call p G lf (S d) None "make_e_callback" [VInt U32 r; VLit 0; Some_ (VInt U32 e); VBool q] =
  Ret (Some (v_report (Report 0), [VInt U32 r; VLit 0; Some_ (VInt U32 e); VBool q])).
Proof. intros. exact (n_e_callback p lf d r (Some e) q). Qed.
Lemma n_e_none : forall p lf d r q, call p G lf (S d) None "make_e_callback" [VInt U32 r; VLit 0; None_; VBool q] =
  Ret (Some (v_report (Report 0), [VInt U32 r; VLit 0; None_; VBool q])).
Proof. intros. exact (n_e_callback p lf d r None q). Qed.
Lemma n_som_callback : forall p lf d r n, call p G lf (S d) None "make_som_relative_callback" [VInt U32 r; VLit 0; VInt U64 n] =
  Ret (Some (v_report (make_som_relative_callback r 0 n), [VInt U32 r; VLit 0; VInt U64 n])).
Proof. enter. auto_. Qed.
#[export] Hint Rewrite n_e_some n_e_none n_som_callback : calls.

(** ** rose *)
Lemma n_pure : forall p lf d r c, call p G lf (S d) None "is_pure_floating" [v_resources r; v_ctx c] = Ret (Some (VBool (is_pure_floating r c), [v_resources r; v_ctx c])).
Proof. enter. unfold is_pure_floating. auto_. Qed.
Lemma n_single : forall p lf d b, call p G lf (S d) None "is_single_outfix" [v_rose b] = Ret (Some (VBool (is_single_outfix b), [v_rose b])).
Proof. pure_. Qed.
#[export] Hint Rewrite n_pure n_single : calls.
Lemma n_pick : forall p lf d b r, call p G lf (S (S d)) None "pick_runtime_impl" [v_rose b; v_resources r] = Ret (Some (v_impl (pick_runtime_impl b r), [v_rose b; v_resources r])).
Proof. enter. unfold pick_runtime_impl. auto_. Qed.
Definition no_resources : val := Eval cbv in v_resources resources_default.
Lemma n_pick_default : forall p lf d b, call p G lf (S (S d)) None "pick_runtime_impl" [v_rose b; ltac:(let r := eval cbv delta [no_resources] in no_resources in exact r)] =
  Ret (Some (v_impl (pick_runtime_impl b resources_default), [v_rose b; v_resources resources_default])).
Proof. intros. exact (n_pick p lf d b resources_default). Qed.
#[export] Hint Rewrite n_pick n_pick_default : calls.
Lemma n_rose_add : forall p lf d b x y l s, call p G lf (S d) (Some "RoseBuild") "add" [v_rose b; VBool x; VBool y; v_lit l; v_ids s] =
  Ret (Some (VUnit, [v_rose (rose_add b x y l s); VBool x; VBool y; v_lit l; v_ids s])).
Proof. enter. unfold rose_add. auto_. Qed.
Lemma n_final : forall p lf d b, call p G lf (S (S (S d))) (Some "RoseBuild") "build_final_engine" [v_rose b] = Ret (Some (v_engine (build_final_engine b), [v_rose b])).
Proof. enter. unfold build_final_engine. auto_. Qed.
#[export] Hint Rewrite n_rose_add n_final : calls.
Lemma n_build_rose : forall p lf d b, call p G lf (S (S (S (S d)))) (Some "RoseBuild") "build_rose" [v_rose b] = Ret (Some (v_engine (build_rose b), [v_rose b])).
Proof. enter. auto_. Qed.
#[export] Hint Rewrite n_build_rose : calls.

(** ** database.rs, runtime.rs *)
Lemma n_db : forall p lf d r, call p G lf (S d) (Some "Database") "new" [v_engine r] = Ret (Some (v_db (Database r), [v_engine r])).
Proof. enter. auto_. Qed.
Lemma n_bytecode : forall p lf d b, call p G lf (S d) None "get_bytecode" [v_db b] = Ret (Some (v_engine (get_bytecode b), [v_db b])).
Proof. enter. auto_. Qed.
Lemma n_init_som : forall p lf d r x, call p G lf (S d) None "init_som_state" [v_engine r; VInt Usize x] = Ret (Some (VUnit, [v_engine r; VInt Usize x])).
Proof. pure_. Qed.
Lemma n_block_exec : forall p lf d r, call p G lf (S d) None "rose_block_exec" [v_engine r] = Ret (Some (VUnit, [v_engine r])).
Proof. pure_. Qed.
#[export] Hint Rewrite n_db n_bytecode n_init_som n_block_exec : calls.
Lemma n_raw : forall p lf d r s, call p G lf (S (S d)) None "raw_block_exec" [v_engine r; v_scratch s] = Ret (Some (VUnit, [v_engine r; v_scratch (raw_block_exec r s)])).
Proof. enter. unfold v_scratch. auto_. Qed.
Lemma n_pure_exec : forall p lf d r s, call p G lf (S d) None "pure_literal_block_exec" [v_engine r; v_scratch s] = Ret (Some (VUnit, [v_engine r; v_scratch (pure_literal_block_exec r s)])).
Proof. enter. auto_. Qed.
Lemma n_single_exec : forall p lf d r s, call p G lf (S d) None "single_outfix_block_exec" [v_engine r; v_scratch s] = Ret (Some (VUnit, [v_engine r; v_scratch (single_outfix_block_exec r s)])).
Proof. enter. auto_. Qed.
#[export] Hint Rewrite n_raw n_pure_exec n_single_exec : calls.
Lemma n_scan : forall p lf d b data s, call p G lf (S (S (S d))) None "scan" [v_db b; v_bytes data; v_scratch s] =
  Ret (Some (match snd (scan b data s) with ROk _ => ok_ VUnit | RErr _ => VCtor "Err" [VUnit] end, [v_db b; v_bytes data; v_scratch (fst (scan b data s))])).
Proof. enter. unfold scan. destruct b as [[[] m]]; auto_. Qed.
