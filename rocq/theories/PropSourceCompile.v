(** C97, C98, C99: the text of the compiler's source files, read and run as in PropSourceCrate.v: the
    graph an expression is built into, [add_expression], and [compile] itself. *)
From Verif Require Import Base ModelUtil ModelCharReach ModelLiteral ModelReport ModelPetgraph ModelParser ModelNfa ModelSmallWrite ModelCompiler SpecGrammar SpecCompile
  ModelRust ModelInterp ModelSource SpecSource SpecSourceCrate
  ProofSourceA ProofSourceQ ProofSourceR ProofSourceS ProofSourceW ProofSourceX ProofSourceZ ProofSourceZA ProofSourceZB ProofSourceZC ProofSourceZD PropCompile PropSource PropSourceParse PropSourceCrate.
Local Open Scope string_scope.
Local Open Scope N_scope.
Local Open Scope list_scope.

Ltac glushkov := intros e b E; unfold make_nfa_builder in E; rewrite h0_is in E; cbn [bind] in E; injection E as <-; rewrite bs0_is; into z_make_state.
(** ng_holder.rs *)
Theorem C97_holder : forall p,
  (runs p 300 (Some "NgHolder") "new" []
     (let! h := ng_holder_new in Ret (Some (v_holder h, [])))) /\
  (forall h, runs p 300 (Some "NgHolder") "add_vertex" [v_holder h]
     (let! (h', v) := ngh_add_vertex h in Ret (Some (ix_ v, [v_holder h'])))) /\
  (forall h, runs p 300 (Some "NgHolder") "num_vertices" [v_holder h]
     (Ret (Some (VInt Usize (ngh_num_vertices h), [v_holder h])))) /\
  (forall h v, runs p 300 (Some "NgHolder") "index" [v_holder h; ix_ v]
     (let! x := ngh_index h v in Ret (Some (v_props x, [v_holder h; ix_ v])))).
Proof.
  intro p. split; [into z_new|]. split; [into z_add_vertex|]. split; [into z_num_vertices|]. into z_index.
Qed.
(** ng_builder.rs; build_state.rs: [GlushkovBuildState] as it is made for an expression *)
Theorem C97_builder : forall p,
  (forall pe, runs p 300 (Some "NfaBuilder") "new" [v_pexpr pe]
     (let! b := make_nfa_builder (pe_expr pe) in Ret (Some (v_builder b, [v_pexpr pe])))) /\
  (forall pe, runs p 300 None "make_nfa_builder" [v_pexpr pe]
     (let! b := make_nfa_builder (pe_expr pe) in Ret (Some (v_builder b, [v_pexpr pe])))) /\
  (forall b, runs p 300 (Some "NfaBuilder") "add_vertex" [v_builder b]
     (let! (b', v) := make_position b in Ret (Some (ix_ v, [v_builder b'])))) /\
  (forall b, runs p 300 (Some "NfaBuilder") "make_position" [v_builder b]
     (let! (b', v) := make_position b in Ret (Some (ix_ v, [v_builder b'])))) /\
  (forall b, runs p 300 (Some "NfaBuilder") "get_start" [v_builder b]
     (Ret (Some (ix_ (get_start b), [v_builder b])))) /\
  (forall b, runs p 300 (Some "NfaBuilder") "get_start_dot_star" [v_builder b]
     (Ret (Some (ix_ (get_start_dot_star b), [v_builder b])))) /\
  (forall b, runs p 300 (Some "NfaBuilder") "get_accept" [v_builder b]
     (Ret (Some (ix_ (get_accept b), [v_builder b])))) /\
  (forall b, runs p 300 (Some "NfaBuilder") "get_accept_eod" [v_builder b]
     (Ret (Some (ix_ (get_accept_eod b), [v_builder b])))) /\
  (forall b, runs p 300 (Some "NfaBuilder") "num_vertices" [v_builder b]
     (Ret (Some (VInt Usize (num_vertices b), [v_builder b])))) /\
  (forall b, runs p 300 (Some "NfaBuilder") "get_graph" [v_builder b]
     (Ret (Some (v_built (nb_expr b, nb_graph b), [v_builder b])))) /\
  (forall b v, runs p 300 (Some "NfaBuilder") "get_assert_flag" [v_builder b; ix_ v]
     (let! x := get_assert_flag b v in Ret (Some (v_posflags x, [v_builder b; ix_ v])))) /\
  (forall b v c, runs p 300 (Some "NfaBuilder") "add_char_reach" [v_builder b; ix_ v; v_cr c]
     (let! b' := add_char_reach b v c in Ret (Some (VUnit, [v_builder b'; ix_ v; v_cr c])))) /\
  (forall e b, make_nfa_builder e = Ret b -> runs p 300 None "make_glushkov_build_state" [v_builder b]
     (let! s := make_glushkov_build_state p b in Ret (Some (v_bs s, [v_builder (bs_builder s)])))) /\
  (forall b, runs p 300 (Some "GlushkovBuildState") "get_builder_mut" [v_bs b]
     (Ret (Some (v_builder (bs_builder b), [v_bs b])))).
Proof.
  intro p. split; [into z_builder_new|]. split; [into z_make_builder|]. split; [into z_b_add_vertex|]. split; [into z_make_position|]. split; [into z_start|]. split; [into z_start_ds|]. split; [into z_accept|]. split; [into z_accept_eod|]. split; [into z_b_num_vertices|]. split; [into z_get_graph|]. split; [into z_get_assert_flag|]. split; [into z_add_char_reach|]. split; [glushkov|]. into z_bs_mut.
Qed.
(** ascii_component_class.rs, component_class.rs: [note_positions] of a class *)
Theorem C97_classes : forall p,
  (forall c b, runs p 300 (Some "AsciiComponentClass") "note_positions" [v_ac c; v_bs b]
     (let! b' := ac_note_positions b c in Ret (Some (VUnit, [v_ac c; v_bs b'])))) /\
  (forall c b, runs p 300 (Some "ComponentClass") "note_positions" [v_cc c; v_bs b]
     (let! b' := ac_note_positions b c in Ret (Some (VUnit, [v_cc c; v_bs b'])))).
Proof.
  intro p. split; [into z_note_ac|]. into z_note_cc.
Qed.
(** component.rs, component_sequence.rs, component_alternation.rs: [note_positions] of any tree *)
Theorem C97_note_positions : forall p c b, exists n, forall turns depth, (n <= turns)%nat -> (n <= depth)%nat ->
  call p util_program turns depth (Some "Component") "note_positions" [v_comp c; v_bs b] = (let! b' := note_positions b c in Ret (Some (VUnit, [v_comp c; v_bs b']))).
Proof. intros p c b. exists (300 + size c)%nat. intros turns depth Ht Hd. rewrite program_is. apply (z_notes p (size c)); lia. Qed.
Theorem C97_sequences : forall p,
  (forall s b, exists n, forall turns depth, (n <= turns)%nat -> (n <= depth)%nat ->
     call p util_program turns depth (Some "ComponentSequence") "note_positions" [v_seqn s; v_bs b] = (let! b' := seqn_note_positions b s in Ret (Some (VUnit, [v_seqn s; v_bs b'])))) /\
  (forall l b, exists n, forall turns depth, (n <= turns)%nat -> (n <= depth)%nat ->
     call p util_program turns depth (Some "ComponentAlternation") "note_positions" [v_alt l; v_bs b] = (let! b' := note_list (fun bs s => seqn_note_positions bs s) b l in Ret (Some (VUnit, [v_alt l; v_bs b'])))).
Proof.
  intro p. split.
  - intros s b. exists (300 + size_s s)%nat. intros turns depth Ht Hd. rewrite program_is. destruct depth as [|depth]; [lia|]. apply (z_note_seq p (size_s s) (z_notes p _)); lia.
  - intros l b. exists (300 + size (CAlternation l))%nat. intros turns depth Ht Hd. rewrite program_is. destruct depth as [|depth]; [lia|]. apply (z_note_alt p (size (CAlternation l)) (z_notes p _)); lia.
Qed.
(** compiler.rs: [build_graph] of any parsed expression *)
Theorem C97_build_graph : forall p pe, exists n, forall turns depth, (n <= turns)%nat -> (n <= depth)%nat ->
  call p util_program turns depth None "build_graph" [v_pexpr pe] = (let! x := build_graph p pe in Ret (Some (v_built x, [v_pexpr pe]))).
Proof. intros p pe. exists (300 + size (pe_component pe))%nat. intros turns depth Ht Hd. rewrite program_is. destruct depth as [|depth]; [lia|]. apply a_build_graph; lia. Qed.

(** compiler.rs: [add_expression] *)
Theorem C98_add_expression : forall p n i s f id, one_grey n -> limit_pattern_length (cc_grey (ng_cc n)) < 2 ^ usize_bits p ->
  exists k, forall turns depth, (k <= turns)%nat -> (k <= depth)%nat ->
  call p util_program turns depth None "add_expression" [v_ng n; VInt Usize i; VStr s; v_flags f; VInt U32 id] =
  (let! (n', r) := add_expression p n i s f id in Ret (Some (v_res (fun _ => VUnit) r, [v_ng n'; VInt Usize i; VStr s; v_flags f; VInt U32 id]))).
Proof.
  intros p n i s f id Hg Hu. destruct (roomy_some p [(s, f, id)] i) as [k K]. exists (20 + k)%nat. intros turns depth Ht Hd. rewrite program_is. destruct depth as [|depth]; [lia|].
  destruct (roomy_more p _ _ _ _ turns depth K) as [[A B] _]; [lia|lia|]. apply a_add; [assumption|lia|assumption|].
  intros pe L P. split; [apply B; assumption|]. intros m W. apply (literal_short _ _ _ _ _ _ _ P) in W. lia.
Qed.
(** compiler.rs: [build] *)
Theorem C98_build : forall p,
  (forall n, runs p 300 None "generate_rose_engine" [v_ng n]
     (Ret (Some (v_engine (build_rose (ng_rose n)), [v_ng n])))) /\
  (forall r, runs p 300 None "db_create" [v_engine r]
     (Ret (Some (v_db (Database r), [v_engine r])))) /\
  (forall n, runs p 300 None "build" [v_ng n]
     (Ret (Some (v_db (build n), [v_ng n])))).
Proof.
  intro p. split; [into b_generate|]. split; [into b_db|]. into b_build.
Qed.
(** lib.rs *)
Theorem C98_compile_multi_int : forall p es fs ids m g, limit_pattern_length g < 2 ^ usize_bits p ->
  exists k, forall turns depth, (k <= turns)%nat -> (k <= depth)%nat ->
  call p util_program turns depth None "compile_multi_int" [VList (map VStr es); VList (map v_flags fs); VList (map (VInt U32) ids); v_scan m; v_grey g] =
  (let! r := compile_multi_int p es fs ids m g in Ret (Some (v_res v_db r, [VList (map VStr es); VList (map v_flags fs); VList (map (VInt U32) ids); v_scan m; v_grey g]))).
Proof.
  intros p es fs ids m g Hu. destruct (roomy_some p (zip3 es fs ids) 0) as [k K]. exists (300 + List.length es + k)%nat. intros turns depth Ht Hd. rewrite program_is.
  destruct depth as [|depth]; [lia|]. apply b_multi_int; [lia|assumption|lia|]. apply (roomy_more p _ _ k k); [assumption|lia|lia].
Qed.
Theorem C98_compile_multi : forall p es fs ids m, exists k, forall turns depth, (k <= turns)%nat -> (k <= depth)%nat ->
  call p util_program turns depth None "compile_multi" [VList (map VStr es); VList (map v_flags fs); VList (map (VInt U32) ids); v_scan m] =
  (let! r := compile_multi p es fs ids m in Ret (Some (v_res v_db r, [VList (map VStr es); VList (map v_flags fs); VList (map (VInt U32) ids); v_scan m]))).
Proof.
  intros p es fs ids m. destruct (roomy_some p (zip3 es fs ids) 0) as [k K]. exists (300 + List.length es + k)%nat. intros turns depth Ht Hd. rewrite program_is.
  do 2 (destruct depth as [|depth]; [lia|]). apply d_multi; [lia|lia|]. apply (roomy_more p _ _ k k); [assumption|lia|lia].
Qed.
Theorem C98_compile : forall p s f m, exists k, forall turns depth, (k <= turns)%nat -> (k <= depth)%nat ->
  call p util_program turns depth None "compile" [VStr s; v_flags f; v_scan m] = (let! r := compile p s f m in Ret (Some (v_res v_db r, [VStr s; v_flags f; v_scan m]))).
Proof.
  intros p s f m. destruct (roomy_some p [(s, f, 0)] 0) as [k K]. exists (310 + k)%nat. intros turns depth Ht Hd. rewrite program_is.
  do 2 (destruct depth as [|depth]; [lia|]). apply d_compile; [lia|lia|]. apply (roomy_more p _ _ k k); [assumption|lia|lia].
Qed.

(** ** C99: what the text of [compile_multi] comes to *)
(** [r] is what the run comes to, given turns and depth enough *)
Definition comes_to (p : profile) (f : string) (vs : list val) (r : outcome (option (val * list val))) : Prop :=
  exists k, forall turns depth, (k <= turns)%nat -> (k <= depth)%nat -> call p util_program turns depth None f vs = r.
Definition set_args (es : list str) (fs : list flags) (ids : list N) (m : ModelUtil.mode) : list val :=
  [VList (map VStr es); VList (map v_flags fs); VList (map (VInt U32) ids); v_scan m].
Definition text_compile (p : profile) es fs ids m : outcome (option (val * list val)) -> Prop := comes_to p "compile_multi" (set_args es fs ids m).
(** what a caller gets back: a database, or an error *)
Definition built_back es fs ids m (db : database) : outcome (option (val * list val)) := Ret (Some (ok_ (v_db db), set_args es fs ids m)).
Definition refused_back es fs ids m (e : compile_error) : outcome (option (val * list val)) := Ret (Some (VCtor "Err" [v_err e], set_args es fs ids m)).

Definition inner_of (r : outcome (option (val * list val))) : val := match r with Ret (Some (VCtor _ [v], _)) => v | _ => VUnit end.
Lemma comes_fun : forall p f vs r r', comes_to p f vs r -> comes_to p f vs r' -> r = r'.
Proof. intros p f vs r r' [k K] [k' K']. rewrite <- (K (k + k')%nat (k + k')%nat) by lia. apply K'; lia. Qed.
Lemma compile_is : forall p es fs ids m r, text_compile p es fs ids m r <-> r = (let! x := compile_multi p es fs ids m in Ret (Some (v_res v_db x, set_args es fs ids m))).
Proof.
  intros p es fs ids m r. pose proof (C98_compile_multi p es fs ids m : text_compile p es fs ids m _) as C. split.
  - intro H. exact (comes_fun _ _ _ _ _ H C).
  - intros ->. exact C.
Qed.
Lemma v_db_inj : forall a b, v_db a = v_db b -> a = b.
Proof.
  intros [[i m]] [[j n]] H. unfold v_db, v_engine in H. cbn [db_rose re_runtime_impl re_mode] in H. injection H as Hi Hm. do 2 f_equal.
  - destruct i, j; cbn in Hi; try discriminate Hi; reflexivity.
  - destruct m as [|[[]|]|], n as [|[[]|]|]; cbn in Hm; try discriminate Hm; reflexivity.
Qed.
Lemma built_is : forall p es fs ids m db, text_compile p es fs ids m (built_back es fs ids m db) <-> compile_multi p es fs ids m = Ret (ROk db).
Proof.
  intros p es fs ids m db. rewrite compile_is. unfold built_back. split.
  - intro H. destruct (compile_multi p es fs ids m) as [[d|e]| |]; cbn [bind v_res] in H; unfold ok_ in H; try discriminate H. assert (X : v_db db = v_db d) by exact (f_equal inner_of H). apply v_db_inj in X. subst. reflexivity.
  - intros ->. reflexivity.
Qed.
Lemma refused_is : forall p es fs ids m e, text_compile p es fs ids m (refused_back es fs ids m e) <-> compile_multi p es fs ids m = Ret (RErr e).
Proof.
  intros p es fs ids m e. rewrite compile_is. unfold refused_back. split.
  - intro H. destruct (compile_multi p es fs ids m) as [[d|e']| |]; cbn [bind v_res] in H; unfold ok_ in H; try discriminate H. assert (X : v_err e = v_err e') by exact (f_equal inner_of H). apply v_err_inj in X. subst. reflexivity.
  - intros ->. reflexivity.
Qed.
Lemma panicked_is : forall p es fs ids m w, text_compile p es fs ids m (Panic w) <-> compile_multi p es fs ids m = Panic w.
Proof.
  intros p es fs ids m w. rewrite compile_is. split.
  - intro H. destruct (compile_multi p es fs ids m) as [r| |]; cbn [bind] in H; try discriminate H. injection H as ->. reflexivity.
  - intros ->. reflexivity.
Qed.
(** It always comes to something: a database, an error or a panic, and to one of them only. *)
Theorem C99_comes : forall p es fs ids m, exists r, text_compile p es fs ids m r /\ (forall r', text_compile p es fs ids m r' -> r' = r) /\
  ((exists db, r = built_back es fs ids m db) \/ (exists e, r = refused_back es fs ids m e) \/ (exists w, r = Panic w)).
Proof.
  intros p es fs ids m. eexists. split; [apply compile_is; reflexivity|]. split; [intros r' H; apply compile_is in H; exact H|].
  pose proof (C05_terminates p es fs ids m) as T. destruct (compile_multi p es fs ids m) as [[d|e]|w|]; [left|right; left|right; right|contradiction]; eexists; reflexivity.
Qed.
Theorem C99_accepts : forall p es fs ids m, (exists db, text_compile p es fs ids m (built_back es fs ids m db)) <->
  es <> [] /\ N.of_nat (List.length es) <= 8000000 /\ good_set p es fs ids.
Proof. intros p es fs ids m. rewrite <- (C01_accepts_iff p es fs ids m). split; intros [db H]; exists db; apply built_is; exact H. Qed.
Theorem C99_first_offender : forall p es fs ids m e k, text_compile p es fs ids m (refused_back es fs ids m e) -> err_index e = Some k ->
  (exists it, item_at es fs ids (N.to_nat k) it) /\ ~ item_fits p es fs ids (N.to_nat k) /\ forall j, (j < N.to_nat k)%nat -> item_fits p es fs ids j.
Proof. intros p es fs ids m e k H. apply refused_is in H. exact (C02_first_offender p es fs ids m e k H). Qed.
Theorem C99_whole_set : forall p es fs ids m,
  (es = [] -> text_compile p es fs ids m (refused_back es fs ids m (CompileError EOther (lit "Invalid parameter: expressions is empty") None))) /\
  (8000000 < N.of_nat (List.length es) -> text_compile p es fs ids m (refused_back es fs ids m (CompileError EOther (lit "Number of patterns too large") None))).
Proof. intros p es fs ids m. destruct (C02_whole_set_text p es fs ids m) as [A B]. split; intro H; apply refused_is; auto. Qed.
Theorem C99_release : forall p es fs ids m, overflow_checks p = false -> debug_assertions p = false -> (forall s, In s es -> ascii_text s) ->
  (exists db, text_compile p es fs ids m (built_back es fs ids m db)) \/ (exists e, text_compile p es fs ids m (refused_back es fs ids m e)).
Proof.
  intros p es fs ids m Oc Da A. destruct (C05_release_total p es fs ids m Oc Da A) as [[db|e] E]; [left; exists db; apply built_is|right; exists e; apply refused_is]; exact E.
Qed.
(** and [compile] is [compile_multi] of one *)
Theorem C99_single : forall p s f m,
  (forall db, comes_to p "compile" [VStr s; v_flags f; v_scan m] (Ret (Some (ok_ (v_db db), [VStr s; v_flags f; v_scan m]))) <-> text_compile p [s] [f] [0] m (built_back [s] [f] [0] m db)) /\
  (forall e, comes_to p "compile" [VStr s; v_flags f; v_scan m] (Ret (Some (VCtor "Err" [v_err e], [VStr s; v_flags f; v_scan m]))) <-> text_compile p [s] [f] [0] m (refused_back [s] [f] [0] m e)) /\
  (forall w, comes_to p "compile" [VStr s; v_flags f; v_scan m] (Panic w) <-> text_compile p [s] [f] [0] m (Panic w)).
Proof.
  intros p s f m. pose proof (C98_compile p s f m : comes_to p "compile" _ _) as C. rewrite (C04_single p s f m) in C.
  split; [|split]; intro x; rewrite ?built_is, ?refused_is, ?panicked_is; (split; [intro H; pose proof (comes_fun _ _ _ _ _ C H) as X; clear C H|intro H; rewrite H in C; exact C]);
    destruct (compile_multi p [s] [f] [0] m) as [[d|e]| |]; cbn [bind v_res] in X; unfold ok_ in X; try discriminate X.
  - assert (Y : v_db d = v_db x) by exact (f_equal inner_of X). apply v_db_inj in Y. subst. reflexivity.
  - assert (Y : v_err e = v_err x) by exact (f_equal inner_of X). apply v_err_inj in Y. subst. reflexivity.
  - injection X as ->. reflexivity.
Qed.

Definition C98_dev : profile := Profile true true W64.
Definition C98_release : profile := Profile false false W64.
Definition C98_run (p : profile) (l : list str) : outcome (option val) :=
  let! r := call p util_program 400 60 None "compile_multi" (set_args l (map (fun _ => 0) l) (map (fun _ => 7) l) (Stream None)) in
  Ret (match r with Some (v, _) => Some v | None => None end).
(** Runs of the texts: the graph of [a(b|c)] has its four special vertices and one for each class; *)
Definition C97_pe : parsed_expression := match parsed_expression_new C98_release 0 (lit "a(b|c)") 0 7 with Ret (ROk x) => x | _ => ParsedExpression (ExpressionInfo 0 0 false false false false SomNone false) (CAlternation []) end.
Definition C97_built : expression_info * ng_holder := match build_graph C98_release C97_pe with Ret x => x | _ => (pe_expr C97_pe, NgHolder graph_new 0 0 0 0) end.
Example C97_case :
  call C98_release util_program 400 60 (Some "ParsedExpression") "new" [VInt Usize 0; VStr (lit "a(b|c)"); v_flags 0; VInt U32 7] = Ret (Some (ok_ (v_pexpr C97_pe), [VInt Usize 0; VStr (lit "a(b|c)"); v_flags 0; VInt U32 7])) /\
  call C98_release util_program 400 60 None "build_graph" [v_pexpr C97_pe] = Ret (Some (v_built C97_built, [v_pexpr C97_pe])) /\ ngh_num_vertices (snd C97_built) = 7.
Proof. rewrite program_is. split; [|split]; vm_compute; reflexivity. Qed.
(** sets of patterns that are taken, refused and panicked on; the error tells which pattern is at fault. *)
Example C98_case :
  C98_run C98_dev [lit "foobar"; lit "a|b"] = Ret (Some (ok_ (v_db (Database (RoseEngine FullRose (Stream None)))))) /\
  C98_run C98_release [lit "foobar"; lit "a)"] = Ret (Some (VCtor "Err" [v_err (CompileError ELocatedParse (lit "Unmatched parentheses") (Some 1))])) /\
  C98_run C98_dev [lit "foobar"; lit "a(b)"] = Panic POverflow /\
  C98_run C98_dev [] = Ret (Some (VCtor "Err" [v_err (CompileError EOther (lit "Invalid parameter: expressions is empty") None)])).
Proof. unfold C98_run. rewrite program_is. split; [|split; [|split]]; vm_compute; reflexivity. Qed.
Example C99_case : text_compile C98_dev [lit "foobar"] [0] [7] Block (built_back [lit "foobar"] [0] [7] Block (Database (RoseEngine FullRose Block))) /\
  text_compile C98_dev [lit "(a"] [0] [7] Block (refused_back [lit "(a"] [0] [7] Block (CompileError EParse (lit "Missing close parenthesis for group started at index 0.") (Some 0))).
Proof. split; [apply built_is|apply refused_is]; vm_compute; reflexivity. Qed.

Print Assumptions C97_holder.
Print Assumptions C97_builder.
Print Assumptions C97_classes.
Print Assumptions C97_note_positions.
Print Assumptions C97_sequences.
Print Assumptions C97_build_graph.
Print Assumptions C98_add_expression.
Print Assumptions C98_build.
Print Assumptions C98_compile_multi_int.
Print Assumptions C98_compile_multi.
Print Assumptions C98_compile.
Print Assumptions C99_comes.
Print Assumptions C99_accepts.
Print Assumptions C99_first_offender.
Print Assumptions C99_whole_set.
Print Assumptions C99_release.
Print Assumptions C99_single.
