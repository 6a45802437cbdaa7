(** C95, C96: the text of the compiler's source files, read and run as in PropSourceCrate.v: the
    small-write builder, [Ng], the reading of one expression and the way of a literal through it. *)
From Verif Require Import Base ModelRust ModelInterp ModelSource ModelUtil ModelCharReach ModelLiteral ModelReport ModelPetgraph ModelParser ModelNfa ModelSmallWrite ModelCompiler SpecSource SpecSourceCrate
  ProofSourceA ProofSourceR ProofSourceS ProofSourceT ProofSourceU ProofSourceV ProofSourceW ProofSourceX ProofSourceY PropSource PropSourceParse PropSourceCrate.
Local Open Scope string_scope.
Local Open Scope N_scope.
Local Open Scope list_scope.

(** smallwrite_build.rs. A builder holds the context it was made from, of which the model keeps the grey box *)
Theorem C95_smallwrite : forall p,
  (forall c, runs p 300 (Some "LitTrieVertexProps") "with_byte" [VInt U8 c]
     (Ret (Some (v_trie_props (tp_with_byte c), [VInt U8 c])))) /\
  (runs p 300 (Some "LitTrieVertexProps") "default" []
     (Ret (Some (v_trie_props tp_default, [])))) /\
  (runs p 300 (Some "LitTrie") "default" []
     (Ret (Some (v_trie trie_default, [])))) /\
  (forall t, runs p 300 (Some "LitTrie") "is_empty" [v_trie t]
     (Ret (Some (VBool (trie_is_empty t), [v_trie t])))) /\
  (forall t, runs p 300 (Some "LitTrie") "all_reports" [v_trie t]
     (Ret (Some (v_ids (trie_all_reports t), [v_trie t])))) /\
  (runs p 300 None "MAX_TRIE_VERTICES" []
     (Ret (Some (VInt Usize MAX_TRIE_VERTICES, [])))) /\
  (forall n c, runs p 300 (Some "SmallWriteBuild") "new" [VInt Usize n; v_ctx c]
     (Ret (Some (v_smwr c (smwr_new n (cc_grey c)), [VInt Usize n; v_ctx c])))) /\
  (forall l r t, N.of_nat (List.length (lit_s l)) < 2 ^ usize_bits p -> runs p (300 + S (List.length (lit_s l))) None "add_to_trie" [v_lit l; VInt U32 r; v_trie t]
     (let! (t', ok) := add_to_trie l r t in Ret (Some (VBool ok, [v_lit l; VInt U32 r; v_trie t'])))) /\
  (forall c s l r, sw_grey s = cc_grey c ->   N.of_nat (List.length (lit_s l)) < 2 ^ usize_bits p -> runs p (300 + S (List.length (lit_s l))) (Some "SmallWriteBuild") "add_literal" [v_smwr c s; v_lit l; VInt U32 r]
     (let! s' := smwr_add_literal p s l r in Ret (Some (VUnit, [v_smwr c s'; v_lit l; VInt U32 r])))).
Proof.
  intro p. split; [into u_with_byte|]. split; [into u_props_default|]. split; [into u_trie_default|]. split; [into u_trie_empty|]. split; [into u_trie_reports|]. split; [into u_MAX|]. split; [into u_smwr_new|]. split; [into u_add_to_trie|]. into u_add_literal.
Qed.
(** ng.rs, parser_util.rs: [ParseMode::new] *)
Theorem C95_ng : forall p,
  (forall f, runs p 300 (Some "ParseMode") "new" [v_flags f]
     (Ret (Some (v_mode (mode_new f), [v_flags f])))) /\
  (forall c n k, runs p 300 (Some "Ng") "new" [v_ctx c; VInt Usize n; VInt Usize k]
     (Ret (Some (v_ng (ng_new c n k), [v_ctx c; VInt Usize n; VInt Usize k])))) /\
  (forall n e h, runs p 300 (Some "Ng") "add_graph" [v_ng n; v_info e; v_holder h]
     (Ret (Some (VUnit, [v_ng (add_graph n e h); v_info e; v_holder h])))) /\
  (forall n l i r hl som q, one_grey n ->   N.of_nat (List.length (lit_s l)) < 2 ^ usize_bits p -> runs p (300 + S (List.length (lit_s l))) (Some "Ng") "add_literal" [v_ng n; v_lit l; VInt U32 i; VInt U32 r; VBool hl; v_som som; VBool q]
     (let! (n', x) := ng_add_literal p n l i r hl som q in Ret (Some (v_res VBool x, [v_ng n'; v_lit l; VInt U32 i; VInt U32 r; VBool hl; v_som som; VBool q])))).
Proof.
  intro p. split; [into v_mode_new|]. split; [into v_ng_new|]. split; [into v_add_graph|]. into v_add_literal.
Qed.
(** compiler.rs: [ParsedExpression::new] *)
Theorem C96_parsed_expression : forall p,
  (forall i s f id, runs p (300 + S (List.length s)) (Some "ParsedExpression") "new" [VInt Usize i; VStr s; v_flags f; VInt U32 id]
     (let! r := parsed_expression_new p i s f id in Ret (Some (v_res v_pexpr r, [VInt Usize i; VStr s; v_flags f; VInt U32 id])))).
Proof.
  intro p.  into y_new.
Qed.

(** component.rs, component_sequence.rs, component_alternation.rs, component_class.rs,
    ascii_component_class.rs, shortcut_literal.rs: the walk of [ConstructLiteralVisitor] over any tree. When the
    tree is no literal, what had been pushed to the visitor is [l']. *)
Theorem C96_walk : forall p c l, exists n, forall turns depth, (n <= turns)%nat -> (n <= depth)%nat -> exists l',
  call p util_program turns depth None "walk_component" [VStruct "ConstructLiteralVisitor" [("lit", v_lit l)]; v_comp c] =
  (let! r := walk_component p (construct_literal_visitor p) l c in
   Ret (Some (match r with ROk _ => ok_ VUnit | RErr _ => VCtor "Err" [VStruct "NotLiteral" []] end,
     [VStruct "ConstructLiteralVisitor" [("lit", v_lit (match r with ROk m => m | RErr _ => l' end))]; v_comp c]))).
Proof.
  intros p c l. exists (300 + need c)%nat. intros turns depth Ht Hd. rewrite program_is.
  destruct (x_walks p (need c) c turns depth l) as [l' E]; [lia|lia|lia|]. exists l'. exact E.
Qed.

(** shortcut_literal.rs: [shortcut_literal], for any tree whose literal has fewer bytes than [usize] counts *)
Theorem C96_shortcut_literal : forall p n pe, one_grey n ->
  (forall l, walk_component p (construct_literal_visitor p) lit_default (pe_component pe) = Ret (ROk l) -> N.of_nat (List.length (lit_s l)) < 2 ^ usize_bits p) ->
  exists k, forall turns depth, (k <= turns)%nat -> (k <= depth)%nat ->
  call p util_program turns depth None "shortcut_literal" [v_ng n; v_pexpr pe] =
  (let! (n', r) := shortcut_literal p n pe in Ret (Some (v_res VBool r, [v_ng n'; v_pexpr pe]))).
Proof.
  intros p n pe Hg Hu. exists (300 + need (pe_component pe))%nat. intros turns depth Ht Hd. rewrite program_is.
  destruct depth as [|depth]; [lia|]. apply y_shortcut; [assumption|lia|lia|lia|assumption].
Qed.

Definition C95_dev : profile := Profile true true W64.
Definition C95_ctx : compile_context := CompileContext false false grey_default.
Definition C95_or {A} (a : A) (r : outcome A) : A := match r with Ret x => x | _ => a end.
Definition C95_one : small_write := C95_or (smwr_new 2 grey_default) (smwr_add_literal C95_dev (smwr_new 2 grey_default) (Literal [97; 98; 99] [false; false; false]) 7).
Definition C95_two : small_write := C95_or C95_one (smwr_add_literal C95_dev C95_one (Literal [97; 98] [false; false]) 8).
(** Runs of the texts: two literals share a branch of the trie, and a graph goes nowhere; *)
Example C95_case :
  call C95_dev util_program 310 20 (Some "SmallWriteBuild") "add_literal" [v_smwr C95_ctx C95_one; v_lit (Literal [97; 98] [false; false]); VInt U32 8] =
    Ret (Some (VUnit, [v_smwr C95_ctx C95_two; v_lit (Literal [97; 98] [false; false]); VInt U32 8])) /\
  node_count (lt_inner (sw_trie C95_one)) = 4 /\ node_count (lt_inner (sw_trie C95_two)) = 4 /\
  call C95_dev util_program 310 20 (Some "LitTrie") "all_reports" [v_trie (sw_trie C95_two)] = Ret (Some (VCtor "HashSet" [VInt U32 8; VInt U32 7], [v_trie (sw_trie C95_two)])) /\
  one_grey (ng_new C95_ctx 1 0).
Proof. rewrite program_is. vm_compute. repeat split. Qed.
(** an expression that is a literal, [ab], is taken, and one that is not, [a|b], is left. *)
Definition C96_run (e : str) : outcome (option val) :=
  let! r := call C95_dev util_program 320 40 (Some "ParsedExpression") "new" [VInt Usize 0; VStr e; v_flags 0; VInt U32 7] in
  match r with
  | Some (VCtor "Ok" [pe], _) =>
    let! r' := call C95_dev util_program 340 40 None "shortcut_literal" [v_ng (ng_new C95_ctx 1 0); pe] in
    Ret (match r' with Some (v, _) => Some v | None => None end)
  | Some (v, _) => Ret (Some v)
  | None => Ret None
  end.
Example C96_case :
  C96_run (lit "ab") = Ret (Some (ok_ (VBool true))) /\ C96_run (lit "a|b") = Ret (Some (ok_ (VBool false))) /\ C96_run (lit "a(b)") = Panic POverflow /\
  (exists e, C96_run (lit "a)") = Ret (Some (VCtor "Err" [VStruct "CompileError" e]))).
Proof.
  unfold C96_run. rewrite program_is. split; [vm_compute; reflexivity|]. split; [vm_compute; reflexivity|]. split; [vm_compute; reflexivity|].
  eexists. vm_compute. reflexivity.
Qed.
Print Assumptions C95_smallwrite.
Print Assumptions C95_ng.
Print Assumptions C96_parsed_expression.
Print Assumptions C96_walk.
Print Assumptions C96_shortcut_literal.
