(** C97, continued: the text of the functions of the graph and of the build state that [compile] does not call, or
    calls on a new graph only. *)
From Verif Require Import Base ModelUtil ModelCharReach ModelReport ModelPetgraph ModelParser ModelNfa ModelCompiler
  ModelRust ModelInterp ModelSource SpecSource SpecSourceCrate
  ProofSourceA ProofSourceQ ProofSourceR ProofSourceS ProofSourceZ ProofSourceZE ProofSourceZF ProofSourceZG ProofSourceZH ProofSourceZI PropSource PropSourceParse PropSourceCrate.
Local Open Scope string_scope.
Local Open Scope N_scope.
Local Open Scope list_scope.

(** ng_holder.rs:69-97 *)
Theorem C97_vacuous : forall p h,
  runs p 300 (Some "NgHolder") "is_vacuous" [v_holder h] (Ret (Some (VBool (is_vacuous h), [v_holder h]))).
Proof. intro p. into y_vacuous. Qed.
(** [true] if, and only if, an edge leads from a start vertex straight to an accept vertex *)
Theorem C97_vacuous_means : forall p h, exists b,
  runs p 300 (Some "NgHolder") "is_vacuous" [v_holder h] (Ret (Some (VBool b, [v_holder h]))) /\
  (b = true <-> exists u v, In (u, v) (edges (inner h)) /\ (u = start h \/ u = start_ds h) /\ (v = accept h \/ v = accept_eod h)).
Proof.
  intros p h. exists (is_vacuous h). split; [apply C97_vacuous|]. unfold is_vacuous, has_edge. rewrite !Bool.orb_true_iff, !existsb_exists. split.
  - intros [[[H|H]|H]|H]; destruct H as [[u v] [I E]]; cbn [fst snd] in E; apply andb_true_iff in E; destruct E as [A B]; apply N.eqb_eq in A; apply N.eqb_eq in B; exists u, v; tauto.
  - intros [u [v [I [[->| ->] [->| ->]]]]]; [left; left; left|left; left; right|left; right|right]; eexists; (split; [exact I|]); cbn [fst snd]; rewrite !N.eqb_refl; reflexivity.
Qed.
Theorem C97_all_reports : forall p h,
  runs p 300 (Some "NgHolder") "all_reports" [v_holder h] (let! r := all_reports h in Ret (Some (v_ids r, [v_holder h]))).
Proof. intro p. into y_all. Qed.
(** build_state.rs:74-109 *)
Theorem C97_filter_edges : forall p,
  runs p 300 (Some "GlushkovBuildState") "pos_epsilon" [] (Ret (Some (ix_ pos_epsilon, []))) /\
  (forall b i l, runs p 300 None "filter_edges" [v_bs b; v_pos i; VList (map v_pos l)]
     (let! r := filter_edges b i l in Ret (Some (VUnit, [v_bs b; v_pos i; VList (map v_pos r)])))).
Proof. intro p. split; [into y_eps|into y_filter]. Qed.
(** build_state.rs:50-72.  What is left of the list the function is given by value nobody can see: it is some list of positions. *)
Theorem C97_connect_successors : forall p b i l turns depth, (300 + List.length l <= turns)%nat -> (20 <= depth)%nat -> exists t,
  call p util_program turns depth (Some "GlushkovBuildState") "connect_successors" [v_bs b; v_pos i; VList (map v_pos l)] =
  (let! b' := connect_successors p b i l in Ret (Some (VUnit, [v_bs b'; v_pos i; VList (map v_pos t)]))).
Proof.
  intros p b i l turns depth Ht Hd. rewrite program_is. do 6 (destruct depth as [|depth]; [lia|]). apply y_connect. lia.
Qed.
Theorem C97_connect_regions : forall p b ls fi,
  runs p (300 + List.length ls + List.length fi) (Some "GlushkovBuildState") "connect_regions" [v_bs b; VList (map v_pos ls); VList (map v_pos fi)]
    (let! b' := connect_regions p b ls fi in Ret (Some (VUnit, [v_bs b'; VList (map v_pos ls); VList (map v_pos fi)]))).
Proof.
  intros p b ls fi turns depth Ht Hd. rewrite program_is. do 7 (destruct depth as [|depth]; [lia|]). apply y_regions; lia.
Qed.
(** build_state.rs:19-39, 111-113: of any builder, not only a new one.  Were the accept vertex the vertex start-dotstar, the
    builder the state holds and the one it was lent would be the same object changed; every graph there is has them apart. *)
Theorem C97_build_state : forall p b, get_accept b <> get_start_dot_star b ->
  runs p 300 (Some "GlushkovBuildState") "new" [v_builder b] (let! s := make_glushkov_build_state p b in Ret (Some (v_bs s, [v_builder (bs_builder s)]))) /\
  runs p 300 None "make_glushkov_build_state" [v_builder b] (let! s := make_glushkov_build_state p b in Ret (Some (v_bs s, [v_builder (bs_builder s)]))).
Proof.
  intros p b Hb. split; intros turns depth Ht Hd; rewrite program_is.
  - do 8 (destruct depth as [|depth]; [lia|]). apply y_new; [lia|exact Hb].
  - do 9 (destruct depth as [|depth]; [lia|]). apply y_make; [lia|exact Hb].
Qed.

(** A state that is not new: the positions of two classes, 4 and 5; joining 4 to 5 and to accept puts a dot, 6, in the place of accept. *)
Definition C97_dev : profile := Profile true true W64.
Definition C97_info : expression_info := ExpressionInfo 0 7 false false false false SomNone false.
Definition C97_state : build_state :=
  match (let! b := make_nfa_builder C97_info in let! s := make_glushkov_build_state C97_dev b in
         let! (b1, _) := make_position (bs_builder s) in let! (b2, _) := make_position b1 in Ret (bs_set_builder s b2)) with
  | Ret s => s | _ => BuildState 0 0 0 0 (NfaBuilder (NgHolder graph_new 0 0 0 0) C97_info) [] end.

Definition C97_joined : build_state := match connect_regions C97_dev C97_state [PositionInfo 4 0] [PositionInfo 5 0; PositionInfo 2 0] with Ret s => s | _ => C97_state end.
Example C97_connect_case :
  call C97_dev util_program 400 30 (Some "GlushkovBuildState") "connect_regions" [v_bs C97_state; VList [v_pos (PositionInfo 4 0)]; VList [v_pos (PositionInfo 5 0); v_pos (PositionInfo 2 0)]] =
    Ret (Some (VUnit, [v_bs C97_joined; VList [v_pos (PositionInfo 4 0)]; VList [v_pos (PositionInfo 5 0); v_pos (PositionInfo 2 0)]])) /\
  bs_accept C97_state = 2 /\ num_vertices (bs_builder C97_state) = 6 /\ num_vertices (bs_builder C97_joined) = 7 /\
  bs_successors C97_joined = [(0, [PositionInfo 1 0]); (1, [PositionInfo 1 0]); (4, [PositionInfo 5 0; PositionInfo 6 0])] /\
  get_accept (bs_builder C97_joined) <> get_start_dot_star (bs_builder C97_joined).
Proof. rewrite program_is. split; [vm_compute; reflexivity|]. split; [vm_compute; reflexivity|]. split; [vm_compute; reflexivity|]. split; [vm_compute; reflexivity|]. split; [vm_compute; reflexivity|]. vm_compute. discriminate. Qed.
(** with the debug assertions, joining from the position that stands for nothing is a panic *)
Example C97_epsilon_case :
  call C97_dev util_program 400 30 (Some "GlushkovBuildState") "connect_regions" [v_bs C97_state; VList [v_pos (PositionInfo pos_epsilon 0)]; VList []] = Panic PDebugAssert.
Proof. rewrite program_is. vm_compute. reflexivity. Qed.
(** start-dotstar does not go on to a position that must not float; a graph with an edge from start to accept is vacuous. *)
Example C97_filter_case :
  filter_edges C97_state (PositionInfo 1 0) [PositionInfo 4 NOFLOAT; PositionInfo 5 0] = Ret [PositionInfo 5 0] /\
  is_vacuous (nb_graph (bs_builder C97_state)) = false /\
  (let h := nb_graph (bs_builder C97_state) in
   is_vacuous (NgHolder (ModelPetgraph.Graph (nodes (inner h)) (edges (inner h) ++ [(0, 2)])) 0 1 2 3) = true /\
   all_reports (NgHolder (ModelPetgraph.Graph (VertexProps (char_reach vertex_default) [7; 9] 0 :: tl (nodes (inner h))) (edges (inner h) ++ [(0, 2)])) 0 1 2 3) = Ret [7; 9]).
Proof. split; [vm_compute; reflexivity|]. split; [vm_compute; reflexivity|]. split; vm_compute; reflexivity. Qed.

Print Assumptions C97_vacuous.
Print Assumptions C97_vacuous_means.
Print Assumptions C97_all_reports.
Print Assumptions C97_filter_edges.
Print Assumptions C97_connect_successors.
Print Assumptions C97_connect_regions.
Print Assumptions C97_build_state.
