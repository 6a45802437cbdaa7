(** Properties C43, C44, C53 and C54: pattern graphs. *)
From Verif Require Import Base ModelUtil ModelBitField ModelCharReach ModelLiteral ModelReport ModelPetgraph ModelParser ModelNfa ModelSmallWrite ModelCompiler
  SpecSet SpecGrammar SpecTrie SpecTree SpecGraph ProofBase ProofBitField ProofGrammar ProofParser ProofTree ProofVerb ProofTrie ProofShortcut ProofGraph PropParser.
Local Open Scope N_scope.
Local Open Scope list_scope.

(** ** C43 *)
(** The graph of a tree: four special vertices, then one vertex per class from
    left to right. *)
Definition graph_of_classes (h : ng_holder) (ks : list bitfield) : Prop :=
  start h = 0 /\ start_ds h = 1 /\ accept h = 2 /\ accept_eod h = 3 /\
  edges (inner h) = [(0, 1); (1, 1); (2, 3)] /\
  List.length (nodes (inner h)) = (4 + List.length ks)%nat /\
  (forall i v, nth_error (nodes (inner h)) i = Some v -> reports v = [] /\ assert_flags v = 0) /\
  (forall i v x, nth_error (nodes (inner h)) i = Some v -> x < 256 ->
     ((i < 2)%nat -> mem (char_reach v) x = true) /\ ((2 <= i < 4)%nat -> mem (char_reach v) x = false)) /\
  (forall i k, nth_error ks i = Some k -> exists v, nth_error (nodes (inner h)) (4 + i) = Some v /\ char_reach v = k).
Lemma all_class_mem : forall x, x < 256 -> mem (char_reach all_class) x = true.
Proof.
  intros x H. assert (F : forallb (fun i => mem (char_reach all_class) (N.of_nat i)) (List.seq 0 256) = true) by (vm_compute; reflexivity).
  rewrite forallb_forall in F. rewrite <- (Nnat.N2Nat.id x). apply F. apply in_seq. lia.
Qed.
Lemma none_mem : forall x, mem (char_reach vertex_default) x = false.
Proof. intro x. apply not_true_is_false. intro M. unfold mem in M. change (char_reach vertex_default) with (BF 0 0 0 0) in M. cbn [w0 w1 w2 w3] in M. destruct (x / 64) as [|[q|q|]]; try destruct q; try (rewrite N.bits_0 in M); discriminate. Qed.
Lemma holder_with_graph : forall ks, graph_of_classes (holder_with (map vertex_of ks)) (map ac_cr ks).
Proof.
  intro ks. unfold graph_of_classes, holder_with. cbn [inner nodes edges start start_ds accept accept_eod app]. rewrite map_length.
  conjs; try reflexivity.
  - cbn [List.length]. rewrite map_length. reflexivity.
  - intros i v E. destruct i as [|[|[|[|i]]]]; cbn [nth_error] in E; try (injection E as <-; split; reflexivity).
    rewrite nth_error_map in E. destruct (nth_error ks i); [|discriminate]. injection E as <-. split; reflexivity.
  - intros i v x E Hx. destruct i as [|[|[|[|i]]]]; cbn [nth_error] in E; try (injection E as <-).
    + split; intro H; [apply all_class_mem; exact Hx|lia].
    + split; intro H; [apply all_class_mem; exact Hx|lia].
    + split; intro H; [lia|apply none_mem].
    + split; intro H; [lia|apply none_mem].
    + split; intro H; lia.
  - intros i k E. rewrite nth_error_map in E. destruct (nth_error ks i) as [a|] eqn:Ei; [|discriminate]. injection E as <-.
    exists (vertex_of a). split; [|reflexivity]. cbn [plus nth_error]. rewrite nth_error_map, Ei. reflexivity.
Qed.
Theorem C43_any_tree : forall p ei t,
  (4 + N.of_nat (List.length (leaves t)) < 2 ^ 32 -> exists g, build_graph p (ParsedExpression ei t) = Ret (ei, g) /\ graph_of_classes g (map ac_cr (leaves t))) /\
  (2 ^ 32 <= 4 + N.of_nat (List.length (leaves t)) -> build_graph p (ParsedExpression ei t) = Panic PCapacity).
Proof.
  intros p ei t. rewrite build_graph_ok. unfold IX_END. split; intro H.
  - replace (4 + N.of_nat (List.length (leaves t)) <=? 2 ^ 32 - 1) with true by lia. eexists. split; [reflexivity|]. apply holder_with_graph.
  - replace (4 + N.of_nat (List.length (leaves t)) <=? 2 ^ 32 - 1) with false by lia. reflexivity.
Qed.
(** Noting the positions of a tree in any state: one new vertex for each class, from
    left to right, and nothing else changes. *)
Theorem C43_noted : forall bs t, N.of_nat (List.length (vertices bs)) < 2 ^ 32 ->
  (N.of_nat (List.length (vertices bs)) + N.of_nat (List.length (leaves t)) < 2 ^ 32 ->
   exists bs', note_positions bs t = Ret bs' /\ same_frame bs bs' /\ bs_successors bs' = bs_successors bs /\
     vertices bs' = vertices bs ++ map (fun k => VertexProps (ac_cr k) [] 0) (leaves t)) /\
  (2 ^ 32 <= N.of_nat (List.length (vertices bs)) + N.of_nat (List.length (leaves t)) -> note_positions bs t = Panic PCapacity).
Proof.
  intros bs t H. rewrite note_positions_ok by (unfold bs_count, IX_END; lia). unfold note_result, bs_count. split; intro L.
  - replace (N.of_nat (List.length (vertices bs)) + N.of_nat (List.length (leaves t)) <=? IX_END) with true by (unfold IX_END; lia).
    eexists. split; [reflexivity|]. split; [unfold same_frame; cbn; auto 12|]. split; reflexivity.
  - replace (N.of_nat (List.length (vertices bs)) + N.of_nat (List.length (leaves t)) <=? IX_END) with false by (unfold IX_END; lia). reflexivity.
Qed.
Theorem C43_graph : forall p s m t m' body ei, parse p s m = Ret (ROk (t, m')) -> starts s m body m' ->
  4 + N.of_nat (List.length (plain_text body)) < 2 ^ 32 ->
  exists g ks, build_graph p (ParsedExpression ei t) = Ret (ei, g) /\ graph_of_classes g ks /\
  List.length ks = List.length (plain_text body) /\
  forall i c, nth_error (plain_text body) i = Some c -> exists k, nth_error ks i = Some k /\ forall x, mem k x = char_matches (caseless m) c x.
Proof.
  intros p s m t m' body ei E St H. apply C13_tree_iff in E. destruct E as (b0 & e & St0 & A & G & W & T & ->).
  destruct (starts_fun _ _ _ _ _ _ St St0) as [<- _]. pose proof (tree_leaves (caseless m) e W) as L. rewrite T in L.
  destruct (proj1 (C43_any_tree p ei (tree (caseless m) e))) as (g & Eg & Gg); [rewrite L, map_length; exact H|].
  exists g, (map ac_cr (leaves (tree (caseless m) e))). conjs; [exact Eg|exact Gg|rewrite L, !map_length; reflexivity|].
  intros i c Ei. rewrite L, map_map. exists (ac_cr (class_of (caseless m) c)). split; [rewrite nth_error_map, Ei; reflexivity|].
  intro x. apply class_of_mem. apply A. eapply filter_In. eapply nth_error_In. exact Ei.
Qed.
Example C43_case : exists t g, parse release (lit "a(b|)") mode_default = Ret (ROk (t, mode_default)) /\ plain_text (lit "a(b|)") = [97; 98] /\
  build_graph release (ParsedExpression (ExpressionInfo 0 7 false false false false SomNone false) t) =
    Ret (ExpressionInfo 0 7 false false false false SomNone false, g) /\ List.length (nodes (inner g)) = 6%nat.
Proof. do 2 eexists. conjs; try (vm_compute; reflexivity). Qed.

(** ** C44 *)
Theorem C44_all_reports : forall h, (forall a b, In (a, b) (edges (inner h)) -> a < node_count (inner h)) ->
  exists rs, all_reports h = Ret rs /\ NoDup rs /\
  forall r, In r rs <-> exists v x, (In (v, accept h) (edges (inner h)) \/ In (v, accept_eod h) (edges (inner h))) /\
    nth_error (nodes (inner h)) (N.to_nat v) = Some x /\ In r (reports x).
Proof.
  intros h H. unfold all_reports.
  destruct (union_reports_ok (inner h) (neighbors_in (inner h) (accept h)) []) as (r1 & E1 & N1 & M1); [constructor|intros v I; apply neighbors_in_In in I; eapply H; exact I|].
  rewrite E1. cbn [bind].
  destruct (union_reports_ok (inner h) (neighbors_in (inner h) (accept_eod h)) r1) as (r2 & E2 & N2 & M2); [exact N1|intros v I; apply neighbors_in_In in I; eapply H; exact I|].
  exists r2. conjs; [exact E2|exact N2|]. intro r. rewrite M2, M1. split.
  - intros [[[]|(v & x & I & E & J)]|(v & x & I & E & J)]; apply neighbors_in_In in I; eauto 8.
  - intros (v & x & [I|I] & E & J); apply neighbors_in_In in I; [left; right|right]; eauto 8.
Qed.
Theorem C44_is_vacuous : forall h, is_vacuous h = true <->
  exists a b, (a = start h \/ a = start_ds h) /\ (b = accept h \/ b = accept_eod h) /\ In (a, b) (edges (inner h)).
Proof.
  intro h. assert (E : forall a b, has_edge (inner h) a b = true <-> In (a, b) (edges (inner h))).
  { intros a b. unfold has_edge. rewrite existsb_exists. split.
    - intros ([x y] & I & Q). cbn in Q. apply andb_true_iff in Q. destruct Q as [Q1 Q2]. apply N.eqb_eq in Q1, Q2. subst. exact I.
    - intro I. exists (a, b). split; [exact I|]. cbn. rewrite !N.eqb_refl. reflexivity. }
  unfold is_vacuous. rewrite !orb_true_iff, !E. split.
  - intros [[[I|I]|I]|I]; eauto 8.
  - intros (a & b & [->| ->] & [->| ->] & I); auto.
Qed.
(** The graph of an expression matching the empty string should be vacuous. *)
Theorem C44_refuted : exists p s m t m' ei g, parse p s m = Ret (ROk (t, m')) /\ tree_matches t [] /\
  build_graph p (ParsedExpression ei t) = Ret (ei, g) /\ is_vacuous g = false.
Proof.
  exists release, (lit "()"), mode_default, (tree false [[Grp [[]]]]), mode_default, (ExpressionInfo 0 0 false false false false SomNone false), (holder_with []).
  conjs; try (vm_compute; reflexivity). apply tree_lang.
  - split; [discriminate|]. intros b a [<-|[]] [<-|[]]. constructor; [discriminate|]. intros b a [<-|[]] [].
  - apply ascii_check. reflexivity.
  - exists [Grp [[]]]. split; [left; reflexivity|]. change (@nil N) with (@nil N ++ @nil N). constructor; [|constructor]. econstructor; [left; reflexivity|constructor].
Qed.
(** In truth no graph that is built is vacuous, and none has reports, whatever the
    expression. *)
Theorem C44_never_vacuous_partial : forall p ei t g, build_graph p (ParsedExpression ei t) = Ret (ei, g) ->
  is_vacuous g = false /\ all_reports g = Ret [].
Proof.
  intros p ei t g E. rewrite build_graph_ok in E. destruct (4 + N.of_nat (List.length (leaves t)) <=? IX_END); [|discriminate]. injection E as <-.
  split; [reflexivity|]. unfold all_reports. change (neighbors_in (inner (holder_with (map vertex_of (leaves t)))) (accept (holder_with (map vertex_of (leaves t))))) with (@nil N).
  change (neighbors_in (inner (holder_with (map vertex_of (leaves t)))) (accept_eod (holder_with (map vertex_of (leaves t))))) with [2].
  cbn [union_reports bind]. rewrite (node_index_ok _ 2 vertex_default) by reflexivity. reflexivity.
Qed.
Definition sample_holder : ng_holder :=
  NgHolder (Graph [vertex_default; vertex_default; VertexProps cr_default [7] 0; vertex_default; VertexProps cr_default [5; 7] 0] [(0, 1); (2, 3); (4, 2); (4, 3)]) 0 1 2 3.
Example C44_case : all_reports sample_holder = Ret [5; 7] /\ is_vacuous sample_holder = false /\
  (forall a b, In (a, b) (edges (inner sample_holder)) -> a < node_count (inner sample_holder)).
Proof. conjs; try (vm_compute; reflexivity). intros a b I. cbn in I. unfold sample_holder, node_count. cbn. intuition; match goal with Q : (_, _) = _ |- _ => injection Q as <- <- end; lia. Qed.

(** ** C53 *)
(** With no vertex left for a position that reaches the accept, it panics. *)
Theorem C53_step : forall p bs l firsts, real_positions p bs [l] ->
  let full := N.of_nat (List.length (vertices bs)) = 2 ^ 32 - 1 in
  (full -> reaches_accept bs firsts l -> connect_successors p bs l firsts = Panic PCapacity) /\
  (~ (full /\ reaches_accept bs firsts l) -> exists bs', connect_successors p bs l firsts = Ret bs' /\ connected bs l firsts bs').
Proof.
  intros p bs l firsts R full. destruct (R l (or_introl eq_refl)) as [R1 R2]. change (2 ^ 32 - 1) with IX_END in full.
  destruct (connect_successors_cases p bs l firsts R1 R2) as [(Ra & F & E)|(Nf & X)]; split; unfold full; intros; tauto.
Qed.
Theorem C53_chain : forall p lasts bs firsts k, real_positions p bs lasts -> N.of_nat (List.length (vertices bs)) < 2 ^ 32 ->
  how_many (reaches_accept bs firsts) lasts k ->
  (N.of_nat (List.length (vertices bs)) + N.of_nat k < 2 ^ 32 -> exists bs', connect_regions p bs lasts firsts = Ret bs' /\ chain firsts bs lasts bs') /\
  (2 ^ 32 <= N.of_nat (List.length (vertices bs)) + N.of_nat k -> connect_regions p bs lasts firsts = Panic PCapacity).
Proof.
  intros p lasts bs firsts k R H K. destruct (connect_regions_chain p firsts lasts bs k R) as [(L & X)|(L & X)]; [unfold IX_END; lia|exact K| |]; unfold IX_END in L; split; intro Q; try lia; exact X.
Qed.
Theorem C53_counted : forall p lasts bs firsts, real_positions p bs lasts -> exists k, how_many (reaches_accept bs firsts) lasts k.
Proof. intros p lasts bs firsts R. eapply how_many_total. exact R. Qed.
(** A position that is none: the epsilon with debug assertions, one beyond the graph. *)
Definition stops (p : profile) (firsts : list position_info) (bs : build_state) (l : position_info) (why : panic) : Prop :=
  (debug_assertions p = true /\ pi_pos l = epsilon /\ why = PDebugAssert) \/
  (~ (debug_assertions p = true /\ pi_pos l = epsilon) /\ N.of_nat (List.length (vertices bs)) <= pi_pos l /\ why = PExpect) \/
  (real_positions p bs [l] /\ reaches_accept bs firsts l /\ N.of_nat (List.length (vertices bs)) = 2 ^ 32 - 1 /\ why = PCapacity).
Theorem C53_panics : forall p bs lasts firsts,
  (forall why, connect_regions p bs lasts firsts = Panic why <->
     exists a l b bs', lasts = a ++ l :: b /\ connect_regions p bs a firsts = Ret bs' /\ stops p firsts bs' l why) /\
  connect_regions p bs lasts firsts <> Diverge.
Proof.
  assert (St : forall p bs l firsts, (exists bs', connect_successors p bs l firsts = Ret bs' /\ forall why, ~ stops p firsts bs l why) \/
    (exists why, connect_successors p bs l firsts = Panic why /\ forall w, stops p firsts bs l w <-> w = why)).
  { intros p bs l firsts. destruct (debug_assertions p && (pi_pos l =? epsilon)) eqn:De.
    { apply andb_prop in De. destruct De as [D1 D2]. right. exists PDebugAssert. split.
      - unfold connect_successors, rs_debug_assert. rewrite D1. change pos_epsilon with epsilon. rewrite D2. reflexivity.
      - apply N.eqb_eq in D2. intro w. unfold stops, real_positions. split; [|tauto]. intros [(_ & _ & X)|[(X & _)|(X & _)]]; [exact X|tauto|]. destruct (X l (or_introl eq_refl)) as [_ Y]. tauto. }
    assert (Ne : ~ (debug_assertions p = true /\ pi_pos l = epsilon)) by (intros [X Y]; rewrite X, Y, N.eqb_refl in De; discriminate De).
    destruct (N.lt_ge_cases (pi_pos l) (N.of_nat (List.length (vertices bs)))) as [Lt|Ge].
    - assert (R : real_positions p bs [l]) by (intros l' [<-|[]]; split; [exact Lt|intros X Y; tauto]).
      destruct (connect_successors_cases p bs l firsts Lt (fun X Y => Ne (conj X Y))) as [(Ra & F & E)|(Nf & bs' & E & _)]; change IX_END with (2 ^ 32 - 1) in *.
      + right. exists PCapacity. split; [exact E|]. intro w. unfold stops. split; [intros [X|[X|X]]; [tauto|lia|tauto]|intros ->; tauto].
      + left. exists bs'. split; [exact E|]. intros why [X|[X|X]]; [tauto|lia|tauto].
    - right. exists PExpect. split.
      + unfold connect_successors, rs_debug_assert. change pos_epsilon with epsilon.
        rewrite negb_involutive, De. cbn [bind]. unfold filter_edges, get_assert_flag, ngh_index, node_weight. fold (vertices bs). rewrite (proj2 (nth_error_None _ _)) by lia. destruct (pi_pos l <? _); reflexivity.
      + intro w. unfold stops. split; [|tauto]. intros [X|[X|(X & _)]]; [tauto|tauto|]. destruct (X l (or_introl eq_refl)) as [Y _]. lia. }
  intros p bs lasts. revert bs. induction lasts as [|l lasts IH]; intros bs firsts; cbn [connect_regions].
  - split; [|discriminate]. intro why. split; [discriminate|]. intros ([|? ?] & ? & ? & ? & E & _); discriminate E.
  - destruct (St p bs l firsts) as [(bs' & E & Nw)|(w & E & W)].
    + rewrite E. cbn [bind]. destruct (IH bs' firsts) as [IH1 IH2]. split; [|exact IH2]. intro why. rewrite IH1. split.
      * intros (a & m & b & b2 & -> & Ea & Hs). exists (l :: a), m, b, b2. split; [reflexivity|]. split; [|exact Hs]. cbn [connect_regions]. rewrite E. exact Ea.
      * intros ([|l' a] & m & b & b2 & El & Ea & Hs).
        -- injection El as <- <-. injection Ea as <-. destruct (Nw _ Hs).
        -- injection El as <- ->. cbn [connect_regions] in Ea. rewrite E in Ea. exists a, m, b, b2. auto.
    + rewrite E. cbn [bind]. split; [|discriminate]. intro why. split.
      * intros [= <-]. exists [], l, lasts, bs. split; [reflexivity|]. split; [reflexivity|]. apply W. reflexivity.
      * intros ([|l' a] & m & b & b2 & El & Ea & Hs).
        -- injection El as <- <-. injection Ea as <-. apply W in Hs. subst. reflexivity.
        -- injection El as <- ->. cbn [connect_regions] in Ea. rewrite E in Ea. discriminate Ea.
Qed.
(** All the last positions together: nothing is forgotten, everything that passes
    is recorded, and nothing else is. *)
Theorem C53_regions : forall p lasts bs firsts bs', real_positions p bs lasts ->
  connect_regions p bs lasts firsts = Ret bs' ->
  let fresh v := N.of_nat (List.length (vertices bs)) <= v < N.of_nat (List.length (vertices bs')) in
  same_frame bs bs' /\ (exists k, vertices bs' = vertices bs ++ repeat vertex_default k) /\
  (forall v e, recorded bs v e -> recorded bs' v e) /\
  (forall l f, In l lasts -> In f firsts -> passes bs l f -> pi_pos f <> bs_accept bs -> recorded bs' (pi_pos l) f) /\
  (forall l, In l lasts -> reaches_accept bs firsts l -> exists v, fresh v /\ recorded bs' (pi_pos l) (PositionInfo v 0)) /\
  (forall q e, recorded bs' q e -> recorded bs q e \/ exists l, In l lasts /\ q = pi_pos l /\
     ((In e firsts /\ passes bs l e) \/ (reaches_accept bs firsts l /\ pi_flags e = 0 /\ fresh (pi_pos e)))).
Proof.
  intros p lasts bs firsts bs' R E fresh. destruct (connect_regions_ok p lasts bs firsts bs' R E) as (k & F & V & _ & R1 & R2 & R3 & R4). unfold fresh. conjs; eauto.
Qed.
(** Caret-only positions never follow the floating start. *)
Theorem C53_no_caret_after_float : forall p lasts bs firsts bs' e, real_positions p bs lasts ->
  connect_regions p bs lasts firsts = Ret bs' -> no_float (pi_flags e) ->
  recorded bs' (bs_start_ds bs) e -> recorded bs (bs_start_ds bs) e.
Proof.
  intros p lasts bs firsts bs' e R E Nf Re. destruct (C53_regions p lasts bs firsts bs' R E) as (_ & _ & _ & _ & _ & M).
  destruct (M _ _ Re) as [X|(l & I & Q & [[_ P]|(_ & Z & _)])]; [exact X| |].
  - exfalso. destruct P as [P _]. destruct (P (eq_sym Q)) as [_ P2]. contradiction.
  - exfalso. unfold no_float in Nf. rewrite Z, N.bits_0 in Nf. discriminate.
Qed.
(** The accept position is replaced everywhere when it is offered once. *)
Theorem C53_accept_replaced : forall p bs l firsts bs' e, real_positions p bs [l] ->
  connect_successors p bs l firsts = Ret bs' -> (forall a f b, firsts = a ++ f :: b -> pi_pos f = bs_accept bs -> forall g, In g a \/ In g b -> pi_pos g <> bs_accept bs) ->
  bs_accept bs < N.of_nat (List.length (vertices bs)) ->
  recorded bs' (pi_pos l) e -> pi_pos e = bs_accept bs -> recorded bs (pi_pos l) e.
Proof.
  intros p bs l firsts bs' e R E One Ha Re Pe. destruct (R l (or_introl eq_refl)) as [R1 R2].
  destruct (connect_successors_cases p bs l firsts R1 R2) as [(_ & _ & E')|(_ & b & E' & C)]; rewrite E in E'; [discriminate E'|]. injection E' as <-.
  destruct C as [b _ _ N M|b a f c _ _ Ef _ Pf _ M]; apply M in Re; destruct Re as [X|(_ & X)]; auto.
  - destruct X as [I P]. exfalso. exact (N e I P Pe).
  - destruct X as [->|[I _]]; [cbn in Pe; lia|]. exfalso. exact (One a f c Ef Pf e I Pe).
Qed.
(** The state the construction starts from: the anchored and the floating start
    both lead to the floating start, and nothing else is recorded. *)
Theorem C53_initial : forall p b,
  get_start b < num_vertices b -> get_start_dot_star b < num_vertices b -> num_vertices b + 1 < 2 ^ 32 ->
  get_start_dot_star b <> get_accept b -> get_start_dot_star b <> get_accept_eod b ->
  exists bs, make_glushkov_build_state p b = Ret bs /\ bs_builder bs = b /\
  bs_start bs = get_start b /\ bs_start_ds bs = get_start_dot_star b /\ bs_accept bs = get_accept b /\ bs_accept_eod bs = get_accept_eod b /\
  forall v e, recorded bs v e <-> (v = get_start b \/ v = get_start_dot_star b) /\ e = PositionInfo (get_start_dot_star b) 0.
Proof.
  intros p b H1 H2 H3 Na Ne. unfold make_glushkov_build_state. cbn [bs_start bs_start_ds].
  set (b0 := BuildState (get_start b) (get_start_dot_star b) (get_accept b) (get_accept_eod b) b []).
  set (f := PositionInfo (get_start_dot_star b) 0).
  assert (Cn : N.of_nat (List.length (vertices b0)) = num_vertices b) by reflexivity.
  destruct (C53_chain p [pi_from (get_start b); pi_from (get_start_dot_star b)] b0 [pi_from (get_start_dot_star b)] 0%nat) as [Ch _].
  - intros l I. assert (L : pi_pos l < num_vertices b) by (destruct I as [<-|[<-|[]]]; assumption). rewrite Cn. split; [exact L|].
    intros _. unfold epsilon. lia.
  - rewrite Cn. lia.
  - repeat apply many_no; try apply many_nil; intros (g & [<-|[]] & _ & Q); exact (Na Q).
  - destruct Ch as (b2 & E & C); [rewrite Cn; lia|]. exists b2. split; [exact E|]. change (pi_from (get_start_dot_star b)) with f in C.
    assert (P : forall bs l, same_frame b0 bs -> pi_flags l = 0 -> passes bs l f).
    { intros bs l (S1 & S2 & S3 & S4 & _) Z. split; [|split].
      - intros _. unfold float_filter, no_float. rewrite Z. cbn. split; discriminate.
      - intros _ _. unfold start_filter, must_float. cbn. split; [reflexivity|]. intros (X & _). discriminate X.
      - intros x _ _. rewrite S4. exact Ne. }
    assert (Plain : forall bs l bs', same_frame b0 bs -> pi_flags l = 0 -> connected bs l [f] bs' ->
      same_frame b0 bs' /\ vertices bs' = vertices bs /\ forall v e, recorded bs' v e <-> recorded bs v e \/ (v = pi_pos l /\ e = f)).
    { intros bs l bs' S Z K. pose proof S as (S1 & S2 & S3 & S4 & _). destruct K as [bs' F Vs _ R|bs' a g c F _ Ef _ Pg _ _].
      - split; [eapply same_frame_trans; eassumption|]. split; [exact Vs|]. intros v e. rewrite R. cbn [In].
        split; intros [X|(X & Y)]; auto; [destruct Y as ([->|[]] & _); auto|subst e]. right. split; [exact X|]. split; [auto|apply P; assumption].
      - exfalso. destruct a as [|a0 a]; injection Ef as Ef1 Ef2; [|destruct a; discriminate Ef2]. subst g. rewrite S3 in Pg. apply Na. exact Pg. }
    inversion C as [|? ? ? b1 ? C1 C2]; subst. inversion C2 as [|? ? ? b2' ? C3 C4]; subst. inversion C4; subst.
    destruct (Plain b0 (pi_from (get_start b)) b1 (same_frame_refl b0) eq_refl C1) as (F1 & V1 & R1). destruct (Plain b1 f b2 F1 eq_refl C3) as (F2 & V2 & R2).
    destruct F2 as (S1 & S2 & S3 & S4 & S5 & S6 & S7 & S8 & S9 & S0). conjs; auto.
    + assert (Vb : vertices b2 = vertices b0) by congruence. clear - Vb S5 S6 S7 S8 S9 S0. unfold vertices, get_start, get_start_dot_star, get_accept, get_accept_eod in *.
      change (bs_builder b0) with b in *. destruct (bs_builder b2) as [[[ns es] q0 q1 q2 q3] ex]. destruct b as [[[ns' es'] r0 r1 r2 r3] ex']. cbn in *. congruence.
    + intros v e. rewrite R2, R1. change (pi_pos (pi_from (get_start b))) with (get_start b). change (pi_pos f) with (get_start_dot_star b).
      split; [intros [[(s & [] & _)|(-> & ->)]|(-> & ->)]; auto|intros ([->| ->] & ->); auto].
Qed.
(** A state with a must-float/no-float first, an accept and an end-of-data accept. *)
Definition sample_state : build_state :=
  BuildState 0 1 2 3 (NfaBuilder (NgHolder (Graph [vertex_default; vertex_default; vertex_default; vertex_default; VertexProps cr_default [] 256] []) 0 1 2 3)
    (ExpressionInfo 0 0 false false false false SomNone false)) [(1, [PositionInfo 1 0])].
Definition sample_firsts : list position_info := [PositionInfo 4 1; PositionInfo 2 0; PositionInfo 3 0; PositionInfo 4 17].
Example C53_case : exists bs', connect_regions dev sample_state [PositionInfo 1 0; PositionInfo 4 0; PositionInfo 0 0] sample_firsts = Ret bs' /\
  bs_successors bs' = [(1, [PositionInfo 1 0; PositionInfo 5 0; PositionInfo 3 0]); (4, [PositionInfo 4 1; PositionInfo 6 0; PositionInfo 4 17]);
    (0, [PositionInfo 4 1; PositionInfo 7 0; PositionInfo 3 0])] /\
  real_positions dev sample_state [PositionInfo 1 0; PositionInfo 4 0; PositionInfo 0 0].
Proof.
  eexists. conjs; try (vm_compute; reflexivity). intros l I. cbn in I. unfold sample_state, vertices, epsilon. cbn.
  destruct I as [<-|[<-|[<-|[]]]]; cbn; split; try lia; intros _; lia.
Qed.

Example C53_unreal_case : connect_regions dev sample_state [PositionInfo 1 0; PositionInfo epsilon 0; PositionInfo 0 0] sample_firsts = Panic PDebugAssert /\
  connect_regions release sample_state [PositionInfo 1 0; PositionInfo epsilon 0; PositionInfo 0 0] sample_firsts = Panic PExpect /\
  connect_regions dev sample_state [PositionInfo 1 0; PositionInfo 9 0] sample_firsts = Panic PExpect.
Proof. conjs; vm_compute; reflexivity. Qed.
(** A graph with every number taken. *)
Example C53_full_case : exists bs l firsts, real_positions dev bs [l] /\ N.of_nat (List.length (vertices bs)) = 2 ^ 32 - 1 /\ reaches_accept bs firsts l /\
  how_many (reaches_accept bs firsts) [l] 1.
Proof.
  assert (Z : exists k, N.of_nat (S k) = 2 ^ 32 - 1) by (exists (N.to_nat (2 ^ 32 - 2)); rewrite Nat2N.inj_succ, N2Nat.id; reflexivity). destruct Z as (k & Hk).
  set (bs := BuildState 0 1 2 3 (NfaBuilder (NgHolder (Graph (repeat vertex_default (S k)) []) 0 1 2 3) (ExpressionInfo 0 0 false false false false SomNone false)) []).
  assert (L : N.of_nat (List.length (vertices bs)) = 2 ^ 32 - 1) by (unfold bs, vertices; cbn [bs_builder nb_graph inner nodes]; rewrite repeat_length; exact Hk).
  assert (Ra : reaches_accept bs [PositionInfo 2 0] (PositionInfo 0 0)).
  { exists (PositionInfo 2 0). conjs; [left; reflexivity|apply (passes_ok bs _ _ vertex_default); reflexivity|reflexivity]. }
  exists bs, (PositionInfo 0 0), [PositionInfo 2 0]. conjs; [|exact L|exact Ra|apply many_yes; [exact Ra|constructor]].
  intros l [<-|[]]. rewrite L. split; [reflexivity|discriminate].
Qed.
Example C53_initial_case : exists b, make_nfa_builder (ExpressionInfo 0 0 false false false false SomNone false) = Ret b /\
  get_start b < num_vertices b /\ get_start_dot_star b < num_vertices b /\ num_vertices b + 1 < 2 ^ 32 /\
  get_start_dot_star b <> get_accept b /\ get_start_dot_star b <> get_accept_eod b /\
  exists bs, make_glushkov_build_state dev b = Ret bs /\ bs_successors bs = [(0, [PositionInfo 1 0]); (1, [PositionInfo 1 0])].
Proof. eexists. split; [vm_compute; reflexivity|]. conjs; try (vm_compute; reflexivity); try discriminate. eexists. split; vm_compute; reflexivity. Qed.
(** The positions of "ab" noted in a state with a vertex and a successor of its own. *)
Example C43_noted_case : exists t bs', parse release (lit "ab") mode_default = Ret (ROk (t, mode_default)) /\ note_positions sample_state t = Ret bs' /\
  N.of_nat (List.length (vertices sample_state)) + N.of_nat (List.length (leaves t)) < 2 ^ 32 /\ List.length (vertices bs') = 7%nat /\ bs_successors bs' = [(1, [PositionInfo 1 0])].
Proof. eexists. eexists. split; [vm_compute; reflexivity|]. split; [vm_compute; reflexivity|]. conjs; vm_compute; reflexivity. Qed.

(** ** C54 *)
Definition caret_flavoured (e : position_info) : Prop := no_float (pi_flags e).
(** The filter for the anchored start should keep exactly the caret-flavoured
    epsilons; it drops them, and keeps the unflavoured ones. *)
Theorem C54_refuted : exists bs from tolist kept caret plain, pi_pos from = bs_start bs /\ filter_edges bs from tolist = Ret kept /\
  In caret tolist /\ pi_pos caret = epsilon /\ caret_flavoured caret /\ ~ In caret kept /\
  In plain tolist /\ pi_pos plain = epsilon /\ ~ caret_flavoured plain /\ In plain kept.
Proof.
  exists sample_state, (PositionInfo 0 0), [PositionInfo epsilon 1; PositionInfo epsilon 0], [PositionInfo epsilon 0], (PositionInfo epsilon 1), (PositionInfo epsilon 0).
  conjs; try (vm_compute; reflexivity); try (vm_compute; intuition congruence).
Qed.
(** What it does: positions are kept, in order, exactly when they are not flagged
    epsilons, not both must-float and no-float, and not excluded by a multiline
    start; from any other vertex but the floating start only the last counts. *)
Theorem C54_start_filter_partial : forall bs from tolist x, pi_pos from = bs_start bs -> bs_start bs <> bs_start_ds bs ->
  nth_error (vertices bs) (N.to_nat (pi_pos from)) = Some x -> exists keep, filter_edges bs from tolist = Ret (filter keep tolist) /\
  forall e, keep e = true <-> (pi_pos e = epsilon -> pi_flags e = 0) /\ ~ (must_float (pi_flags e) /\ no_float (pi_flags e)) /\
    (multiline_start (assert_flags x) -> pi_pos e <> bs_accept_eod bs).
Proof.
  intros bs from tolist x S D E. eexists. split; [apply filter_edges_ok; exact E|]. intro e. rewrite (passes_ok bs from e x E). unfold passes, start_filter. split.
  - intros (_ & P2 & P3). destruct (P2 ltac:(congruence) S) as [Q1 Q2]. conjs; [exact Q1|exact Q2|apply P3; exact E].
  - intros (Q1 & Q2 & Q3). conjs; [intro Z; congruence|auto|]. intros y Ey. assert (y = x) by congruence. subst y. exact Q3.
Qed.
Theorem C54_other_filter_partial : forall bs from tolist x, pi_pos from <> bs_start bs -> pi_pos from <> bs_start_ds bs ->
  nth_error (vertices bs) (N.to_nat (pi_pos from)) = Some x -> exists keep, filter_edges bs from tolist = Ret (filter keep tolist) /\
  forall e, keep e = true <-> (multiline_start (assert_flags x) -> pi_pos e <> bs_accept_eod bs).
Proof.
  intros bs from tolist x S D E. eexists. split; [apply filter_edges_ok; exact E|]. intro e. rewrite (passes_ok bs from e x E). unfold passes. split.
  - intros (_ & _ & P3). apply P3. exact E.
  - intro Q. conjs; [intro Z; congruence|intros _ Z; congruence|]. intros y Ey. assert (y = x) by congruence. subst y. exact Q.
Qed.
Example C54_case : nth_error (vertices sample_state) (N.to_nat (pi_pos (PositionInfo 0 0))) = Some vertex_default /\ bs_start sample_state <> bs_start_ds sample_state.
Proof. split; [reflexivity|discriminate]. Qed.

Print Assumptions C43_any_tree.
Print Assumptions C43_graph.
Print Assumptions C44_all_reports.
Print Assumptions C44_is_vacuous.
Print Assumptions C44_refuted.
Print Assumptions C44_never_vacuous_partial.
Print Assumptions C43_noted.
Print Assumptions C53_initial.
Print Assumptions C53_step.
Print Assumptions C53_chain.
Print Assumptions C53_counted. Print Assumptions C53_panics.
Print Assumptions C53_regions.
Print Assumptions C53_no_caret_after_float.
Print Assumptions C53_accept_replaced.
Print Assumptions C54_refuted.
Print Assumptions C54_start_filter_partial.
Print Assumptions C54_other_filter_partial.
