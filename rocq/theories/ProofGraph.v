(** Lemmas about graph construction. *)
From Verif Require Import Base ModelUtil ModelBitField ModelCharReach ModelLiteral ModelReport ModelPetgraph ModelParser ModelNfa ModelSmallWrite ModelCompiler
  SpecSet SpecGrammar SpecTrie SpecTree SpecGraph ProofBase ProofBitField ProofGrammar ProofParser ProofTree ProofTrie ProofShortcut.
Local Open Scope N_scope.
Local Open Scope list_scope.

(** ** Noting positions *)
Definition bs_nodes (bs : build_state) (vs : list vertex_props) : build_state :=
  let b := bs_builder bs in let h := nb_graph b in
  BuildState (bs_start bs) (bs_start_ds bs) (bs_accept bs) (bs_accept_eod bs)
    (NfaBuilder (NgHolder (Graph (nodes (inner h) ++ vs) (edges (inner h))) (start h) (start_ds h) (accept h) (accept_eod h)) (nb_expr b))
    (bs_successors bs).
Definition vertex_of (k : ascii_class) : vertex_props := VertexProps (ac_cr k) [] 0.
Definition bs_count (bs : build_state) : N := N.of_nat (List.length (vertices bs)).
Lemma bs_nodes_nil : forall bs, bs_nodes bs [] = bs.
Proof. intros [a b c d [[[ns es] s1 s2 s3 s4] e] m]. unfold bs_nodes. cbn. rewrite app_nil_r. reflexivity. Qed.
Lemma bs_nodes_app : forall bs u v, bs_nodes (bs_nodes bs u) v = bs_nodes bs (u ++ v).
Proof. intros. unfold bs_nodes. cbn. rewrite app_assoc. reflexivity. Qed.
Lemma bs_nodes_vertices : forall bs u, vertices (bs_nodes bs u) = vertices bs ++ u.
Proof. reflexivity. Qed.
Lemma bs_nodes_count : forall bs u, bs_count (bs_nodes bs u) = bs_count bs + N.of_nat (List.length u).
Proof. intros. unfold bs_count. rewrite bs_nodes_vertices, app_length. lia. Qed.
Lemma list_upd_last : forall {A} (l : list A) x f, list_upd (l ++ [x]) (List.length l) f = l ++ [f x].
Proof. intros A l x f. induction l as [|y l IH]; [reflexivity|]. cbn. rewrite IH. reflexivity. Qed.
Lemma node_weight_last : forall {A} (ns : list A) es x, node_weight (Graph (ns ++ [x]) es) (node_count (Graph ns es)) = Some x.
Proof.
  intros A ns es x. unfold node_weight, node_count. cbn [nodes]. rewrite app_length. cbn [List.length].
  replace (N.of_nat (List.length ns) <? N.of_nat (List.length ns + 1)) with true by lia.
  rewrite Nnat.Nat2N.id, nth_error_app2, Nat.sub_diag by lia. reflexivity.
Qed.
Lemma cr_or_default : forall cr, cr_or_assign cr_default cr = cr.
Proof. intros [a b c d]. reflexivity. Qed.
Lemma make_position_new : forall b, node_count (inner (nb_graph b)) <> IX_END ->
  make_position b = Ret (NfaBuilder (NgHolder (Graph (nodes (inner (nb_graph b)) ++ [vertex_default]) (edges (inner (nb_graph b))))
    (start (nb_graph b)) (start_ds (nb_graph b)) (accept (nb_graph b)) (accept_eod (nb_graph b))) (nb_expr b), node_count (inner (nb_graph b))).
Proof.
  intros b H. unfold make_position, ngh_add_vertex, add_node. replace (node_count (inner (nb_graph b)) =? IX_END) with false by lia. reflexivity.
Qed.
Lemma make_position_ok : forall b, node_count (inner (nb_graph b)) < IX_END ->
  make_position b = Ret (NfaBuilder (NgHolder (Graph (nodes (inner (nb_graph b)) ++ [vertex_default]) (edges (inner (nb_graph b))))
    (start (nb_graph b)) (start_ds (nb_graph b)) (accept (nb_graph b)) (accept_eod (nb_graph b))) (nb_expr b), node_count (inner (nb_graph b))).
Proof. intros b H. apply make_position_new. lia. Qed.
Lemma ac_note_ok : forall bs k, bs_count bs < IX_END -> ac_note_positions bs k = Ret (bs_nodes bs [vertex_of k]).
Proof.
  intros bs k H. unfold ac_note_positions. rewrite make_position_ok by exact H. cbn [bind]. unfold add_char_reach, ngh_update. cbn [nb_graph inner nb_expr].
  destruct bs as [a b c d [[[ns es] s1 s2 s3 s4] ei] m]. cbn [bs_builder nb_graph inner nodes edges start start_ds accept accept_eod nb_expr] in *.
  rewrite node_weight_last. cbn [expect bind]. unfold node_update. rewrite node_weight_last. cbn [bind nodes edges].
  unfold node_count. cbn [nodes]. rewrite Nnat.Nat2N.id, list_upd_last. destruct k as [md [k0 k1 k2 k3]]. reflexivity.
Qed.
Lemma ac_note_full : forall bs k, bs_count bs = IX_END -> ac_note_positions bs k = Panic PCapacity.
Proof.
  intros bs k H. unfold ac_note_positions, make_position, ngh_add_vertex, add_node.
  change (node_count (inner (nb_graph (bs_builder bs)))) with (bs_count bs). rewrite H. reflexivity.
Qed.
Definition note_result (bs : build_state) (ks : list ascii_class) : outcome build_state :=
  if bs_count bs + N.of_nat (List.length ks) <=? IX_END then Ret (bs_nodes bs (map vertex_of ks)) else Panic PCapacity.
Lemma note_list_ok : forall {A} (note : build_state -> A -> outcome build_state) (lv : A -> list ascii_class) l,
  Forall (fun x => forall bs, bs_count bs <= IX_END -> note bs x = note_result bs (lv x)) l ->
  forall bs, bs_count bs <= IX_END -> note_list note bs l = note_result bs (flat_map lv l).
Proof.
  intros A note lv l F. induction F as [|x l Hx Hl IH]; intros bs H; cbn [note_list flat_map].
  - unfold note_result. cbn [List.length map]. rewrite bs_nodes_nil. replace (bs_count bs + N.of_nat 0 <=? IX_END) with true by lia. reflexivity.
  - rewrite Hx by exact H. unfold note_result at 1. destruct (N.leb_spec (bs_count bs + N.of_nat (List.length (lv x))) IX_END) as [L|L]; cbn [bind].
    + rewrite IH by (rewrite bs_nodes_count, map_length; exact L). unfold note_result. rewrite bs_nodes_count, map_length, app_length, bs_nodes_app, map_app.
      replace (bs_count bs + N.of_nat (List.length (lv x)) + N.of_nat (List.length (flat_map lv l)))
        with (bs_count bs + N.of_nat (List.length (lv x) + List.length (flat_map lv l))) by lia. reflexivity.
    + unfold note_result. rewrite app_length. replace (bs_count bs + N.of_nat (List.length (lv x) + List.length (flat_map lv l)) <=? IX_END) with false by lia. reflexivity.
Qed.
Lemma note_positions_ok : forall c bs, bs_count bs <= IX_END -> note_positions bs c = note_result bs (leaves c).
Proof.
  apply (component_ind' (fun c => forall bs, bs_count bs <= IX_END -> note_positions bs c = note_result bs (leaves c))
    (fun s => forall bs, bs_count bs <= IX_END -> seqn_note_positions bs s = note_result bs (leaves (CSequence s)))).
  - intros bs F b H. cbn [note_positions leaves]. apply note_list_ok; [|exact H]. apply Forall_forall. intros s I. rewrite Forall_forall in F.
    intros b' H'. rewrite (F s I b' H'). destruct s. reflexivity.
  - intros k b H. cbn [note_positions leaves]. unfold note_result. cbn [List.length map].
    destruct (N.eq_dec (bs_count b) IX_END) as [E|E].
    + rewrite ac_note_full by exact E. replace (bs_count b + N.of_nat 1 <=? IX_END) with false by lia. reflexivity.
    + rewrite ac_note_ok by lia. replace (bs_count b + N.of_nat 1 <=? IX_END) with true by lia. reflexivity.
  - intros s H b Hb. cbn [note_positions]. apply H. exact Hb.
  - intros ch alt ci cn F b H. cbn [seqn_note_positions leaves]. apply note_list_ok; [exact F|exact H].
Qed.

(** ** The initial state *)
Definition all_class : vertex_props := VertexProps (cr_set_all cr_default) [] 0.
Definition holder_with (vs : list vertex_props) : ng_holder :=
  NgHolder (Graph ([all_class; all_class; vertex_default; vertex_default] ++ vs) [(0, 1); (1, 1); (2, 3)]) 0 1 2 3.
Lemma make_builder_ok : forall ei, make_nfa_builder ei = Ret (NfaBuilder (holder_with []) ei).
Proof. intro ei. vm_compute. reflexivity. Qed.
Definition initial (ei : expression_info) : build_state :=
  BuildState 0 1 2 3 (NfaBuilder (holder_with []) ei) [(0, [PositionInfo 1 0]); (1, [PositionInfo 1 0])].
Lemma make_state_ok : forall p ei, make_glushkov_build_state p (NfaBuilder (holder_with []) ei) = Ret (initial ei).
Proof. intros [[] []] ei; vm_compute; reflexivity. Qed.
Lemma build_graph_ok : forall p ei c, build_graph p (ParsedExpression ei c) =
  if 4 + N.of_nat (List.length (leaves c)) <=? IX_END then Ret (ei, holder_with (map vertex_of (leaves c))) else Panic PCapacity.
Proof.
  intros p ei c. unfold build_graph. cbn [pe_expr pe_component]. rewrite make_builder_ok. cbn [bind]. rewrite make_state_ok. cbn [bind].
  rewrite note_positions_ok by (vm_compute; discriminate). unfold note_result. change (bs_count (initial ei)) with 4.
  destruct (4 + N.of_nat (List.length (leaves c)) <=? IX_END); reflexivity.
Qed.

(** ** Leaves of parsed trees *)
Lemma leaves_sequence : forall ch alt ci cn, leaves (CSequence (Seqn ch alt ci cn)) = flat_map leaves ch.
Proof. reflexivity. Qed.
Lemma plain_text_app : forall a b, plain_text (a ++ b) = plain_text a ++ plain_text b.
Proof. intros. apply filter_app. Qed.
Lemma tree_seq_leaves : forall nc b, (forall a, In a b -> forall n, leaves (fst (tree_atom nc n a)) = map (class_of nc) (plain_text (text_atom a))) ->
  forall n, flat_map leaves (fst (tree_seq nc n b)) = map (class_of nc) (plain_text (text_seq b)).
Proof.
  intros nc b; induction b as [|a b IH]; intros H n; [reflexivity|]. rewrite text_seq_cons, plain_text_app, map_app.
  unfold tree_seq. cbn [mapacc]. pose proof (H a (or_introl eq_refl) n) as Ha. destruct (tree_atom nc n a) as [x n1].
  specialize (IH (fun y J => H y (or_intror J)) n1). unfold tree_seq in IH. destruct (mapacc (tree_atom nc) n1 b) as [l n2]. cbn [fst flat_map] in *.
  rewrite Ha, IH. reflexivity.
Qed.
Lemma tree_branches_leaves : forall nc e, (forall b a, In b e -> In a b -> forall n, leaves (fst (tree_atom nc n a)) = map (class_of nc) (plain_text (text_atom a))) ->
  forall n, flat_map (flat_map leaves) (fst (tree_branches nc n e)) = map (class_of nc) (plain_text (text e)).
Proof.
  intros nc e; induction e as [|b e IH]; intros H n; [reflexivity|].
  unfold tree_branches. cbn [mapacc]. pose proof (tree_seq_leaves nc b (fun a I => H b a (or_introl eq_refl) I) n) as Hb.
  destruct (tree_seq nc n b) as [l n1]. specialize (IH (fun b0 a K L => H b0 a (or_intror K) L) n1). unfold tree_branches in IH.
  destruct e as [|b' e].
  - cbn [mapacc fst flat_map] in *. rewrite app_nil_r, text_one. exact Hb.
  - destruct (mapacc (tree_seq nc) n1 (b' :: e)) as [ls n2]. cbn [fst flat_map] in *. rewrite text_cons, plain_text_app, map_app, Hb, IH. reflexivity.
Qed.
Lemma seq_of_leaves : forall ci l, leaves (CSequence (seq_of ci l)) = flat_map (flat_map leaves) l.
Proof.
  intros ci l. assert (X : leaves (CSequence (Seqn [CAlternation (map branch l)] None ci None)) = flat_map (flat_map leaves) l).
  { cbn [leaves flat_map]. rewrite app_nil_r. rewrite flat_map_concat_map, map_map, <- flat_map_concat_map. reflexivity. }
  destruct l as [|b [|b' l]]; try exact X. cbn. rewrite app_nil_r. reflexivity.
Qed.
Lemma tree_atom_leaves : forall nc a, wf_atom a -> forall n, leaves (fst (tree_atom nc n a)) = map (class_of nc) (plain_text (text_atom a)).
Proof.
  intro nc. induction a as [c|bs IH] using atom_ind'; intros W n; inversion W as [? (P0 & P1 & P2)|? Ne Wb]; subst.
  - cbn [tree_atom fst leaves text_atom plain_text filter]. replace (c =? 40) with false by lia. replace (c =? 41) with false by lia. replace (c =? 124) with false by lia. reflexivity.
  - rewrite tree_atom_grp. cbn [fst]. rewrite seq_of_leaves, tree_branches_leaves.
    + rewrite text_grp. unfold plain_text. cbn [filter]. change (negb ((40 =? 40) || (40 =? 41) || (40 =? 124))) with false. cbv iota. rewrite filter_app. cbn [filter].
      change (negb ((41 =? 40) || (41 =? 41) || (41 =? 124))) with false. cbv iota. rewrite app_nil_r. reflexivity.
    + intros b a Ib Ia. rewrite Forall_forall in IH. specialize (IH b Ib). rewrite Forall_forall in IH. apply IH; [exact Ia|eapply Wb; eassumption].
Qed.
Lemma tree_leaves : forall nc e, wf_expr e -> leaves (tree nc e) = map (class_of nc) (plain_text (text e)).
Proof.
  intros nc e [Ne W]. unfold tree. rewrite seq_of_leaves. apply tree_branches_leaves. intros b a Ib Ia. apply tree_atom_leaves. eapply W; eassumption.
Qed.

(** ** Sets *)
Lemma set_extend_In : forall {A} (eqb : A -> A -> bool) (ok : forall a b, eqb a b = true <-> a = b) xs s y,
  In y (set_extend eqb s xs) <-> In y s \/ In y xs.
Proof.
  intros A eqb ok xs; induction xs as [|x xs IH]; intros s y; cbn [set_extend fold_left].
  - cbn. intuition.
  - fold (set_extend eqb (set_insert eqb x s) xs). rewrite IH, (set_insert_In eqb ok). cbn. intuition.
Qed.
Lemma set_extend_NoDup : forall {A} (eqb : A -> A -> bool) (ok : forall a b, eqb a b = true <-> a = b) xs s, NoDup s -> NoDup (set_extend eqb s xs).
Proof.
  intros A eqb ok xs; induction xs as [|x xs IH]; intros s H; [exact H|]. cbn [set_extend fold_left]. fold (set_extend eqb (set_insert eqb x s) xs).
  apply IH. apply set_insert_NoDup; assumption.
Qed.
Lemma N_eqb_ok : forall a b, (a =? b) = true <-> a = b.
Proof. exact N.eqb_eq. Qed.
Lemma neighbors_in_In : forall {A} (g : graph A) v u, In u (neighbors_in g v) <-> In (u, v) (edges g).
Proof.
  intros A g v u. unfold neighbors_in. rewrite in_map_iff. split.
  - intros ([a b] & <- & I). apply filter_In in I. destruct I as [I E]. apply in_rev in I. cbn in *. apply N.eqb_eq in E. subst. exact I.
  - intro I. exists (u, v). split; [reflexivity|]. apply filter_In. split; [apply in_rev; rewrite rev_involutive; exact I|]. cbn. apply N.eqb_refl.
Qed.
Lemma node_index_ok : forall {A} (g : graph A) v x, nth_error (nodes g) (N.to_nat v) = Some x -> node_index g v = Ret x.
Proof.
  intros A g v x E. unfold node_index, node_weight. assert (H : (N.to_nat v < List.length (nodes g))%nat) by (apply nth_error_Some; congruence).
  unfold node_count. replace (v <? N.of_nat (List.length (nodes g))) with true by lia. rewrite E. reflexivity.
Qed.
Lemma union_reports_ok : forall g vs acc, NoDup acc -> (forall v, In v vs -> v < node_count g) ->
  exists rs, union_reports g vs acc = Ret rs /\ NoDup rs /\
  forall r, In r rs <-> In r acc \/ exists v x, In v vs /\ nth_error (nodes g) (N.to_nat v) = Some x /\ In r (reports x).
Proof.
  intros g vs; induction vs as [|v vs IH]; intros acc Nd H; cbn [union_reports].
  - exists acc. conjs; [reflexivity|exact Nd|]. intro r. split; [auto|]. intros [I|(v & x & [] & _)]. exact I.
  - assert (Hv : v < node_count g) by (apply H; left; reflexivity). unfold node_count in Hv.
    destruct (nth_error (nodes g) (N.to_nat v)) as [x|] eqn:E; [|apply nth_error_None in E; lia].
    rewrite (node_index_ok g v x E). cbn [bind]. destruct (IH (set_extend N.eqb acc (reports x))) as (rs & Er & Nr & M).
    + apply set_extend_NoDup; [exact N_eqb_ok|exact Nd].
    + intros u I. apply H. right. exact I.
    + exists rs. conjs; [exact Er|exact Nr|]. intro r. rewrite M, (set_extend_In N.eqb N_eqb_ok). split.
      * intros [[I|I]|(u & y & I & Eu & J)]; [auto| |].
        -- right. exists v, x. conjs; [left; reflexivity|exact E|exact I].
        -- right. exists u, y. conjs; [right; exact I|exact Eu|exact J].
      * intros [I|(u & y & [<-|I] & Eu & J)]; [auto| |].
        -- left. right. congruence.
        -- right. exists u, y. auto.
Qed.

(** ** Filters *)
Lemma contains_bit : forall f k, contains f (2 ^ k) = N.testbit f k.
Proof.
  intros f k. unfold contains. destruct (N.testbit f k) eqn:T.
  - apply N.eqb_eq. apply N.bits_inj. intro i. rewrite N.land_spec, N.pow2_bits_eqb. destruct (N.eqb_spec k i) as [<-|]; [rewrite T; reflexivity|apply andb_false_r].
  - apply N.eqb_neq. intro E. assert (X : N.testbit (N.land f (2 ^ k)) k = true) by (rewrite E; apply N.pow2_bits_true). rewrite N.land_spec, T in X. discriminate.
Qed.
Lemma contains_two : forall f a b, contains f (N.lor a b) = contains f a && contains f b.
Proof.
  intros f a b. unfold contains. apply eq_true_iff_eq. rewrite andb_true_iff, !N.eqb_eq. split.
  - intro E. assert (X : forall i, N.testbit f i && (N.testbit a i || N.testbit b i) = N.testbit a i || N.testbit b i).
    { intro i. rewrite <- N.lor_spec, <- N.land_spec, E. reflexivity. }
    split; apply N.bits_inj; intro i; specialize (X i); rewrite N.land_spec; destruct (N.testbit f i), (N.testbit a i), (N.testbit b i); cbn in *; congruence.
  - intros [A B]. rewrite N.land_lor_distr_r, A, B. reflexivity.
Qed.
Lemma pi_eqb_ok : forall a b, pi_eqb a b = true <-> a = b.
Proof.
  intros [a b] [c d]. unfold pi_eqb. cbn. split; [|intros [= -> ->]; rewrite !N.eqb_refl; reflexivity]. intro H. apply andb_true_iff in H. destruct H as [H1 H2].
  apply N.eqb_eq in H1, H2. congruence.
Qed.
Definition passes_b (bs : build_state) (fl : N) (l f : position_info) : bool :=
  (if pi_pos l =? bs_start_ds bs then negb (contains (pi_flags f) NOFLOAT) && negb (contains (pi_flags l) NOFLOAT)
   else if pi_pos l =? bs_start bs then (negb (pi_pos f =? pos_epsilon) || (pi_flags f =? 0)) && negb (contains (pi_flags f) (N.lor MUST_FLOAT NOFLOAT))
   else true) && (if contains fl MULTILINE_START then negb (pi_pos f =? bs_accept_eod bs) else true).
Lemma filter_filter : forall {A} (f g : A -> bool) l, filter f (filter g l) = filter (fun x => g x && f x) l.
Proof.
  intros A f g l. induction l as [|x l IH]; [reflexivity|]. cbn [filter]. destruct (g x); cbn [andb filter]; [|exact IH]. destruct (f x); rewrite IH; reflexivity.
Qed.
Lemma filter_none : forall {A} (f : A -> bool) l, (forall x, f x = false) -> filter f l = [].
Proof. intros A f l H. induction l as [|x l IH]; [reflexivity|]. cbn. rewrite H. exact IH. Qed.
Lemma filter_true : forall {A} (l : list A), filter (fun _ => true) l = l.
Proof. intros A l. induction l as [|x l IH]; [reflexivity|]. cbn. rewrite IH. reflexivity. Qed.
Lemma filter_edges_ok : forall bs l tolist x, nth_error (vertices bs) (N.to_nat (pi_pos l)) = Some x ->
  filter_edges bs l tolist = Ret (filter (passes_b bs (assert_flags x) l) tolist).
Proof.
  intros bs l tolist x E. unfold filter_edges, get_assert_flag, ngh_index. pose proof (node_index_ok _ _ _ E) as Ni. unfold node_index in Ni.
  destruct (node_weight (inner (nb_graph (bs_builder bs))) (pi_pos l)) as [y|] eqn:Ew; [|discriminate]. injection Ni as ->.
  cbn [expect bind]. f_equal. unfold passes_b.
  destruct (pi_pos l =? bs_start_ds bs).
  - destruct (contains (pi_flags l) NOFLOAT); cbn [negb].
    + rewrite filter_none with (f := fun e => _ && _) by (intro f; cbv beta; rewrite andb_false_r; reflexivity). destruct (contains (assert_flags x) MULTILINE_START); reflexivity.
    + destruct (contains (assert_flags x) MULTILINE_START).
      * rewrite filter_filter. apply filter_ext. intro f. rewrite andb_true_r. reflexivity.
      * apply filter_ext. intro f. rewrite !andb_true_r. reflexivity.
  - destruct (pi_pos l =? bs_start bs).
    + destruct (contains (assert_flags x) MULTILINE_START).
      * rewrite !filter_filter. apply filter_ext. intro f. rewrite ?andb_assoc. reflexivity.
      * rewrite filter_filter. apply filter_ext. intro f. rewrite andb_true_r. reflexivity.
    + destruct (contains (assert_flags x) MULTILINE_START).
      * apply filter_ext. intro f. reflexivity.
      * symmetry. apply filter_true.
Qed.
Lemma passes_ok : forall bs l f x, nth_error (vertices bs) (N.to_nat (pi_pos l)) = Some x ->
  (passes_b bs (assert_flags x) l f = true <-> passes bs l f).
Proof.
  intros bs l f x E. unfold passes_b, passes, float_filter, start_filter, no_float, must_float, multiline_start.
  rewrite contains_two. change NOFLOAT with (2 ^ 0). change MUST_FLOAT with (2 ^ 4). change MULTILINE_START with (2 ^ 8). rewrite !contains_bit.
  change pos_epsilon with epsilon.
  assert (M : (forall y, nth_error (vertices bs) (N.to_nat (pi_pos l)) = Some y -> N.testbit (assert_flags y) 8 = true -> pi_pos f <> bs_accept_eod bs) <->
    (if N.testbit (assert_flags x) 8 then negb (pi_pos f =? bs_accept_eod bs) else true) = true).
  { split.
    - intro H. destruct (N.testbit (assert_flags x) 8) eqn:T; [|reflexivity]. specialize (H x E T). destruct (N.eqb_spec (pi_pos f) (bs_accept_eod bs)); [contradiction|reflexivity].
    - intros H y Ey T. assert (y = x) by congruence. subst y. rewrite T in H. destruct (N.eqb_spec (pi_pos f) (bs_accept_eod bs)); [discriminate|assumption]. }
  rewrite M. rewrite andb_true_iff. destruct (if N.testbit (assert_flags x) 8 then _ else _); [|intuition discriminate].
  destruct (N.eqb_spec (pi_pos l) (bs_start_ds bs)) as [E1|E1].
  - destruct (N.testbit (pi_flags f) 0), (N.testbit (pi_flags l) 0); cbn [negb andb]; intuition congruence.
  - destruct (N.eqb_spec (pi_pos l) (bs_start bs)) as [E2|E2]; [|intuition congruence].
    destruct (N.eqb_spec (pi_pos f) epsilon) as [E3|E3], (N.eqb_spec (pi_flags f) 0) as [E4|E4], (N.testbit (pi_flags f) 4), (N.testbit (pi_flags f) 0); cbn [negb andb orb]; intuition congruence.
Qed.

(** ** Connecting *)
Lemma position_of_none : forall a l, position_of a l = None <-> forall e, In e l -> pi_pos e <> a.
Proof.
  intros a l; induction l as [|x l IH]; cbn [position_of]; [split; [intros _ e []|reflexivity]|].
  destruct (N.eqb_spec (pi_pos x) a) as [E|E].
  - split; [discriminate|]. intro H. exfalso. apply (H x); [left; reflexivity|exact E].
  - destruct (position_of a l) eqn:P; cbn [option_map].
    + split; [discriminate|]. intro H. assert (Z : Some n = None) by (apply IH; intros e I; apply H; right; exact I). discriminate Z.
    + split; [|reflexivity]. intros _ e [<-|I]; [exact E|]. apply (proj1 IH eq_refl). exact I.
Qed.
Lemma position_of_some : forall a l i, position_of a l = Some i -> exists u e v, l = u ++ e :: v /\ List.length u = i /\ pi_pos e = a /\ forall x, In x u -> pi_pos x <> a.
Proof.
  intros a l; induction l as [|x l IH]; intros i H; cbn [position_of] in H; [discriminate|]. destruct (N.eqb_spec (pi_pos x) a) as [E|E].
  - injection H as <-. exists [], x, l. conjs; try reflexivity; [exact E|intros y []].
  - destruct (position_of a l) as [j|]; [|discriminate]. injection H as <-. destruct (IH j eq_refl) as (u & e & v & -> & L & P & N).
    exists (x :: u), e, v. conjs; [reflexivity|cbn; lia|exact P|]. intros y [<-|I]; [exact E|apply N; exact I].
Qed.
Lemma list_upd_mid : forall {A} (u v : list A) x f, list_upd (u ++ x :: v) (List.length u) f = u ++ f x :: v.
Proof. intros A u v x f. induction u as [|y u IH]; [reflexivity|]. cbn. rewrite IH. reflexivity. Qed.
Lemma succ_insert_In : forall m from xs v e,
  (exists s, In (v, s) (succ_insert m from xs) /\ In e s) <-> (exists s, In (v, s) m /\ In e s) \/ (v = from /\ In e xs).
Proof.
  intros m from xs v e. induction m as [|[k s] m IH]; cbn [succ_insert].
  - split.
    + intros (s & [E|[]] & I). injection E as <- <-. apply (set_extend_In pi_eqb pi_eqb_ok) in I. destruct I as [[]|I]. auto.
    + intros [(s & [] & _)|[-> I]]. eexists. split; [left; reflexivity|]. apply (set_extend_In pi_eqb pi_eqb_ok). auto.
  - destruct (N.eqb_spec from k) as [<-|E].
    + split.
      * intros (s' & [Z|J] & I).
        -- injection Z as <- <-. apply (set_extend_In pi_eqb pi_eqb_ok) in I. destruct I as [I|I]; [|auto]. left. exists s. split; [left; reflexivity|exact I].
        -- left. exists s'. split; [right; exact J|exact I].
      * intros [(s' & [Z|J] & I)|[-> I]].
        -- injection Z as -> ->. eexists. split; [left; reflexivity|]. apply (set_extend_In pi_eqb pi_eqb_ok). auto.
        -- exists s'. split; [right; exact J|exact I].
        -- eexists. split; [left; reflexivity|]. apply (set_extend_In pi_eqb pi_eqb_ok). auto.
    + split.
      * intros (s' & [Z|J] & I).
        -- left. exists s'. split; [left; exact Z|exact I].
        -- destruct (proj1 IH (ex_intro _ s' (conj J I))) as [(s2 & J2 & I2)|X]; [|auto]. left. exists s2. split; [right; exact J2|exact I2].
      * intros [(s' & [Z|J] & I)|X].
        -- exists s'. split; [left; exact Z|exact I].
        -- destruct (proj2 IH (or_introl (ex_intro _ s' (conj J I)))) as (s2 & J2 & I2). exists s2. split; [right; exact J2|exact I2].
        -- destruct (proj2 IH (or_intror X)) as (s2 & J2 & I2). exists s2. split; [right; exact J2|exact I2].
Qed.

Lemma filter_split : forall {A} (f : A -> bool) l u x v, filter f l = u ++ x :: v -> exists a b, l = a ++ x :: b /\ filter f a = u /\ filter f b = v /\ f x = true.
Proof.
  intros A f l; induction l as [|y l IH]; intros u x v E; cbn [filter] in E.
  - destruct u; discriminate.
  - destruct (f y) eqn:Fy.
    + destruct u as [|z u]; cbn [app] in E; injection E as -> E.
      * exists [], l. auto.
      * destruct (IH u x v E) as (a & b & -> & H1 & H2 & H3). exists (z :: a), b. conjs; try assumption; [reflexivity|]. cbn. rewrite Fy, H1. reflexivity.
    + destruct (IH u x v E) as (a & b & -> & H1 & H2 & H3). exists (y :: a), b. conjs; try assumption; [reflexivity|]. cbn. rewrite Fy. exact H1.
Qed.
Lemma connect_successors_cases : forall p bs l firsts,
  pi_pos l < N.of_nat (List.length (vertices bs)) -> (debug_assertions p = true -> pi_pos l <> epsilon) ->
  (reaches_accept bs firsts l /\ N.of_nat (List.length (vertices bs)) = IX_END /\ connect_successors p bs l firsts = Panic PCapacity) \/
  (~ (reaches_accept bs firsts l /\ N.of_nat (List.length (vertices bs)) = IX_END) /\
   exists bs', connect_successors p bs l firsts = Ret bs' /\ connected bs l firsts bs').
Proof.
  intros p bs l firsts Hl He. unfold connect_successors.
  replace (rs_debug_assert p (negb (pi_pos l =? pos_epsilon))) with (Ret tt).
  2:{ unfold rs_debug_assert. destruct (debug_assertions p); [|reflexivity]. change pos_epsilon with epsilon. specialize (He eq_refl). replace (pi_pos l =? epsilon) with false by lia. reflexivity. }
  cbn [bind]. destruct (nth_error (vertices bs) (N.to_nat (pi_pos l))) as [x|] eqn:E; [|apply nth_error_None in E; lia].
  rewrite (filter_edges_ok bs l firsts x E). cbn [bind]. assert (P : forall f, passes_b bs (assert_flags x) l f = true <-> passes bs l f) by (intro f; apply passes_ok; exact E).
  destruct (position_of (bs_accept bs) (filter (passes_b bs (assert_flags x) l) firsts)) as [i|] eqn:Po.
  - apply position_of_some in Po. destruct Po as (u & f & v & Ef & Li & Pf & Nu). pose proof (filter_split _ _ _ _ _ Ef) as (a & b & Efs & Fa & Fb & Hf).
    assert (Ra : reaches_accept bs firsts l) by (exists f; conjs; [rewrite Efs; apply in_or_app; right; left; reflexivity|apply P; exact Hf|exact Pf]).
    destruct (N.eq_dec (N.of_nat (List.length (vertices bs))) IX_END) as [Hc|Hc].
    { left. conjs; [exact Ra|exact Hc|]. unfold make_position, ngh_add_vertex, add_node. change (node_count (inner (nb_graph (bs_builder bs)))) with (N.of_nat (List.length (vertices bs))).
      rewrite Hc, N.eqb_refl. reflexivity. }
    right. split; [tauto|].
    rewrite make_position_new by exact Hc. cbn [bind]. eexists. split; [reflexivity|]. eapply (conn_accept bs l firsts _ a f b).
    + unfold same_frame. cbn. auto 12.
    + reflexivity.
    + exact Efs.
    + apply P. exact Hf.
    + exact Pf.
    + intros g I Pg. apply Nu. rewrite <- Fa. apply filter_In. split; [exact I|apply P; exact Pg].
    + intros w e. unfold recorded at 1. cbn [bs_successors]. rewrite succ_insert_In. fold (recorded bs w e). rewrite Ef, <- Li, list_upd_mid.
      rewrite in_app_iff. cbn [In]. rewrite <- Fa, <- Fb, !filter_In, !P. unfold pi_from. change (node_count (inner (nb_graph (bs_builder bs)))) with (N.of_nat (List.length (vertices bs))).
      intuition.
  - right. split.
    { intros ((f & I & Pf & Pa) & _). rewrite position_of_none in Po. apply (Po f); [|exact Pa]. apply filter_In. split; [exact I|apply P; exact Pf]. }
    cbn [bind]. eexists. split; [reflexivity|]. apply conn_plain.
    + unfold same_frame. cbn. auto 12.
    + reflexivity.
    + intros f I Pf. rewrite position_of_none in Po. apply Po. apply filter_In. split; [exact I|apply P; exact Pf].
    + intros w e. unfold recorded at 1. cbn [bs_successors]. rewrite succ_insert_In. fold (recorded bs w e). rewrite filter_In, P. reflexivity.
Qed.
Lemma connect_successors_ok : forall p bs l firsts,
  pi_pos l < N.of_nat (List.length (vertices bs)) -> (debug_assertions p = true -> pi_pos l <> epsilon) -> N.of_nat (List.length (vertices bs)) < IX_END ->
  exists bs', connect_successors p bs l firsts = Ret bs' /\ connected bs l firsts bs'.
Proof.
  intros p bs l firsts Hl He Hc. destruct (connect_successors_cases p bs l firsts Hl He) as [(_ & X & _)|(_ & X)]; [lia|exact X].
Qed.
Lemma passes_stable : forall bs bs' vs l f, same_frame bs bs' -> vertices bs' = vertices bs ++ vs ->
  pi_pos l < N.of_nat (List.length (vertices bs)) -> (passes bs' l f <-> passes bs l f).
Proof.
  intros bs bs' vs l f (S1 & S2 & S3 & S4 & _) V H. unfold passes. rewrite S1, S2, S4, V. rewrite nth_error_app1 by lia. reflexivity.
Qed.
Lemma same_frame_trans : forall a b c, same_frame a b -> same_frame b c -> same_frame a c.
Proof. unfold same_frame. intros a b c (A1 & A2 & A3 & A4 & A5 & A6 & A7 & A8 & A9 & A0) (B1 & B2 & B3 & B4 & B5 & B6 & B7 & B8 & B9 & B0). conjs; congruence. Qed.
Lemma same_frame_refl : forall a, same_frame a a.
Proof. unfold same_frame. intro a. conjs; reflexivity. Qed.
Lemma connect_regions_ok : forall p lasts bs firsts bs',
  (forall l, In l lasts -> pi_pos l < N.of_nat (List.length (vertices bs)) /\ (debug_assertions p = true -> pi_pos l <> epsilon)) ->
  connect_regions p bs lasts firsts = Ret bs' ->
  exists k, same_frame bs bs' /\ vertices bs' = vertices bs ++ repeat vertex_default k /\ (k <= List.length lasts)%nat /\
  (forall v e, recorded bs v e -> recorded bs' v e) /\
  (forall l f, In l lasts -> In f firsts -> passes bs l f -> pi_pos f <> bs_accept bs -> recorded bs' (pi_pos l) f) /\
  (forall l, In l lasts -> reaches_accept bs firsts l ->
     exists v, (N.of_nat (List.length (vertices bs)) <= v < N.of_nat (List.length (vertices bs'))) /\ recorded bs' (pi_pos l) (PositionInfo v 0)) /\
  (forall q e, recorded bs' q e -> recorded bs q e \/ exists l, In l lasts /\ q = pi_pos l /\
     ((In e firsts /\ passes bs l e) \/
      (reaches_accept bs firsts l /\ pi_flags e = 0 /\ N.of_nat (List.length (vertices bs)) <= pi_pos e < N.of_nat (List.length (vertices bs'))))).
Proof.
  intros p lasts; induction lasts as [|l lasts IH]; intros bs firsts b2 Hl E2; cbn [connect_regions] in E2.
  - injection E2 as <-. exists O. conjs; try (intros; contradiction); auto; [apply same_frame_refl|cbn; rewrite app_nil_r; reflexivity].
  - destruct (Hl l (or_introl eq_refl)) as [H1 H2].
    destruct (connect_successors_cases p bs l firsts H1 H2) as [(_ & _ & E1)|(_ & b1 & E1 & C)]; rewrite E1 in E2; cbn [bind] in E2; [discriminate E2|].
    assert (X : exists vs, vertices b1 = vertices bs ++ vs /\ same_frame bs b1 /\ (vs = [] \/ vs = [vertex_default])).
    { destruct C as [b1 F V _ _|b1 a f b F V _ _ _ _ _]; [exists []; rewrite app_nil_r|exists [vertex_default]]; auto. }
    destruct X as (vs & V1 & F1 & Evs). assert (L1 : N.of_nat (List.length (vertices b1)) = N.of_nat (List.length (vertices bs)) + N.of_nat (List.length vs)) by (rewrite V1, app_length; lia).
    assert (Lvs : (List.length vs <= 1)%nat) by (destruct Evs as [-> | ->]; cbn; lia).
    destruct (IH b1 firsts b2) as (k & F2 & V2 & Hk & R1 & R2 & R3 & R4).
    { intros m I. destruct (Hl m (or_intror I)) as [Hm1 Hm2]. split; [lia|exact Hm2]. }
    { exact E2. }
    assert (St : forall m f, In m lasts -> (passes b1 m f <-> passes bs m f)).
    { intros m f I. eapply passes_stable; [exact F1|exact V1|]. apply (Hl m (or_intror I)). }
    assert (Ac : bs_accept b1 = bs_accept bs) by apply F1.
    assert (Sr : forall m, In m lasts -> (reaches_accept b1 firsts m <-> reaches_accept bs firsts m)).
    { intros m I. unfold reaches_accept. rewrite Ac. split; intros (f & J & P & Q); exists f; (conjs; [exact J| |exact Q]); apply St; assumption. }
    assert (L2 : N.of_nat (List.length (vertices b2)) = N.of_nat (List.length (vertices b1)) + N.of_nat k) by (rewrite V2, app_length, repeat_length; lia).
    exists (List.length vs + k)%nat. conjs.
    + eapply same_frame_trans; eassumption.
    + rewrite V2, V1, <- app_assoc. f_equal. rewrite repeat_app. f_equal. destruct Evs as [-> | ->]; reflexivity.
    + cbn [List.length]. lia.
    + intros v e R. apply R1. destruct C as [b1 _ _ _ M|b1 a f b _ _ _ _ _ _ M]; apply M; auto.
    + intros m f [<-|I] J P Na.
      * apply R1. destruct C as [b1 _ _ _ M|b1 a g b _ _ Ef _ Pg _ M]; apply M; right; (split; [reflexivity|]).
        -- auto.
        -- right. split; [|exact P]. rewrite Ef in J. apply in_app_or in J. destruct J as [J|[<-|J]]; auto. contradiction.
      * apply R2; try assumption; [apply St; assumption|congruence].
    + intros m [<-|I] Ra.
      * destruct C as [b1 _ _ N M|b1 a g b _ V _ _ _ _ M].
        -- destruct Ra as (f & J & P & Q). exfalso. apply (N f J P Q).
        -- exists (N.of_nat (List.length (vertices bs))). rewrite V in *. rewrite app_length in *. cbn [List.length] in *. split; [lia|]. apply R1. apply M. right. auto.
      * destruct (R3 m I) as (v & Hv & Rv); [apply Sr; assumption|]. exists v. split; [lia|exact Rv].
    + intros q e R. destruct (R4 q e R) as [R'|(m & I & -> & H)].
      * destruct C as [b1 _ _ _ M|b1 a g b _ V Ef Pg Qg _ M]; apply M in R'; destruct R' as [R'|(-> & H)]; auto.
        -- right. exists l. conjs; [left; reflexivity|reflexivity|]. left. exact H.
        -- right. exists l. conjs; [left; reflexivity|reflexivity|]. destruct H as [->|[I P]].
           ++ right. conjs; [exists g; conjs; try assumption; rewrite Ef; apply in_or_app; right; left; reflexivity|reflexivity| |]; cbn [pi_pos];
              rewrite V in *; rewrite app_length in *; cbn [List.length] in *; lia.
           ++ left. split; [|exact P]. rewrite Ef. apply in_or_app. cbn. tauto.
      * right. exists m. conjs; [right; exact I|reflexivity|]. destruct H as [[J P]|(Ra & Fl & Hv)].
        -- left. split; [exact J|apply St; assumption].
        -- right. conjs; [apply Sr; assumption|exact Fl|lia|lia].
Qed.
Lemma connected_size : forall bs l firsts bs', connected bs l firsts bs' ->
  same_frame bs bs' /\ exists vs, vertices bs' = vertices bs ++ vs /\
  ((reaches_accept bs firsts l /\ List.length vs = 1%nat) \/ (~ reaches_accept bs firsts l /\ List.length vs = O)).
Proof.
  intros bs l firsts bs' C. destruct C as [bs' F V N _|bs' a f b F V Ef Pf Qf _ _]; (split; [exact F|]).
  - exists []. rewrite app_nil_r. split; [exact V|]. right. split; [|reflexivity]. intros (f & I & P & Q). exact (N f I P Q).
  - eexists. split; [exact V|]. left. split; [|reflexivity]. exists f. conjs; [rewrite Ef; apply in_or_app; right; left; reflexivity|exact Pf|exact Qf].
Qed.
Lemma how_many_iff : forall A (P Q : A -> Prop) l n, (forall x, In x l -> (P x <-> Q x)) -> how_many P l n -> how_many Q l n.
Proof.
  intros A P Q l n H K. induction K as [|x l n Px K IH|x l n Px K IH]; [constructor|apply many_yes|apply many_no]; try (apply IH; intros y I; apply H; right; exact I).
  - apply H; [left; reflexivity|exact Px].
  - intro X. apply Px. apply H; [left; reflexivity|exact X].
Qed.
Lemma connect_regions_chain : forall p firsts lasts bs k, real_positions p bs lasts -> N.of_nat (List.length (vertices bs)) <= IX_END ->
  how_many (reaches_accept bs firsts) lasts k ->
  (N.of_nat (List.length (vertices bs)) + N.of_nat k <= IX_END /\ exists bs', connect_regions p bs lasts firsts = Ret bs' /\ chain firsts bs lasts bs') \/
  (IX_END < N.of_nat (List.length (vertices bs)) + N.of_nat k /\ connect_regions p bs lasts firsts = Panic PCapacity).
Proof.
  intros p firsts lasts; induction lasts as [|l lasts IH]; intros bs k Hl Hc Hk; cbn [connect_regions].
  - inversion Hk; subst. left. split; [cbn; lia|]. exists bs. split; [reflexivity|constructor].
  - destruct (Hl l (or_introl eq_refl)) as [H1 H2].
    destruct (connect_successors_cases p bs l firsts H1 H2) as [(Ra & X & E1)|(Nf & b1 & E1 & C)]; rewrite E1; cbn [bind].
    { right. split; [|reflexivity]. inversion Hk; subst; [lia|contradiction]. }
    destruct (connected_size _ _ _ _ C) as (F & vs & V & Cs).
    assert (L1 : List.length (vertices b1) = (List.length (vertices bs) + List.length vs)%nat) by (rewrite V, app_length; reflexivity).
    assert (Hk1 : exists k1, how_many (reaches_accept bs firsts) lasts k1 /\ (k = List.length vs + k1)%nat).
    { inversion Hk; subst; (eexists; split; [eassumption|]); destruct Cs as [[Ra Lv]|[Ra Lv]]; try contradiction; lia. }
    destruct Hk1 as (k1 & Hk1 & ->).
    assert (Le : N.of_nat (List.length (vertices b1)) <= IX_END).
    { rewrite L1. destruct Cs as [[Ra Lv]|[Ra Lv]]; [|lia]. assert (N.of_nat (List.length (vertices bs)) <> IX_END) by tauto. lia. }
    assert (St : forall m f, In m lasts -> (passes b1 m f <-> passes bs m f)).
    { intros m f I. eapply passes_stable; [exact F|exact V|]. apply (Hl m (or_intror I)). }
    destruct (IH b1 k1) as [(L & b2 & E2 & Ch)|(L & E2)].
    { intros m I. destruct (Hl m (or_intror I)) as [Hm1 Hm2]. split; [lia|exact Hm2]. }
    { exact Le. }
    { revert Hk1. apply how_many_iff. intros m I. unfold reaches_accept. destruct F as (_ & _ & -> & _).
      split; intros (f & J & P & Q); exists f; (conjs; [exact J| |exact Q]); apply St; assumption. }
    + left. split; [lia|]. exists b2. split; [exact E2|]. econstructor; eassumption.
    + right. split; [lia|exact E2].
Qed.
Lemma how_many_total : forall p bs firsts lasts, real_positions p bs lasts -> exists k, how_many (reaches_accept bs firsts) lasts k.
Proof.
  intros p bs firsts lasts; induction lasts as [|l lasts IH]; intro R; [exists O; constructor|].
  destruct IH as (k & K); [intros m I; apply R; right; exact I|].
  assert (D : reaches_accept bs firsts l \/ ~ reaches_accept bs firsts l).
  { destruct (R l (or_introl eq_refl)) as [H _]. destruct (nth_error (vertices bs) (N.to_nat (pi_pos l))) as [x|] eqn:E; [|apply nth_error_None in E; lia].
    destruct (existsb (fun f => passes_b bs (assert_flags x) l f && (pi_pos f =? bs_accept bs)) firsts) eqn:X; [left|right].
    - apply existsb_exists in X. destruct X as (f & I & Y). apply andb_true_iff in Y. destruct Y as [Y Z]. exists f. conjs; [exact I|apply (passes_ok _ _ _ _ E); exact Y|lia].
    - intros (f & I & P & Q). assert (existsb (fun f => passes_b bs (assert_flags x) l f && (pi_pos f =? bs_accept bs)) firsts = true); [|congruence].
      apply existsb_exists. exists f. split; [exact I|]. apply andb_true_iff. split; [apply (passes_ok _ _ _ _ E); exact P|lia]. }
  destruct D as [D|D]; [exists (S k); apply many_yes; assumption|exists k; apply many_no; assumption].
Qed.
