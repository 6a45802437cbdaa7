(** C87: petgraph's vectors behave as lists of nodes and edges. *)
From Verif Require Import Base ModelUtil ModelCharReach ModelLiteral ModelPetgraph ModelParser ModelNfa ModelSmallWrite ModelAdjacency SpecAdjacency ProofBase ProofAdjacency.
Local Open Scope N_scope.
Local Open Scope list_scope.

(** Which histories go through, and that the others panic. *)
Theorem C87_possible : forall A (h : list (change A)),
  ((exists g, l_apply_all l_new h = Ret g) <-> possible h) /\
  (~ possible h -> l_apply_all l_new h = Panic PCapacity \/ l_apply_all l_new h = Panic PIndex).
Proof.
  intros A h. pose proof (made_all h [] l_new (made_new A)) as M. destruct (l_apply_all l_new h) as [g|w|].
  - destruct M as [P _]. split; [split; [intros _; exact P|intros _; exists g; reflexivity]|]. intro N. exfalso. apply N. exact P.
  - destruct M as [(a & c & b & -> & N) K]. split; [split; [intros (g & E); discriminate E|]|].
    + intro P. exfalso. apply N, (P a c b eq_refl).
    + intros _. destruct K as [->| ->]; auto.
  - contradiction.
Qed.
(** What is in the graph afterwards: nodes with their weights, and neighbours and edges as
    the edges of the history say, the newest first. *)
Theorem C87_contents : forall A (h : list (change A)) g, l_apply_all l_new h = Ret g ->
  l_count g = N.of_nat (nodes_of h) /\
  (forall v, l_weight g (N.of_nat v) = weight_of (rev h) v) /\
  (forall v, yields g (walk_new g true v) (successors h v)) /\
  (forall v, yields g (walk_new g false v) (predecessors h v)).
Proof.
  intros A h g E. pose proof (made_all h [] l_new (made_new A)) as M. rewrite E in M. destruct M as [_ [L Ed C W]]. cbn [app] in *. conjs.
  - unfold l_count. rewrite C. reflexivity.
  - intro v. rewrite <- W. unfold l_weight. rewrite node_at_nth, Nat2N.id. reflexivity.
  - intro v. pose proof (walk_out_ok g v L) as Y. unfold neighbors_out in Y. rewrite plain_edges, Ed in Y. exact Y.
  - intro v. pose proof (walk_in_ok g v L) as Y. unfold neighbors_in in Y. rewrite plain_edges, Ed in Y. exact Y.
Qed.
Theorem C87_find_edge : forall A (h : list (change A)) g a b, l_apply_all l_new h = Ret g ->
  (l_find_edge g a b = Ret None /\ ~ In (a, b) (edges_of h)) \/ (exists k, l_find_edge g a b = Ret (Some k) /\ newest h a b k).
Proof.
  intros A h g a b E. pose proof (made_all h [] l_new (made_new A)) as M. rewrite E in M. destruct M as [_ [L Ed C W]]. cbn [app] in *. destruct (find_edge_some g a b L) as ([k|] & F & _).
  - right. exists k. split; [exact F|]. apply find_edge_newest in F; [|exact L]. rewrite Ed in F. exact F.
  - left. split; [exact F|]. apply find_edge_none in F; [|exact L]. rewrite Ed in F. exact F.
Qed.
(** The holder of an expression's graph: new, changed in any way, and asked. *)
Theorem C87_holder :
  (exists h0 lh, l_holder_new = Ret lh /\ l_apply_all l_new h0 = Ret (lh_inner lh) /\ ng_holder_new = Ret (plain_holder lh)) /\
  (forall h g s sd a e, l_apply_all l_new h = Ret g -> let lh := LHolder g s sd a e in
    l_all_reports lh = all_reports (plain_holder lh) /\ l_is_vacuous lh = Ret (is_vacuous (plain_holder lh)) /\
    ngh_add_vertex (plain_holder lh) = seen (fun r => (plain_holder (fst r), snd r)) (l_add_vertex lh) /\
    forall v, ngh_index (plain_holder lh) v = l_holder_index lh v /\ forall f, ngh_update (plain_holder lh) v f = seen plain_holder (l_holder_update lh v f)).
Proof.
  split.
  - exists [NewNode vertex_default; NewNode vertex_default; NewNode vertex_default; NewNode vertex_default; NewEdge 0 1; NewEdge 1 1; NewEdge 2 3; Change 0 vp_set_all; Change 1 vp_set_all]. eexists. split; [vm_compute; reflexivity|]. split; vm_compute; reflexivity.
  - intros h g s sd a e E lh. pose proof (linked_apply h l_new g (linked_new _) E) as L. conjs.
    + symmetry. apply all_reports_plain. exact L.
    + apply is_vacuous_plain. exact L.
    + unfold ngh_add_vertex, l_add_vertex. cbn [plain_holder inner]. rewrite add_node_plain. destruct (l_add_node (lh_inner lh) vertex_default) as [[g' v]|w|]; reflexivity.
    + intro v. unfold ngh_index, l_holder_index, ngh_update, l_holder_update. cbn [plain_holder inner]. rewrite weight_plain. split; [reflexivity|]. intro f. destruct (expect (l_weight (lh_inner lh) v)); cbn [bind seen]; try reflexivity. rewrite update_plain. destruct (l_update (lh_inner lh) v f); reflexivity.
Qed.
(** The trie of literals: any literals put in one after the other. *)
Theorem C87_trie : forall h, exists t0, l_trie_default = Ret t0 /\ plain_trie t0 = trie_default /\
  insert_all trie_default h = seen (fun x => (plain_trie (fst x), snd x)) (l_insert_all t0 h) /\
  forall t bs, l_insert_all t0 h = Ret (t, bs) -> l_trie_reports t = trie_all_reports (plain_trie t).
Proof.
  intro h. exists (LTrie (LGraph [LNode tp_default IX_END IX_END] []) 0). split; [reflexivity|]. split; [reflexivity|]. split.
  - change trie_default with (plain_trie (LTrie (LGraph [LNode tp_default IX_END IX_END] []) 0)). apply insert_all_plain.
    apply (linked_apply [NewNode tp_default] l_new); [apply linked_new|reflexivity].
  - intros t bs _. unfold l_trie_reports, trie_all_reports. cbn [plain_trie lt_inner plain nodes]. generalize (@nil N). induction (l_nodes (ltr_inner t)) as [|n l IH]; intro acc; [reflexivity|]. cbn [map fold_left]. apply IH.
Qed.

(** Three nodes, a loop, two edges between the same nodes. *)
Definition case_history : list (change N) :=
  [NewNode 10; NewNode 11; NewEdge 0 1; NewEdge 1 1; NewNode 12; NewEdge 2 1; NewEdge 0 2; NewEdge 0 1; Change 1 (fun x => x + 5)].
Example C87_case : possible case_history /\
  (exists g, l_apply_all l_new case_history = Ret g /\ l_weight g 1 = Some 16 /\ l_find_edge g 0 1 = Ret (Some 4) /\ l_find_edge g 1 0 = Ret None) /\
  successors case_history 0 = [1; 2; 1] /\ predecessors case_history 1 = [0; 2; 1; 0] /\ successors case_history 1 = [1] /\
  l_apply_all (@l_new N) [NewNode 1; NewEdge 0 1] = Panic PIndex /\
  (exists t0 t, l_trie_default = Ret t0 /\ l_insert_all t0 [(Literal (lit "ab") [false; false], 3); (Literal (lit "ac") [false; false], 4); (Literal (lit "ab") [false; false], 5)] = Ret (t, [true; true; true]) /\
     l_count (ltr_inner t) = 4 /\ l_trie_reports t = [3; 5; 4]).
Proof.
  split. { apply C87_possible. eexists. vm_compute. reflexivity. }
  split. { eexists. split; [vm_compute; reflexivity|]. split; [reflexivity|]. split; reflexivity. }
  repeat (split; [vm_compute; reflexivity|]). eexists _, _. split; [vm_compute; reflexivity|]. split; [vm_compute; reflexivity|]. split; reflexivity.
Qed.

Print Assumptions C87_possible.
Print Assumptions C87_contents.
Print Assumptions C87_find_edge.
Print Assumptions C87_holder.
Print Assumptions C87_trie.
