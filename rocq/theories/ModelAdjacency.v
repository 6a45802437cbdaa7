(** petgraph's [Graph] as it is stored: a vector of nodes and a vector of edges, each node
    with the first edge of its list of outgoing and of its list of incoming edges, each
    edge with the next one in both (petgraph 0.5, src/graph_impl/mod.rs), and the functions
    of the crate that use graphs on top of it. *)
From Verif Require Import Base ModelUtil ModelCharReach ModelLiteral ModelPetgraph ModelParser ModelNfa ModelSmallWrite.
Local Open Scope N_scope.
Local Open Scope list_scope.

(** petgraph [Node]: weight, [next[0]], [next[1]] (ng_holder.rs:24, smallwrite_build.rs:46) *)
Record lnode (A : Type) := LNode { ln_weight : A; ln_out : N; ln_in : N }.
Arguments LNode {A}.
Arguments ln_weight {A}.
Arguments ln_out {A}.
Arguments ln_in {A}.
(** petgraph [Edge]: [next[0]], [next[1]], [node[0]], [node[1]]; the weights of this crate
    have no fields (ng_holder.rs:20-21, smallwrite_build.rs:39) *)
Record ledge := LEdge { le_out : N; le_in : N; le_source : N; le_target : N }.
(** petgraph [Graph] (ng_holder.rs:24, smallwrite_build.rs:46) *)
Record lgraph (A : Type) := LGraph { l_nodes : list (lnode A); l_edges : list ledge }.
Arguments LGraph {A}.
Arguments l_nodes {A}.
Arguments l_edges {A}.

(** [Graph::new] (ng_holder.rs:34, smallwrite_build.rs:68) *)
Definition l_new {A} : lgraph A := LGraph [] [].
(** [Graph::node_count] (ng_holder.rs:65, smallwrite_build.rs:54,177) *)
Definition l_count {A} (g : lgraph A) : N := N.of_nat (List.length (l_nodes g)).
(** [nodes.get(ix)] (used by all of petgraph's functions below; ng_holder.rs:106,112) *)
Definition node_at {A} (g : lgraph A) (v : N) : option (lnode A) :=
  if v <? l_count g then nth_error (l_nodes g) (N.to_nat v) else None.
(** [edges.get(ix)]; [EdgeIndex::end()], a u32, is never an edge (used below; ng_holder.rs:72,78,90-95) *)
Definition edge_at {A} (g : lgraph A) (k : N) : option ledge :=
  if k <? N.of_nat (List.length (l_edges g)) then nth_error (l_edges g) (N.to_nat k) else None.
(** [Graph::add_node]: both lists of the new node are empty (ng_holder.rs:61,118,
    smallwrite_build.rs:69,169) *)
Definition l_add_node {A} (g : lgraph A) (x : A) : outcome (lgraph A * N) :=
  let ix := l_count g in
  if ix =? IX_END then Panic PCapacity
  else Ret (LGraph (l_nodes g ++ [LNode x IX_END IX_END]) (l_edges g), ix).
(** [Graph::add_edge]: the edge goes in front of both lists; one node is both ends or two
    are, [index_twice] tells (ng_holder.rs:43-45, smallwrite_build.rs:170) *)
Definition l_add_edge {A} (g : lgraph A) (a b : N) : outcome (lgraph A) :=
  let k := N.of_nat (List.length (l_edges g)) in
  if k =? IX_END then Panic PCapacity
  else if l_count g <=? N.max a b then Panic PIndex
  else
    match node_at g a, node_at g b with
    | Some an, Some bn =>
      if a =? b then
        Ret (LGraph (list_upd (l_nodes g) (N.to_nat a) (fun n => LNode (ln_weight n) k k))
                    (l_edges g ++ [LEdge (ln_out an) (ln_in an) a b]))
      else
        Ret (LGraph (list_upd (list_upd (l_nodes g) (N.to_nat a) (fun n => LNode (ln_weight n) k (ln_in n)))
                              (N.to_nat b) (fun n => LNode (ln_weight n) (ln_out n) k))
                    (l_edges g ++ [LEdge (ln_out an) (ln_in bn) a b]))
    | _, _ => Panic PIndex
    end.
(** [Graph::node_weight] (ng_holder.rs:106) *)
Definition l_weight {A} (g : lgraph A) (v : N) : option A := option_map ln_weight (node_at g v).
(** [graph[v]] (ng_holder.rs:74,80, smallwrite_build.rs:60,167) *)
Definition l_index {A} (g : lgraph A) (v : N) : outcome A :=
  match l_weight g v with Some x => Ret x | None => Panic PIndex end.
(** [graph[v] = f(graph[v])] (ng_holder.rs:47-48,112, smallwrite_build.rs:175) *)
Definition l_update {A} (g : lgraph A) (v : N) (f : A -> A) : outcome (lgraph A) :=
  match node_at g v with
  | Some _ => Ret (LGraph (list_upd (l_nodes g) (N.to_nat v) (fun n => LNode (f (ln_weight n)) (ln_out n) (ln_in n))) (l_edges g))
  | None => Panic PIndex
  end.
(** the iterator [Neighbors]: the node to leave out and the next edge of both lists
    (ng_holder.rs:72,78, smallwrite_build.rs:166) *)
Record walk := Walk { w_skip : N; w_out : N; w_in : N }.
(** [neighbors_directed]: only one list, nothing left out (ng_holder.rs:72,78,
    smallwrite_build.rs:166) *)
Definition walk_new {A} (g : lgraph A) (outgoing : bool) (v : N) : walk :=
  let '(o, i) := match node_at g v with Some n => (ln_out n, ln_in n) | None => (IX_END, IX_END) end in
  if outgoing then Walk IX_END o IX_END else Walk IX_END IX_END i.
(** the [while] loop of [Neighbors::next], on fuel (ng_holder.rs:72,78) *)
Fixpoint walk_in {A} (fuel : nat) (g : lgraph A) (skip i : N) : outcome (option (N * N)) :=
  match edge_at g i with
  | None => Ret None
  | Some e =>
    if le_source e =? skip then match fuel with O => Diverge | S f => walk_in f g skip (le_in e) end
    else Ret (Some (le_source e, le_in e))
  end.
(** [Neighbors::next] (ng_holder.rs:72,78, smallwrite_build.rs:166) *)
Definition walk_next {A} (g : lgraph A) (w : walk) : outcome (option (N * walk)) :=
  match edge_at g (w_out w) with
  | Some e => Ret (Some (le_target e, Walk (w_skip w) (le_out e) (w_in w)))
  | None =>
    let! o := walk_in (List.length (l_edges g)) g (w_skip w) (w_in w) in
    match o with
    | Some (v, i) => Ret (Some (v, Walk (w_skip w) (w_out w) i))
    | None => Ret None
    end
  end.
(** [Iterator::fold] over the neighbours, on fuel (ng_holder.rs:73-76,79-82) *)
Fixpoint walk_fold {A B} (fuel : nat) (g : lgraph A) (f : B -> N -> outcome B) (acc : B) (w : walk) : outcome B :=
  let! o := walk_next g w in
  match o with
  | None => Ret acc
  | Some (v, w') =>
    match fuel with
    | O => Diverge
    | S fuel' => let! acc' := f acc v in walk_fold fuel' g f acc' w'
    end
  end.
(** [Iterator::find], on fuel (smallwrite_build.rs:167) *)
Fixpoint walk_find {A} (fuel : nat) (g : lgraph A) (f : N -> outcome bool) (w : walk) : outcome (option N) :=
  let! o := walk_next g w in
  match o with
  | None => Ret None
  | Some (v, w') =>
    match fuel with
    | O => Diverge
    | S fuel' =>
      let! b := f v in
      if b : bool then Ret (Some v) else walk_find fuel' g f w'
    end
  end.
(** [find_edge_directed_from_node], on fuel (ng_holder.rs:90-95) *)
Fixpoint find_from {A} (fuel : nat) (g : lgraph A) (k b : N) : outcome (option N) :=
  match edge_at g k with
  | None => Ret None
  | Some e =>
    if le_target e =? b then Ret (Some k)
    else match fuel with O => Diverge | S f => find_from f g (le_out e) b end
  end.
(** [Graph::find_edge] (ng_holder.rs:90-95) *)
Definition l_find_edge {A} (g : lgraph A) (a b : N) : outcome (option N) :=
  match node_at g a with
  | None => Ret None
  | Some n => find_from (List.length (l_edges g)) g (ln_out n) b
  end.

(** ** src/nfagraph/ng_holder.rs *)

(** ng_holder.rs:23-30 *)
Record l_holder := LHolder { lh_inner : lgraph vertex_props; lh_start : N; lh_start_ds : N; lh_accept : N; lh_accept_eod : N }.
(** ng_holder.rs:33-57,116-119 *)
Definition l_holder_new : outcome l_holder :=
  let! (g1, start) := l_add_node l_new vertex_default in
  let! (g2, start_ds) := l_add_node g1 vertex_default in
  let! (g3, accept) := l_add_node g2 vertex_default in
  let! (g4, accept_eod) := l_add_node g3 vertex_default in
  let! g5 := l_add_edge g4 start start_ds in
  let! g6 := l_add_edge g5 start_ds start_ds in
  let! g7 := l_add_edge g6 accept accept_eod in
  let! g8 := l_update g7 start vp_set_all in
  let! g9 := l_update g8 start_ds vp_set_all in
  Ret (LHolder g9 start start_ds accept accept_eod).
(** ng_holder.rs:59-62 *)
Definition l_add_vertex (h : l_holder) : outcome (l_holder * N) :=
  let! (g, v) := l_add_node (lh_inner h) vertex_default in
  Ret (LHolder g (lh_start h) (lh_start_ds h) (lh_accept h) (lh_accept_eod h), v).
(** ng_holder.rs:69-83 *)
Definition l_all_reports (h : l_holder) : outcome (list N) :=
  let g := lh_inner h in
  let union acc v := let! x := l_index g v in Ret (set_extend N.eqb acc (reports x)) in
  let! r := walk_fold (List.length (l_edges g)) g union [] (walk_new g false (lh_accept h)) in
  walk_fold (List.length (l_edges g)) g union r (walk_new g false (lh_accept_eod h)).
(** ng_holder.rs:89-97; [||] goes on only after [false] *)
Definition l_is_vacuous (h : l_holder) : outcome bool :=
  let g := lh_inner h in
  let found a b := let! o := l_find_edge g a b in Ret (match o with Some _ => true | None => false end) in
  let! b1 := found (lh_start h) (lh_accept h) in
  if b1 : bool then Ret true else
  let! b2 := found (lh_start h) (lh_accept_eod h) in
  if b2 : bool then Ret true else
  let! b3 := found (lh_start_ds h) (lh_accept h) in
  if b3 : bool then Ret true else
  found (lh_start_ds h) (lh_accept_eod h).
(** ng_holder.rs:102-108 *)
Definition l_holder_index (h : l_holder) (v : N) : outcome vertex_props := expect (l_weight (lh_inner h) v).
(** ng_holder.rs:110-114 and an assignment through the reference *)
Definition l_holder_update (h : l_holder) (v : N) (f : vertex_props -> vertex_props) : outcome l_holder :=
  let! _ := expect (l_weight (lh_inner h) v) in
  let! g := l_update (lh_inner h) v f in
  Ret (LHolder g (lh_start h) (lh_start_ds h) (lh_accept h) (lh_accept_eod h)).

(** ** src/smallwrite/smallwrite_build.rs *)

(** smallwrite_build.rs:45-49 *)
Record l_trie := LTrie { ltr_inner : lgraph trie_props; ltr_root : N }.
(** smallwrite_build.rs:66-72 *)
Definition l_trie_default : outcome l_trie :=
  let! (g, root) := l_add_node l_new tp_default in Ret (LTrie g root).
(** smallwrite_build.rs:58-63 *)
Definition l_trie_reports (t : l_trie) : list N :=
  fold_left (fun s v => set_extend N.eqb s (tp_reports (ln_weight v))) (l_nodes (ltr_inner t)) [].
(** smallwrite_build.rs:163-175 *)
Fixpoint l_trie_walk (g : lgraph trie_props) (u : N) (es : list lit_elem) : outcome (lgraph trie_props * N) :=
  match es with
  | [] => Ret (g, u)
  | e :: t =>
    let! r := walk_find (List.length (l_edges g)) g
                (fun v => let! x := l_index g v in Ret (tp_c x =? el_c e)) (walk_new g true u) in
    let! (g', u') :=
      match r with
      | Some v => Ret (g, v)
      | None =>
        let! (g1, next) := l_add_node g (tp_with_byte (el_c e)) in
        let! g2 := l_add_edge g1 u next in
        Ret (g2, next)
      end in
    l_trie_walk g' u' t
  end.
(** smallwrite_build.rs:161-178 *)
Definition l_add_to_trie (l : literal) (report_ : N) (t : l_trie) : outcome (l_trie * bool) :=
  let! (g, u) := l_trie_walk (ltr_inner t) (ltr_root t) (lit_iter l) in
  let! g' := l_update g u (fun x => TrieProps (tp_c x) (set_insert N.eqb report_ (tp_reports x))) in
  Ret (LTrie g' (ltr_root t), l_count g' <=? MAX_TRIE_VERTICES).
