(** Model of the NFA graph construction: src/nfagraph/ng_holder.rs,
    src/nfagraph/ng_builder.rs, src/parser/{position,position_info,build_state}.rs
    and the [note_positions] methods. *)
From Verif Require Import Base ModelUtil ModelBitField ModelCharReach ModelPetgraph ModelParser.
Local Open Scope N_scope.

(** src/parser/position.rs:5-12 *)
Definition pos_flags := N.
(** position.rs:8 *)
Definition NOFLOAT : pos_flags := 1.
(** position.rs:9 *)
Definition MUST_FLOAT : pos_flags := 16.
(** position.rs:10 *)
Definition MULTILINE_START : pos_flags := 256.

(** ** src/nfagraph/ng_holder.rs *)

(** ng_holder.rs:9-18 *)
Record vertex_props := VertexProps {
  char_reach : charreach; reports : list N; assert_flags : pos_flags }.
(** derived [Default], ng_holder.rs:8 *)
Definition vertex_default : vertex_props := VertexProps cr_default [] 0.

(** ng_holder.rs:23-30 *)
Record ng_holder := NgHolder {
  inner : graph vertex_props; start : N; start_ds : N; accept : N; accept_eod : N }.

(** ng_holder.rs:116-119 *)
Definition add_special_vertex (g : graph vertex_props) : outcome (graph vertex_props * N) :=
  add_node g vertex_default.

(** [x.char_reach.set_all()] (ng_holder.rs:47,48) *)
Definition vp_set_all (v : vertex_props) : vertex_props :=
  VertexProps (cr_set_all (char_reach v)) (reports v) (assert_flags v).

(** ng_holder.rs:33-57 *)
Definition ng_holder_new : outcome ng_holder :=
  let! (g1, start) := add_special_vertex graph_new in
  let! (g2, start_ds) := add_special_vertex g1 in
  let! (g3, accept) := add_special_vertex g2 in
  let! (g4, accept_eod) := add_special_vertex g3 in
  let! g5 := add_edge g4 start start_ds in
  let! g6 := add_edge g5 start_ds start_ds in
  let! g7 := add_edge g6 accept accept_eod in
  let! g8 := node_update g7 start vp_set_all in
  let! g9 := node_update g8 start_ds vp_set_all in
  Ret (NgHolder g9 start start_ds accept accept_eod).

(** ng_holder.rs:59-62 *)
Definition ngh_add_vertex (h : ng_holder) : outcome (ng_holder * N) :=
  let! (g, v) := add_node (inner h) vertex_default in
  Ret (NgHolder g (start h) (start_ds h) (accept h) (accept_eod h), v).
(** ng_holder.rs:64-66 *)
Definition ngh_num_vertices (h : ng_holder) : N := node_count (inner h).

(** ng_holder.rs:73-76, 79-82: folding the union of the neighbours' reports. *)
Fixpoint union_reports (g : graph vertex_props) (vs : list N) (acc : list N) : outcome (list N) :=
  match vs with
  | [] => Ret acc
  | v :: t =>
    let! x := node_index g v in
    union_reports g t (set_extend N.eqb acc (reports x))
  end.
(** ng_holder.rs:69-83 *)
Definition all_reports (h : ng_holder) : outcome (list N) :=
  let! r := union_reports (inner h) (neighbors_in (inner h) (accept h)) [] in
  union_reports (inner h) (neighbors_in (inner h) (accept_eod h)) r.
(** ng_holder.rs:89-97 *)
Definition is_vacuous (h : ng_holder) : bool :=
  has_edge (inner h) (start h) (accept h)
  || has_edge (inner h) (start h) (accept_eod h)
  || has_edge (inner h) (start_ds h) (accept h)
  || has_edge (inner h) (start_ds h) (accept_eod h).

(** ng_holder.rs:102-108: [node_weight(index).expect("invalid index")]. *)
Definition ngh_index (h : ng_holder) (v : N) : outcome vertex_props :=
  expect (node_weight (inner h) v).
(** ng_holder.rs:110-114, followed by an assignment through the reference. *)
Definition ngh_update (h : ng_holder) (v : N) (f : vertex_props -> vertex_props)
  : outcome ng_holder :=
  let! _ := expect (node_weight (inner h) v) in
  let! g := node_update (inner h) v f in
  Ret (NgHolder g (start h) (start_ds h) (accept h) (accept_eod h)).

(** ** src/compiler/expression_info.rs:7-36 *)
Record expression_info := ExpressionInfo {
  ex_index : N; ex_report : N; ex_allow_vacuous : bool; ex_highlander : bool;
  ex_utf8 : bool; ex_prefilter : bool; ex_som : som_type; ex_quiet : bool }.

(** ** src/nfagraph/ng_builder.rs *)

(** ng_builder.rs:6-9 *)
Record nfa_builder := NfaBuilder { nb_graph : ng_holder; nb_expr : expression_info }.
(** ng_builder.rs:12-18, 65-67 *)
Definition make_nfa_builder (expr : expression_info) : outcome nfa_builder :=
  let! g := ng_holder_new in Ret (NfaBuilder g expr).
(** ng_builder.rs:20-22, 48-50 *)
Definition make_position (b : nfa_builder) : outcome (nfa_builder * N) :=
  let! (g, v) := ngh_add_vertex (nb_graph b) in Ret (NfaBuilder g (nb_expr b), v).
(** ng_builder.rs:24-38 *)
Definition get_start (b : nfa_builder) : N := start (nb_graph b).
(** ng_builder.rs:28-30 *)
Definition get_start_dot_star (b : nfa_builder) : N := start_ds (nb_graph b).
(** ng_builder.rs:32-34 *)
Definition get_accept (b : nfa_builder) : N := accept (nb_graph b).
(** ng_builder.rs:36-38 *)
Definition get_accept_eod (b : nfa_builder) : N := accept_eod (nb_graph b).
(** ng_builder.rs:40-42 *)
Definition add_char_reach (b : nfa_builder) (pos : N) (cr : charreach) : outcome nfa_builder :=
  let! g := ngh_update (nb_graph b) pos (fun x =>
    VertexProps (cr_or_assign (char_reach x) cr) (reports x) (assert_flags x)) in
  Ret (NfaBuilder g (nb_expr b)).
(** ng_builder.rs:44-46 *)
Definition get_assert_flag (b : nfa_builder) (pos : N) : outcome pos_flags :=
  let! x := ngh_index (nb_graph b) pos in Ret (assert_flags x).
(** ng_builder.rs:53-55 *)
Definition num_vertices (b : nfa_builder) : N := ngh_num_vertices (nb_graph b).

(** ** src/parser/position_info.rs *)

(** position_info.rs:4-7 *)
Record position_info := PositionInfo { pi_pos : N; pi_flags : pos_flags }.
(** derived [PartialEq], position_info.rs:3 *)
Definition pi_eqb (a b : position_info) : bool :=
  (pi_pos a =? pi_pos b) && (pi_flags a =? pi_flags b).
(** position_info.rs:9-16 *)
Definition pi_from (pos : N) : position_info := PositionInfo pos 0.

(** ** src/parser/build_state.rs *)

(** build_state.rs:6-16; the successor map is an association list from
    positions to duplicate-free lists. *)
Record build_state := BuildState {
  bs_start : N; bs_start_ds : N; bs_accept : N; bs_accept_eod : N;
  bs_builder : nfa_builder;
  bs_successors : list (N * list position_info) }.

(** build_state.rs:74-76: [NfaVertex::end().index() - 1]. *)
Definition pos_epsilon : N := IX_END - 1.

(** build_state.rs:79-109 *)
Definition filter_edges (bs : build_state) (from : position_info) (tolist : list position_info)
  : outcome (list position_info) :=
  let t1 :=
    if pi_pos from =? bs_start_ds bs then
      let t := filter (fun e => negb (contains (pi_flags e) NOFLOAT)) tolist in
      if contains (pi_flags from) NOFLOAT then [] else t
    else if pi_pos from =? bs_start bs then
      let t := filter (fun e => negb (pi_pos e =? pos_epsilon) || (pi_flags e =? 0)) tolist in
      filter (fun e => negb (contains (pi_flags e) (N.lor MUST_FLOAT NOFLOAT))) t
    else tolist in
  let! fl := get_assert_flag (bs_builder bs) (pi_pos from) in
  Ret (if contains fl MULTILINE_START then
         filter (fun e => negb (pi_pos e =? bs_accept_eod bs)) t1
       else t1).

(** [tolist.iter().position(|e| e.pos == accept)], build_state.rs:61 *)
Fixpoint position_of (a : N) (l : list position_info) : option nat :=
  match l with
  | [] => None
  | e :: t => if pi_pos e =? a then Some O else option_map S (position_of a t)
  end.

(** [self.successors.entry(from).or_insert_with(HashSet::new)] followed by the
    insertions of build_state.rs:67-71. *)
Fixpoint succ_insert (m : list (N * list position_info)) (from : N) (xs : list position_info)
  : list (N * list position_info) :=
  match m with
  | [] => [(from, set_extend pi_eqb [] xs)]
  | (k, s) :: t =>
    if from =? k then (k, set_extend pi_eqb s xs) :: t
    else (k, s) :: succ_insert t from xs
  end.

(** build_state.rs:56-72 *)
Definition connect_successors (p : profile) (bs : build_state) (from : position_info)
  (tolist : list position_info) : outcome build_state :=
  let! _ := rs_debug_assert p (negb (pi_pos from =? pos_epsilon)) in
  let! t1 := filter_edges bs from tolist in
  let! (b', t2) :=
    match position_of (bs_accept bs) t1 with
    | Some i =>
      let! (b', fakedot) := make_position (bs_builder bs) in
      Ret (b', list_upd t1 i (fun _ => pi_from fakedot))
    | None => Ret (bs_builder bs, t1)
    end in
  Ret (BuildState (bs_start bs) (bs_start_ds bs) (bs_accept bs) (bs_accept_eod bs) b'
         (succ_insert (bs_successors bs) (pi_pos from) t2)).

(** build_state.rs:50-54 *)
Fixpoint connect_regions (p : profile) (bs : build_state) (lasts firsts : list position_info)
  : outcome build_state :=
  match lasts with
  | [] => Ret bs
  | l :: t =>
    let! bs' := connect_successors p bs l firsts in
    connect_regions p bs' t firsts
  end.

(** build_state.rs:19-39, 111-113 *)
Definition make_glushkov_build_state (p : profile) (b : nfa_builder) : outcome build_state :=
  let bs := BuildState (get_start b) (get_start_dot_star b) (get_accept b) (get_accept_eod b) b [] in
  connect_regions p bs [pi_from (bs_start bs); pi_from (bs_start_ds bs)]
                  [pi_from (bs_start_ds bs)].

(** [bs.get_builder_mut()] and assignment through it (build_state.rs:46-48, ascii_component_class.rs:29) *)
Definition bs_set_builder (bs : build_state) (b : nfa_builder) : build_state :=
  BuildState (bs_start bs) (bs_start_ds bs) (bs_accept bs) (bs_accept_eod bs) b (bs_successors bs).

(** ** note_positions *)

(** ascii_component_class.rs:28-33 *)
Definition ac_note_positions (bs : build_state) (c : ascii_class) : outcome build_state :=
  let! (b, position) := make_position (bs_builder bs) in
  let! b' := add_char_reach b position (ac_cr c) in
  Ret (bs_set_builder bs b').

(** [for c in &mut self.children { c.note_positions(bs) }] *)
Section NoteList.
  Context {A : Type} (note1 : build_state -> A -> outcome build_state).
  (** component_sequence.rs:43-45, component_alternation.rs *)
  Fixpoint note_list (bs : build_state) (l : list A) : outcome build_state :=
    match l with
    | [] => Ret bs
    | x :: t => let! bs' := note1 bs x in note_list bs' t
    end.
End NoteList.

(** component.rs:17-23, component_alternation.rs:15-19, component_class.rs:46-50,
    component_sequence.rs:42-46 *)
Fixpoint note_positions (bs : build_state) (c : component) {struct c} : outcome build_state :=
  match c with
  | CAlternation branches => note_list (fun bs s => seqn_note_positions bs s) bs branches
  | CClass k => ac_note_positions bs k
  | CSequence s => seqn_note_positions bs s
  end
with seqn_note_positions (bs : build_state) (s : seqn) {struct s} : outcome build_state :=
  match s with
  | Seqn children _ _ _ => note_list (fun bs c => note_positions bs c) bs children
  end.
