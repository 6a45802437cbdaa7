(** What the pattern graphs should be: positions, successors and edge filters. *)
From Verif Require Import Base ModelUtil ModelBitField ModelCharReach ModelPetgraph ModelParser ModelNfa SpecSet SpecGrammar.
Local Open Scope N_scope.
Local Open Scope list_scope.

(** The classes of a tree from left to right. *)
Fixpoint leaves (c : component) : list ascii_class :=
  match c with
  | CAlternation bs => flat_map (fun s => match s with Seqn ch _ _ _ => flat_map leaves ch end) bs
  | CClass k => [k]
  | CSequence (Seqn ch _ _ _) => flat_map leaves ch
  end.
(** The characters of a text that stand for themselves. *)
Definition plain_text (body : str) : str := filter (fun c => negb ((c =? 40) || (c =? 41) || (c =? 124))) body.

(** [e] is recorded as a successor of position [v]. *)
Definition recorded (bs : build_state) (v : N) (e : position_info) : Prop :=
  exists s, In (v, s) (bs_successors bs) /\ In e s.
(** Position flags as bits: no-float (caret only), must-float, multiline start. *)
Definition no_float (fl : N) : Prop := N.testbit fl 0 = true.
Definition must_float (fl : N) : Prop := N.testbit fl 4 = true.
Definition multiline_start (fl : N) : Prop := N.testbit fl 8 = true.
(** The position value that stands for "no position". *)
Definition epsilon : N := 2 ^ 32 - 2.
Definition vertices (bs : build_state) : list vertex_props := nodes (inner (nb_graph (bs_builder bs))).
(** The first position [f] may follow the last position [l]: the filters of the
    floating start, of the anchored start and of multiline vertices. *)
Definition float_filter (l f : position_info) : Prop := ~ no_float (pi_flags l) /\ ~ no_float (pi_flags f).
Definition start_filter (f : position_info) : Prop :=
  (pi_pos f = epsilon -> pi_flags f = 0) /\ ~ (must_float (pi_flags f) /\ no_float (pi_flags f)).
Definition passes (bs : build_state) (l f : position_info) : Prop :=
  (pi_pos l = bs_start_ds bs -> float_filter l f) /\
  (pi_pos l <> bs_start_ds bs -> pi_pos l = bs_start bs -> start_filter f) /\
  (forall x, nth_error (vertices bs) (N.to_nat (pi_pos l)) = Some x -> multiline_start (assert_flags x) -> pi_pos f <> bs_accept_eod bs).
(** ** What connecting one last position to the first positions does.
    Nothing but the successors and fresh vertices changes. *)
Definition same_frame (bs bs' : build_state) : Prop :=
  bs_start bs' = bs_start bs /\ bs_start_ds bs' = bs_start_ds bs /\ bs_accept bs' = bs_accept bs /\ bs_accept_eod bs' = bs_accept_eod bs /\
  nb_expr (bs_builder bs') = nb_expr (bs_builder bs) /\ edges (inner (nb_graph (bs_builder bs'))) = edges (inner (nb_graph (bs_builder bs))) /\
  get_start (bs_builder bs') = get_start (bs_builder bs) /\ get_start_dot_star (bs_builder bs') = get_start_dot_star (bs_builder bs) /\
  get_accept (bs_builder bs') = get_accept (bs_builder bs) /\ get_accept_eod (bs_builder bs') = get_accept_eod (bs_builder bs).
(** Either no first position that passes is the accept position, and exactly those
    that pass are recorded; or the first one that is is replaced by a fresh vertex. *)
Inductive connected (bs : build_state) (l : position_info) (firsts : list position_info) : build_state -> Prop :=
| conn_plain : forall bs',
    same_frame bs bs' -> vertices bs' = vertices bs ->
    (forall f, In f firsts -> passes bs l f -> pi_pos f <> bs_accept bs) ->
    (forall v e, recorded bs' v e <-> recorded bs v e \/ (v = pi_pos l /\ In e firsts /\ passes bs l e)) ->
    connected bs l firsts bs'
| conn_accept : forall bs' a f b,
    same_frame bs bs' -> vertices bs' = vertices bs ++ [vertex_default] ->
    firsts = a ++ f :: b -> passes bs l f -> pi_pos f = bs_accept bs ->
    (forall g, In g a -> passes bs l g -> pi_pos g <> bs_accept bs) ->
    (forall v e, recorded bs' v e <-> recorded bs v e \/
      (v = pi_pos l /\ (e = PositionInfo (N.of_nat (List.length (vertices bs))) 0 \/ ((In e a \/ In e b) /\ passes bs l e)))) ->
    connected bs l firsts bs'.
(** Connecting several last positions, one after the other. *)
Inductive chain (firsts : list position_info) : build_state -> list position_info -> build_state -> Prop :=
| chain_nil : forall bs, chain firsts bs [] bs
| chain_cons : forall bs l ls b1 b2, connected bs l firsts b1 -> chain firsts b1 ls b2 -> chain firsts bs (l :: ls) b2.
(** Some first position that may follow [l] is the accept position. *)
Definition reaches_accept (bs : build_state) (firsts : list position_info) (l : position_info) : Prop :=
  exists f, In f firsts /\ passes bs l f /\ pi_pos f = bs_accept bs.
(** How many elements of a list have a property. *)
Inductive how_many {A} (P : A -> Prop) : list A -> nat -> Prop :=
| many_nil : how_many P [] 0
| many_yes : forall x l n, P x -> how_many P l n -> how_many P (x :: l) (S n)
| many_no : forall x l n, ~ P x -> how_many P l n -> how_many P (x :: l) n.
(** The positions are vertices of the graph, not the epsilon. *)
Definition real_positions (p : profile) (bs : build_state) (lasts : list position_info) : Prop :=
  forall l, In l lasts -> pi_pos l < N.of_nat (List.length (vertices bs)) /\ (debug_assertions p = true -> pi_pos l <> epsilon).
