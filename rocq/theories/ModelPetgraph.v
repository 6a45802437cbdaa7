(** Model of the part of petgraph 0.5's directed [Graph<N, E, Directed, u32>]
    that the crate uses (an external dependency: modelled by its documented
    behaviour).  Node indices are [N]; edge weights carry no information in
    this crate and are dropped. *)
From Verif Require Import Base.
Local Open Scope N_scope.

(** ng_holder.rs:3-4, smallwrite_build.rs:7-8 *)
Record graph (A : Type) := Graph { nodes : list A; edges : list (N * N) }.
Arguments Graph {A}.
Arguments nodes {A}.
Arguments edges {A}.

(** ng_holder.rs:34, smallwrite_build.rs:68 *)
Definition graph_new {A} : graph A := Graph [] [].
(** petgraph [IndexType::max()], a u32 *)
Definition IX_END : N := 2 ^ 32 - 1.

(** [Graph::node_count] (used in ng_holder.rs:65, smallwrite_build.rs:54,177) *)
Definition node_count {A} (g : graph A) : N := N.of_nat (List.length (nodes g)).
(** [Graph::add_node]: asserts that the index space is not exhausted. (used in ng_holder.rs:61,118, smallwrite_build.rs:69,169) *)
Definition add_node {A} (g : graph A) (x : A) : outcome (graph A * N) :=
  if node_count g =? IX_END then Panic PCapacity
  else Ret (Graph (nodes g ++ [x]) (edges g), node_count g).
(** [Graph::add_edge]: asserts capacity, panics on unknown nodes. (used in ng_holder.rs:43-45, ng_builder.rs, smallwrite_build.rs:170) *)
Definition add_edge {A} (g : graph A) (a b : N) : outcome (graph A) :=
  if N.of_nat (List.length (edges g)) =? IX_END then Panic PCapacity
  else if (a <? node_count g) && (b <? node_count g) then
    Ret (Graph (nodes g) (edges g ++ [(a, b)]))
  else Panic PIndex.
(** [Graph::node_weight] (used in ng_holder.rs:106,112) *)
Definition node_weight {A} (g : graph A) (v : N) : option A :=
  if v <? node_count g then nth_error (nodes g) (N.to_nat v) else None.
(** [graph[v]] (used in ng_holder.rs:47-48, smallwrite_build.rs) *)
Definition node_index {A} (g : graph A) (v : N) : outcome A :=
  match node_weight g v with Some x => Ret x | None => Panic PIndex end.
(** [graph[v] = f(graph[v])] (used in ng_holder.rs:47-48,112) *)
Definition node_update {A} (g : graph A) (v : N) (f : A -> A) : outcome (graph A) :=
  match node_weight g v with
  | Some _ => Ret (Graph (list_upd (nodes g) (N.to_nat v) f) (edges g))
  | None => Panic PIndex
  end.
(** [Graph::neighbors_directed(v, Outgoing)]: newest edge first. (used in smallwrite_build.rs:166) *)
Definition neighbors_out {A} (g : graph A) (v : N) : list N :=
  map snd (filter (fun e => fst e =? v) (rev (edges g))).
(** [Graph::neighbors_directed(v, Incoming)]: newest edge first. (used in ng_holder.rs:72,78) *)
Definition neighbors_in {A} (g : graph A) (v : N) : list N :=
  map fst (filter (fun e => snd e =? v) (rev (edges g))).
(** [Graph::find_edge(a, b).is_some()] (used in ng_holder.rs:90-95) *)
Definition has_edge {A} (g : graph A) (a b : N) : bool :=
  existsb (fun e => (fst e =? a) && (snd e =? b)) (edges g).
