(** Histories of changes to a graph, and what is in it afterwards. *)
From Verif Require Import Base ModelUtil ModelLiteral ModelPetgraph ModelParser ModelNfa ModelSmallWrite ModelAdjacency.
Local Open Scope N_scope.
Local Open Scope list_scope.

Inductive change (A : Type) := NewNode (x : A) | NewEdge (a b : N) | Change (v : N) (f : A -> A).
Arguments NewNode {A}.
Arguments NewEdge {A}.
Arguments Change {A}.
(** The edges of a history, in order. *)
Definition edges_of {A} (h : list (change A)) : list (N * N) :=
  flat_map (fun c => match c with NewEdge a b => [(a, b)] | _ => [] end) h.
(** How many nodes it makes. *)
Definition nodes_of {A} (h : list (change A)) : nat := List.length (flat_map (fun c => match c with NewNode _ => [tt] | _ => [] end) h).
(** The weight of node [v], if there is one, after the history read backwards: what it was
    given, changed by every change to it since. *)
Fixpoint weight_of {A} (h : list (change A)) (v : nat) : option A :=
  match h with
  | [] => None
  | NewNode x :: t => if Nat.eqb v (nodes_of t) then Some x else weight_of t v
  | NewEdge _ _ :: t => weight_of t v
  | Change u f :: t => if N.of_nat v =? u then option_map f (weight_of t v) else weight_of t v
  end.
(** A change that can be made after [h]: the nodes exist, and there is a number left. *)
Definition allowed {A} (h : list (change A)) (c : change A) : Prop :=
  match c with
  | NewNode _ => N.of_nat (nodes_of h) < 2 ^ 32 - 1
  | NewEdge a b => N.of_nat (List.length (edges_of h)) < 2 ^ 32 - 1 /\ a < N.of_nat (nodes_of h) /\ b < N.of_nat (nodes_of h)
  | Change v _ => v < N.of_nat (nodes_of h)
  end.
Definition possible {A} (h : list (change A)) : Prop := forall a c b, h = a ++ c :: b -> allowed a c.
(** The history carried out on petgraph's vectors. *)
Definition l_apply {A} (g : lgraph A) (c : change A) : outcome (lgraph A) :=
  match c with
  | NewNode x => let! (g', _) := l_add_node g x in Ret g'
  | NewEdge a b => l_add_edge g a b
  | Change v f => l_update g v f
  end.
Fixpoint l_apply_all {A} (g : lgraph A) (h : list (change A)) : outcome (lgraph A) :=
  match h with [] => Ret g | c :: t => let! g' := l_apply g c in l_apply_all g' t end.
(** The ends of the edges from [v] and to [v], the newest first. *)
Definition successors {A} (h : list (change A)) (v : N) : list N := map snd (filter (fun e : N * N => fst e =? v) (rev (edges_of h))).
Definition predecessors {A} (h : list (change A)) (v : N) : list N := map fst (filter (fun e : N * N => snd e =? v) (rev (edges_of h))).
(** What an iterator yields, all of it. *)
Inductive yields {A} (g : lgraph A) : walk -> list N -> Prop :=
| yields_end : forall w, walk_next g w = Ret None -> yields g w []
| yields_more : forall w v w' l, walk_next g w = Ret (Some (v, w')) -> yields g w' l -> yields g w (v :: l).
(** The newest edge from [a] to [b]. *)
Definition newest {A} (h : list (change A)) (a b k : N) : Prop :=
  nth_error (edges_of h) (N.to_nat k) = Some (a, b) /\ forall j, (N.to_nat k < j)%nat -> nth_error (edges_of h) j <> Some (a, b).

(** The nodes and edges alone. *)
Definition plain {A} (g : lgraph A) : graph A := Graph (map ln_weight (l_nodes g)) (map (fun e => (le_source e, le_target e)) (l_edges g)).
Definition plain_holder (h : l_holder) : ng_holder := NgHolder (plain (lh_inner h)) (lh_start h) (lh_start_ds h) (lh_accept h) (lh_accept_eod h).
Definition plain_trie (t : l_trie) : lit_trie := LitTrie (plain (ltr_inner t)) (ltr_root t).
(** Literals put into an empty trie one after the other, on both accounts, with the answers. *)
Fixpoint l_insert_all (t : l_trie) (h : list (literal * N)) : outcome (l_trie * list bool) :=
  match h with
  | [] => Ret (t, [])
  | (l, r) :: h' => let! (t1, b) := l_add_to_trie l r t in let! (t2, bs) := l_insert_all t1 h' in Ret (t2, b :: bs)
  end.
Fixpoint insert_all (t : lit_trie) (h : list (literal * N)) : outcome (lit_trie * list bool) :=
  match h with
  | [] => Ret (t, [])
  | (l, r) :: h' => let! (t1, b) := add_to_trie l r t in let! (t2, bs) := insert_all t1 h' in Ret (t2, b :: bs)
  end.
(** The same outcome, the value being seen through [f]. *)
Definition seen {A B} (f : A -> B) (o : outcome A) : outcome B := match o with Ret x => Ret (f x) | Panic w => Panic w | Diverge => Diverge end.
