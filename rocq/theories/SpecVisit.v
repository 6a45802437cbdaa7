(** Walking a tree, said about positions: which hooks are called, for which nodes,
    in which order. *)
From Coq Require Export Sorting.Sorted.
From Verif Require Import Base ModelUtil ModelBitField ModelCharReach ModelParser SpecSet SpecTree.
Local Open Scope N_scope.
Local Open Scope list_scope.

(** Nodes, their children, and the node at a position (the list of child numbers
    from the root). *)
Inductive node := NClass (k : ascii_class) | NAlternation (bs : list seqn) | NSequence (s : seqn).
Definition node_of (c : component) : node :=
  match c with CClass k => NClass k | CAlternation bs => NAlternation bs | CSequence s => NSequence s end.
Definition children (n : node) : list node :=
  match n with
  | NClass _ => []
  | NAlternation bs => map NSequence bs
  | NSequence s => map node_of (sq_children s)
  end.
Fixpoint node_at (n : node) (pos : list nat) : option node :=
  match pos with
  | [] => Some n
  | i :: t => match nth_error (children n) i with Some c => node_at c t | None => None end
  end.

(** Hook calls: [During k] is the in-between hook called after child [k]. *)
Inductive hook := Pre | During (k : nat) | Post.
Record event := Event { ev_hook : hook; ev_pos : list nat }.
(** The calls that must happen for the tree under [root].  A class, which has no
    children, has its in-between hook called once. *)
Definition due (root : node) (e : event) : Prop :=
  exists n, node_at root (ev_pos e) = Some n /\
  match ev_hook e with
  | During k => match n with NClass _ => k = O | _ => (S k < List.length (children n))%nat end
  | _ => True
  end.
(** The order in which they must happen. *)
Inductive before : event -> event -> Prop :=
(* an earlier subtree comes before a later one *)
| b_left : forall h h' pos i j a b, (i < j)%nat -> before (Event h (pos ++ i :: a)) (Event h' (pos ++ j :: b))
(* pre comes first of all calls for the subtree, post last *)
| b_pre : forall h pos a, (h, a) <> (Pre, []) -> before (Event Pre pos) (Event h (pos ++ a))
| b_post : forall h pos a, (h, a) <> (Post, []) -> before (Event h (pos ++ a)) (Event Post pos)
(* in between: after child [k], before the next *)
| b_after : forall h pos i k a, (i <= k)%nat -> before (Event h (pos ++ i :: a)) (Event (During k) pos)
| b_before : forall h pos i k a, (k < i)%nat -> before (Event (During k) pos) (Event h (pos ++ i :: a))
| b_during : forall pos k l, (k < l)%nat -> before (Event (During k) pos) (Event (During l) pos).
(** All calls due, each once, in order. *)
Definition complete (root : node) (tr : list event) : Prop :=
  StronglySorted before tr /\ forall e, In e tr <-> due root e.

(** Performing calls one after the other, up to the first error. *)
Definition call {V E} (vis : visitor V E) (h : hook) (n : node) (v : V) : outcome (result E V) :=
  match h, n with
  | Pre, NClass k => pre_class vis v k
  | Pre, NAlternation bs => pre_alternation vis v bs
  | Pre, NSequence s => pre_sequence vis v s
  | During _, NClass k => Ret (ROk (during_class vis v k))
  | During _, NAlternation bs => Ret (ROk (during_alternation vis v bs))
  | During _, NSequence s => Ret (ROk (during_sequence vis v s))
  | Post, NClass k => let! v' := post_class vis v k in Ret (ROk v')
  | Post, NAlternation bs => let! v' := post_alternation vis v bs in Ret (ROk v')
  | Post, NSequence s => let! v' := post_sequence vis v s in Ret (ROk v')
  end.
Fixpoint perform {V E} (vis : visitor V E) (root : node) (tr : list event) (v : V) : outcome (result E V) :=
  match tr with
  | [] => Ret (ROk v)
  | e :: t =>
    match node_at root (ev_pos e) with
    | Some n => let? v' := call vis (ev_hook e) n v in perform vis root t v'
    | None => Diverge
    end
  end.
