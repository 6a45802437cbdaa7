(** How many calls are active at once when a tree is walked. *)
From Verif Require Import Base ModelParser.
Local Open Scope list_scope.

(** Two calls for a sequence, one when it is a branch; two for an alternation; three for
    a class; and the deepest child on top. *)
Fixpoint calls (c : component) : nat :=
  match c with
  | CAlternation bs => 2 + list_max (map (fun s => match s with Seqn ch _ _ _ => 1 + list_max (map calls ch) end) bs)
  | CClass _ => 3
  | CSequence (Seqn ch _ _ _) => 2 + list_max (map calls ch)
  end.
(** A text of [k] groups, each in the one before. *)
Definition nested (k : nat) : str := repeat 40%N k ++ repeat 41%N k.
