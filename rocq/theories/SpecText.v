(** Decimal numbers in messages, and the size of parse trees. *)
From Verif Require Import Base ModelParser.
Local Open Scope N_scope.
Local Open Scope list_scope.

(** The digits of a number, most significant first, without leading zeros. *)
Definition decimal_value (ds : list N) : N := fold_left (fun a d => 10 * a + (d - 48)) ds 0.
Definition is_decimal (ds : list N) (n : N) : Prop :=
  ds <> [] /\ (forall d, In d ds -> 48 <= d <= 57) /\ decimal_value ds = n /\ (hd_error ds = Some 48 -> ds = [48]).

(** The number of nodes of a tree, alternation branches included, and the length of
    its longest branch. *)
Fixpoint tree_nodes (c : component) : nat :=
  match c with
  | CAlternation bs => S (list_sum (map (fun s => match s with Seqn ch _ _ _ => S (list_sum (map tree_nodes ch)) end) bs))
  | CClass _ => 1
  | CSequence (Seqn ch _ _ _) => S (list_sum (map tree_nodes ch))
  end.
Fixpoint tree_height (c : component) : nat :=
  match c with
  | CAlternation bs => S (list_max (map (fun s => match s with Seqn ch _ _ _ => S (list_max (map tree_height ch)) end) bs))
  | CClass _ => 1
  | CSequence (Seqn ch _ _ _) => S (list_max (map tree_height ch))
  end.
(** The greatest number of groups open at once when reading [s] with [d] open. *)
Fixpoint deepest (d : nat) (s : str) : nat :=
  match s with
  | [] => d
  | c :: t => Nat.max d (deepest (if c =? 40 then S d else if c =? 41 then Nat.pred d else d) t)
  end.

(** What a reader of an error message can see: the reason, and the number after the
    last occurrence of the given words. *)
Definition indexed_text (reason : str) (k : N) (out : str) : Prop :=
  exists ds, is_decimal ds k /\ out = reason ++ lit " in expression " ++ ds.
