(** The builder of a pattern graph as a store of positions. *)
From Verif Require Import Base ModelUtil ModelBitField ModelCharReach ModelPetgraph ModelNfa SpecSet.
Local Open Scope N_scope.
Local Open Scope list_scope.

(** One request: a new position, or a class for a position. *)
Inductive builder_op := Position | Reach (v : N) (k : bitfield).
(** The requests one after the other; the new positions in order. *)
Fixpoint builder_run (b : nfa_builder) (h : list builder_op) : outcome (nfa_builder * list N) :=
  match h with
  | [] => Ret (b, [])
  | Position :: t => let! (b1, v) := make_position b in let! (b2, vs) := builder_run b1 t in Ret (b2, v :: vs)
  | Reach v k :: t => let! b1 := add_char_reach b v k in builder_run b1 t
  end.
(** How many positions were asked for. *)
Fixpoint positions (h : list builder_op) : nat :=
  match h with [] => O | Position :: t => S (positions t) | Reach _ _ :: t => positions t end.
(** With [n] positions to begin with, classes are only given to positions that exist. *)
Fixpoint legal (n : N) (h : list builder_op) : Prop :=
  match h with [] => True | Position :: t => legal (n + 1) t | Reach v _ :: t => v < n /\ legal n t end.
(** Some class given to position [v] has the byte [c]. *)
Definition given (h : list builder_op) (v c : N) : bool :=
  existsb (fun o => match o with Position => false | Reach u k => (u =? v) && mem k c end) h.
(** The classes are well formed. *)
Definition classes_wf (h : list builder_op) : Prop := forall v k, In (Reach v k) h -> wf k.
