(** What the trees produced by the parser look like, and which of them denote a
    literal. *)
From Verif Require Import Base ModelUtil ModelBitField ModelCharReach ModelLiteral ModelParser SpecSet SpecGrammar SpecTrie.
Local Open Scope N_scope.
Local Open Scope list_scope.

(** Trees without unfinished alternation, whose classes are proper bit fields. *)
Inductive finalized : component -> Prop :=
| fin_class : forall k, wf (ac_cr k) -> finalized (CClass k)
| fin_alternation : forall bs, Forall finalized_seqn bs -> finalized (CAlternation bs)
| fin_sequence : forall s, finalized_seqn s -> finalized (CSequence s)
with finalized_seqn : seqn -> Prop :=
| fin_seqn : forall ch ci cn, Forall finalized ch -> finalized_seqn (Seqn ch None ci cn).

(** Trees that denote one literal: no alternation, and every class is one byte or
    the two cases of a letter. *)
Inductive literal_tree : component -> Prop :=
| lt_byte : forall k c, (forall x, mem (ac_cr k) x = true <-> x = c) -> literal_tree (CClass k)
| lt_letter : forall k u, is_upper u -> (forall x, mem (ac_cr k) x = true <-> x = u \/ x = u + 32) -> literal_tree (CClass k)
| lt_sequence : forall ch ci cn, Forall literal_tree ch -> literal_tree (CSequence (Seqn ch None ci cn)).

(** The literal written by a text: its characters other than parentheses, letters
    stored in upper case and flagged when case does not matter. *)
Definition is_letter_b (c : N) : bool := ((65 <=? c) && (c <=? 90)) || ((97 <=? c) && (c <=? 122)).
Definition lit_text (body : str) : str := filter (fun c => negb ((c =? 40) || (c =? 41))) body.
Definition stored (nocase : bool) (c : N) : N := if nocase then upper_case c else c.
Definition flagged (nocase : bool) (c : N) : bool := nocase && is_letter_b c.
Definition text_literal (nocase : bool) (body : str) : literal :=
  Literal (map (stored nocase) (lit_text body)) (map (flagged nocase) (lit_text body)).
(** A text is a literal: no bar, something besides parentheses. *)
Definition literal_text (body : str) : Prop := ~ In 124 body /\ exists c, In c body /\ c <> 40 /\ c <> 41.
