(** The words an item of a call matches, and the words the two dictionaries of an
    engine hold. *)
From Verif Require Import Base ModelUtil ModelLiteral ModelPetgraph ModelSmallWrite ModelCompiler SpecSet SpecGrammar SpecTrie SpecTree SpecCompile.
Local Open Scope N_scope.
Local Open Scope list_scope.

(** [w] is in the language of the text of the item, after its verb. *)
Definition item_word (it : item) (w : list N) : Prop :=
  exists body e, body_of (it_expr it) body /\ wf_expr e /\ text e = body /\ lang (caseless_item it) e w.
(** Walking a dictionary along [w] ends at a node with a report. *)
Definition held (t : lit_trie) (w : list N) : Prop :=
  exists v, reach (lt_inner t) (lt_root t) w v /\ node_reports (lt_inner t) v <> [].
(** One of the dictionaries holds [w], the caseless one in upper case. *)
Definition recognised (n : ng) (w : list N) : Prop :=
  held (sw_trie (ng_smwr n)) w \/ held (sw_trie_nocase (ng_smwr n)) (map upper_case w).
(** Some literal item of the call matches [w]. *)
Definition literal_word (es : list str) (fs ids : list N) (w : list N) : Prop :=
  exists i it, item_at es fs ids i it /\ literal_item it /\ item_word it w.
