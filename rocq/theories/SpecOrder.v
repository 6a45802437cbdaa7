(** Notions for properties that compare two calls: texts that differ in the case
    of letters only, calls with the same items, and unfinished texts. *)
From Verif Require Import Base ModelParser SpecSet SpecGrammar SpecCompile SpecLang.
Local Open Scope N_scope.
Local Open Scope list_scope.

(** The texts start with the same control verb, or with none, and differ at most
    in the case of letters after it. *)
Definition same_but_case (s s' : str) : Prop :=
  (no_verb s /\ no_verb s' /\ case_variant s s') \/
  (exists v rest rest', verb_then s v rest /\ verb_then s' v rest' /\ case_variant rest rest').
(** The calls have the same items, in any order and any number of times. *)
Definition same_items (es : list str) (fs ids : list N) (es' : list str) (fs' ids' : list N) : Prop :=
  forall it, (exists i, item_at es fs ids i it) <-> (exists i, item_at es' fs' ids' i it).
(** The text so far is a parenthesis, a star and a part [v] of a verb's name. *)
Definition unfinished (s v : str) : Prop := s = 40 :: 42 :: v /\ v <> [] /\ ~ In 41 v.
(** Sets: the texts of CASELESS items may change case, the others must be equal. *)
Definition equal_but_case (es es' : list str) (fs : list N) : Prop :=
  List.length es = List.length es' /\
  forall i e e' f, nth_error es i = Some e -> nth_error es' i = Some e' -> nth_error fs i = Some f -> if N.testbit f 0 then same_but_case e e' else e = e'.
