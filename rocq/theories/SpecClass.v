(** Adding characters to a class one after the other. *)
From Verif Require Import Base ModelUtil ModelBitField ModelCharReach ModelParser SpecSet.
Local Open Scope N_scope.
Local Open Scope list_scope.

Fixpoint add_all (p : profile) (k : ascii_class) (cs : list N) : outcome (result compile_error ascii_class) :=
  match cs with [] => Ret (ROk k) | c :: t => let? k' := class_add p k c in add_all p k' t end.
(** The bytes a character stands for. *)
Definition covers (nocase : bool) (c x : N) : Prop := x = c \/ (nocase = true /\ is_letter x /\ other_case x = c).
Definition too_wide : compile_error := CompileError ELocatedParse (lit "Hexadecimal value is greater than \xFF") None.
