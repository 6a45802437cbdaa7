(** What the width of a pointer on the target may change. *)
From Verif Require Import Base ModelUtil SpecReference.
Local Open Scope N_scope.
Local Open Scope list_scope.

(** The two builds make the same checks; they may be for different targets. *)
Definition same_checks (p q : profile) : Prop :=
  overflow_checks p = overflow_checks q /\ debug_assertions p = debug_assertions q.
(** The error for a group opened after [n] bytes of pattern [i] and never closed. *)
Definition left_open (p : profile) (n : N) (i : N) : compile_error :=
  CompileError EParse (lit "Missing close parenthesis for group started at index " ++ decimal (word p - n) ++ lit ".") (Some i).
