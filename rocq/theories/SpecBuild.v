(** What switching build checks on may change. *)
From Verif Require Import Base.

(** Both builds are for the same target, and every check of build [q] is also
    made by build [p]. *)
Definition fewer_checks (q p : profile) : Prop :=
  (overflow_checks q = true -> overflow_checks p = true) /\ (debug_assertions q = true -> debug_assertions p = true) /\ target q = target p.
(** The outcome with more checks is the one with fewer, or a failed check. *)
Definition agrees {A} (checked unchecked : outcome A) : Prop :=
  checked = unchecked \/ checked = Panic POverflow \/ checked = Panic PDebugAssert.
