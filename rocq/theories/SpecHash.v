(** What looking through the reports of a graph depends on. *)
From Verif Require Import Base ModelUtil ModelReport ModelPetgraph ModelNfa ModelSmallWrite ModelCompiler.
Local Open Scope N_scope.
Local Open Scope list_scope.

(** The number was given out by the report manager. *)
Definition registered (rm : report_manager) (r : N) : Prop := (N.to_nat r < List.length (report_ids rm))%nat.
(** It was, to a report with a least length. *)
Definition delayed (rm : report_manager) (r : N) : Prop := exists x, nth_error (report_ids rm) (N.to_nat r) = Some x /\ 0 < min_length x.
(** The call gets as far as the reports, which are [ids]. *)
Definition looked_at (s : small_write) (g : ng_holder) (ei : expression_info) (ids : list N) : Prop :=
  sw_poisoned s = false /\ ex_som ei = SomNone /\ is_vacuous g = false /\ all_reports g = Ret ids.
