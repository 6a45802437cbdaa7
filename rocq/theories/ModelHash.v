(** The one place where the crate runs through a hash set and may stop early:
    smallwrite_build.rs:121-124.  A [HashSet] yields its elements in an order that is
    unspecified and differs from run to run; here every order is allowed, so a call
    has a set of possible outcomes.  ([ModelSmallWrite] takes the order of the list.)
    The other hash tables are only looked up ([report_manager.rs], [build_state.rs])
    or joined into another set ([ng_holder.rs:69-83], [smallwrite_build.rs:58-64]). *)
From Coq Require Import Permutation.
From Verif Require Import Base ModelUtil ModelReport ModelPetgraph ModelNfa ModelSmallWrite.
Local Open Scope N_scope.
Local Open Scope list_scope.

(** [.into_iter().any(|id| rm.get_report(id).min_length > 0)], smallwrite_build.rs:122-123:
    the order in which the set yields its elements is chosen freely. *)
Inductive hash_any (rm : report_manager) (ids : list N) : outcome bool -> Prop :=
| hash_any_in : forall order, Permutation ids order -> hash_any rm ids (any_min_length rm order).
(** smallwrite_build.rs:102-130 *)
Inductive smwr_adds (rm : report_manager) (s : small_write) (g : ng_holder) (expr : expression_info) : outcome small_write -> Prop :=
| adds_poisoned : sw_poisoned s = true -> smwr_adds rm s g expr (Ret s)
| adds_som : sw_poisoned s = false -> ex_som expr = SomLeft -> smwr_adds rm s g expr (Ret (smwr_poison s))
| adds_vacuous : sw_poisoned s = false -> ex_som expr = SomNone -> is_vacuous g = true -> smwr_adds rm s g expr (Ret (smwr_poison s))
| adds_lost : forall o, sw_poisoned s = false -> ex_som expr = SomNone -> is_vacuous g = false ->
    all_reports g = o -> (forall ids, o <> Ret ids) -> smwr_adds rm s g expr (let! _ := o in Ret s)
| adds_any : forall ids o, sw_poisoned s = false -> ex_som expr = SomNone -> is_vacuous g = false ->
    all_reports g = Ret ids -> hash_any rm ids o ->
    smwr_adds rm s g expr (let! b := o in if b : bool then Ret (smwr_poison s) else Panic PUnimplemented).
