(** Runs of the source text: what [compile] does not call of the graph and of the build state. *)
From Verif Require Import Base ModelUtil ModelBitField ModelCharReach ModelLiteral ModelReport ModelPetgraph ModelParser ModelNfa ModelSmallWrite ModelCompiler
  ModelRust ModelInterp ModelDump ModelSource SpecSource SpecSourceCrate.
From Verif Require Import ProofBase ProofSourceA ProofSourceB ProofSourceC ProofSourceD ProofSourceE ProofSourceF ProofSourceL ProofSourceR ProofSourceS ProofSourceT ProofSourceU ProofSourceW ProofSourceX ProofSourceV ProofSourceZ.
Local Open Scope string_scope.
Local Open Scope N_scope.
Local Open Scope list_scope.

Definition Union : expr := EBlock [SExpr (EMethod (EPath ["union"]) "extend" [EUn URef (EField (EIndex (EField (EPath ["self"]) "inner") (EPath ["v"])) "reports")]); SLast (EPath ["union"])].
Lemma y_union_step : forall p lf d own lp h R a v k, List.length R = 0%nat \/ (exists r, R = [("reports", r)]) ->
  applied (eval p G own (call p G lf d) lp) [PVar "union"; PVar "v"] Union [v_ids a; ix_ v] (R ++ [("self", v_holder h)]) k =
  (let! x := node_index (inner h) v in k (v_ids (set_extend N.eqb a (reports x))) (R ++ [("self", v_holder h)])).
Proof.
  intros p lf d own lp h R a v k HR. unfold Union. destruct HR as [HR|[r ->]]; [destruct R; [|discriminate]|]; cbn [app]; repeat lhs.
  all: unfold node_index; rewrite nthN_weight; destruct (node_weight (inner h) v) as [x|]; cbn [option_map]; [|reflexivity]; repeat lhs; rewrite fold_add_ids; cbn [bind]; reflexivity.
Qed.
Lemma y_union : forall p lf d own lp h R, List.length R = 0%nat \/ (exists r, R = [("reports", r)]) -> forall vs a,
  folded (eval p G own (call p G lf d) lp) [PVar "union"; PVar "v"] Union (map ix_ vs) (v_ids a) (R ++ [("self", v_holder h)]) =
  (let! r := union_reports (inner h) vs a in val_ (v_ids r) (R ++ [("self", v_holder h)])).
Proof.
  intros p lf d own lp h R HR vs. induction vs as [|v vs IH]; intros a; [reflexivity|]. cbn [map union_reports].
  transitivity (applied (eval p G own (call p G lf d) lp) [PVar "union"; PVar "v"] Union [v_ids a; ix_ v] (R ++ [("self", v_holder h)])
    (fun a' s1 => folded (eval p G own (call p G lf d) lp) [PVar "union"; PVar "v"] Union (map ix_ vs) a' s1)); [reflexivity|].
  rewrite y_union_step by exact HR. destruct (node_index (inner h) v) as [x| |]; [|reflexivity|reflexivity]. cbn [bind]. apply IH.
Qed.
Lemma y_all : forall p lf d h, call p G lf (S d) (Some "NgHolder") "all_reports" [v_holder h] = (let! r := all_reports h in Ret (Some (v_ids r, [v_holder h]))).
Proof.
  enter. unfold all_reports. repeat lhs. fold Union. change (fun e0 : N * N => VTuple [VInt U32 (fst e0); VInt U32 (snd e0)]) with v_edge. rewrite neighbours_in.
  pose proof (y_union p lf d (Some "NgHolder") (loop p G (Some "NgHolder") (call p G lf d) lf) h [] (or_introl eq_refl) (neighbors_in (inner h) (accept h)) []) as A. cbn [app] in A.
  change (VStruct "NgHolder" [("inner", v_graph v_props (inner h)); ("start", ix_ (start h)); ("start_ds", ix_ (start_ds h)); ("accept", ix_ (accept h)); ("accept_eod", ix_ (accept_eod h))]) with (v_holder h).
  change (VCtor "HashSet" []) with (v_ids []). rewrite A. destruct (union_reports (inner h) (neighbors_in (inner h) (accept h)) []) as [r| |]; [|reflexivity|reflexivity]. cbn [bind]. repeat lhs.
  change (fun e0 : N * N => VTuple [VInt U32 (fst e0); VInt U32 (snd e0)]) with v_edge. rewrite neighbours_in. fold Union. 
  pose proof (y_union p lf d (Some "NgHolder") (loop p G (Some "NgHolder") (call p G lf d) lf) h [("reports", v_ids r)] (or_intror (ex_intro _ _ eq_refl)) (neighbors_in (inner h) (accept_eod h)) r) as B. cbn [app] in B.
  change (VStruct "NgHolder" [("inner", v_graph v_props (inner h)); ("start", ix_ (start h)); ("start_ds", ix_ (start_ds h)); ("accept", ix_ (accept h)); ("accept_eod", ix_ (accept_eod h))]) with (v_holder h).
  rewrite B. destruct (union_reports (inner h) (neighbors_in (inner h) (accept_eod h)) r) as [r'| |]; [|reflexivity|reflexivity]. cbn [bind]. repeat lhs. destruct r' as [|u [|w r']]; reflexivity.
Qed.
