(** Runs of the source text: what [compile] does not call of the graph and of the build state. *)
From Verif Require Import Base ModelUtil ModelBitField ModelCharReach ModelLiteral ModelReport ModelPetgraph ModelParser ModelNfa ModelSmallWrite ModelCompiler
  ModelRust ModelInterp ModelDump ModelSource SpecSource SpecSourceCrate.
From Verif Require Import ProofBase ProofSourceA ProofSourceB ProofSourceC ProofSourceD ProofSourceE ProofSourceF ProofSourceL ProofSourceR ProofSourceS ProofSourceT ProofSourceU ProofSourceW ProofSourceX ProofSourceV ProofSourceZ ProofSourceZF ProofSourceZG.
Local Open Scope string_scope.
Local Open Scope N_scope.
Local Open Scope list_scope.


Definition Wr : list stmt := [SExpr (EMethod (EPath ["self"]) "connect_successors" [EUn UDeref (EPath ["last"]); EMethod (EPath ["firsts"]) "to_vec" []])].
Lemma y_regions_loop : forall p lf d la fi, (List.length fi < lf)%nat -> forall ls k b, (List.length ls < k)%nat ->
  loop p G (Some "GlushkovBuildState") (call p G lf (S (S (S (S (S (S d))))))) k (WFor (PVar "last") (map v_pos ls) Wr) [("self", v_bs b); ("lasts", la); ("firsts", VList (map v_pos fi))] =
  (let! b' := connect_regions p b ls fi in val_ VUnit [("self", v_bs b'); ("lasts", la); ("firsts", VList (map v_pos fi))]).
Proof.
  intros p lf d la fi Hf ls. induction ls as [|x ls IH]; intros k b Hk; (destruct k as [|k]; [cbn in Hk; lia|]); [reflexivity|]. cbn [map connect_regions].
  transitivity (bind (eval p G (Some "GlushkovBuildState") (call p G lf (S (S (S (S (S (S d))))))) (loop p G (Some "GlushkovBuildState") (call p G lf (S (S (S (S (S (S d))))))) k) (EBlock Wr) [("last", v_pos x); ("self", v_bs b); ("lasts", la); ("firsts", VList (map v_pos fi))])
     (turned [("self", v_bs b); ("lasts", la); ("firsts", VList (map v_pos fi))] (loop p G (Some "GlushkovBuildState") (call p G lf (S (S (S (S (S (S d))))))) k (WFor (PVar "last") (map v_pos ls) Wr)))); [reflexivity|].
  destruct (y_connect p lf d b x fi Hf) as [t E].
  assert (F : eval p G (Some "GlushkovBuildState") (call p G lf (S (S (S (S (S (S d))))))) (loop p G (Some "GlushkovBuildState") (call p G lf (S (S (S (S (S (S d))))))) k) (EBlock Wr) [("last", v_pos x); ("self", v_bs b); ("lasts", la); ("firsts", VList (map v_pos fi))] =
    (let! b' := connect_successors p b x fi in val_ VUnit [("last", v_pos x); ("self", v_bs b'); ("lasts", la); ("firsts", VList (map v_pos fi))])).
  { unfold Wr. repeat lhs. rewrite E. destruct (connect_successors p b x fi) as [b'| |]; [|reflexivity|reflexivity]. cbn [bind]. repeat lhs. reflexivity. }
  rewrite F. destruct (connect_successors p b x fi) as [b'| |]; [|reflexivity|reflexivity]. cbn [bind]. repeat lhs. apply IH. cbn in Hk. lia.
Qed.
Lemma y_regions : forall p lf d b ls fi, (List.length fi < lf)%nat -> (List.length ls < lf)%nat ->
  call p G lf (S (S (S (S (S (S (S d))))))) (Some "GlushkovBuildState") "connect_regions" [v_bs b; VList (map v_pos ls); VList (map v_pos fi)] =
  (let! b' := connect_regions p b ls fi in Ret (Some (VUnit, [v_bs b'; VList (map v_pos ls); VList (map v_pos fi)]))).
Proof.
  intros p lf d b ls fi Hf Hl. enter. repeat lhs. fold Wr. rewrite (y_regions_loop p lf d _ fi Hf ls lf b Hl). destruct (connect_regions p b ls fi) as [b'| |]; [|reflexivity|reflexivity]. cbn [bind]. repeat lhs. reflexivity.
Qed.
#[export] Hint Rewrite y_from : calls.
Lemma filter_edges_in : forall b i l t, filter_edges b i l = Ret t -> incl t l.
Proof.
  intros b i l t. unfold filter_edges. destruct (get_assert_flag _ _) as [fl| |]; cbn [bind]; try discriminate. intro H. injection H as <-.
  set (t1 := if pi_pos i =? bs_start_ds b then _ else _). assert (L : incl t1 l).
  { unfold t1. destruct (_ =? _); [destruct (contains _ _); [intros x []|apply incl_filter]|]. destruct (_ =? _); [|apply incl_refl]. eapply incl_tran; [apply incl_filter|apply incl_filter]. }
  destruct (contains fl _); [|exact L]. eapply incl_tran; [apply incl_filter|exact L].
Qed.
Lemma position_none : forall a t, (forall e, In e t -> pi_pos e <> a) -> position_of a t = None.
Proof. intros a t. induction t as [|x t IH]; intro H; [reflexivity|]. cbn [position_of]. destruct (N.eqb_spec (pi_pos x) a) as [E|E]; [exfalso; apply (H x); [left; reflexivity|exact E]|]. rewrite IH; [reflexivity|]. intros e He. apply H. right. exact He. Qed.
Lemma connect_keeps : forall p b i l b', (forall e, In e l -> pi_pos e <> bs_accept b) -> connect_successors p b i l = Ret b' -> bs_builder b' = bs_builder b /\ bs_accept b' = bs_accept b.
Proof.
  intros p b i l b' H. unfold connect_successors. destruct (rs_debug_assert _ _); cbn [bind]; try discriminate. destruct (filter_edges b i l) as [t1| |] eqn:F; cbn [bind]; try discriminate.
  rewrite position_none; [|intros e He; apply H; exact (filter_edges_in _ _ _ _ F e He)]. cbn [bind]. intro E. injection E as <-. split; reflexivity.
Qed.
Lemma regions_keep : forall p ls b l b', (forall e, In e l -> pi_pos e <> bs_accept b) -> connect_regions p b ls l = Ret b' -> bs_builder b' = bs_builder b.
Proof.
  intros p ls. induction ls as [|x ls IH]; intros b l b' H; cbn [connect_regions]; [intro E; injection E as <-; reflexivity|]. destruct (connect_successors p b x l) as [b1| |] eqn:C; cbn [bind]; try discriminate.
  intro E. destruct (connect_keeps _ _ _ _ _ H C) as [B A]. rewrite <- B. apply (IH _ l); [rewrite A; exact H|exact E].
Qed.
Lemma y_new : forall p lf d b, (2 < lf)%nat -> get_accept b <> get_start_dot_star b -> call p G lf (S (S (S (S (S (S (S (S d)))))))) (Some "GlushkovBuildState") "new" [v_builder b] =
  (let! s := make_glushkov_build_state p b in Ret (Some (v_bs s, [v_builder (bs_builder s)]))).
Proof.
  intros p lf d b Hl Hb. enter. unfold make_glushkov_build_state. repeat lhs. cbn [bs_start bs_start_ds].
  pose proof (y_regions p lf d (BuildState (get_start b) (get_start_dot_star b) (get_accept b) (get_accept_eod b) b []) [pi_from (get_start b); pi_from (get_start_dot_star b)] [pi_from (get_start_dot_star b)]) as R.
  unfold v_bs at 1 in R. unfold v_map in R. cbn [bs_start bs_start_ds bs_accept bs_accept_eod bs_builder bs_successors map] in R. rewrite R by (cbn [List.length]; lia).
  destruct (connect_regions _ _ _ _) as [s| |] eqn:C; [|reflexivity|reflexivity]. cbn [bind]. repeat lhs.
  replace (bs_builder s) with b; [reflexivity|]. symmetry. apply (regions_keep _ _ _ _ _) in C; [exact C|]. intros e [<-|[]]. cbn. congruence.
Qed.
Lemma y_make : forall p lf d b, (2 < lf)%nat -> get_accept b <> get_start_dot_star b -> call p G lf (S (S (S (S (S (S (S (S (S d))))))))) None "make_glushkov_build_state" [v_builder b] =
  (let! s := make_glushkov_build_state p b in Ret (Some (v_bs s, [v_builder (bs_builder s)]))).
Proof.
  intros p lf d b Hl Hb. pose proof (y_new p lf d b Hl Hb) as Y. destruct (make_glushkov_build_state p b) as [s| |]; enter; repeat lhs; rewrite Y; [|reflexivity|reflexivity]. cbn [bind]. repeat lhs. reflexivity.
Qed.
