(** Runs of the source text: what [compile] does not call of the graph and of the build state. *)
From Verif Require Import Base ModelUtil ModelBitField ModelCharReach ModelLiteral ModelReport ModelPetgraph ModelParser ModelNfa ModelSmallWrite ModelCompiler
  ModelRust ModelInterp ModelDump ModelSource SpecSource SpecSourceCrate.
From Verif Require Import ProofBase ProofSourceA ProofSourceB ProofSourceC ProofSourceD ProofSourceE ProofSourceF ProofSourceL ProofSourceR ProofSourceS ProofSourceT ProofSourceU ProofSourceW ProofSourceX ProofSourceV ProofSourceZ.
Local Open Scope string_scope.
Local Open Scope N_scope.
Local Open Scope list_scope.
Lemma find_edge_is : forall {A} (g : graph A) a b, existsb (fun e => let (x, y) := edge_ends e in (x =? a) && (y =? b)) (map (fun e => VTuple [VInt U32 (fst e); VInt U32 (snd e)]) (edges g)) = has_edge g a b.
Proof. intros A g a b. unfold has_edge. induction (edges g) as [|e l IH]; [reflexivity|]. cbn [map existsb]. rewrite IH. reflexivity. Qed.
Lemma y_vacuous : forall p lf d h, call p G lf (S d) (Some "NgHolder") "is_vacuous" [v_holder h] = Ret (Some (VBool (is_vacuous h), [v_holder h])).
Proof.
  enter. unfold is_vacuous. repeat lhs. rewrite ?find_edge_is. destruct (has_edge (inner h) (start h) (accept h)); [auto_; reflexivity|]. repeat lhs.
  rewrite ?find_edge_is. destruct (has_edge (inner h) (start h) (accept_eod h)); [auto_; reflexivity|]. repeat lhs.
  rewrite ?find_edge_is. destruct (has_edge (inner h) (start_ds h) (accept h)); [auto_; reflexivity|]. repeat lhs.
  rewrite ?find_edge_is. destruct (has_edge (inner h) (start_ds h) (accept_eod h)); auto_; reflexivity.
Qed.

