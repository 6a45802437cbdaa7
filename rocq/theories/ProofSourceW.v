(** Runs of the source text: the walk of [shortcut_literal] over a tree. *)
From Verif Require Import Base ModelUtil ModelBitField ModelCharReach ModelLiteral ModelReport ModelPetgraph ModelParser ModelNfa ModelSmallWrite ModelCompiler
  ModelRust ModelInterp ModelDump ModelSource SpecSource SpecSourceCrate.
From Verif Require Import ProofBase ProofSourceA ProofSourceB ProofSourceC ProofSourceD ProofSourceE ProofSourceF ProofSourceL ProofSourceR ProofSourceS ProofSourceT ProofSourceU.
Local Open Scope string_scope.
Local Open Scope N_scope.
Local Open Scope list_scope.
Definition v_vis (l : literal) : val := VStruct "ConstructLiteralVisitor" [("lit", v_lit l)].
#[global] Arguments v_vis : simpl never.
Lemma co_vis : forall ty0 l, coerce ty0 (v_vis l) = v_vis l.
Proof. coerced. Qed.
#[export] Hint Rewrite co_vis : coerced.
Definition v_walked (r : result unit literal) : val := match r with ROk _ => ok_ VUnit | RErr _ => VCtor "Err" [VStruct "NotLiteral" []] end.
Definition left_by (l : literal) (r : result unit literal) : val := v_vis (match r with ROk l' => l' | RErr _ => l end).
#[export] Hint Rewrite r_is_caseless_char using lia : calls.
Lemma w_pre : forall p lf d l c, (300 <= lf)%nat -> call p G lf (S (S (S (S (S (S (S d))))))) (Some "ConstructLiteralVisitor") "pre_ascii_component_class" [v_vis l; v_ac c] =
  (let! r := lit_pre_class p l c in Ret (Some (v_walked r, [left_by l r; v_ac c]))).
Proof.
  enter. unfold lit_pre_class, v_vis. auto_; try (match goal with x : option N |- _ => destruct x end; auto_).
Qed.
#[export] Hint Rewrite w_pre using lia : calls.
