(** Runs of the source text: describe_class. *)
From Verif Require Import Base ModelUtil ModelBitField ModelCharReach ModelDump ModelRust ModelInterp ModelSource SpecSource SpecSet SpecDump ProofBitField ProofBitField2 ProofDump.
From Verif Require Import ProofSourceA ProofSourceB ProofSourceC ProofSourceD ProofSourceE ProofSourceF ProofSourceG ProofSourceH ProofSourceI.
Local Open Scope string_scope.
Local Open Scope N_scope.
Local Open Scope list_scope.
Strategy -100 [bindv val_ bind].
Strategy 400 [exec eval step call loop].
Lemma d_class : forall p lf d out b m o, (300 <= lf)%nat -> wf b -> call p G lf (S (S (S (S (S (S (S (S (S d))))))))) None "describe_class" [VStr out; v_cr b; VInt Usize m; v_out o] =
  (let! s := describe_class p b m o in Ret (Some (ok_ VUnit, [VStr (out ++ s); v_cr b; VInt Usize m; v_out o]))).
Proof.
  intros p lf d out b m o Hl Hb. enter. unfold describe_class.
  assert (Hn : wf (cr_not b)) by (apply bf_not_ok; exact Hb).
  exe. case_; [auto_|]. exe. case_; [auto_|]. exe. case_; [auto2; reflexivity|]. exe. case_; [auto2; rewrite <- ?app_assoc; reflexivity|].
  exe. destruct (describe_class_int p b m o) as [[s1 n1]| |]; [|exe; reflexivity..]. cbn [bind app]. exe.
  destruct (describe_class_int p (cr_not b) m o) as [[s2 n2]| |]; [|exe; reflexivity..]. cbn [bind app]. exe.
  auto_. rewrite <- !app_assoc. reflexivity.
Qed.
