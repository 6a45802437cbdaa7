(** Runs of the source text: control verbs and the ends of groups. *)
From Verif Require Import Base ModelUtil ModelBitField ModelCharReach ModelParser ModelRust ModelInterp ModelDump ModelSource SpecSource.
From Verif Require Import ProofSourceA ProofSourceB ProofSourceC ProofSourceD ProofSourceE ProofSourceF ProofSourceL ProofSourceM.
Local Open Scope string_scope.
Local Open Scope N_scope.
Local Open Scope list_scope.
Arguments starts_with _ _ : simpl never.
Ltac lits := repeat match goal with |- context[lit ?s] => let r := eval vm_compute in (lit s) in change (lit s) with r end.
Ltac any_ := match goal with |- context [match_any ?q ?v ?e] => let r := norm (match_any q v e) in progress (change (match_any q v e) with r) end.
Ltac deep_ := match goal with |- ?L = _ => let n := waits L in match n with context [str_eqb ?a ?b] => split_ (str_eqb a b) end end.
Ltac auto_v := exe; fin; try first [any_; auto_v | deep_; auto_v | case_; auto_v].
Definition v_verbs (m : parse_mode) (start : N) (s : str) (r : result compile_error (str * parse_mode)) : val * list val :=
  match r with
  | ROk (rest, m') => (Ok_ (VStr rest), [VStr s; VInt Usize start; v_mode m'])
  | RErr e => (Err_ (v_err e), [VStr s; VInt Usize start; v_mode m])
  end.
Lemma l_verbs : forall p lf d s start m, call p G lf (S (S d)) None "read_control_verbs" [VStr s; VInt Usize start; v_mode m] =
  (let! r := read_control_verbs p s start m in Ret (Some (v_verbs m start s r))).
Proof.
  enter. destruct m as [c0 d0 i0 m0 u0 t0]. cbv beta iota delta [v_mode caseless dotall ignore_space multiline ucp utf8]. unfold read_control_verbs, unsupported_verbs. cbn [existsb].
  repeat lhs. rewrite l_control_verb. destruct (control_verb s) as [[rest verb]|]; [|auto_].
  lits. auto_v; cbn [app]; unfold v_verbs, v_err, error_new; cbn [err_kind err_reason err_index]; rewrite ?app_nil_r; reflexivity.
Qed.
Lemma mutating_pop : forall l x, mutating "pop" (VList (l ++ [x])) [] = Some (some_ x, VList l).
Proof. intros. unfold mutating. cbn [String.eqb Ascii.eqb Bool.eqb]. rewrite rev_app_distr. cbn [rev app]. rewrite rev_involutive. reflexivity. Qed.
Lemma l_pop_empty : forall p lf d ptr q ml gi ch a ci cn,
  call p G lf (S (S (S (S d)))) (Some "Context") "pop_sequence" [cx_ ptr q (mo_ ml) [] gi (seq_ ch a ci cn)] =
  Ret (Some (Err_ (err_ "ErrorKind::LocatedParse" (lit "Unmatched parentheses") None_), [cx_ ptr q (mo_ ml) [] gi (seq_ ch a ci cn)])).
Proof. enter. auto_. Qed.
Lemma l_pop_none : forall p lf d ptr q ml l ch a ci cn o ml2 gi ch2 ci2 cn2,
  call p G lf (S (S (S (S d)))) (Some "Context") "pop_sequence" [cx_ ptr q (mo_ ml) (l ++ [es_ (seq_ ch a ci cn) o ml2]) gi (seq_ ch2 None_ ci2 cn2)] =
  Ret (Some (Ok_ VUnit, [cx_ ptr q (mo_ ml2) l gi (seq_ (ch ++ [VCtor "Component::Sequence" [seq_ ch2 None_ ci2 cn2]]) a ci cn)])).
Proof. enter. repeat lhs. rewrite mutating_pop. auto_. Qed.
Lemma l_pop_some : forall p lf d ptr q ml l ch a ci cn o ml2 gi ch2 br ci2 cn2,
  call p G lf (S (S (S (S d)))) (Some "Context") "pop_sequence" [cx_ ptr q (mo_ ml) (l ++ [es_ (seq_ ch a ci cn) o ml2]) gi (seq_ ch2 (Some_ (alt_ br)) ci2 cn2)] =
  Ret (Some (Ok_ VUnit, [cx_ ptr q (mo_ ml2) l gi (seq_ (ch ++ [VCtor "Component::Sequence" [seq_ [VCtor "Component::Alternation" [alt_ (br ++ [seq_ ch2 None_ None_ None_])]] None_ ci2 cn2]]) a ci cn)])).
Proof. enter. repeat lhs. rewrite mutating_pop. auto_. Qed.
#[export] Hint Rewrite l_pop_empty l_pop_none l_pop_some : calls.
Lemma l_exit_empty : forall p lf d ptr q ml gi ch a ci cn,
  call p G lf (S (S (S (S (S d))))) (Some "Context") "exit_group" [cx_ ptr q (mo_ ml) [] gi (seq_ ch a ci cn)] =
  Ret (Some (Err_ (err_ "ErrorKind::LocatedParse" (lit "Unmatched parentheses") None_), [cx_ ptr q (mo_ ml) [] gi (seq_ ch a ci cn)])).
Proof. enter. auto_. Qed.
Lemma l_exit_none : forall p lf d ptr q ml l ch a ci cn o ml2 gi ch2 ci2 cn2,
  call p G lf (S (S (S (S (S d))))) (Some "Context") "exit_group" [cx_ ptr q (mo_ ml) (l ++ [es_ (seq_ ch a ci cn) o ml2]) gi (seq_ ch2 None_ ci2 cn2)] =
  Ret (Some (Ok_ VUnit, [cx_ ptr q (mo_ ml2) l gi (seq_ (ch ++ [VCtor "Component::Sequence" [seq_ ch2 None_ ci2 cn2]]) a ci cn)])).
Proof. enter. auto_. Qed.
Lemma l_exit_some : forall p lf d ptr q ml l ch a ci cn o ml2 gi ch2 br ci2 cn2,
  call p G lf (S (S (S (S (S d))))) (Some "Context") "exit_group" [cx_ ptr q (mo_ ml) (l ++ [es_ (seq_ ch a ci cn) o ml2]) gi (seq_ ch2 (Some_ (alt_ br)) ci2 cn2)] =
  Ret (Some (Ok_ VUnit, [cx_ ptr q (mo_ ml2) l gi (seq_ (ch ++ [VCtor "Component::Sequence" [seq_ [VCtor "Component::Alternation" [alt_ (br ++ [seq_ ch2 None_ None_ None_])]] None_ ci2 cn2]]) a ci cn)])).
Proof. enter. auto_. Qed.
#[export] Hint Rewrite l_exit_empty l_exit_none l_exit_some : calls.
