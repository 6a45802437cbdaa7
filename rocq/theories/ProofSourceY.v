(** Runs of the source text: a single expression. *)
From Verif Require Import Base ModelUtil ModelBitField ModelCharReach ModelLiteral ModelReport ModelPetgraph ModelParser ModelNfa ModelSmallWrite ModelCompiler
  ModelRust ModelInterp ModelDump ModelSource SpecSource SpecSourceCrate.
From Verif Require Import ProofBase ProofSourceA ProofSourceB ProofSourceC ProofSourceD ProofSourceE ProofSourceF ProofSourceL ProofSourceR ProofSourceS ProofSourceT ProofSourceU ProofSourceW ProofSourceX ProofSourceP ProofSourceQ ProofSourceV.
Local Open Scope string_scope.
Local Open Scope N_scope.
Local Open Scope list_scope.
Lemma mode_after_is : forall p s m c m', ModelParser.parse p s m = Ret (ROk (c, m')) -> mode_after p s m = m'.
Proof.
  intros p s m c m'. unfold ModelParser.parse, mode_after. destruct (read_control_verbs p s 0 m) as [[[rest m1]|]| |]; cbn [bind bindr]; try discriminate.
  destruct (cx_parse p (context_new s rest m1)) as [[c1|]| |]; cbn [bind bindr]; try discriminate. intro H. inversion H. reflexivity.
Qed.
#[export] Hint Rewrite m_parse using first [lia|assumption] : calls.
Lemma y_new : forall p lf d i s f id, (300 <= lf)%nat -> (List.length s < lf)%nat ->
  call p G lf (S (S (S (S (S (S (S (S (S (S (S (S (S d))))))))))))) (Some "ParsedExpression") "new" [VInt Usize i; VStr s; v_flags f; VInt U32 id] =
  (let! r := parsed_expression_new p i s f id in Ret (Some (v_res v_pexpr r, [VInt Usize i; VStr s; v_flags f; VInt U32 id]))).
Proof. enter. unfold parsed_expression_new. auto_. destruct a as [[c m]|e]; cbn [v_res fst]; [rewrite (mode_after_is _ _ _ _ _ Heqo)|]; auto_.
Qed.
#[export] Hint Rewrite y_new using first [lia|assumption] : calls.
Lemma y_shortcut : forall p lf d n pe, one_grey n -> (6 <= d)%nat -> (need (pe_component pe) <= d)%nat -> (300 + need (pe_component pe) <= lf)%nat ->
  (forall m, walk_component p (construct_literal_visitor p) lit_default (pe_component pe) = Ret (ROk m) -> N.of_nat (List.length (lit_s m)) < 2 ^ usize_bits p) ->
  call p G lf (S d) None "shortcut_literal" [v_ng n; v_pexpr pe] =
  (let! (n', r) := shortcut_literal p n pe in Ret (Some (v_res VBool r, [v_ng n'; v_pexpr pe]))).
Proof.
  intros p lf d n pe Hg Hd1 Hd Hl Hu. do 6 (destruct d as [|d]; [lia|]). enter. unfold shortcut_literal. repeat lhs.
  destruct (allow_literal (cc_grey (ng_cc n))); cbn [negb]; [|auto_]. repeat lhs.
  change (VStruct "ConstructLiteralVisitor" [("lit", VStruct "Ue2Literal" [("s", VList []); ("nocase", VList [])])]) with (v_vis lit_default).
  destruct (x_walks p (need (pe_component pe)) (pe_component pe) lf (S (S (S (S (S (S d)))))) lit_default) as [l' E]; [lia|lia|lia|]. rewrite E. clear E.
  destruct (walk_component p (construct_literal_visitor p) lit_default (pe_component pe)) as [[m|[]]| |] eqn:W; cbn [bind]; unfold v_walked, left_by; [| |reflexivity|reflexivity].
  2: auto_.
  specialize (Hu m eq_refl). apply (walk_length p _ _ _ _ (Nat.le_refl _)) in W. cbn [lit_default lit_s List.length] in W.
  assert ((List.length (lit_s m) < lf)%nat) by lia.
  unfold v_vis, to_u32. repeat lhs.
  destruct (lit_is_empty m); [auto_|]. repeat lhs.
  destruct (ex_index (pe_expr pe) <? 2 ^ 32); cbn [bind]; repeat lhs; [|reflexivity].
  destruct (ng_add_literal p n m (ex_index (pe_expr pe)) (ex_report (pe_expr pe)) (ex_highlander (pe_expr pe)) (ex_som (pe_expr pe)) (ex_quiet (pe_expr pe))) as [[n' [b|e]]| |]; [| |reflexivity|reflexivity]; cbn [bind v_res]; auto_.
Qed.
