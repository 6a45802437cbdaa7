(** What [compile] keeps while it adds expressions: the configuration, and literals no longer than their patterns. *)
From Verif Require Import Base ModelUtil ModelBitField ModelCharReach ModelLiteral ModelReport ModelPetgraph ModelParser ModelNfa ModelSmallWrite ModelCompiler
  SpecGrammar SpecTree SpecLang.
From Verif Require Import ModelRust ModelInterp ModelSource SpecSource SpecSourceCrate.
From Verif Require Import ProofBase ProofCompile ProofShortcut PropParser.
Local Open Scope N_scope.
Local Open Scope list_scope.
Definition keeps (n n' : ng) : Prop := ng_cc n' = ng_cc n /\ rm_limit (ng_rm n') = rm_limit (ng_rm n) /\ sw_grey (ng_smwr n') = sw_grey (ng_smwr n).
Lemma keeps_grey : forall n n', one_grey n -> keeps n n' -> one_grey n'.
Proof. unfold one_grey, keeps. intros n n' [A B] (C & D & E). rewrite C, D, E. split; assumption. Qed.
Lemma keeps_trans : forall a b c, keeps a b -> keeps b c -> keeps a c.
Proof. unfold keeps. intros a b c (A & B & C) (D & E & F). repeat split; congruence. Qed.
Lemma keeps_refl : forall a, keeps a a.
Proof. unfold keeps. auto. Qed.
Lemma register_limit : forall rm id x, rm_limit (fst (register_ext_report rm id x)) = rm_limit rm.
Proof. intros rm id x. unfold register_ext_report. destruct (assoc _ _ _) as [e|]; [destruct (negb _)|]; reflexivity. Qed.
Lemma internal_limit : forall rm r rm' x, get_internal_id rm r = Ret (rm', x) -> rm_limit rm' = rm_limit rm.
Proof.
  intros rm r rm' x. unfold get_internal_id. repeat match goal with |- context[match ?a with _ => _ end] => destruct a end; cbn [bind]; intro E; inversion E; reflexivity.
Qed.
Lemma exhaust_limit : forall rm r rm' x, get_exhaustible_key rm r = Ret (rm', x) -> rm_limit rm' = rm_limit rm.
Proof.
  intros rm r rm' x. unfold get_exhaustible_key. cbv zeta. repeat match goal with |- context[match ?a with _ => _ end] => destruct a end; cbn [bind]; intro E; inversion E; reflexivity.
Qed.
Lemma add_smwr_grey : forall p s l r s', smwr_add_literal p s l r = Ret s' -> sw_grey s' = sw_grey s.
Proof.
  intros p s l r s'. unfold smwr_add_literal. destruct (sw_poisoned s); [intro E; inversion E; reflexivity|]. destruct (_ <? lit_len l); [intro E; inversion E; reflexivity|].
  destruct (chk_add _ _ _ _) as [n| |]; cbn [bind]; [|discriminate|discriminate]. cbv zeta. destruct (_ <? n); [intro E; inversion E; reflexivity|].
  destruct (lit_any_nocase l); destruct (add_to_trie l r _) as [[t ok]| |]; cbn [bind]; try discriminate; intro E; inversion E; destruct ok; reflexivity.
Qed.
Lemma report_keeps : forall p n l r hl som q n' x, literal_report_id p n l r hl som q = Ret (n', x) -> keeps n n'.
Proof.
  intros p n l r hl som q n' x. unfold literal_report_id. destruct som.
  - destruct hl; [destruct (get_exhaustible_key _ _) as [[rm1 k]| |] eqn:E1; cbn [bind]; [|discriminate|discriminate]|cbn [bind]];
      (destruct (get_internal_id _ _) as [[rm2 j]| |] eqn:E2; cbn [bind]; [|discriminate|discriminate]); intro E; inversion E; subst; apply internal_limit in E2; try apply exhaust_limit in E1;
      unfold keeps; cbn [ng_cc ng_rm ng_smwr ng_set_rm]; repeat split; congruence.
  - destruct (rs_debug_assert _ _); cbn [bind]; try discriminate. cbv zeta. destruct (get_internal_id _ _) as [[rm2 j]| |] eqn:E2; cbn [bind]; [|discriminate|discriminate].
    intro E; inversion E; subst; apply internal_limit in E2. unfold keeps; cbn; repeat split; congruence.
Qed.
Lemma literal_keeps : forall p n l i r hl som q n' x, ng_add_literal p n l i r hl som q = Ret (n', x) -> keeps n n'.
Proof.
  intros p n l i r hl som q n' x. unfold ng_add_literal. destruct (rs_debug_assert _ _); cbn [bind]; try discriminate.
  destruct (negb _); [intro E; inversion E; apply keeps_refl|]. destruct (mixed_sensitivity _); [intro E; inversion E; apply keeps_refl|].
  pose proof (register_limit (ng_rm n) r (ExtInfo hl i)) as R. destruct (register_ext_report _ _ _) as [rm1 reg]. cbn [fst] in R. cbv zeta.
  assert (K : keeps n (ng_set_rm n rm1)) by (unfold keeps; cbn; auto).
  destruct reg; [|intro E; inversion E; subst; exact K].
  destruct (literal_report_id _ _ _ _ _ _ _) as [[n2 rid]| |] eqn:L; cbn [bind]; [|discriminate|discriminate]. apply report_keeps in L. apply (keeps_trans _ _ _ K) in L.
  destruct rid; [|intro E; inversion E; subst; exact L]. destruct (depth_try_from_usize _); [|intro E; inversion E; subst; exact L].
  destruct (smwr_add_literal _ _ _ _) as [s'| |] eqn:S; cbn [bind]; [|discriminate|discriminate]. apply add_smwr_grey in S. intro E; inversion E; subst.
  destruct L as (A & B & C). unfold keeps. cbn [ng_cc ng_rm ng_smwr]. repeat split; congruence.
Qed.
Lemma add_keeps : forall p n i s f id n' x, add_expression p n i s f id = Ret (n', x) -> keeps n n'.
Proof.
  intros p n i s f id n' x. unfold add_expression. destruct (_ <? str_len s); [intro E; inversion E; apply keeps_refl|].
  destruct (parsed_expression_new _ _ _ _ _) as [[pe|e]| |]; cbn [bind]; try discriminate; [|intro E; inversion E; apply keeps_refl].
  assert (K : forall n1 r, shortcut_literal p n pe = Ret (n1, r) -> keeps n n1).
  { intros n1 r. unfold shortcut_literal. destruct (negb _); [intro E; inversion E; apply keeps_refl|]. destruct (walk_component _ _ _ _) as [[m|]| |]; cbn [bind]; try discriminate; [|intro E; inversion E; apply keeps_refl].
    destruct (lit_is_empty m); [intro E; inversion E; apply keeps_refl|]. destruct (to_u32 _); cbn [bind]; try discriminate. apply literal_keeps. }
  destruct (shortcut_literal p n pe) as [[n1 r]| |]; cbn [bind]; [|discriminate|discriminate]. specialize (K _ _ eq_refl). destruct r as [[]|].
  - intro E; inversion E; subst; exact K.
  - destruct (build_graph p pe) as [[ei g]| |]; cbn [bind]; [|discriminate|discriminate]. intro E; inversion E; subst. destruct K as (A & B & C). unfold add_graph. destruct (ex_som ei); unfold keeps; cbn; auto.
  - intro E; inversion E; subst; exact K.
Qed.
Lemma literal_short : forall p i s f id pe m, parsed_expression_new p i s f id = Ret (ROk pe) ->
  walk_component p (construct_literal_visitor p) lit_default (pe_component pe) = Ret (ROk m) -> N.of_nat (List.length (lit_s m)) <= str_len s.
Proof.
  intros p i s f id pe m. unfold parsed_expression_new. destruct (contains f _); [discriminate|]. cbv zeta.
  destruct (ModelParser.parse p s _) as [[[c md]|]| |] eqn:P; cbn [bindr bind]; try discriminate. intro E; inversion E; subst; clear E. cbn [pe_component].
  apply C13_tree_iff in P. destruct P as (body & e & St & A & _ & W & T & ->). rewrite <- T in A. rewrite walk_tree by assumption. rewrite T.
  destruct (existsb _ _); intro E; inversion E; subst. unfold text_literal. cbn [lit_s]. rewrite map_length.
  assert (L : (List.length (lit_text (SpecGrammar.text e)) <= List.length (SpecGrammar.text e))%nat) by (unfold lit_text; generalize (SpecGrammar.text e); intro l; induction l as [|x l IH]; cbn [filter List.length]; [lia|]; destruct (negb _); cbn [List.length]; lia).
  assert (M : (List.length (SpecGrammar.text e) <= List.length s)%nat).
  { destruct St as [|? ? ? [-> _]|? ? ? ? [-> _]]; [lia| |]; cbn [List.length]; rewrite app_length; cbn [List.length]; lia. }
  pose proof (str_len_length s). lia.
Qed.
