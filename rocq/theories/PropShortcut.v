(** Properties C31 and C32: literals recognised in expressions. *)
From Verif Require Import Base ModelUtil ModelBitField ModelCharReach ModelLiteral ModelReport ModelPetgraph ModelParser ModelNfa ModelSmallWrite ModelCompiler
  SpecSet SpecGrammar SpecTrie SpecTree ProofBase ProofLiteral ProofGrammar ProofParser ProofTree ProofVerb ProofShortcut PropParser.
Local Open Scope N_scope.
Local Open Scope list_scope.

(** Recognition of a literal in a tree. *)
Definition recognise (p : profile) (t : component) : outcome (result unit literal) :=
  walk_component p (construct_literal_visitor p) lit_default t.

(** ** C31 *)
Theorem C31_language : forall p t l, finalized t -> recognise p t = Ret (ROk l) ->
  lit_wf l /\ forall w, tree_matches t w <-> lit_matches (lit_s l) (lit_nocase l) w.
Proof.
  intros p t l F E. unfold recognise in E. rewrite walk_ok in E by exact F. unfold walk_result in E.
  destruct (elems t) as [es|] eqn:Es; [|discriminate]. injection E as <-. split.
  - unfold lit_wf, lit_add, lit_default. cbn. rewrite !map_length. reflexivity.
  - intro w. rewrite (elems_lang t F es Es). reflexivity.
Qed.
(** Recognition succeeds exactly for trees without alternation whose classes are
    single bytes or the two cases of a letter; it never panics. *)
Theorem C31_recognised_iff : forall p t, finalized t ->
  ((exists l, recognise p t = Ret (ROk l)) <-> literal_tree t) /\ (recognise p t = Ret (RErr tt) <-> ~ literal_tree t).
Proof.
  intros p t F. unfold recognise. rewrite walk_ok by exact F. rewrite <- (elems_literal_tree t F). unfold walk_result.
  destruct (elems t) as [es|]; split; split.
  - eauto.
  - eauto.
  - discriminate.
  - intro H. exfalso. apply H. eauto.
  - intros (l & E). discriminate E.
  - intros (es & E). discriminate E.
  - intros _ (es & E). discriminate E.
  - reflexivity.
Qed.
(** Every parse yields such a tree, so for accepted expressions the literal has
    the language of the text. *)
Theorem C31_parsed : forall p s m t m', parse p s m = Ret (ROk (t, m')) -> finalized t /\
  forall l, recognise p t = Ret (ROk l) ->
  forall body e, starts s m body m' -> wf_expr e -> text e = body ->
  forall w, lang (caseless m) e w <-> lit_matches (lit_s l) (lit_nocase l) w.
Proof.
  intros p s m t m' E. pose proof E as E0. apply C13_tree_iff in E0. destruct E0 as (b0 & e0 & St0 & A0 & G0 & W0 & T0 & Et).
  assert (F : finalized t) by (rewrite Et; apply tree_finalized). split; [exact F|]. intros l R body e St W T w.
  rewrite <- (C14_language p s m t m' E body e St W T w). apply (C31_language p t l F R).
Qed.
Example C31_case : exists t l, parse release (lit "a(B.)") (mode_new CASELESS) = Ret (ROk (t, mode_new CASELESS)) /\
  recognise release t = Ret (ROk l) /\ l = Literal [65; 66; 46] [true; true; false] /\ literal_tree t /\
  lit_matches (lit_s l) (lit_nocase l) [65; 98; 46] /\ ~ lit_matches (lit_s l) (lit_nocase l) [65; 98].
Proof.
  exists (tree true [[Ch 97; Grp [[Ch 66; Ch 46]]]]), (Literal [65; 66; 46] [true; true; false]). conjs; try (vm_compute; reflexivity).
  - apply (C31_recognised_iff release _ (tree_finalized true _)). eexists. vm_compute. reflexivity.
  - cbn. unfold byte_matches. vm_compute. intuition.
  - cbn. intuition.
Qed.

(** ** C32 *)
(** What the compiler does with an accepted expression. *)
Theorem C32_literal : forall p n s m t m' body ei, parse p s m = Ret (ROk (t, m')) -> starts s m body m' ->
  allow_literal (cc_grey (ng_cc n)) = true -> ex_index ei < 2 ^ 32 -> literal_text body ->
  shortcut_literal p n (ParsedExpression ei t) =
  ng_add_literal p n (text_literal (caseless m) body) (ex_index ei) (ex_report ei) (ex_highlander ei) (ex_som ei) (ex_quiet ei).
Proof.
  intros p n s m t m' body ei E St Al Hi L. apply C13_tree_iff in E. destruct E as (b0 & e & St0 & A & G & W & T & ->).
  destruct (starts_fun _ _ _ _ _ _ St St0) as [<- _]. rewrite <- T in A. unfold shortcut_literal. rewrite Al. cbn [negb pe_component pe_expr].
  rewrite walk_tree by assumption. rewrite T. apply literal_text_iff in L. destruct L as [L1 L2]. rewrite L1. cbn [bind].
  rewrite text_literal_empty. destruct (lit_text body) as [|c r] eqn:Tx; [contradiction|]. unfold to_u32. replace (ex_index ei <? 2 ^ 32) with true by lia. reflexivity.
Qed.
(** Indices are 32-bit numbers. *)
Theorem C32_index : forall p n s m t m' body ei, parse p s m = Ret (ROk (t, m')) -> starts s m body m' ->
  allow_literal (cc_grey (ng_cc n)) = true -> 2 ^ 32 <= ex_index ei -> literal_text body ->
  shortcut_literal p n (ParsedExpression ei t) = Panic PExpect.
Proof.
  intros p n s m t m' body ei E St Al Hi L. apply C13_tree_iff in E. destruct E as (b0 & e & St0 & A & G & W & T & ->).
  destruct (starts_fun _ _ _ _ _ _ St St0) as [<- _]. rewrite <- T in A. unfold shortcut_literal. rewrite Al. cbn [negb pe_component pe_expr].
  rewrite walk_tree by assumption. rewrite T. apply literal_text_iff in L. destruct L as [L1 L2]. rewrite L1. cbn [bind].
  rewrite text_literal_empty. destruct (lit_text body) as [|c r] eqn:Tx; [contradiction|]. unfold to_u32. replace (ex_index ei <? 2 ^ 32) with false by lia. reflexivity.
Qed.
Theorem C32_not_literal : forall p n s m t m' body ei, parse p s m = Ret (ROk (t, m')) -> starts s m body m' ->
  ~ literal_text body -> shortcut_literal p n (ParsedExpression ei t) = Ret (n, ROk false).
Proof.
  intros p n s m t m' body ei E St L. apply C13_tree_iff in E. destruct E as (b0 & e & St0 & A & G & W & T & ->).
  destruct (starts_fun _ _ _ _ _ _ St St0) as [<- _]. rewrite <- T in A. unfold shortcut_literal. destruct (allow_literal (cc_grey (ng_cc n))); [|reflexivity].
  cbn [negb pe_component pe_expr]. rewrite walk_tree by assumption. rewrite T. rewrite literal_text_iff in L.
  destruct (existsb (N.eqb 124) body) eqn:X; [reflexivity|]. cbn [bind]. rewrite text_literal_empty. destruct (lit_text body); [reflexivity|].
  exfalso. apply L. split; [reflexivity|discriminate].
Qed.
Theorem C32_never_mixed : forall nocase body, mixed_sensitivity (lit_iter (text_literal nocase body)) = false.
Proof. exact text_literal_not_mixed. Qed.
(** The expression goes on to the graph builder ([ROk false]) exactly when it is
    not literal text: no literal is turned away later on. *)
Theorem C32_iff : forall p n s m t m' body ei, parse p s m = Ret (ROk (t, m')) -> starts s m body m' ->
  allow_literal (cc_grey (ng_cc n)) = true -> shortcut_literals (cc_grey (ng_cc n)) = true ->
  ((exists n', shortcut_literal p n (ParsedExpression ei t) = Ret (n', ROk false)) <-> ~ literal_text body).
Proof.
  intros p n s m t m' body ei E St Al Sl. split.
  - intros (n' & X) L. destruct (N.ltb_spec (ex_index ei) (2 ^ 32)) as [Hi|Hi]; [|rewrite (C32_index p n s m t m' body ei E St Al Hi L) in X; discriminate X]. rewrite (C32_literal p n s m t m' body ei E St Al Hi L) in X. revert X. unfold ng_add_literal.
    pose proof L as L'. apply literal_text_iff in L'. destruct L' as [_ L2]. rewrite text_literal_empty.
    destruct (lit_text body) as [|c r]; [contradiction|]. unfold rs_debug_assert. cbn [negb]. rewrite andb_false_r. cbn [bind].
    rewrite Sl, text_literal_not_mixed. cbn [negb]. destruct (register_ext_report _ _ _) as [rm1 [u|e]]; [|intro X; discriminate X].
    destruct (literal_report_id _ _ _ _ _ _ _) as [[n2 [id|e]]|w|]; cbn [bind]; try (intro X; discriminate X).
    destruct (depth_try_from_usize _) as [d|]; [|intro X; discriminate X].
    destruct (smwr_add_literal _ _ _ _) as [sm|w|]; cbn [bind]; intro X; discriminate X.
  - intro L. exists n. eapply C32_not_literal; eassumption.
Qed.
(** The literal of a text, spelled out. *)
Theorem C32_bytes : forall nocase body i,
  nth_error (lit_s (text_literal nocase body)) i = option_map (fun c => if nocase then upper_case c else c) (nth_error (lit_text body) i) /\
  (forall c, nth_error (lit_text body) i = Some c ->
     (nth_error (lit_nocase (text_literal nocase body)) i = Some true <-> nocase = true /\ is_letter c)) /\
  List.length (lit_nocase (text_literal nocase body)) = List.length (lit_text body).
Proof.
  intros nocase body i. unfold text_literal. cbn [lit_s lit_nocase]. rewrite !nth_error_map, map_length. conjs; [reflexivity| |reflexivity].
  intros c ->. cbn [option_map]. unfold flagged, is_letter_b, is_letter, is_upper, is_lower. destruct nocase; cbn [andb]; split; intro H.
  - injection H as H. split; [reflexivity|]. lia.
  - f_equal. lia.
  - discriminate.
  - destruct H; discriminate.
Qed.
Example C32_case : literal_text (lit "a(B.)") /\ ~ literal_text (lit "a|b") /\ ~ literal_text (lit "(())") /\
  text_literal true (lit "a(B.)") = Literal [65; 66; 46] [true; true; false] /\
  text_literal false (lit "a(B.)") = Literal [97; 66; 46] [false; false; false].
Proof.
  rewrite !literal_text_iff. conjs; try (vm_compute; congruence); try (vm_compute; reflexivity); vm_compute; intuition congruence.
Qed.

Print Assumptions C31_language.
Print Assumptions C31_recognised_iff.
Print Assumptions C31_parsed.
Print Assumptions C32_literal.
Print Assumptions C32_index.
Print Assumptions C32_not_literal.
Print Assumptions C32_never_mixed.
Print Assumptions C32_iff.
Print Assumptions C32_bytes.
