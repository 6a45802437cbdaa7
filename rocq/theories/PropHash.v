(** C79: the order of a hash set. *)
From Coq Require Import Permutation.
From Verif Require Import Base ProofBase ModelUtil ModelLiteral ModelReport ModelPetgraph ModelParser ModelNfa ModelSmallWrite ModelCompiler ModelPinned ModelHash
  SpecPinned SpecHash PropGraph.
Local Open Scope N_scope.
Local Open Scope list_scope.

Lemma get_cases : forall rm r, (exists x, get_report rm r = Ret x /\ nth_error (report_ids rm) (N.to_nat r) = Some x /\ registered rm r) \/
  (get_report rm r = Panic PIndex /\ ~ registered rm r).
Proof.
  intros rm r. unfold get_report, registered, num_reports. destruct (N.ltb_spec r (N.of_nat (List.length (report_ids rm)))) as [L|L]; [|right; split; [reflexivity|lia]].
  destruct (nth_error (report_ids rm) (N.to_nat r)) as [x|] eqn:E; [left; exists x; conjs; auto; lia|]. apply nth_error_None in E. lia.
Qed.
(** What the first element to decide can be. *)
Lemma any_cases : forall rm l,
  (any_min_length rm l = Ret true /\ exists r, In r l /\ delayed rm r) \/
  (any_min_length rm l = Panic PIndex /\ exists r, In r l /\ ~ registered rm r) \/
  (any_min_length rm l = Ret false /\ forall r, In r l -> registered rm r /\ ~ delayed rm r).
Proof.
  intros rm l. induction l as [|r l IH]; cbn [any_min_length].
  { right; right. split; [reflexivity|]. intros r []. }
  destruct (get_cases rm r) as [(x & -> & E & R)|(-> & R)]; cbn [bind].
  - destruct (N.ltb_spec 0 (min_length x)) as [L|L].
    + left. split; [reflexivity|]. exists r. split; [left; reflexivity|]. exists x. auto.
    + destruct IH as [(-> & r' & I & D)|[(-> & r' & I & D)|(-> & A)]].
      * left. split; [reflexivity|]. exists r'. split; [right; exact I|exact D].
      * right; left. split; [reflexivity|]. exists r'. split; [right; exact I|exact D].
      * right; right. split; [reflexivity|]. intros r' [<-|I]; [|auto]. split; [exact R|]. intros (y & Ey & Ly). rewrite E in Ey. injection Ey as <-. lia.
  - right; left. split; [reflexivity|]. exists r. split; [left; reflexivity|exact R].
Qed.
Lemma any_delayed : forall rm r l, delayed rm r -> any_min_length rm (r :: l) = Ret true.
Proof.
  intros rm r l (x & E & L). cbn [any_min_length]. destruct (get_cases rm r) as [(y & -> & E' & _)|(_ & R)].
  - cbn [bind]. rewrite E in E'. injection E' as <-. replace (0 <? min_length x) with true by lia. reflexivity.
  - exfalso. apply R. unfold registered. apply nth_error_Some. congruence.
Qed.
Lemma any_unknown : forall rm r l, ~ registered rm r -> any_min_length rm (r :: l) = Panic PIndex.
Proof. intros rm r l R. cbn [any_min_length]. destruct (get_cases rm r) as [(y & _ & _ & R')|(-> & _)]; [contradiction|reflexivity]. Qed.
Lemma to_front : forall r (l : list N), In r l -> exists t, Permutation l (r :: t).
Proof. intros r l I. apply in_split in I. destruct I as (a & b & ->). exists (a ++ b). symmetry. apply Permutation_middle. Qed.

(** The order of the model is one of the possible ones. *)
Theorem C79_model : forall rm s g ei, smwr_adds rm s g ei (smwr_add_expression rm s g ei).
Proof.
  intros rm s g ei. unfold smwr_add_expression. destruct (sw_poisoned s) eqn:P; [apply adds_poisoned; exact P|].
  destruct (ex_som ei) eqn:S; [|apply adds_som; assumption]. destruct (is_vacuous g) eqn:V; [apply adds_vacuous; assumption|].
  destruct (all_reports g) as [ids|w|] eqn:A.
  - change (let! ids0 := Ret ids in let! b := any_min_length rm ids0 in if b : bool then Ret (smwr_poison s) else Panic PUnimplemented)
      with (let! b := any_min_length rm ids in if b : bool then Ret (smwr_poison s) else Panic PUnimplemented).
    eapply adds_any; eauto. constructor. apply Permutation_refl.
  - change (smwr_adds rm s g ei (let! _ := (Panic w : outcome (list N)) in Ret s)). eapply adds_lost; eauto. discriminate.
  - change (smwr_adds rm s g ei (let! _ := (Diverge : outcome (list N)) in Ret s)). eapply adds_lost; eauto. discriminate.
Qed.
(** When the reports of a graph are looked at, the outcomes that some order gives. *)
Theorem C79_outcomes : forall rm s g ei ids, looked_at s g ei ids -> forall o, smwr_adds rm s g ei o <->
  (o = Ret (smwr_poison s) /\ exists r, In r ids /\ delayed rm r) \/
  (o = Panic PIndex /\ exists r, In r ids /\ ~ registered rm r) \/
  (o = Panic PUnimplemented /\ forall r, In r ids -> registered rm r /\ ~ delayed rm r).
Proof.
  intros rm s g ei ids (P & S & V & A) o. split.
  - intro H. destruct H as [X|_ X|_ _ X|o _ _ _ X Nr|ids' o _ _ _ X [order Pm]]; try congruence.
    rewrite A in X. injection X as ->. assert (Same : forall r, In r order <-> In r ids') by (intro r; split; apply Permutation_in; [symmetry|]; exact Pm).
      destruct (any_cases rm order) as [(-> & r & I & D)|[(-> & r & I & D)|(-> & D)]]; cbn [bind].
      * left. split; [reflexivity|]. exists r. split; [apply Same; exact I|exact D].
      * right; left. split; [reflexivity|]. exists r. split; [apply Same; exact I|exact D].
      * right; right. split; [reflexivity|]. intros r I. apply D, Same, I.
  - assert (Go : forall order, Permutation ids order -> smwr_adds rm s g ei (let! b := any_min_length rm order in if b : bool then Ret (smwr_poison s) else Panic PUnimplemented)).
    { intros order Pm. eapply adds_any; eauto. constructor. exact Pm. }
    intros [(-> & r & I & D)|[(-> & r & I & D)|(-> & D)]].
    + destruct (to_front r ids I) as (t & Pm). pose proof (Go _ Pm) as X. rewrite any_delayed in X by exact D. exact X.
    + destruct (to_front r ids I) as (t & Pm). pose proof (Go _ Pm) as X. rewrite any_unknown in X by exact D. exact X.
    + pose proof (Go ids (Permutation_refl _)) as X. destruct (any_cases rm ids) as [(_ & r & I & Y)|[(_ & r & I & Y)|(E & _)]].
      * destruct (D r I) as [_ N]. contradiction.
      * destruct (D r I) as [N _]. contradiction.
      * rewrite E in X. exact X.
Qed.
(** The order matters exactly when the reports are looked at and there are both a
    report to wait for and one that was never registered. *)
Theorem C79_order : forall rm s g ei, (forall o, smwr_adds rm s g ei o -> o = smwr_add_expression rm s g ei) <->
  ~ exists ids, looked_at s g ei ids /\ (exists r, In r ids /\ delayed rm r) /\ (exists r, In r ids /\ ~ registered rm r).
Proof.
  intros rm s g ei. split.
  - intros H (ids & L & D & U). pose proof (proj2 (C79_outcomes rm s g ei ids L (Ret (smwr_poison s))) (or_introl (conj eq_refl D))) as A.
    pose proof (proj2 (C79_outcomes rm s g ei ids L (Panic PIndex)) (or_intror (or_introl (conj eq_refl U)))) as B. apply H in A, B. congruence.
  - intros N o H. pose proof (C79_model rm s g ei) as M. set (o' := smwr_add_expression rm s g ei) in *.
    assert (Dec : (exists ids, looked_at s g ei ids) \/ forall a b, smwr_adds rm s g ei a -> smwr_adds rm s g ei b -> a = b).
    { destruct (sw_poisoned s) eqn:P; [right; intros a b [] []; congruence|]. destruct (ex_som ei) eqn:S; [|right; intros a b [] []; congruence].
      destruct (is_vacuous g) eqn:V; [right; intros a b [] []; congruence|]. destruct (all_reports g) as [ids|w|] eqn:A.
      - left. exists ids. repeat split; assumption.
      - right. intros a b [] []; congruence.
      - right. intros a b [] []; congruence. }
    destruct Dec as [(ids & L)|U]; [|apply U; assumption].
    apply (C79_outcomes rm s g ei ids L) in H, M.
    destruct H as [(-> & r & I & D)|[(-> & r & I & D)|(-> & D)]], M as [(-> & r' & I' & D')|[(-> & r' & I' & D')|(-> & D')]]; try reflexivity; exfalso;
      try (apply N; exists ids; split; [exact L|]; split; eauto; fail); try (destruct (D _ I'); contradiction); destruct (D' _ I); contradiction.
Qed.
(** The graph of no parsed expression makes it matter. *)
Theorem C79_parsed : forall p ei t g rm s, build_graph p (ParsedExpression ei t) = Ret (ei, g) ->
  forall o, smwr_adds rm s g ei o -> o = smwr_add_expression rm s g ei.
Proof.
  intros p ei t g rm s E. apply C79_order. intros (ids & (_ & _ & _ & A) & (r & I & _) & _).
  destruct (C44_never_vacuous_partial _ _ _ _ E) as [_ R]. rewrite R in A. injection A as <-. destruct I.
Qed.

(** Nor does anything the crate does to a builder: no report in it has a least
    length. *)
Definition no_wait (rm : report_manager) : Prop := forall x, In x (report_ids rm) -> min_length x = 0.
Lemma internal_wait : forall rm r rm' id, min_length r = 0 -> no_wait rm -> get_internal_id rm r = Ret (rm', id) -> no_wait rm'.
Proof.
  intros rm r rm' id Z W. unfold get_internal_id. destruct (assoc _ _ _); [intros [= <- _]; exact W|]. destruct (_ <=? _); [intros [= <- _]; exact W|].
  destruct (_ <? _); [|discriminate]. intros [= <- _] x I. cbn [report_ids] in I. apply in_app_iff in I. destruct I as [I|[<-|[]]]; [apply W; exact I|exact Z].
Qed.
Lemma report_id_wait : forall p n l x h s q n' r, no_wait (ng_rm n) -> literal_report_id p n l x h s q = Ret (n', r) -> no_wait (ng_rm n').
Proof.
  intros p n l x h s q n' r W. unfold literal_report_id. destruct s.
  - destruct h.
    + destruct (get_exhaustible_key (ng_rm n) x) as [[rm1 k]|w|] eqn:K; cbn [bind]; try discriminate.
      assert (W1 : no_wait rm1). { revert K. unfold get_exhaustible_key. destruct (_ <? _); [|discriminate]. destruct (assoc N.eqb (exhaust_map (ng_rm n)) x); intros [= <- _]; exact W. }
      destruct (get_internal_id rm1 _) as [[rm2 id]|w|] eqn:G; cbn [bind]; try discriminate. intros [= <- _]. cbn. eapply internal_wait; [|exact W1|exact G]. reflexivity.
    + cbn [bind]. destruct (get_internal_id (ng_rm n) _) as [[rm2 id]|w|] eqn:G; cbn [bind]; try discriminate. intros [= <- _]. cbn. eapply internal_wait; [|exact W|exact G]. reflexivity.
  - destruct (rs_debug_assert p (negb h)); cbn [bind]; try discriminate.
    destruct (get_internal_id (ng_rm n) _) as [[rm2 id]|w|] eqn:G; cbn [bind]; try discriminate. intros [= <- _]. cbn. eapply internal_wait; [|exact W|exact G]. reflexivity.
Qed.
Lemma literal_wait : forall p n l i x h s q n' r, no_wait (ng_rm n) -> ng_add_literal p n l i x h s q = Ret (n', r) -> no_wait (ng_rm n').
Proof.
  intros p n l i x h s q n' r W. unfold ng_add_literal. destruct (rs_debug_assert p _); cbn [bind]; try discriminate.
  destruct (negb _); [intros [= <- _]; exact W|]. destruct (mixed_sensitivity _); [intros [= <- _]; exact W|].
  destruct (register_ext_report (ng_rm n) x (ExtInfo h i)) as [rm1 reg] eqn:R.
  assert (W1 : no_wait rm1). { revert R. unfold register_ext_report. destruct (assoc N.eqb (external_map (ng_rm n)) x) as [e|]; [destruct (negb _)|]; intros [= <- _]; exact W. }
  destruct reg as [u|e]; [|intros [= <- _]; exact W1].
  destruct (literal_report_id p (ng_set_rm n rm1) l x h s q) as [[n2 rid]|w|] eqn:L; cbn [bind]; try discriminate.
  assert (W2 : no_wait (ng_rm n2)) by (eapply report_id_wait; [|exact L]; exact W1).
  destruct rid as [id|e]; [|intros [= <- _]; exact W2]. destruct (depth_try_from_usize _); [|intros [= <- _]; exact W2].
  destruct (smwr_add_literal _ _ _ _); cbn [bind]; try discriminate. intros [= <- _]. exact W2.
Qed.
Lemma expression_wait : forall p n i e f id n' r, no_wait (ng_rm n) -> add_expression p n i e f id = Ret (n', r) -> no_wait (ng_rm n').
Proof.
  intros p n i e f id n' r W. unfold add_expression. destruct (_ <? _); [intros [= <- _]; exact W|].
  destruct (parsed_expression_new p i e f id) as [[pe|e']|w|]; cbn [bind]; try discriminate; [|intros [= <- _]; exact W].
  destruct (shortcut_literal p n pe) as [[n1 sl]|w|] eqn:S; cbn [bind]; try discriminate.
  assert (W1 : no_wait (ng_rm n1)).
  { revert S. unfold shortcut_literal. destruct (negb _); [intros [= <- _]; exact W|].
    destruct (walk_component _ _ _ _) as [[l|u]|w|]; cbn [bind]; try discriminate; [|intros [= <- _]; exact W].
    destruct (lit_is_empty l); [intros [= <- _]; exact W|]. destruct (to_u32 _); cbn [bind]; try discriminate. apply literal_wait. exact W. }
  destruct sl as [[|]|e']; [intros [= <- _]; exact W1| |intros [= <- _]; exact W1].
  destruct (build_graph p pe) as [[ei g]|w|]; cbn [bind]; try discriminate. intros [= <- _]. unfold add_graph. destruct (ex_som ei); exact W1.
Qed.
Definition none_wait (w : world) : Prop := forall k n, nth_error w k = Some (Some n) -> no_wait (ng_rm n).
Lemma effect_wait : forall p c n v a n', no_wait (ng_rm n) -> effect p c n = Ret (v, a) -> v = Some n' -> no_wait (ng_rm n').
Proof.
  intros p c n v a n' W E V. subst v. destruct c as [cc k s|at_ i e f id|at_ l i x h s q|at_ ei g|at_ g ei|at_|at_]; cbn [effect] in E.
  - injection E as -> _. exact W.
  - destruct (add_expression p n i e f id) as [[n1 r]|w|] eqn:A; cbn [bind] in E; try discriminate. injection E as -> _. eapply expression_wait; eauto.
  - destruct (ng_add_literal p n l i x h s q) as [[n1 r]|w|] eqn:A; cbn [bind] in E; try discriminate. injection E as -> _. eapply literal_wait; eauto.
  - injection E as <- _. unfold add_graph. destruct (ex_som ei); exact W.
  - destruct (smwr_add_expression _ _ _ _); cbn [bind] in E; try discriminate. injection E as <- _. exact W.
  - injection E as -> _. exact W.
  - discriminate.
Qed.
Lemma called_wait : forall p w c w' a, none_wait w -> called p w c (Ret (w', a)) -> none_wait w'.
Proof.
  intros p w c w' a W H. inversion H as [cc k s E|l n v a' w1 Hc En Ef Le El Ne| |]; subst.
  - intros k' n E. destruct (Nat.lt_ge_cases k' (List.length w)) as [L|L].
    + rewrite nth_error_app1 in E by exact L. eapply W; eauto.
    + rewrite nth_error_app2 in E by exact L. destruct (k' - List.length w)%nat as [|[|j]]; cbn in E; try discriminate. injection E as <-. intros x [].
  - intros k n' E. destruct (Nat.eq_dec k l) as [->|D]; [|rewrite Ne in E by exact D; eapply W; eauto].
    rewrite El in E. injection E as E. eapply effect_wait; [eapply W; exact En|exact Ef|exact E].
Qed.
Lemma calls_wait : forall p w cs o, calls p w cs o -> none_wait w -> forall w' l, o = Ret (w', l) -> none_wait w'.
Proof.
  intros p w cs o H. induction H as [w|w c t w1 a w2 l H1 H2 IH|w c t why H1|w c t H1|w c t w1 a why H1 H2 IH|w c t w1 a H1 H2 IH]; intros W w' l' E; try discriminate.
  - injection E as <- _. exact W.
  - injection E as <- _. eapply IH; [eapply called_wait; eauto|reflexivity].
Qed.
Theorem C79_reachable : forall p cs w l, calls p [] cs (Ret (w, l)) -> forall k n, nth_error w k = Some (Some n) ->
  forall g ei o, smwr_adds (ng_rm n) (ng_smwr n) g ei o -> o = smwr_add_expression (ng_rm n) (ng_smwr n) g ei.
Proof.
  intros p cs w l H k n E g ei. apply C79_order. intros (ids & _ & (r & _ & x & Ex & Lx) & _).
  assert (W : none_wait w). { eapply calls_wait; [exact H| |reflexivity]. intros j m X. destruct j; discriminate X. }
  pose proof (W k n E x (nth_error_In _ _ Ex)). lia.
Qed.
(** A graph with the reports 5 and 7: with report 5 waiting and 7 unknown the outcome
    depends on the order; with both registered it does not. *)
Definition table (l : list N) : report_manager := ReportManager 10 (map Report l) [] [] [] true.
Definition case_info : expression_info := ExpressionInfo 0 0 false false false false SomNone false.
Definition case_builder : small_write := smwr_new 1 grey_default.
Definition case_ng : ng :=
  match effect release (CExpression 0 0 (lit "ab") 0 3) (ng_new (CompileContext false false grey_default) 1 0) with
  | Ret (Some n, _) => n
  | _ => ng_new (CompileContext false false grey_default) 1 0
  end.
Example C79_case :
  looked_at case_builder sample_holder case_info [5; 7] /\
  smwr_adds (table [0; 0; 0; 0; 0; 3]) case_builder sample_holder case_info (Ret (smwr_poison case_builder)) /\ smwr_adds (table [0; 0; 0; 0; 0; 3]) case_builder sample_holder case_info (Panic PIndex) /\
  (forall o, smwr_adds (table [0; 0; 0; 0; 0; 3; 0; 0]) case_builder sample_holder case_info o -> o = Ret (smwr_poison case_builder)) /\
  (exists w l, calls release [] [CNew (CompileContext false false grey_default) 1 0; CExpression 0 0 (lit "ab") 0 3] (Ret (w, l)) /\ exists n, nth_error w 0 = Some (Some n) /\ num_reports (ng_rm n) = 1).
Proof.
  assert (L : looked_at case_builder sample_holder case_info [5; 7]) by (repeat split).
  split; [exact L|]. split; [apply (C79_outcomes _ _ _ _ _ L); left; split; [reflexivity|]; exists 5; split; [left; reflexivity|]; exists (Report 3); split; reflexivity|].
  split; [apply (C79_outcomes _ _ _ _ _ L); right; left; split; [reflexivity|]; exists 7; split; [right; left; reflexivity|]; unfold registered; cbn; lia|].
  split.
  - intros o H. apply (C79_outcomes _ _ _ _ _ L) in H. destruct H as [(-> & _)|[(_ & r & I & R)|(_ & A)]]; [reflexivity|exfalso..].
    + apply R. unfold registered. destruct I as [<-|[<-|[]]]; cbn; lia.
    + destruct (A 5) as [_ D]; [left; reflexivity|]. apply D. exists (Report 3). split; reflexivity.
  - exists [Some case_ng], [ABox 0; AExpression (ROk tt)]. split.
    + eapply CallsCons; [apply (Made release [] _ (CompileContext false false grey_default) 1 0 eq_refl)|]. eapply CallsCons; [|apply CallsNil].
      eapply (Changed _ _ _ 0%nat (ng_new (CompileContext false false grey_default) 1 0) (Some case_ng)); [reflexivity|reflexivity|vm_compute; reflexivity|reflexivity|reflexivity|].
      intros [|k] D; [contradiction|reflexivity].
    + exists case_ng. split; vm_compute; reflexivity.
Qed.
Print Assumptions C79_model. Print Assumptions C79_outcomes. Print Assumptions C79_order. Print Assumptions C79_parsed. Print Assumptions C79_reachable.
