(** Lemmas about the compile pipeline. *)
From Verif Require Import Base ModelUtil ModelBitField ModelCharReach ModelLiteral ModelReport ModelPetgraph ModelParser ModelNfa ModelSmallWrite ModelCompiler
  SpecSet SpecGrammar SpecReport SpecTrie SpecTree SpecGraph SpecCompile
  ProofBase ProofLiteral ProofReport ProofGrammar ProofParser ProofTree ProofVerb ProofTrie ProofShortcut ProofGraph.
Local Open Scope N_scope.
Local Open Scope list_scope.

(** ** Flags *)
Lemma flags_mode : forall it, mode_new (N.land (it_flags it) (flags_not QUIET)) = item_mode it.
Proof.
  intro it. unfold mode_new, item_mode. change CASELESS with (2 ^ 0). change DOTALL with (2 ^ 1). change MULTILINE with (2 ^ 2). change UCP with (2 ^ 6). change UTF8 with (2 ^ 5).
  rewrite !contains_bit, !N.land_spec. change (N.testbit (flags_not QUIET) 0) with true. change (N.testbit (flags_not QUIET) 1) with true.
  change (N.testbit (flags_not QUIET) 2) with true. change (N.testbit (flags_not QUIET) 6) with true. change (N.testbit (flags_not QUIET) 5) with true.
  rewrite !andb_true_r. reflexivity.
Qed.
Lemma flags_forbidden : forall it, contains (it_flags it) (N.lor QUIET SOM_LEFTMOST) = quiet it && som_leftmost it.
Proof. intro it. rewrite contains_two. change QUIET with (2 ^ 10). change SOM_LEFTMOST with (2 ^ 8). rewrite !contains_bit. reflexivity. Qed.
Lemma flags_single : forall it, contains (it_flags it) SINGLEMATCH = single_match it.
Proof. intro it. change SINGLEMATCH with (2 ^ 3). apply contains_bit. Qed.

(** ** Bodies *)
Lemma body_starts : forall s body m, body_of s body <-> exists m', starts s m body m'.
Proof.
  intros s body m. split.
  - intros [[Nv ->]|(v & A & V)]; [eexists; apply starts_plain; exact Nv|]. destruct A as [->|[->| ->]]; eexists; [apply starts_ucp; exact V|eapply starts_utf; eauto|eapply starts_utf; eauto].
  - intros (m' & St). unfold body_of, accepted_verb. destruct St as [|s m rest V|s m v rest V O]; [left; auto|right|right]; [exists (lit "UCP"); auto|exists v; split; [right; exact O|exact V]].
Qed.
Lemma body_fun : forall s b b', body_of s b -> body_of s b' -> b = b'.
Proof.
  intros s b b' H H'. apply (body_starts s b mode_default) in H. apply (body_starts s b' mode_default) in H'.
  destruct H as (m & H), H' as (m' & H'). eapply starts_fun; eassumption.
Qed.
Lemma literal_text_dec : forall b, literal_text b \/ ~ literal_text b.
Proof.
  intro b. rewrite literal_text_iff. destruct (existsb (N.eqb 124) b); [right; intuition discriminate|]. destruct (lit_text b); [right; intuition|left; split; [reflexivity|discriminate]].
Qed.
Lemma body_length : forall s b, body_of s b -> (List.length b <= List.length s)%nat.
Proof.
  intros s b H. apply (body_starts s b mode_default) in H. destruct H as (m & H). apply starts_suffix in H. destruct H as (pre & ->). rewrite app_length. lia.
Qed.
Lemma str_len_length : forall s, N.of_nat (List.length s) <= str_len s.
Proof.
  induction s as [|c s IH]; [cbn; lia|]. cbn [List.length str_len]. assert (1 <= char_len c) by (unfold char_len; repeat destruct (_ <? _); lia). lia.
Qed.
Lemma filter_length_le' : forall {A} (f : A -> bool) l, (List.length (filter f l) <= List.length l)%nat.
Proof. intros A f l. induction l as [|x l IH]; cbn; [lia|]. destruct (f x); cbn; lia. Qed.

(** ** The state of the engine under construction *)
Definition requests_of (H : list addition) : list rm_op := flat_map requests H.
Definition first_add (H : list addition) (id : N) : option addition := find (fun a => id =? ad_id a) H.
Definition width_of (H : list addition) : N := fold_left (fun w a => N.min w (N.of_nat (List.length (lit_s (ad_lit a))))) H INFINITY.
Record rm_ok (H : list addition) (rm : report_manager) : Prop := RmOk {
  rk_run : rm_run (rm_new (limit_report_count grey_default)) (requests_of H) = Ret rm;
  rk_limit : rm_limit rm = limit_report_count grey_default;
  rk_ids : report_ids rm = match H with [] => [] | _ => [Report 0] end;
  rk_map : internal_map rm = match H with [] => [] | _ => [(Report 0, 0)] end;
  rk_ext : forall id, assoc N.eqb (external_map rm) id = option_map (fun a => ExtInfo (ad_single a) (ad_index a)) (first_add H id);
  rk_keys : (List.length (exhaust_map rm) <= List.length H)%nat;
  rk_glob : global_exhaust rm = forallb ad_single H
}.
Record ng_inv (p : profile) (np : N) (cc : compile_context) (H : list addition) (n : ng) : Prop := NgInv {
  ni_cc : ng_cc n = cc;
  ni_rose : ng_rose n = RoseBuild cc false;
  ni_boundary : ng_boundary n = boundary_default;
  ni_rm : rm_ok H (ng_rm n);
  ni_smwr : smwr_run p (smwr_new np grey_default) (dictionary_input H) = Ret (ng_smwr n);
  ni_width : depth_val (ng_min_width n) = width_of H;
  ni_lits : forall a, In a H -> lit_wf (ad_lit a)
}.
Lemma grey_default_ok : forall p, grey_ok p grey_default.
Proof. intro p. unfold grey_ok. pose proof (usize_at_least p). cbn [small_write_largest_buffer small_write_max_literals grey_default]. lia. Qed.
Lemma ng_inv_new : forall p np cc sp, cc_grey cc = grey_default -> ng_inv p np cc [] (ng_new cc np sp).
Proof.
  intros p np cc sp G. constructor; try reflexivity.
  - unfold ng_new. cbn [ng_rm]. rewrite G. constructor; reflexivity.
  - unfold ng_new. cbn [ng_smwr]. rewrite G. reflexivity.
  - intros a [].
Qed.
Lemma rm_run_app : forall a b rm, rm_run rm (a ++ b) = bind (rm_run rm a) (fun rm' => rm_run rm' b).
Proof.
  induction a as [|o a IH]; intros b rm; [reflexivity|]. cbn [app rm_run]. destruct (rm_step rm o); cbn [bind]; [apply IH|reflexivity|reflexivity].
Qed.
Lemma smwr_run_app : forall p a b s, smwr_run p s (a ++ b) = bind (smwr_run p s a) (fun s' => smwr_run p s' b).
Proof.
  intros p; induction a as [|[l r] a IH]; intros b s; [reflexivity|]. cbn [app smwr_run]. destruct (smwr_add_literal p s l r); cbn [bind]; [apply IH|reflexivity|reflexivity].
Qed.
Lemma find_snoc : forall {A} (f : A -> bool) l x, find f (l ++ [x]) = match find f l with Some y => Some y | None => if f x then Some x else None end.
Proof. intros A f l x. induction l as [|y l IH]; [reflexivity|]. cbn. destruct (f y); [reflexivity|exact IH]. Qed.
Lemma assoc_snoc : forall {V} (m : list (N * V)) k v x, assoc N.eqb (m ++ [(k, v)]) x = match assoc N.eqb m x with Some y => Some y | None => if x =? k then Some v else None end.
Proof. intros V m k v x. induction m as [|[a b] m IH]; [reflexivity|]. cbn. destruct (x =? a); [reflexivity|exact IH]. Qed.
Lemma width_of_snoc : forall H a, width_of (H ++ [a]) = N.min (width_of H) (N.of_nat (List.length (lit_s (ad_lit a)))).
Proof. intros H a. unfold width_of. rewrite fold_left_app. reflexivity. Qed.

(** Registration and report requests for one literal. *)
Lemma rm_step_ok : forall H rm a, rm_ok H rm -> (forall b, first_add H (ad_id a) = Some b -> ad_single b = ad_single a) ->
  N.of_nat (List.length H) < 2 ^ 32 - 1 ->
  exists rm1 rm2, register_ext_report rm (ad_id a) (ExtInfo (ad_single a) (ad_index a)) = (rm1, ROk tt) /\
    (exists k, (if ad_single a then let! (r, k) := get_exhaustible_key rm1 (ad_id a) in Ret (r, Some k) else Ret (rm1, None)) = Ret (rm2, k)) /\
    exists rm3, get_internal_id rm2 (Report 0) = Ret (rm3, ROk 0) /\ rm_ok (H ++ [a]) rm3.
Proof.
  intros H rm a [Rr Rl Ri Rm Rx Rk Rg] Ok Hn.
  set (rm1 := fst (register_ext_report rm (ad_id a) (ExtInfo (ad_single a) (ad_index a)))).
  assert (E1 : register_ext_report rm (ad_id a) (ExtInfo (ad_single a) (ad_index a)) = (rm1, ROk tt)).
  { unfold rm1, register_ext_report. rewrite Rx. destruct (first_add H (ad_id a)) as [b|] eqn:F; cbn [option_map fst]; [|reflexivity].
    cbn [ei_highlander]. rewrite (Ok b eq_refl), eqb_reflx. reflexivity. }
  assert (F1 : rm_limit rm1 = rm_limit rm /\ report_ids rm1 = report_ids rm /\ internal_map rm1 = internal_map rm /\ exhaust_map rm1 = exhaust_map rm).
  { unfold rm1, register_ext_report. destruct (assoc N.eqb (external_map rm) (ad_id a)) as [e|]; [destruct (negb _)|]; cbn; auto. }
  assert (X1 : forall id, assoc N.eqb (external_map rm1) id = option_map (fun a => ExtInfo (ad_single a) (ad_index a)) (first_add (H ++ [a]) id)).
  { intro id. unfold first_add. rewrite find_snoc. fold (first_add H id). unfold rm1, register_ext_report. rewrite Rx. destruct (first_add H (ad_id a)) as [b|] eqn:F; cbn [option_map].
    - cbn [ei_highlander]. rewrite (Ok b eq_refl), eqb_reflx. cbn [negb fst external_map]. rewrite Rx. destruct (first_add H id) as [c|] eqn:F'; [reflexivity|].
      cbn [option_map]. destruct (N.eqb_spec id (ad_id a)) as [->|]; [congruence|reflexivity].
    - cbn [fst external_map]. rewrite assoc_snoc, Rx. destruct (first_add H id) as [c|]; [reflexivity|]. cbn [option_map]. destruct (id =? ad_id a); reflexivity. }
  destruct F1 as (F1 & F2 & F3 & F4).
  assert (Y1 : global_exhaust rm1 = forallb ad_single (H ++ [a])).
  { rewrite forallb_app, <- Rg. cbn [forallb]. rewrite andb_true_r. unfold rm1, register_ext_report. rewrite Rx. destruct (first_add H (ad_id a)) as [b|] eqn:F; cbn [option_map ei_highlander].
    - rewrite (Ok b eq_refl), eqb_reflx. cbn [negb fst global_exhaust]. destruct (ad_single a); cbn [negb]; [rewrite andb_true_r|rewrite andb_false_r]; reflexivity.
    - cbn [fst global_exhaust]. destruct (ad_single a); cbn [negb]; [rewrite andb_true_r|rewrite andb_false_r]; reflexivity. }
  assert (K : exists rm2 k, (if ad_single a then let! (r, k) := get_exhaustible_key rm1 (ad_id a) in Ret (r, Some k) else Ret (rm1, None)) = Ret (rm2, k) /\
    rm_run rm1 (if ad_single a then [AskKey (ad_id a)] else []) = Ret rm2 /\
    rm_limit rm2 = rm_limit rm /\ report_ids rm2 = report_ids rm /\ internal_map rm2 = internal_map rm /\ external_map rm2 = external_map rm1 /\ global_exhaust rm2 = global_exhaust rm1 /\ (List.length (exhaust_map rm2) <= S (List.length H))%nat).
  { destruct (ad_single a).
    - cbn [rm_run rm_step]. unfold get_exhaustible_key. rewrite F4. replace (N.of_nat (List.length (exhaust_map rm)) <? 2 ^ 32) with true by lia.
      destruct (assoc N.eqb (exhaust_map rm) (ad_id a)) as [k|]; cbn [bind].
      + exists rm1, (Some k). conjs; auto. rewrite F4. lia.
      + eexists _, _. conjs; try reflexivity; cbn [rm_limit report_ids internal_map exhaust_map global_exhaust]; auto. rewrite app_length. cbn. lia.
    - exists rm1, None. conjs; auto. rewrite F4. lia. }
  destruct K as (rm2 & k & E2 & R2 & G1 & G2 & G3 & G4 & G6 & G5). exists rm1, rm2. split; [exact E1|]. split; [exists k; exact E2|].
  assert (I : exists rm3, get_internal_id rm2 (Report 0) = Ret (rm3, ROk 0) /\ rm_limit rm3 = rm_limit rm /\ report_ids rm3 = [Report 0] /\ internal_map rm3 = [(Report 0, 0)] /\
    external_map rm3 = external_map rm1 /\ exhaust_map rm3 = exhaust_map rm2 /\ global_exhaust rm3 = global_exhaust rm1).
  { unfold get_internal_id, num_reports. rewrite G1, G2, G3, Ri, Rm, Rl. destruct H as [|h H].
    - cbn [assoc List.length]. change (limit_report_count grey_default <=? N.of_nat 0) with false. change (N.of_nat 0 <? 2 ^ 32) with true. cbv iota.
      eexists. split; [reflexivity|]. cbn [rm_limit report_ids internal_map external_map exhaust_map global_exhaust]. rewrite ?Rl. auto 7.
    - cbn [assoc]. change (report_eqb (Report 0) (Report 0)) with true. cbv iota. exists rm2. conjs; auto; congruence. }
  destruct I as (rm3 & E3 & J1 & J2 & J3 & J4 & J5 & J6). exists rm3. split; [exact E3|]. constructor.
  - unfold requests_of. rewrite flat_map_app. fold (requests_of H). rewrite rm_run_app, Rr. cbn [bind flat_map]. rewrite app_nil_r. unfold requests. cbn [rm_run rm_step].
    rewrite E1. cbn [fst bind]. rewrite rm_run_app, R2. cbn [bind rm_run rm_step]. rewrite E3. reflexivity.
  - congruence.
  - rewrite J2. destruct H; reflexivity.
  - rewrite J3. destruct H; reflexivity.
  - rewrite J4. exact X1.
  - rewrite J5, app_length. cbn. lia.
  - rewrite J6. exact Y1.
Qed.
Lemma ng_set_rm_same : forall n, ng_set_rm n (ng_rm n) = n.
Proof. intros [a b c d e f]. reflexivity. Qed.
Definition conflict_error (id : N) (now before : addition) : compile_error :=
  error_with_index (ad_index now) (conflict_message id (ExtInfo (ad_single now) (ad_index now)) (ExtInfo (ad_single before) (ad_index before))).
Lemma add_literal_ok : forall p np cc H n a q, ng_inv p np cc H n -> cc_grey cc = grey_default ->
  lit_is_empty (ad_lit a) = false -> lit_wf (ad_lit a) -> mixed_sensitivity (lit_iter (ad_lit a)) = false ->
  N.of_nat (List.length (lit_s (ad_lit a))) <= MAX_VALUE -> N.of_nat (List.length H) < 2 ^ 32 - 1 ->
  (forall b, first_add H (ad_id a) = Some b -> ad_single b <> ad_single a ->
     ng_add_literal p n (ad_lit a) (ad_index a) (ad_id a) (ad_single a) SomNone q = Ret (n, RErr (conflict_error (ad_id a) a b))) /\
  ((forall b, first_add H (ad_id a) = Some b -> ad_single b = ad_single a) ->
     exists n', ng_add_literal p n (ad_lit a) (ad_index a) (ad_id a) (ad_single a) SomNone q = Ret (n', ROk true) /\ ng_inv p np cc (H ++ [a]) n').
Proof.
  intros p np cc H n a q Inv G Ne W Mx Len Hn. pose proof Inv as [Icc Irose Ib Irm Ism Iw Il].
  unfold ng_add_literal. rewrite Ne. unfold rs_debug_assert. rewrite andb_false_r. cbn [bind]. rewrite Icc, G. cbn [shortcut_literals grey_default negb]. rewrite Mx. split.
  - intros b F D. unfold register_ext_report. rewrite (rk_ext _ _ Irm), F. cbn [option_map ei_highlander].
    replace (negb (Bool.eqb (ad_single b) (ad_single a))) with true by (symmetry; apply negb_true_iff, Bool.eqb_false_iff; exact D). rewrite ng_set_rm_same. reflexivity.
  - intro Ok. destruct (rm_step_ok H (ng_rm n) a Irm Ok Hn) as (rm1 & rm2 & E1 & (k & E2) & rm3 & E3 & R3). rewrite E1. unfold literal_report_id. cbn [ng_set_rm ng_rm].
    rewrite E2. cbn [bind]. unfold make_e_callback. rewrite E3. cbn [bind]. unfold depth_try_from_usize, lit_len.
    replace (N.of_nat (List.length (lit_s (ad_lit a))) <=? MAX_VALUE) with true by lia. cbn [ng_set_rm ng_smwr ng_cc ng_boundary ng_min_width ng_rose ng_rm].
    assert (Wall : forall x, In x (dictionary_input H ++ [(ad_lit a, 0)]) -> lit_wf (fst x)).
    { intros x I. apply in_app_or in I. destruct I as [I|[<-|[]]]; [|exact W]. apply in_map_iff in I. destruct I as (y & <- & I). apply Il. exact I. }
    destruct (smwr_run_inv p np grey_default (dictionary_input H ++ [(ad_lit a, 0)]) [] (smwr_new np grey_default) (grey_default_ok p) Wall (smwr_inv_new np grey_default)) as (s' & Es & _).
    pose proof Es as Es'. rewrite smwr_run_app, Ism in Es'. cbn [bind smwr_run] in Es'. destruct (smwr_add_literal p (ng_smwr n) (ad_lit a) 0) as [s1| |]; cbn [bind] in *; try discriminate.
    injection Es' as ->. eexists. split; [reflexivity|]. constructor; cbn [ng_cc ng_rose ng_boundary ng_rm ng_smwr ng_min_width]; auto.
    + rewrite Irose. unfold rose_add. cbn [rb_cc]. destruct (flood_as_puffette (cc_grey cc)); reflexivity.
    + unfold dictionary_input. rewrite map_app. exact Es.
    + rewrite width_of_snoc, <- Iw. unfold depth_min, depth_cmp, cast. cbn [depth_val]. assert (MAX_VALUE < 2 ^ 32) by reflexivity.
      rewrite N.mod_small by lia. destruct (N.compare_spec (depth_val (ng_min_width n)) (N.of_nat (List.length (lit_s (ad_lit a))))); cbn [depth_val]; lia.
    + intros x I. apply in_app_or in I. destruct I as [I|[<-|[]]]; auto.
Qed.

(** ** One expression *)
Definition too_long : compile_error := error_new EOther (lit "Pattern length exceeds limit.").
Definition bad_flags : compile_error := error_new EOther (lit "QUIET is not supported in combination with SOM_LEFTMOST.").
Definition addition_of (i : N) (it : item) (body : str) : addition := Addition i (it_id it) (single_match it) (text_literal (caseless_item it) body).
Inductive judged (p : profile) (H : list addition) (i : N) (it : item) : outcome (result compile_error (list addition)) -> Prop :=
| j_long : 16000 < str_len (it_expr it) -> judged p H i it (Ret (RErr too_long))
| j_flags : str_len (it_expr it) <= 16000 -> quiet it = true -> som_leftmost it = true -> judged p H i it (Ret (RErr bad_flags))
| j_parse : forall e, str_len (it_expr it) <= 16000 -> ~ (quiet it = true /\ som_leftmost it = true) ->
    parse p (it_expr it) (item_mode it) = Ret (RErr e) -> judged p H i it (Ret (RErr e))
| j_panic : forall w, str_len (it_expr it) <= 16000 -> ~ (quiet it = true /\ som_leftmost it = true) ->
    parse p (it_expr it) (item_mode it) = Panic w -> judged p H i it (Panic w)
| j_graph : forall body, acceptable p it -> body_of (it_expr it) body -> ~ literal_text body -> judged p H i it (Ret (ROk []))
| j_conflict : forall body b, acceptable p it -> body_of (it_expr it) body -> literal_text body -> first_add H (it_id it) = Some b -> ad_single b <> single_match it ->
    judged p H i it (Ret (RErr (conflict_error (it_id it) (addition_of i it body) b)))
| j_literal : forall body, acceptable p it -> body_of (it_expr it) body -> literal_text body ->
    (forall b, first_add H (it_id it) = Some b -> ad_single b = single_match it) -> judged p H i it (Ret (ROk [addition_of i it body])).
Lemma add_expression_ok : forall p np cc H n i it, ng_inv p np cc H n -> cc_grey cc = grey_default ->
  N.of_nat (List.length H) < 2 ^ 32 - 1 -> i < 2 ^ 32 ->
  exists o, judged p H i it o /\
  match o with
  | Ret (ROk l) => exists n', add_expression p n i (it_expr it) (it_flags it) (it_id it) = Ret (n', ROk tt) /\ ng_inv p np cc (H ++ l) n'
  | Ret (RErr e) => exists n', add_expression p n i (it_expr it) (it_flags it) (it_id it) = Ret (n', RErr e)
  | Panic w => add_expression p n i (it_expr it) (it_flags it) (it_id it) = Panic w
  | Diverge => False
  end.
Proof.
  intros p np cc H n i it Inv G Hn Hi. pose proof (ni_cc _ _ _ _ _ Inv) as Icc. unfold add_expression. rewrite Icc, G. change (limit_pattern_length grey_default) with 16000.
  destruct (N.ltb_spec 16000 (str_len (it_expr it))) as [L|L].
  { eexists. split; [apply j_long; exact L|]. eexists. reflexivity. }
  unfold parsed_expression_new. rewrite flags_forbidden. destruct (quiet it && som_leftmost it) eqn:Q.
  { apply andb_true_iff in Q. destruct Q. eexists. split; [apply j_flags; assumption|]. eexists. reflexivity. }
  assert (Fl : ~ (quiet it = true /\ som_leftmost it = true)) by (intros [A B]; rewrite A, B in Q; discriminate).
  rewrite flags_mode, flags_single. pose proof (parse_cases p (it_expr it) (item_mode it)) as C.
  destruct (parse p (it_expr it) (item_mode it)) as [[[t m']|e]|w|] eqn:P; cbn [bindr bind].
  2:{ eexists. split; [eapply j_parse; eassumption|]. eexists. reflexivity. }
  2:{ eexists. split; [eapply j_panic; eassumption|]. reflexivity. }
  2:{ inversion C. }
  inversion C as [|body m1 e St A Gk We T| | | |]; subst m1. clear C. subst t.
  assert (Ac : acceptable p it).
  { constructor; [exact L|exact Fl|]. exists body. conjs; [apply (body_starts _ _ (item_mode it)); eauto|exact A|rewrite <- T; apply text_balanced; exact We|exact Gk]. }
  assert (Bo : body_of (it_expr it) body) by (apply (body_starts _ _ (item_mode it)); eauto).
  change (let _ := _ in ?k) with k. set (ei := ExpressionInfo _ _ _ _ _ _ _ _). cbn [pe_expr pe_component].
  assert (At : ascii_text (text e)) by (rewrite T; exact A).
  unfold shortcut_literal. rewrite Icc, G. change (allow_literal grey_default) with true. cbn [negb pe_component pe_expr].
  change (caseless (item_mode it)) with (caseless_item it) in *. change (N.testbit (it_flags it) 0) with (caseless_item it). rewrite walk_tree by assumption. rewrite T. cbn [bind].
  assert (Grp : build_graph p (ParsedExpression ei (tree (caseless_item it) e)) = Ret (ei, holder_with (map vertex_of (leaves (tree (caseless_item it) e))))).
  { rewrite build_graph_ok, (tree_leaves _ _ We), map_length, T. pose proof (filter_length_le' (fun c => negb ((c =? 40) || (c =? 41) || (c =? 124))) body) as F1.
    fold (plain_text body) in F1. pose proof (body_length _ _ Bo) as F2. pose proof (str_len_length (it_expr it)) as F3. unfold IX_END.
    replace (4 + N.of_nat (List.length (plain_text body)) <=? 2 ^ 32 - 1) with true by lia. reflexivity. }
  destruct (literal_text_dec body) as [Lt|Lt].
  - pose proof Lt as Lt'. apply literal_text_iff in Lt'. destruct Lt' as [X1 X2]. rewrite X1. rewrite text_literal_empty.
    destruct (lit_text body) as [|c0 r0] eqn:Tx; [contradiction|]. unfold to_u32. change (ex_index ei) with i. replace (i <? 2 ^ 32) with true by lia. cbn [bind].
    change (ex_report ei) with (it_id it). change (ex_highlander ei) with (single_match it). change (ex_som ei) with SomNone.
    set (a := addition_of i it body).
    destruct (add_literal_ok p np cc H n a (ex_quiet ei) Inv G) as [Bad Good].
    { unfold a, addition_of. cbn [ad_lit]. rewrite text_literal_empty, Tx. reflexivity. }
    { apply text_literal_wf. }
    { apply text_literal_not_mixed. }
    { unfold a, addition_of, text_literal. cbn [ad_lit lit_s]. rewrite map_length. pose proof (filter_length_le' (fun c => negb ((c =? 40) || (c =? 41))) body) as F1. fold (lit_text body) in F1.
      pose proof (body_length _ _ Bo) as F2. pose proof (str_len_length (it_expr it)) as F3. change MAX_VALUE with 2147483646. lia. }
    { exact Hn. }
    unfold a, addition_of in Bad, Good. cbn [ad_lit ad_index ad_id ad_single] in Bad, Good.
    destruct (first_add H (it_id it)) as [b|] eqn:Fa.
    + destruct (Bool.bool_dec (ad_single b) (single_match it)) as [E|E].
      * destruct Good as (n' & En & In'); [intros b' [= <-]; exact E|]. eexists. split; [eapply j_literal; try eassumption; intros b' Fb; congruence|].
        cbn [bind]. rewrite En. cbn [bind]. exists n'. split; [reflexivity|exact In'].
      * eexists. split; [eapply j_conflict; eassumption|]. rewrite (Bad b eq_refl E). cbn [bind]. eexists. reflexivity.
    + destruct Good as (n' & En & In'); [discriminate|]. eexists. split; [eapply j_literal; try eassumption; intros b' Fb; congruence|].
      cbn [bind]. rewrite En. cbn [bind]. exists n'. split; [reflexivity|exact In'].
  - eexists. split; [eapply j_graph; eassumption|]. cbv beta iota. rewrite app_nil_r. exists n. split; [|exact Inv].
    rewrite literal_text_iff in Lt. destruct (existsb (N.eqb 124) body); cbn [bind].
    + rewrite Grp. reflexivity.
    + rewrite text_literal_empty. destruct (lit_text body) eqn:Tx; [|exfalso; apply Lt; split; [reflexivity|discriminate]]. cbn [bind]. rewrite Grp. reflexivity.
Qed.

(** ** All expressions *)
Definition at_index (i : N) (e : compile_error) : compile_error := CompileError (err_kind e) (err_reason e) (Some i).
Inductive run (p : profile) : list addition -> N -> list item -> outcome (result compile_error (list addition)) -> Prop :=
| run_nil : forall H i, run p H i [] (Ret (ROk H))
| run_ok : forall H i it t l o, judged p H i it (Ret (ROk l)) -> run p (H ++ l) (i + 1) t o -> run p H i (it :: t) o
| run_err : forall H i it t e, judged p H i it (Ret (RErr e)) -> err_index e = None \/ debug_assertions p = false ->
    run p H i (it :: t) (Ret (RErr (at_index i e)))
| run_assert : forall H i it t e, judged p H i it (Ret (RErr e)) -> err_index e <> None -> debug_assertions p = true ->
    run p H i (it :: t) (Panic PDebugAssert)
| run_panic : forall H i it t w, judged p H i it (Panic w) -> run p H i (it :: t) (Panic w).
Definition triple (it : item) : str * flags * N := (it_expr it, it_flags it, it_id it).
Lemma judged_length : forall p H i it l, judged p H i it (Ret (ROk l)) -> (List.length l <= 1)%nat.
Proof. intros p H i it l J. inversion J; subst; cbn; lia. Qed.
Lemma add_all_ok : forall p np cc items H n i, ng_inv p np cc H n -> cc_grey cc = grey_default ->
  N.of_nat (List.length H) + N.of_nat (List.length items) < 2 ^ 32 - 1 -> i + N.of_nat (List.length items) < 2 ^ 32 ->
  exists o, run p H i items o /\
  match o with
  | Ret (ROk H') => exists n', add_all p n i (map triple items) = Ret (ROk n') /\ ng_inv p np cc H' n'
  | Ret (RErr e) => add_all p n i (map triple items) = Ret (RErr e)
  | Panic w => add_all p n i (map triple items) = Panic w
  | Diverge => False
  end.
Proof.
  intros p np cc items; induction items as [|it items IH]; intros H n i Inv G Hn Hi; cbn [map add_all].
  - eexists. split; [constructor|]. exists n. auto.
  - cbn [List.length] in Hn, Hi. change (triple it) with (it_expr it, it_flags it, it_id it). cbv iota beta. destruct (add_expression_ok p np cc H n i it Inv G) as (o & J & R); [lia|lia|].
    destruct o as [[l|e]|w|]; [| | |contradiction].
    + destruct R as (n' & E & I'). rewrite E. cbn [bind]. pose proof (judged_length _ _ _ _ _ J). destruct (IH (H ++ l) n' (i + 1) I' G) as (o & Ro & Rr).
      { rewrite app_length. lia. } { lia. }
      exists o. split; [eapply run_ok; eassumption|exact Rr].
    + destruct R as (n' & E). rewrite E. cbn [bind]. unfold to_u32. replace (i <? 2 ^ 32) with true by lia. cbn [bind]. unfold set_expression_index, rs_debug_assert.
      destruct (err_index e) as [k|] eqn:Ei.
      * cbn [negb]. rewrite andb_true_r. destruct (debug_assertions p) eqn:D; cbn [bind].
        -- eexists. split; [eapply run_assert; try eassumption; congruence|]. reflexivity.
        -- eexists. split; [eapply run_err; [eassumption|right; exact D]|]. reflexivity.
      * cbn [negb]. rewrite andb_false_r. cbn [bind]. eexists. split; [eapply run_err; [eassumption|left; exact Ei]|]. reflexivity.
    + rewrite R. cbn [bind]. eexists. split; [eapply run_panic; exact J|]. reflexivity.
Qed.

(** ** Slices *)
Lemma items_of_zip : forall es fs ids, map triple (items_of es fs ids) = zip3 es fs ids.
Proof. induction es as [|e es IH]; intros [|f fs] [|d ids]; try reflexivity. cbn. rewrite IH. reflexivity. Qed.
Lemma items_of_length : forall es fs ids, (List.length (items_of es fs ids) <= List.length es)%nat.
Proof. induction es as [|e es IH]; intros [|f fs] [|d ids]; cbn; try lia. specialize (IH fs ids). lia. Qed.
Lemma items_of_nth : forall es fs ids i it, nth_error (items_of es fs ids) i = Some it <-> item_at es fs ids i it.
Proof.
  unfold item_at. induction es as [|e es IH]; intros [|f fs] [|d ids] i [s g k]; cbn [it_expr it_flags it_id]; destruct i as [|i]; cbn [items_of nth_error];
    try (split; [discriminate|intros (A & B & C); discriminate]); try (rewrite IH; reflexivity).
  split; [intros [= -> -> ->]; auto|intros (A & B & C); congruence].
Qed.
Lemma compile_int_ok : forall p es fs ids m, es <> [] -> N.of_nat (List.length es) <= 8000000 ->
  exists o, run p [] 0 (items_of es fs ids) o /\
  match o with
  | Ret (ROk H) => exists n, add_all p (ng_new (CompileContext (is_streaming m) (is_vectored m) grey_default) (N.of_nat (List.length es)) (som_precision m)) 0 (zip3 es fs ids) = Ret (ROk n) /\
      ng_inv p (N.of_nat (List.length es)) (CompileContext (is_streaming m) (is_vectored m) grey_default) H n /\
      compile_multi p es fs ids m = Ret (ROk (build n))
  | Ret (RErr e) => compile_multi p es fs ids m = Ret (RErr e)
  | Panic w => compile_multi p es fs ids m = Panic w
  | Diverge => False
  end.
Proof.
  intros p es fs ids m Ne Hn. pose proof (items_of_length es fs ids) as L. 
  assert (Eq : compile_multi p es fs ids m = bindr (add_all p (ng_new (CompileContext (is_streaming m) (is_vectored m) grey_default) (N.of_nat (List.length es)) (som_precision m)) 0 (zip3 es fs ids))
    (fun n => Ret (ROk (build n)))).
  { unfold compile_multi, compile_multi_int. destruct es as [|e0 es0]; [contradiction|]. change (limit_pattern_count grey_default) with 8000000.
    replace (8000000 <? N.of_nat (List.length (e0 :: es0))) with false by lia. reflexivity. }
  rewrite Eq. clear Eq.
  destruct (add_all_ok p (N.of_nat (List.length es)) (CompileContext (is_streaming m) (is_vectored m) grey_default) (items_of es fs ids) []
    (ng_new (CompileContext (is_streaming m) (is_vectored m) grey_default) (N.of_nat (List.length es)) (som_precision m)) 0) as (o & R & M).
  { apply ng_inv_new. reflexivity. } { reflexivity. } { cbn [List.length]. lia. } { lia. }
  exists o. split; [exact R|]. rewrite items_of_zip in M. destruct o as [[H|e]|w|]; [| | |exact M].
  - destruct M as (n & E & I). exists n. conjs; [exact E|exact I|]. rewrite E. reflexivity.
  - rewrite M. reflexivity.
  - rewrite M. reflexivity.
Qed.
