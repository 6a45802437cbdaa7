(** Properties C61-C65: error texts, sizes of trees, modes, whole expressions on the
    small-write path, ASCII case helpers. *)
From Verif Require Import Base ModelUtil ModelBitField ModelCharReach ModelLiteral ModelReport ModelPetgraph ModelParser ModelNfa ModelSmallWrite ModelCompiler
  SpecSet SpecGrammar SpecReport SpecTrie SpecTree SpecGraph SpecCompile SpecLang SpecText
  ProofBase ProofReport ProofGrammar ProofParser ProofTree ProofVerb ProofShortcut ProofGraph ProofCompile ProofRun ProofLang ProofDump4 ProofText
  PropReport PropParser PropGraph PropCompile PropEngine.
Local Open Scope N_scope.
Local Open Scope list_scope.

(** ** C61 *)
Theorem C61_text : forall p es fs ids m e, compile_multi p es fs ids m = Ret (RErr e) ->
  (es = [] /\ error_display e = lit "Invalid parameter: expressions is empty") \/
  (8000000 < N.of_nat (List.length es) /\ error_display e = lit "Number of patterns too large") \/
  (exists k, err_index e = Some k /\ k < N.of_nat (List.length es) /\ indexed_text (err_reason e) k (error_display e)).
Proof.
  intros p es fs ids m e E. pose proof (compile_cases p es fs ids m) as C. rewrite E in C.
  inversion C as [Em Q|Lm Q|A n Ne L Ad Nc F En I|k' it A o' o Ne L E' Ad Nc F NF J X]; subst.
  - left. split; reflexivity.
  - right. left. split; [assumption|reflexivity].
  - right. right. destruct o' as [[?|e']|?|]; try contradiction. destruct X as [-> _]. exists (N.of_nat k'). split; [reflexivity|]. split.
    + destruct E' as [E' _]. assert (k' < List.length es)%nat by (apply nth_error_Some; congruence). lia.
    + exists (show (N.of_nat k')). split; [apply show_decimal|reflexivity].
Qed.
Lemma decimal_last : forall e k, err_index e = Some k -> exists a b, error_display e = a ++ 32 :: b /\ ~ In 32 b /\ b <> [] /\ (forall d, In d b -> 48 <= d <= 57) /\ a = err_reason e ++ lit " in expression" /\ decimal_value b = k.
Proof.
  intros e k E. exists (err_reason e ++ lit " in expression"), (show k). destruct (show_decimal k) as (N0 & D & V & _). conjs.
  - unfold error_display. rewrite E, <- app_assoc. reflexivity.
  - intro I. apply D in I. lia.
  - exact N0.
  - exact D.
  - reflexivity.
  - exact V.
Qed.
Theorem C61_injective : forall p es fs ids m e p' es' fs' ids' m' e',
  compile_multi p es fs ids m = Ret (RErr e) -> compile_multi p' es' fs' ids' m' = Ret (RErr e') ->
  error_display e = error_display e' -> err_reason e = err_reason e' /\ err_index e = err_index e'.
Proof.
  assert (U : forall p es fs ids m e, compile_multi p es fs ids m = Ret (RErr e) -> err_index e = None ->
    err_reason e = lit "Invalid parameter: expressions is empty" \/ err_reason e = lit "Number of patterns too large").
  { intros p es fs ids m e E N0. destruct (C61_text _ _ _ _ _ _ E) as [[_ D]|[[_ D]|(k & Ek & _)]]; [| |congruence]; unfold error_display in D; rewrite N0 in D; auto. }
  assert (M : forall e k r, err_index e = Some k -> r = lit "Invalid parameter: expressions is empty" \/ r = lit "Number of patterns too large" -> error_display e <> r).
  { intros e k r Ek R Q. destruct (decimal_last e k Ek) as (a & b & Q' & _ & Nb & D & _). rewrite Q in Q'. apply (f_equal (@rev N)) in Q'. rewrite rev_app_distr in Q'. cbn [rev] in Q'. rewrite <- !app_assoc in Q'.
    destruct (rev b) as [|d b'] eqn:Rb; [apply (f_equal (@rev N)) in Rb; rewrite rev_involutive in Rb; exact (Nb Rb)|].
    assert (Id : In d b) by (apply in_rev; rewrite Rb; left; reflexivity). apply D in Id. destruct R as [-> | ->]; vm_compute in Q'; injection Q' as Q' _; lia. }
  intros p es fs ids m e p' es' fs' ids' m' e' E E' Q. destruct (err_index e) as [k|] eqn:Ek; destruct (err_index e') as [k'|] eqn:Ek'.
  - destruct (decimal_last e k Ek) as (a & b & Q1 & N1 & _ & _ & -> & <-). destruct (decimal_last e' k' Ek') as (a' & b' & Q2 & N2 & _ & _ & -> & <-).
    rewrite Q1, Q2 in Q. apply last_split in Q; [|assumption|assumption]. destruct Q as [Qa ->]. split; [|reflexivity]. apply app_inv_tail in Qa. exact Qa.
  - exfalso. refine (M e k (err_reason e') Ek (U _ _ _ _ _ _ E' Ek') _). rewrite Q. unfold error_display. rewrite Ek'. reflexivity.
  - exfalso. refine (M e' k' (err_reason e) Ek' (U _ _ _ _ _ _ E Ek) _). rewrite <- Q. unfold error_display. rewrite Ek. reflexivity.
  - split; [|reflexivity]. unfold error_display in Q. rewrite Ek, Ek' in Q. exact Q.
Qed.
Example C61_case : exists e, compile_multi release (repeat (lit "a") 12 ++ [lit ")"]) (repeat 0 13) (repeat 0 13) Block = Ret (RErr e) /\
  error_display e = lit "Unmatched parentheses in expression 12".
Proof. eexists. split; [vm_compute; reflexivity|vm_compute; reflexivity]. Qed.

(** ** C62 *)
Theorem C62_size : forall p s m t n body, parse p s m = Ret (ROk (t, n)) -> starts s m body n ->
  (tree_nodes t <= 1 + (plain_chars body + opens body + 3 * bars body))%nat /\ (tree_nodes t <= 1 + 3 * List.length s)%nat.
Proof.
  intros p s m t n body E St. apply C13_tree_iff in E. destruct E as (b & e & St' & A & _ & W & T & ->).
  destruct (starts_fun _ _ _ _ _ _ St St') as [-> _]. pose proof (tree_nodes_ok (caseless m) e W) as B. rewrite T in B. unfold budget in B. split; [exact B|].
  assert (X : forall s, (plain_chars s + opens s + 3 * bars s <= 3 * List.length s)%nat).
  { clear. induction s as [|c s IH]; [cbn; lia|]. change (c :: s) with ([c] ++ s). rewrite plain_app, opens_app, bars_app, app_length.
    assert (plain_chars [c] + opens [c] + 3 * bars [c] <= 3)%nat; [|cbn [List.length] in *; lia].
    unfold plain_chars, opens, bars. cbn. ifs; cbn; lia. }
  assert (Y : (List.length b <= List.length s)%nat).
  { destruct St' as [s m Nv|s m rest (V & _)|s m v rest (V & _) O]; [lia| |]; rewrite V; cbn [app List.length]; rewrite ?app_length; cbn [List.length]; lia. }
  specialize (X b). lia.
Qed.
Theorem C62_height : forall p s m t n body, parse p s m = Ret (ROk (t, n)) -> starts s m body n ->
  (tree_height t <= 4 + 3 * deepest 0 body)%nat.
Proof.
  intros p s m t n body E St. apply C13_tree_iff in E. destruct E as (b & e & St' & A & _ & W & T & ->).
  destruct (starts_fun _ _ _ _ _ _ St St') as [-> _]. rewrite <- T. apply tree_height_ok. exact W.
Qed.
Example C62_case : exists t, parse release (lit "(((a|b)))|") mode_default = Ret (ROk (t, mode_default)) /\ starts (lit "(((a|b)))|") mode_default (lit "(((a|b)))|") mode_default /\
  tree_nodes t = 12%nat /\ tree_height t = 9%nat /\ deepest 0 (lit "(((a|b)))|") = 3%nat.
Proof. eexists. split; [vm_compute; reflexivity|]. split; [apply starts_plain; intros v rest (V & _); discriminate V|]. repeat split; vm_compute; reflexivity. Qed.

(** ** C63 *)
(** Acceptance, and the error, do not depend on the mode. *)
Theorem C63_verdict : forall p es fs ids m m', verdict (compile_multi p es fs ids m) = verdict (compile_multi p es fs ids m').
Proof.
  intros p es fs ids m m'. destruct es as [|e0 es]; [reflexivity|]. unfold compile_multi.
  destruct (N.leb_spec (N.of_nat (List.length (e0 :: es))) 8000000) as [L|L].
  - destruct (compile_int_ok p (e0 :: es) fs ids m ltac:(discriminate) L) as (o1 & R1 & M1).
    destruct (compile_int_ok p (e0 :: es) fs ids m' ltac:(discriminate) L) as (o2 & R2 & M2). pose proof (run_fun _ _ _ _ _ R1 _ R2) as <-. 
    destruct o1 as [[H|e]|w|]; [|unfold compile_multi in *; rewrite M1, M2; reflexivity..|contradiction].
    destruct M1 as (n1 & _ & _ & M1), M2 as (n2 & _ & _ & M2). unfold compile_multi in *. rewrite M1, M2. reflexivity.
  - unfold compile_multi_int. cbv zeta. change (limit_pattern_count grey_default) with 8000000. replace (8000000 <? N.of_nat (List.length (e0 :: es))) with true by lia. reflexivity.
Qed.
(** The horizon changes nothing at all. *)
Theorem C63_horizon : forall p es fs ids h h', compile_multi p es fs ids (Stream h) = compile_multi p es fs ids (Stream h').
Proof.
  intros p es fs ids h h'. pose proof (C63_verdict p es fs ids (Stream h) (Stream h')) as V.
  destruct (compile_multi p es fs ids (Stream h)) as [[db|e]|w|] eqn:E1, (compile_multi p es fs ids (Stream h')) as [[db'|e']|w'|] eqn:E2; try discriminate V; try congruence.
  - apply C46_database in E1, E2. destruct db as [[r1 m1]], db' as [[r2 m2]]. cbn in E1, E2. destruct E1 as [-> ->], E2 as [-> ->]. reflexivity.
  - cbn in V. congruence.
  - cbn in V. congruence.
Qed.
Theorem C63_classes : forall m, (is_streaming m = false <-> m = Block) /\ (is_vectored m = true <-> m = Vectored) /\
  (som_precision m <> 0 <-> m = Vectored \/ exists h, m = Stream (Some h)) /\
  (forall h h', som_precision (Stream (Some h)) = som_precision (Stream (Some h')) -> h = h') /\ som_precision m <= som_precision (Stream (Some HLarge)) /\
  8 * som_precision (Stream (Some HLarge)) = 64 /\ 8 * som_precision (Stream (Some HMedium)) = 32 /\ 8 * som_precision (Stream (Some HSmall)) = 16 /\
  som_precision Vectored = som_precision (Stream (Some HLarge)).
Proof.
  intro m. conjs.
  - destruct m; cbn; split; congruence.
  - destruct m; cbn; split; congruence.
  - destruct m as [|[[]|]|]; cbn; split; try (intros [H|(h & H)]; congruence); try (intro; contradiction); eauto; discriminate.
  - intros [] []; cbn; congruence.
  - destruct m as [|[[]|]|]; cbn; lia.
  - reflexivity.
  - reflexivity.
  - reflexivity.
  - reflexivity.
Qed.
Example C63_case : verdict (compile_multi release [lit "a"; lit "b)"] [0; 0] [0; 0] Block) = verdict (compile_multi release [lit "a"; lit "b)"] [0; 0] [0; 0] (Stream (Some HSmall))) /\
  exists db, compile_multi release [lit "a"] [0] [0] (Stream None) = Ret (ROk db) /\ compile_multi release [lit "a"] [0] [0] Block <> Ret (ROk db).
Proof. split; [vm_compute; reflexivity|]. eexists. split; [vm_compute; reflexivity|]. vm_compute. discriminate. Qed.

(** ** C64 *)
(** The state given up: nothing but the mark changes. *)
Definition given_up (s s' : small_write) : Prop :=
  sw_poisoned s' = true /\ sw_grey s' = sw_grey s /\ sw_trie s' = sw_trie s /\ sw_trie_nocase s' = sw_trie_nocase s /\ sw_num_literals s' = sw_num_literals s.
Lemma any_min_ok : forall rm ids, (forall r, In r ids -> r < num_reports rm) ->
  exists b, any_min_length rm ids = Ret b /\ (b = true <-> exists r x, In r ids /\ get_report rm r = Ret x /\ 0 < min_length x).
Proof.
  intros rm ids. induction ids as [|i ids IH]; intro H.
  - exists false. split; [reflexivity|]. split; [discriminate|]. intros (r & x & [] & _).
  - cbn [any_min_length]. assert (Li : i < num_reports rm) by (apply H; left; reflexivity).
    assert (exists x, get_report rm i = Ret x) as (x & Ex).
    { unfold get_report. replace (i <? num_reports rm) with true by lia. unfold num_reports in Li. destruct (nth_error (report_ids rm) (N.to_nat i)) eqn:En; [eauto|]. apply nth_error_None in En. lia. }
    rewrite Ex. cbn [bind]. destruct (N.ltb_spec 0 (min_length x)) as [Lx|Lx].
    + exists true. split; [reflexivity|]. split; [intros _|reflexivity]. exists i, x. split; [left; reflexivity|auto].
    + destruct IH as (b & Eb & Ib); [intros r I; apply H; right; exact I|]. exists b. split; [exact Eb|]. rewrite Ib. split.
      * intros (r & y & I & Ey & Ly). exists r, y. split; [right; exact I|auto].
      * intros (r & y & [<-|I] & Ey & Ly); [rewrite Ex in Ey; injection Ey as <-; lia|]. eauto.
Qed.
(** [accept_report h r]: a predecessor of the accepting vertices carries report [r]. *)
Definition accept_report (h : ng_holder) (r : N) : Prop :=
  exists v x, (In (v, accept h) (edges (inner h)) \/ In (v, accept_eod h) (edges (inner h))) /\ nth_error (nodes (inner h)) (N.to_nat v) = Some x /\ In r (reports x).
Definition joins_accept (h : ng_holder) : Prop :=
  exists a b, (a = start h \/ a = start_ds h) /\ (b = accept h \/ b = accept_eod h) /\ In (a, b) (edges (inner h)).
Theorem C64_expression : forall rm s g ei,
  (forall a b, In (a, b) (edges (inner g)) -> a < node_count (inner g)) -> (forall r, accept_report g r -> r < num_reports rm) ->
  match smwr_add_expression rm s g ei with
  | Ret s' => (sw_poisoned s = true /\ s' = s) \/
              (sw_poisoned s = false /\ given_up s s' /\
               (ex_som ei = SomLeft \/ joins_accept g \/ exists r x, accept_report g r /\ get_report rm r = Ret x /\ 0 < min_length x))
  | Panic w => w = PUnimplemented /\ sw_poisoned s = false /\ ex_som ei = SomNone /\ ~ joins_accept g /\
               forall r x, accept_report g r -> get_report rm r = Ret x -> min_length x = 0
  | Diverge => False
  end.
Proof.
  intros rm s g ei He Hr. unfold smwr_add_expression. destruct (sw_poisoned s) eqn:Ep; [left; auto|].
  assert (G : given_up s (smwr_poison s)) by (repeat split).
  destruct (ex_som ei) eqn:Es; [|right; auto]. destruct (is_vacuous g) eqn:Ev.
  - apply C44_is_vacuous in Ev. right. auto.
  - assert (Nv : ~ joins_accept g) by (intro J; apply C44_is_vacuous in J; congruence).
    destruct (C44_all_reports g He) as (rs & Ers & _ & Irs). rewrite Ers. cbn [bind].
    destruct (any_min_ok rm rs) as (b & Eb & Ib); [intros r I; apply Hr, Irs, I|]. rewrite Eb. cbn [bind]. destruct b.
    + right. conjs; auto. right. right. destruct (proj1 Ib eq_refl) as (r & x & I & Ex & L). exists r, x. conjs; auto. apply Irs, I.
    + conjs; auto. intros r x I Ex. destruct (N.eq_dec (min_length x) 0) as [|Nz]; [assumption|]. exfalso.
      enough (false = true) by discriminate. apply Ib. exists r, x. conjs; [apply Irs, I|exact Ex|lia].
Qed.
(** The graph of any parsed expression: never anything but giving up because of SOM. *)
Theorem C64_parsed : forall p ei t g rm s, build_graph p (ParsedExpression ei t) = Ret (ei, g) ->
  smwr_add_expression rm s g ei =
    if sw_poisoned s then Ret s else match ex_som ei with SomLeft => Ret (smwr_poison s) | SomNone => Panic PUnimplemented end.
Proof.
  intros p ei t g rm s E. destruct (C44_never_vacuous_partial _ _ _ _ E) as [V R]. unfold smwr_add_expression. rewrite V, R. destruct (sw_poisoned s), (ex_som ei); reflexivity.
Qed.
Example C64_case : exists g, ng_holder_new = Ret g /\ (forall a b, In (a, b) (edges (inner g)) -> a < node_count (inner g)) /\ (forall r, accept_report g r -> r < num_reports (rm_new 8)) /\
  smwr_add_expression (rm_new 8) (smwr_new 1 grey_default) g (ExpressionInfo 0 0 false false false false SomLeft false) = Ret (smwr_poison (smwr_new 1 grey_default)) /\
  smwr_add_expression (rm_new 8) (smwr_new 1 grey_default) g (ExpressionInfo 0 0 false false false false SomNone false) = Panic PUnimplemented /\
  smwr_add_expression (rm_new 8) (smwr_new 10001 grey_default) g (ExpressionInfo 0 0 false false false false SomNone false) = Ret (smwr_new 10001 grey_default).
Proof.
  eexists. split; [vm_compute; reflexivity|]. split; [|split].
  - intros a b. cbn. intros [[= <- <-]|[[= <- <-]|[[= <- <-]|[]]]]; reflexivity.
  - intros r (v & x & I & Ex & Ir). exfalso. cbn in I. assert (v = 2) as ->.
    { destruct I as [I|I]; destruct I as [[= <-]|[[= <-]|[[= <-]|[]]]] ; reflexivity || discriminate. }
    cbn in Ex. injection Ex as <-. destruct Ir.
  - split; [vm_compute; reflexivity|]. split; vm_compute; reflexivity.
Qed.

(** ** C65 *)
Theorem C65_case_helpers : forall c, c < 256 ->
  (myisupper c = true <-> exists i, i < 26 /\ c = 65 + i) /\ (myislower c = true <-> exists i, i < 26 /\ c = 97 + i) /\
  (forall i, i < 26 -> mytolower (65 + i) = 97 + i /\ mytoupper (97 + i) = 65 + i) /\
  (myisupper c = false -> mytolower c = c) /\ (myislower c = false -> mytoupper c = c) /\
  (ourisalpha c = true <-> myisupper c = true \/ myislower c = true) /\ mytolower c < 256 /\ mytoupper c < 256.
Proof.
  intros c H. unfold ourisalpha, mytolower, mytoupper, myisupper, myislower. conjs.
  - split; [intro E; exists (c - 65); lia|intros (i & L & ->); lia].
  - split; [intro E; exists (c - 97); lia|intros (i & L & ->); lia].
  - intros i L. replace ((65 <=? 65 + i) && (65 + i <=? 90)) with true by lia. replace ((97 <=? 97 + i) && (97 + i <=? 122)) with true by lia. lia.
  - intros ->. reflexivity.
  - intros ->. reflexivity.
  - destruct ((65 <=? c) && (c <=? 90)) eqn:U, ((97 <=? c) && (c <=? 122)) eqn:Lo; rewrite negb_true_iff, N.eqb_neq; split; intros; try lia; auto; destruct H0; discriminate.
  - ifs; lia.
  - ifs; lia.
Qed.
Theorem C65_inverse : forall c, mytolower (mytoupper c) = mytolower c /\ mytoupper (mytolower c) = mytoupper c /\
  mytolower (mytolower c) = mytolower c /\ mytoupper (mytoupper c) = mytoupper c.
Proof. intro c. unfold mytolower, mytoupper, myisupper, myislower. conjs; ifs; lia. Qed.
Example C65_case : map mytolower (lit "aZ[{@`z0") = lit "az[{@`z0" /\ map mytoupper (lit "aZ[{@`z0") = lit "AZ[{@`Z0" /\ ourisalpha 170 = false.
Proof. repeat split; vm_compute; reflexivity. Qed.

Print Assumptions C61_text.
Print Assumptions C61_injective.
Print Assumptions C62_size.
Print Assumptions C62_height.
Print Assumptions C63_verdict.
Print Assumptions C63_horizon.
Print Assumptions C63_classes.
Print Assumptions C64_expression.
Print Assumptions C64_parsed.
Print Assumptions C65_case_helpers.
Print Assumptions C65_inverse.
