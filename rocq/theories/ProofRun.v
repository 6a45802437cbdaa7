(** Runs of the compile loop: what success, the first failure and a panic mean. *)
From Verif Require Import Base ModelUtil ModelBitField ModelCharReach ModelLiteral ModelReport ModelPetgraph ModelParser ModelNfa ModelSmallWrite ModelCompiler
  SpecSet SpecGrammar SpecReport SpecTrie SpecTree SpecGraph SpecCompile
  ProofBase ProofLiteral ProofReport ProofGrammar ProofParser ProofTree ProofVerb ProofTrie ProofShortcut ProofGraph ProofCompile.
Local Open Scope N_scope.
Local Open Scope list_scope.

(** ** Parsing and acceptability *)
Lemma acceptable_parse : forall p it, acceptable p it -> exists t m, parse p (it_expr it) (item_mode it) = Ret (ROk (t, m)).
Proof.
  intros p it [_ _ (body & Bo & A & B & G)]. apply (body_starts _ _ (item_mode it)) in Bo. destruct Bo as (m' & St).
  apply balanced_derivation in B. destruct B as (e & W & T).
  exists (tree (caseless (item_mode it)) e), m'. apply parse_outcome_fun. eapply po_ok; eassumption.
Qed.
Lemma judged_fun : forall p H i it o o', judged p H i it o -> judged p H i it o' -> o = o'.
Proof.
  intros p H i it o o' J J'.
  assert (X : forall a, acceptable p it -> str_len (it_expr it) <= 16000 /\ ~ (quiet it = true /\ som_leftmost it = true) /\ (parse p (it_expr it) (item_mode it) = a -> exists t, a = Ret (ROk t))).
  { intros a Ac. conjs; [apply Ac|apply Ac|]. intros <-. destruct (acceptable_parse p it Ac) as (t & m & ->). eauto. }
  destruct J as [L|L Q S|e L F P|w L F P|body Ac B Nl|body b Ac B Li Fa D|body Ac B Li Fa]; destruct J' as [L'|L' Q' S'|e' L' F' P'|w' L' F' P'|body' Ac' B' Nl'|body' b' Ac' B' Li' Fa' D'|body' Ac' B' Li' Fa'];
    try reflexivity; try lia; try (exfalso; tauto); try congruence;
    try (match goal with Ac : acceptable _ _ |- _ => destruct (X (Panic PAssert) Ac) as (Y1 & Y2 & _) end; lia);
    try (match goal with Ac : acceptable _ _ |- _ => destruct (X (Panic PAssert) Ac) as (Y1 & Y2 & _) end; exfalso; tauto);
    try (match goal with Ac : acceptable _ _, P : parse _ _ _ = ?a |- _ => destruct (X a Ac) as (_ & _ & Y); destruct (Y P); discriminate end);
    try (pose proof (body_fun _ _ _ B B') as Eb; subst body'; contradiction || congruence || reflexivity).
  - exfalso. apply D. apply Fa'. exact Fa.
  - exfalso. apply D'. apply Fa. exact Fa'.
Qed.
Lemma run_fun : forall p H i l o, run p H i l o -> forall o', run p H i l o' -> o = o'.
Proof.
  intros p H i l o R. induction R as [H i|H i it t l o J R IH|H i it t e J D|H i it t e J N D|H i it t w J]; intros o' R'; inversion R' as [|? ? ? ? l' ? J' R''|? ? ? ? e' J' D'|? ? ? ? e' J' N' D'|? ? ? ? w' J']; subst;
    try reflexivity; pose proof (judged_fun _ _ _ _ _ _ J J') as E; try discriminate E.
  - injection E as <-. apply IH. exact R''.
  - injection E as <-. reflexivity.
  - injection E as <-. destruct D; congruence.
  - injection E as <-. destruct D'; congruence.
  - exact E.
Qed.

(** ** Contributions *)
Lemma adds_app : forall i l1 A1, adds i l1 A1 -> forall l2 A2, adds (i + N.of_nat (List.length l1)) l2 A2 -> adds i (l1 ++ l2) (A1 ++ A2).
Proof.
  intros i l1 A1 Ad. induction Ad as [i|i it t body l B L Ad IH|i it t body l B L Ad IH]; intros l2 A2 Ad2.
  - cbn [List.length app] in *. rewrite N.add_0_r in Ad2. exact Ad2.
  - cbn [app]. eapply adds_literal; [exact B|exact L|]. apply IH. cbn [List.length] in Ad2. replace (i + 1 + N.of_nat (List.length t)) with (i + N.of_nat (S (List.length t))) by lia. exact Ad2.
  - cbn [app]. eapply adds_other; [exact B|exact L|]. apply IH. cbn [List.length] in Ad2. replace (i + 1 + N.of_nat (List.length t)) with (i + N.of_nat (S (List.length t))) by lia. exact Ad2.
Qed.
Lemma adds_In : forall i l A, adds i l A -> forall a, In a A <->
  exists k it body, nth_error l k = Some it /\ body_of (it_expr it) body /\ literal_text body /\ a = addition_of (i + N.of_nat k) it body.
Proof.
  intros i l A Ad. induction Ad as [i|i it t body l B L Ad IH|i it t body l B L Ad IH]; intro a.
  - split; [intros []|]. intros ([|k] & it & body & E & _); discriminate.
  - cbn [In]. rewrite IH. split.
    + intros [<-|(k & it' & body' & E & B' & L' & ->)].
      * exists 0%nat, it, body. conjs; auto. unfold addition_of. rewrite N.add_0_r. reflexivity.
      * exists (S k), it', body'. conjs; auto. f_equal. lia.
    + intros ([|k] & it' & body' & E & B' & L' & ->).
      * left. cbn in E. injection E as <-. rewrite (body_fun _ _ _ B' B). unfold addition_of. rewrite N.add_0_r. reflexivity.
      * right. exists k, it', body'. conjs; auto. f_equal. lia.
  - rewrite IH. split.
    + intros (k & it' & body' & E & B' & L' & ->). exists (S k), it', body'. conjs; auto. f_equal. lia.
    + intros ([|k] & it' & body' & E & B' & L' & ->).
      * cbn in E. injection E as <-. rewrite (body_fun _ _ _ B' B) in L'. contradiction.
      * exists k, it', body'. conjs; auto. f_equal. lia.
Qed.
Lemma adds_first : forall i l A, adds i l A -> forall id b, first_add A id = Some b ->
  exists k it body, nth_error l k = Some it /\ body_of (it_expr it) body /\ literal_text body /\ b = addition_of (i + N.of_nat k) it body /\ it_id it = id /\
    forall j it', (j < k)%nat -> nth_error l j = Some it' -> literal_item it' -> it_id it' <> id.
Proof.
  intros i l A Ad. induction Ad as [i|i it t body l B L Ad IH|i it t body l B L Ad IH]; intros id b Fa.
  - discriminate Fa.
  - unfold first_add in Fa. cbn [find ad_id] in Fa. destruct (N.eqb_spec id (it_id it)) as [E|E].
    + injection Fa as <-. exists 0%nat, it, body. conjs; auto. { unfold addition_of. rewrite N.add_0_r. reflexivity. } intros j it' Lt. lia.
    + destruct (IH id b Fa) as (k & it' & body' & E1 & B' & L' & -> & Ei & Fst). exists (S k), it', body'. conjs; auto; [f_equal; lia|].
      intros [|j] it2 Lt E2 L2; [cbn in E2; injection E2 as <-; congruence|]. apply (Fst j it2); [lia|exact E2|exact L2].
  - destruct (IH id b Fa) as (k & it' & body' & E1 & B' & L' & -> & Ei & Fst). exists (S k), it', body'. conjs; auto; [f_equal; lia|].
    intros [|j] it2 Lt E2 L2; [|apply (Fst j it2); [lia|exact E2|exact L2]]. exfalso. cbn in E2. injection E2 as <-. destruct L2 as (b2 & B2 & L2). rewrite (body_fun _ _ _ B2 B) in L2. contradiction.
Qed.
Lemma adds_fun : forall i l A, adds i l A -> forall A', adds i l A' -> A = A'.
Proof.
  intros i l A Ad. induction Ad as [i|i it t body l B L Ad IH|i it t body l B L Ad IH]; intros A' Ad'; inversion Ad' as [|? ? ? body' l' B' L' Ad''|? ? ? body' l' B' L' Ad'']; subst;
    try reflexivity; pose proof (body_fun _ _ _ B B') as Eb; subst body'; try contradiction; try (f_equal; apply IH; exact Ad''); apply IH; exact Ad''.
Qed.
Lemma judged_adds : forall p H i it l, judged p H i it (Ret (ROk l)) -> adds i [it] l.
Proof.
  intros p H i it l J. inversion J; subst.
  - eapply adds_other; [eassumption|assumption|constructor].
  - eapply adds_literal; [eassumption|assumption|constructor].
Qed.
Lemma run_adds : forall p H i l o, run p H i l o -> forall H', o = Ret (ROk H') -> exists A, adds i l A /\ H' = H ++ A.
Proof.
  intros p H i l o R. induction R as [H i|H i it t l o J R IH|H i it t e J D|H i it t e J N D|H i it t w J]; intros H' E; try discriminate.
  - injection E as <-. exists []. split; [constructor|symmetry; apply app_nil_r].
  - destruct (IH H' E) as (A & Ad & ->). exists (l ++ A). split; [|symmetry; apply app_assoc]. change (it :: t) with ([it] ++ t). apply adds_app; [eapply judged_adds; exact J|].
    exact Ad.
Qed.

(** ** Fitting *)
Definition fits_after (p : profile) (before : list item) (it : item) : Prop := acceptable p it /\ forall a, In a before -> ~ conflict a it.
Definition no_conflicts (l : list item) : Prop := forall a b, In a l -> In b l -> ~ conflict a b.
Lemma first_add_In : forall H id b, first_add H id = Some b -> In b H /\ ad_id b = id.
Proof. intros H id b E. apply find_some in E. destruct E as [I E]. apply N.eqb_eq in E. auto. Qed.
Lemma judged_fits : forall p before H i it o, adds 0 before H -> no_conflicts before -> judged p H i it o ->
  match o with Ret (ROk _) => fits_after p before it | _ => ~ fits_after p before it end.
Proof.
  intros p before H i it o Ad Nc J. destruct J as [L|L Q S|e L F P|w L F P|body Ac B Nl|body b Ac B Li Fa D|body Ac B Li Fa].
  - intros [[L' _ _] _]. lia.
  - intros [[_ F _] _]. auto.
  - intros [Ac _]. destruct (acceptable_parse p it Ac) as (t & m & E). congruence.
  - intros [Ac _]. destruct (acceptable_parse p it Ac) as (t & m & E). congruence.
  - split; [exact Ac|]. intros a _ (_ & (b' & B' & L') & _). rewrite (body_fun _ _ _ B' B) in L'. contradiction.
  - intros [_ F]. destruct (first_add_In _ _ _ Fa) as [Ib Ed]. apply (adds_In _ _ _ Ad) in Ib. destruct Ib as (k & a & bo & E & Ba & La & ->).
    apply nth_error_In in E. apply (F a E). repeat split; try (eexists; split; eassumption); [exact Ed|exact D].
  - split; [exact Ac|]. intros a Ia (La & _ & Ed & Ds). destruct La as (bo & Ba & La). apply In_nth_error in Ia. destruct Ia as (k & Ek).
    assert (Ia : In (addition_of (0 + N.of_nat k) a bo) H) by (apply (adds_In _ _ _ Ad); exists k, a, bo; auto).
    destruct (first_add H (it_id it)) as [b|] eqn:Fb.
    + pose proof (Fa b eq_refl) as Es. destruct (first_add_In _ _ _ Fb) as [Ib Edb]. apply (adds_In _ _ _ Ad) in Ib. destruct Ib as (k' & a' & bo' & E' & Ba' & La' & ->).
      apply (Nc a a'); [eapply nth_error_In; exact Ek|eapply nth_error_In; exact E'|]. unfold addition_of in Edb, Es. cbn [ad_id ad_single] in Edb, Es.
      repeat split; try (eexists; split; eassumption); congruence.
    + unfold first_add in Fb. pose proof (find_none _ _ Fb _ Ia) as X. unfold addition_of in X. cbn [ad_id] in X. apply N.eqb_neq in X. congruence.
Qed.
Lemma conflict_sym : forall a b, conflict a b -> conflict b a.
Proof. intros a b (A & B & C & D). repeat split; auto. Qed.
Lemma no_conflicts_snoc : forall p l it, no_conflicts l -> fits_after p l it -> no_conflicts (l ++ [it]).
Proof.
  intros p l it Nc [_ F] a b Ia Ib. apply in_app_or in Ia, Ib. destruct Ia as [Ia|[<-|[]]], Ib as [Ib|[<-|[]]].
  - apply Nc; assumption.
  - apply F. exact Ia.
  - intro C. apply (F b Ib). apply conflict_sym. exact C.
  - intros (_ & _ & _ & D). congruence.
Qed.
(** Where a run stops, and why. *)
Lemma run_stops : forall p H i l o, run p H i l o -> forall before, adds 0 before H -> no_conflicts before -> i = N.of_nat (List.length before) ->
  match o with
  | Ret (ROk H') => no_conflicts (before ++ l) /\ adds 0 (before ++ l) H' /\ (forall k it, nth_error l k = Some it -> fits_after p (before ++ firstn k l) it)
  | Diverge => False
  | _ => exists k it A o', nth_error l k = Some it /\ adds 0 (before ++ firstn k l) A /\ no_conflicts (before ++ firstn k l) /\
      (forall j it', (j < k)%nat -> nth_error l j = Some it' -> fits_after p (before ++ firstn j l) it') /\
      ~ fits_after p (before ++ firstn k l) it /\
      judged p A (i + N.of_nat k) it o' /\
      match o', o with
      | Ret (RErr e'), Ret (RErr e) => e = at_index (i + N.of_nat k) e' /\ (err_index e' = None \/ debug_assertions p = false)
      | Ret (RErr e'), Panic w => w = PDebugAssert /\ err_index e' <> None /\ debug_assertions p = true
      | Panic w', Panic w => w = w'
      | _, _ => False
      end
  end.
Proof.
  intros p H i l o R. induction R as [H i|H i it t l o J R IH|H i it t e J D|H i it t e J N D|H i it t w J]; intros before Ad Nc Hi.
  - rewrite app_nil_r. conjs; auto. intros [|k] it E; discriminate.
  - pose proof (judged_fits _ _ _ _ _ _ Ad Nc J) as F. cbv iota in F. pose proof (no_conflicts_snoc _ _ _ Nc F) as Nc'.
    assert (Ad' : adds 0 (before ++ [it]) (H ++ l)) by (apply adds_app; [exact Ad|rewrite N.add_0_l, <- Hi; eapply judged_adds; exact J]).
    specialize (IH (before ++ [it]) Ad' Nc'). rewrite app_length in IH. cbn [List.length] in IH. specialize (IH ltac:(lia)).
    assert (As : forall x, (before ++ [it]) ++ x = before ++ it :: x) by (intro; rewrite <- app_assoc; reflexivity).
    destruct o as [[H'|e]|w|]; [| | |exact IH].
    + rewrite As in IH. destruct IH as (I1 & I2 & I3). conjs; auto. intros [|k] it' E; cbn [nth_error firstn] in *.
      * injection E as <-. rewrite app_nil_r. exact F.
      * specialize (I3 k it' E). rewrite As in I3. exact I3.
    + destruct IH as (k & it' & A & o' & I1 & I2 & I3 & I4 & I5 & I6 & I7). exists (S k), it', A, o'. cbn [nth_error firstn]. rewrite As in *. 
      replace (i + N.of_nat (S k)) with (i + 1 + N.of_nat k) by lia. conjs; auto. intros [|j] it2 Lt E; cbn [nth_error firstn] in *.
      * injection E as <-. rewrite app_nil_r. exact F.
      * specialize (I4 j it2 ltac:(lia) E). rewrite As in I4. exact I4.
    + destruct IH as (k & it' & A & o' & I1 & I2 & I3 & I4 & I5 & I6 & I7). exists (S k), it', A, o'. cbn [nth_error firstn]. rewrite As in *. 
      replace (i + N.of_nat (S k)) with (i + 1 + N.of_nat k) by lia. conjs; auto. intros [|j] it2 Lt E; cbn [nth_error firstn] in *.
      * injection E as <-. rewrite app_nil_r. exact F.
      * specialize (I4 j it2 ltac:(lia) E). rewrite As in I4. exact I4.
  - pose proof (judged_fits _ _ _ _ _ _ Ad Nc J) as F. cbv iota in F. exists 0%nat, it, H, (Ret (RErr e)). cbn [nth_error firstn]. rewrite app_nil_r. replace (i + N.of_nat 0) with i by lia. conjs; auto. lia.
  - pose proof (judged_fits _ _ _ _ _ _ Ad Nc J) as F. cbv iota in F. exists 0%nat, it, H, (Ret (RErr e)). cbn [nth_error firstn]. rewrite app_nil_r. replace (i + N.of_nat 0) with i by lia. conjs; auto. lia.
  - pose proof (judged_fits _ _ _ _ _ _ Ad Nc J) as F. cbv iota in F. exists 0%nat, it, H, (Panic w). cbn [nth_error firstn]. rewrite app_nil_r. replace (i + N.of_nat 0) with i by lia. conjs; auto. lia.
Qed.
(** A run that stops does not look any further. *)
Lemma run_prefix : forall p H i l o, run p H i l o -> (forall H', o <> Ret (ROk H')) ->
  exists k, (k < List.length l)%nat /\ (forall e, o = Ret (RErr e) -> err_index e = Some (i + N.of_nat k)) /\
    forall l', firstn (S k) l' = firstn (S k) l -> run p H i l' o.
Proof.
  intros p H i l o R. induction R as [H i|H i it t l o J R IH|H i it t e J D|H i it t e J N D|H i it t w J]; intros Ne.
  - destruct (Ne H eq_refl).
  - destruct (IH Ne) as (k & Lt & Ei & Sm). exists (S k). cbn [List.length]. conjs; [lia|intros e E; rewrite (Ei e E); f_equal; lia|].
    intros [|it' t'] E; [discriminate E|]. cbn [firstn] in E. injection E as -> E. eapply run_ok; [exact J|]. apply Sm. exact E.
  - exists 0%nat. cbn [List.length]. conjs; [lia|intros e' [= <-]; cbn; f_equal; lia|]. intros [|it' t'] E; [discriminate E|]. cbn [firstn] in E. injection E as ->. apply run_err; assumption.
  - exists 0%nat. cbn [List.length]. conjs; [lia|discriminate|]. intros [|it' t'] E; [discriminate E|]. cbn [firstn] in E. injection E as ->. eapply run_assert; eassumption.
  - exists 0%nat. cbn [List.length]. conjs; [lia|discriminate|]. intros [|it' t'] E; [discriminate E|]. cbn [firstn] in E. injection E as ->. apply run_panic; assumption.
Qed.
Lemma nth_error_firstn' : forall {A} (l : list A) k j, (j < k)%nat -> nth_error (firstn k l) j = nth_error l j.
Proof.
  intros A l. induction l as [|x l IH]; intros [|k] [|j] L; try lia; try reflexivity. cbn. apply IH. lia.
Qed.
Lemma firstn_ext : forall {A} k (l l' : list A), (forall i, (i < k)%nat -> nth_error l i = nth_error l' i) -> firstn k l = firstn k l'.
Proof.
  intros A k. induction k as [|k IH]; intros l l' E; [reflexivity|]. pose proof (E 0%nat ltac:(lia)) as E0.
  destruct l as [|x l], l' as [|x' l']; try discriminate E0; [reflexivity|]. injection E0 as ->. cbn. f_equal. apply IH. intros i L. apply (E (S i)). lia.
Qed.
Lemma fits_iff : forall p es fs ids k, item_fits p es fs ids k <-> forall it, nth_error (items_of es fs ids) k = Some it -> fits_after p (firstn k (items_of es fs ids)) it.
Proof.
  intros p es fs ids k. unfold item_fits, fits_after. split; intros F it E.
  - apply items_of_nth in E. destruct (F it E) as [Ac C]. split; [exact Ac|]. intros a Ia. apply In_nth_error in Ia. destruct Ia as (j & Ej).
    assert (j < k)%nat by (assert (nth_error (firstn k (items_of es fs ids)) j <> None) as X by congruence; apply nth_error_Some in X; rewrite firstn_length in X; lia).
    apply (C j a); [assumption|]. apply items_of_nth. rewrite <- Ej. rewrite nth_error_firstn'; [reflexivity|assumption].
  - apply items_of_nth in E. destruct (F it E) as [Ac C]. split; [exact Ac|]. intros j a Lt Ea. apply items_of_nth in Ea. apply C.
    apply nth_error_In with (n := j). rewrite nth_error_firstn'; assumption.
Qed.

(** ** The whole call *)
Inductive compiled (p : profile) (es : list str) (fs ids : list N) (m : mode) : outcome (result compile_error database) -> Prop :=
| c_empty : es = [] -> compiled p es fs ids m (Ret (RErr (error_new EOther (lit "Invalid parameter: expressions is empty"))))
| c_many : 8000000 < N.of_nat (List.length es) -> compiled p es fs ids m (Ret (RErr (error_new EOther (lit "Number of patterns too large"))))
| c_ok : forall A n, es <> [] -> N.of_nat (List.length es) <= 8000000 -> adds 0 (items_of es fs ids) A -> no_conflicts (items_of es fs ids) ->
    (forall k, item_fits p es fs ids k) -> engine p es fs ids m = Ret (ROk n) ->
    ng_inv p (N.of_nat (List.length es)) (CompileContext (is_streaming m) (is_vectored m) grey_default) A n ->
    compiled p es fs ids m (Ret (ROk (build n)))
| c_stop : forall k it A o' o, es <> [] -> N.of_nat (List.length es) <= 8000000 ->
    item_at es fs ids k it -> adds 0 (firstn k (items_of es fs ids)) A -> no_conflicts (firstn k (items_of es fs ids)) ->
    (forall j, (j < k)%nat -> item_fits p es fs ids j) -> ~ item_fits p es fs ids k ->
    judged p A (N.of_nat k) it o' ->
    match o', o with
    | Ret (RErr e'), Ret (RErr e) => e = at_index (N.of_nat k) e' /\ (err_index e' = None \/ debug_assertions p = false)
    | Ret (RErr e'), Panic w => w = PDebugAssert /\ err_index e' <> None /\ debug_assertions p = true
    | Panic w', Panic w => w = w'
    | _, _ => False
    end -> compiled p es fs ids m o.
Lemma compile_cases : forall p es fs ids m, compiled p es fs ids m (compile_multi p es fs ids m).
Proof.
  intros p es fs ids m. destruct es as [|e0 es0] eqn:Ees; [apply c_empty; reflexivity|]. rewrite <- Ees in *. clear Ees e0 es0.
  assert (X : es <> [] \/ es = []) by (destruct es; [right; reflexivity|left; discriminate]). destruct X as [Ne| ->]; [|apply c_empty; reflexivity].
  destruct (N.leb_spec (N.of_nat (List.length es)) 8000000) as [L|L].
  2:{ replace (compile_multi p es fs ids m) with (Ret (RErr (error_new EOther (lit "Number of patterns too large"))) : outcome (result compile_error database)); [apply c_many; exact L|].
      unfold compile_multi, compile_multi_int. destruct es as [|l0 es]; [contradiction|]. change (limit_pattern_count grey_default) with 8000000.
      replace (8000000 <? N.of_nat (List.length (l0 :: es))) with true by lia. reflexivity. }
  destruct (compile_int_ok p es fs ids m Ne L) as (o & R & M).
  pose proof (run_stops _ _ _ _ _ R [] ltac:(constructor) ltac:(intros a b []) eq_refl) as St. cbn [app] in St.
  assert (Fit : forall k, (forall it, nth_error (items_of es fs ids) k = Some it -> fits_after p (firstn k (items_of es fs ids)) it) -> item_fits p es fs ids k) by (intros; apply fits_iff; assumption).
  destruct o as [[H|e]|w|]; [| | |contradiction].
  - destruct M as (n & E & I & ->). destruct St as (S1 & S2 & S3). eapply c_ok; try eassumption. intro k. apply Fit. apply S3.
  - rewrite M. destruct St as (k & it & A & o' & S1 & S2 & S3 & S4 & S5 & S6 & S7). rewrite N.add_0_l in *. eapply c_stop; try eassumption.
    + apply items_of_nth. exact S1.
    + intros j Lt. apply Fit. intros it' E. apply S4; assumption.
    + intro F. apply S5. rewrite fits_iff in F. apply F. exact S1.
    + destruct o' as [[?|?]|?|]; exact S7.
  - rewrite M. destruct St as (k & it & A & o' & S1 & S2 & S3 & S4 & S5 & S6 & S7). rewrite N.add_0_l in *. eapply c_stop; try eassumption.
    + apply items_of_nth. exact S1.
    + intros j Lt. apply Fit. intros it' E. apply S4; assumption.
    + intro F. apply S5. rewrite fits_iff in F. apply F. exact S1.
    + destruct o' as [[?|?]|?|]; exact S7.
Qed.
Lemma good_set_fits : forall p es fs ids, good_set p es fs ids <-> forall k, item_fits p es fs ids k.
Proof.
  intros p es fs ids. unfold good_set, item_fits. split.
  - intros [A C] k it E. split; [eapply A; exact E|]. intros j a _ Ea. eapply C; eassumption.
  - intro F. split.
    + intros i it E. apply (F i it E).
    + intros i j a b Ea Eb Cf. destruct (Nat.lt_trichotomy i j) as [L|[->|L]].
      * destruct (F j b Eb) as [_ Cj]. exact (Cj i a L Ea Cf).
      * assert (a = b). { apply items_of_nth in Ea, Eb. congruence. } subst b. destruct Cf as (_ & _ & _ & D). congruence.
      * destruct (F i a Ea) as [_ Ci]. exact (Ci j b L Eb (conflict_sym _ _ Cf)).
Qed.
Lemma item_at_fun : forall es fs ids i a b, item_at es fs ids i a -> item_at es fs ids i b -> a = b.
Proof. intros es fs ids i a b A B. apply items_of_nth in A, B. congruence. Qed.

Lemma engine_inv : forall p es fs ids m n, N.of_nat (List.length es) <= 8000000 -> engine p es fs ids m = Ret (ROk n) ->
  exists A, adds 0 (items_of es fs ids) A /\ ng_inv p (N.of_nat (List.length es)) (CompileContext (is_streaming m) (is_vectored m) grey_default) A n.
Proof.
  intros p es fs ids m n L E. unfold engine in E. pose proof (items_of_length es fs ids) as Li.
  destruct (add_all_ok p (N.of_nat (List.length es)) (CompileContext (is_streaming m) (is_vectored m) grey_default) (items_of es fs ids) []
    (ng_new (CompileContext (is_streaming m) (is_vectored m) grey_default) (N.of_nat (List.length es)) (som_precision m)) 0) as (o & R & M).
  { apply ng_inv_new. reflexivity. } { reflexivity. } { cbn [List.length]. lia. } { lia. }
  rewrite items_of_zip in M. destruct o as [[H|e]|w|]; try (rewrite E in M; discriminate M); [|contradiction].
  destruct M as (n' & E' & I). rewrite E in E'. injection E' as <-. destruct (run_adds _ _ _ _ _ R H eq_refl) as (A & Ad & ->). exists A. auto.
Qed.
Lemma adds_literal_at : forall es fs ids A, adds 0 (items_of es fs ids) A -> forall a, In a A <->
  exists i it l, literal_at es fs ids i it l /\ a = Addition (N.of_nat i) (it_id it) (single_match it) l.
Proof.
  intros es fs ids A Ad a. rewrite (adds_In _ _ _ Ad). unfold literal_at, addition_of. split.
  - intros (k & it & body & E & B & L & ->). exists k, it, (text_literal (caseless_item it) body). split; [|reflexivity]. split; [apply items_of_nth; exact E|eauto].
  - intros (k & it & l & (E & body & B & L & ->) & ->). exists k, it, body. conjs; auto. apply items_of_nth. exact E.
Qed.
