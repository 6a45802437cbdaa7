(** Properties C38, C45-C47 and C55-C57: the engine built from an accepted set, the
    database and scanning. *)
From Verif Require Import Base ModelUtil ModelBitField ModelCharReach ModelLiteral ModelReport ModelPetgraph ModelParser ModelNfa ModelSmallWrite ModelCompiler
  SpecSet SpecGrammar SpecReport SpecTrie SpecTree SpecGraph SpecCompile
  ProofBase ProofLiteral ProofReport ProofGrammar ProofParser ProofTree ProofVerb ProofTrie ProofLimits ProofShortcut ProofGraph ProofCompile ProofRun
  PropReport PropParser PropTrie PropShortcut PropCompile.
Local Open Scope N_scope.
Local Open Scope list_scope.

(** Every accepted set has an engine, and the other way round. *)
Theorem C45_engine_exists : forall p es fs ids m db, compile_multi p es fs ids m = Ret (ROk db) <->
  es <> [] /\ N.of_nat (List.length es) <= 8000000 /\ exists n, engine p es fs ids m = Ret (ROk n) /\ db = build n.
Proof.
  intros p es fs ids m db. split.
  - intro E. pose proof (compile_cases p es fs ids m) as C. rewrite E in C. inversion C as [| |A n Ne L Ad Nc F En I|k it A o' o Ne L E' Ad Nc F NF J X]; subst; [eauto|].
    destruct o' as [[?|?]|?|]; contradiction.
  - intros (Ne & L & n & E & ->). unfold compile_multi, compile_multi_int. destruct es as [|e0 es]; [contradiction|]. cbv zeta.
    change (limit_pattern_count grey_default) with 8000000. replace (8000000 <? N.of_nat (List.length (e0 :: es))) with false by lia.
    change (bindr (engine p (e0 :: es) fs ids m) (fun n' => Ret (ROk (build n'))) = Ret (ROk (build n))). rewrite E. reflexivity.
Qed.

(** ** C45 *)
Lemma ask_width : forall p n q n1 r, ask p n q = Ret (n1, r) ->
  match r with
  | ROk true => depth_val (ng_min_width n1) = N.min (depth_val (ng_min_width n)) (lit_length (lr_lit q)) /\ lit_length (lr_lit q) <= MAX_VALUE
  | _ => ng_min_width n1 = ng_min_width n
  end.
Proof.
  intros p n q n1 r E. unfold ask, ng_add_literal in E. destruct (rs_debug_assert p (negb (lit_is_empty (lr_lit q)))); cbn [bind] in E; try discriminate.
  destruct (negb (shortcut_literals (cc_grey (ng_cc n)))); [injection E as <- <-; reflexivity|]. destruct (mixed_sensitivity (lit_iter (lr_lit q))); [injection E as <- <-; reflexivity|].
  destruct (register_ext_report (ng_rm n) (lr_id q) _) as [rm1 reg]. destruct reg as [u|e]; [|injection E as <- <-; reflexivity].
  assert (W : forall x y, literal_report_id p (ng_set_rm n rm1) (lr_lit q) (lr_id q) (lr_single q) (lr_som q) (lr_quiet q) = Ret (x, y) -> ng_min_width x = ng_min_width n).
  { intros x y. unfold literal_report_id. destruct (lr_som q).
    - cbn [ng_set_rm ng_rm]. destruct (if lr_single q then _ else _) as [[rm2 k]| |]; cbn [bind]; try discriminate. destruct (get_internal_id rm2 _) as [[rm3 i]| |]; cbn [bind]; try discriminate. intros [= <- _]. reflexivity.
    - destruct (rs_debug_assert p (negb (lr_single q))); cbn [bind]; try discriminate. destruct (get_internal_id _ _) as [[rm3 i]| |]; cbn [bind]; try discriminate. intros [= <- _]. reflexivity. }
  destruct (literal_report_id p (ng_set_rm n rm1) _ _ _ _ _) as [[n2 rid]| |]; cbn [bind] in E; try discriminate. specialize (W n2 rid eq_refl).
  destruct rid as [id|e]; [|injection E as <- <-; exact W]. unfold depth_try_from_usize, lit_len in E.
  destruct (N.leb_spec (N.of_nat (List.length (lit_s (lr_lit q)))) MAX_VALUE) as [L|L]; [|injection E as <- <-; exact W].
  destruct (smwr_add_literal p (ng_smwr n2) (lr_lit q) id) as [s| |]; cbn [bind] in E; try discriminate. injection E as <- <-. cbn [ng_min_width]. rewrite W. unfold lit_length. split; [|exact L].
  unfold depth_min, depth_cmp, cast. cbn [depth_val]. assert (MAX_VALUE < 2 ^ 32) by reflexivity. rewrite N.mod_small by lia.
  destruct (N.compare_spec (depth_val (ng_min_width n)) (N.of_nat (List.length (lit_s (lr_lit q))))); cbn [depth_val]; lia.
Qed.
Theorem C45_min_width : forall p cc np som h n taken, ng_history p (ng_new cc np som) h n taken ->
  (taken = [] -> ng_min_width n = depth_infinity) /\
  (taken <> [] -> (exists l, In l taken /\ lit_length l = depth_val (ng_min_width n)) /\ forall l, In l taken -> depth_val (ng_min_width n) <= lit_length l).
Proof.
  assert (G : forall p n0 h n taken, ng_history p n0 h n taken ->
    (taken = [] -> ng_min_width n = ng_min_width n0) /\ depth_val (ng_min_width n) <= depth_val (ng_min_width n0) /\
    (depth_val (ng_min_width n) = depth_val (ng_min_width n0) \/ exists l, In l taken /\ lit_length l = depth_val (ng_min_width n)) /\
    forall l, In l taken -> depth_val (ng_min_width n) <= lit_length l /\ lit_length l <= MAX_VALUE).
  { intros p n0 h n taken Hh. induction Hh as [n|n q n1 h n2 l E Hh IH|n q n1 h n2 l E Hh IH|n q n1 e h n2 l E Hh IH].
    - conjs; auto; [lia|intros l []].
    - apply ask_width in E. cbv iota in E. destruct E as [E L]. destruct IH as (I1 & I2 & I3 & I4). conjs; [discriminate|lia| |].
      + destruct I3 as [I3|(x & I3 & I3')]; [|right; exists x; split; [right; exact I3|exact I3']]. destruct (N.leb_spec (depth_val (ng_min_width n)) (lit_length (lr_lit q))); [left; lia|].
        right. exists (lr_lit q). split; [left; reflexivity|lia].
      + intros x [<-|I]; [lia|]. apply I4. exact I.
    - apply ask_width in E. cbv iota in E. rewrite <- E. exact IH.
    - apply ask_width in E. cbv iota in E. rewrite <- E. exact IH. }
  intros p cc np som h n taken Hh. destruct (G _ _ _ _ _ Hh) as (G1 & G2 & G3 & G4). split.
  - exact G1.
  - intro Ne. split; [|intros l I; apply G4; exact I]. destruct G3 as [G3|G3]; [|exact G3]. destruct taken as [|l0 t]; [contradiction|]. destruct (G4 l0 (or_introl eq_refl)) as [X Y].
    cbn [ng_new ng_min_width depth_infinity depth_val] in G3. exfalso. rewrite G3 in X. assert (MAX_VALUE < INFINITY) by reflexivity. lia.
Qed.
(** Within the length limit a literal is never refused for its depth: it is taken, or
    refused for its mixed case, or fails for another reason with nothing lost. *)
Theorem C45_no_depth_overflow : forall p n q n1 e, lit_length (lr_lit q) <= 16000 ->
  ask p n q = Ret (n1, RErr e) -> err_reason e <> lit "depth overflow".
Proof.
  intros p n q n1 e L E. unfold ask, ng_add_literal in E. destruct (rs_debug_assert p (negb (lit_is_empty (lr_lit q)))); cbn [bind] in E; try discriminate.
  destruct (negb (shortcut_literals (cc_grey (ng_cc n)))); [discriminate|]. destruct (mixed_sensitivity (lit_iter (lr_lit q))); [discriminate|].
  unfold register_ext_report in E.
  assert (I : forall rm r x y, get_internal_id rm r = Ret (x, y) -> y = RErr (error_new EResourceLimit (lit "Resource limit exceeded.")) \/ exists k, y = ROk k).
  { intros rm r x y. unfold get_internal_id. destruct (assoc report_eqb (internal_map rm) r); [intros [= _ <-]; eauto|]. destruct (_ <=? _); [intros [= _ <-]; auto|].
    cbv zeta. destruct (_ <? 2 ^ 32); try discriminate. intros [= _ <-]. eauto. }
  assert (D : depth_try_from_usize (lit_len (lr_lit q)) = ROk (Depth (cast 32 (lit_len (lr_lit q))))).
  { unfold depth_try_from_usize, lit_len. unfold lit_length in L. assert (16000 < MAX_VALUE) by reflexivity. replace (_ <=? MAX_VALUE) with true by lia. reflexivity. }
  rewrite D in E.
  assert (Fin : forall rm1, (let! (n2, rid) := literal_report_id p (ng_set_rm n rm1) (lr_lit q) (lr_id q) (lr_single q) (lr_som q) (lr_quiet q) in
      match rid with
      | RErr e => Ret (n2, RErr e)
      | ROk id => let rose' := rose_add (ng_rose n2) false false (lr_lit q) [id] in
          let! smwr' := smwr_add_literal p (ng_smwr n2) (lr_lit q) id in
          Ret (Ng (depth_min (ng_min_width n2) (Depth (cast 32 (lit_len (lr_lit q))))) (ng_rm n2) (ng_boundary n2) (ng_cc n2) smwr' rose', ROk true)
      end) = Ret (n1, RErr e) -> err_reason e <> lit "depth overflow").
  { intros rm1 E'. destruct (literal_report_id p (ng_set_rm n rm1) _ _ _ _ _) as [[n2 rid]| |] eqn:R; cbn [bind] in E'; try discriminate.
    destruct rid as [id|e']; [destruct (smwr_add_literal p (ng_smwr n2) (lr_lit q) id); discriminate E'|]. injection E' as -> ->. unfold literal_report_id in R. destruct (lr_som q).
    - destruct (if lr_single q then _ else _) as [[rm2 k]| |]; cbn [bind] in R; try discriminate. destruct (get_internal_id rm2 _) as [[rm3 i]| |] eqn:G; cbn [bind] in R; try discriminate.
      injection R as _ ->. destruct (I _ _ _ _ G) as [X|(k' & X)]; [injection X as ->; discriminate|discriminate X].
    - destruct (rs_debug_assert p (negb (lr_single q))); cbn [bind] in R; try discriminate. destruct (get_internal_id _ _) as [[rm3 i]| |] eqn:G; cbn [bind] in R; try discriminate.
      injection R as _ ->. destruct (I _ _ _ _ G) as [X|(k' & X)]; [injection X as ->; discriminate|discriminate X]. }
  destruct (assoc N.eqb (external_map (ng_rm n)) (lr_id q)) as [eri|]; [destruct (negb _)|]; [|eapply Fin; exact E|eapply Fin; exact E].
  injection E as _ <-. cbn [error_with_index err_reason]. unfold conflict_message. discriminate.
Qed.
Theorem C45_set : forall p es fs ids m n, N.of_nat (List.length es) <= 8000000 -> engine p es fs ids m = Ret (ROk n) ->
  (ng_min_width n = depth_infinity <-> forall i it l, ~ literal_at es fs ids i it l) /\
  (forall i it l, literal_at es fs ids i it l -> depth_val (ng_min_width n) <= lit_length l) /\
  (ng_min_width n <> depth_infinity -> exists i it l, literal_at es fs ids i it l /\ depth_val (ng_min_width n) = lit_length l).
Proof.
  intros p es fs ids m n L E. destruct (engine_inv _ _ _ _ _ _ L E) as (A & Ad & I). pose proof (ni_width _ _ _ _ _ I) as W.
  assert (G : forall H w, fold_left (fun w a => N.min w (N.of_nat (List.length (lit_s (ad_lit a))))) H w <= w /\
    (forall a, In a H -> fold_left (fun w a => N.min w (N.of_nat (List.length (lit_s (ad_lit a))))) H w <= lit_length (ad_lit a)) /\
    (fold_left (fun w a => N.min w (N.of_nat (List.length (lit_s (ad_lit a))))) H w = w \/ exists a, In a H /\ fold_left (fun w a => N.min w (N.of_nat (List.length (lit_s (ad_lit a))))) H w = lit_length (ad_lit a))).
  { induction H as [|a H IH]; intro w; cbn [fold_left].
    - conjs; auto; [lia|intros a []].
    - destruct (IH (N.min w (N.of_nat (List.length (lit_s (ad_lit a)))))) as (I1 & I2 & I3). conjs; [lia| |].
      + intros b [<-|Ib]; [unfold lit_length; lia|apply I2; exact Ib].
      + destruct I3 as [I3|(b & Ib & I3)]; [|right; exists b; split; [right; exact Ib|exact I3]]. rewrite I3. destruct (N.leb_spec w (N.of_nat (List.length (lit_s (ad_lit a))))); [left; lia|].
        right. exists a. split; [left; reflexivity|]. unfold lit_length. lia. }
  destruct (G A INFINITY) as (G1 & G2 & G3). fold (width_of A) in G1, G2, G3. rewrite <- W in G1, G2, G3.
  assert (Inf : ng_min_width n = depth_infinity <-> depth_val (ng_min_width n) = INFINITY) by (destruct (ng_min_width n) as [v]; cbn; split; [intros [= ->]; reflexivity|intros ->; reflexivity]).
  assert (Small : forall i it l, literal_at es fs ids i it l -> lit_length l < INFINITY).
  { intros i it l (At & body & B & Lt & ->). unfold lit_length, text_literal. cbn [lit_s]. rewrite map_length. pose proof (filter_length_le' (fun c => negb ((c =? 40) || (c =? 41))) body) as F1. fold (lit_text body) in F1.
    pose proof (body_length _ _ B) as F2. pose proof (str_len_length (it_expr it)) as F3.
    assert (str_len (it_expr it) <= 16000).
    { destruct es as [|e0 es0]; [destruct At as [At _]; destruct i; discriminate At|]. assert (Ex : exists db, compile_multi p (e0 :: es0) fs ids m = Ret (ROk db)).
      { exists (build n). apply C45_engine_exists. conjs; [discriminate|exact L|eauto]. }
      apply C01_accepts_iff in Ex. destruct Ex as (_ & _ & Ac & _). apply (Ac i it At). }
    change INFINITY with 2147483647. lia. }
  conjs.
  - rewrite Inf. split.
    + intros E1 i it l La. pose proof (Small _ _ _ La). assert (Ia : In (Addition (N.of_nat i) (it_id it) (single_match it) l) A) by (apply (adds_literal_at _ _ _ _ Ad); eauto).
      specialize (G2 _ Ia). cbn [ad_lit] in G2. lia.
    + intro No. destruct G3 as [G3|(a & Ia & _)]; [exact G3|]. apply (adds_literal_at _ _ _ _ Ad) in Ia. destruct Ia as (i & it & l & La & _). destruct (No _ _ _ La).
  - intros i it l La. assert (Ia : In (Addition (N.of_nat i) (it_id it) (single_match it) l) A) by (apply (adds_literal_at _ _ _ _ Ad); eauto). apply (G2 _ Ia).
  - rewrite Inf. intro Ne. destruct G3 as [G3|(a & Ia & G3)]; [contradiction|]. apply (adds_literal_at _ _ _ _ Ad) in Ia. destruct Ia as (i & it & l & La & ->). exists i, it, l. auto.
Qed.
Example C45_case : exists n, engine release [lit "food"; lit "a|b"; lit "(ab)c"] [0; 0; 1] [1; 2; 3] Block = Ret (ROk n) /\ depth_val (ng_min_width n) = 3 /\
  literal_at [lit "food"; lit "a|b"; lit "(ab)c"] [0; 0; 1] [1; 2; 3] 2 (Item (lit "(ab)c") 1 3) (Literal (lit "ABC") [true; true; true]).
Proof.
  eexists. split; [vm_compute; reflexivity|]. split; [reflexivity|]. split; [repeat split|]. exists (lit "(ab)c"). split; [left; split; [intros v rest (V & _); discriminate V|reflexivity]|].
  split; [apply literal_text_iff; split; [reflexivity|discriminate]|reflexivity].
Qed.

(** ** C38 *)
Lemma requests_snoc : forall A a, asked_keys (requests_of (A ++ [a])) =
  if ad_single a then (if existsb (N.eqb (ad_id a)) (asked_keys (requests_of A)) then asked_keys (requests_of A) else asked_keys (requests_of A) ++ [ad_id a]) else asked_keys (requests_of A).
Proof.
  intros A a. unfold requests_of. rewrite flat_map_app. cbn [flat_map]. rewrite app_nil_r. fold (requests_of A). unfold requests.
  change (Register (ad_id a) (ExtInfo (ad_single a) (ad_index a)) :: (if ad_single a then [AskKey (ad_id a)] else []) ++ [AskId (Report 0)])
    with ([Register (ad_id a) (ExtInfo (ad_single a) (ad_index a))] ++ ((if ad_single a then [AskKey (ad_id a)] else []) ++ [AskId (Report 0)])).
  rewrite app_assoc, app_assoc, asked_keys_snoc_other by reflexivity. destruct (ad_single a).
  - rewrite asked_keys_snoc, asked_keys_snoc_other by reflexivity. reflexivity.
  - rewrite app_nil_r, asked_keys_snoc_other by reflexivity. reflexivity.
Qed.
Lemma asked_keys_bound : forall A, (List.length (asked_keys (requests_of A)) <= List.length A)%nat.
Proof.
  induction A as [|a A IH] using rev_ind; [cbn; lia|]. rewrite requests_snoc, app_length. cbn [List.length].
  destruct (ad_single a); [destruct (existsb _ _)|]; rewrite ?app_length; cbn [List.length]; lia.
Qed.
Lemma adds_length : forall i l A, adds i l A -> (List.length A <= List.length l)%nat.
Proof. intros i l A Ad. induction Ad; cbn [List.length]; lia. Qed.
Lemma engine_rm : forall p es fs ids m n, N.of_nat (List.length es) <= 8000000 -> engine p es fs ids m = Ret (ROk n) ->
  exists A, adds 0 (items_of es fs ids) A /\ ng_inv p (N.of_nat (List.length es)) (CompileContext (is_streaming m) (is_vectored m) grey_default) A n /\
    N.of_nat (List.length (asked_keys (requests_of A))) < 2 ^ 32.
Proof.
  intros p es fs ids m n L E. destruct (engine_inv _ _ _ _ _ _ L E) as (A & Ad & I). exists A. conjs; [exact Ad|exact I|].
  pose proof (asked_keys_bound A). pose proof (adds_length _ _ _ Ad). pose proof (items_of_length es fs ids). lia.
Qed.
Lemma limit_ok : limit_report_count grey_default <= 2 ^ 32.
Proof. vm_compute. discriminate. Qed.

(** The literals "a" and "b" have different ids, yet both nodes carry report 0. *)
Theorem C38_refuted : exists es fs ids n a b la lb va vb, engine release es fs ids Block = Ret (ROk n) /\ literal_at es fs ids 0 a la /\ literal_at es fs ids 1 b lb /\ it_id a <> it_id b /\ let t := sw_trie (ng_smwr n) in
  reach (lt_inner t) (lt_root t) (lit_s la) va /\ reach (lt_inner t) (lt_root t) (lit_s lb) vb /\ node_reports (lt_inner t) va = [0] /\ node_reports (lt_inner t) vb = [0].
Proof.
  exists [lit "a"; lit "b"], [0; 0], [1; 2].
  set (o := engine release [lit "a"; lit "b"] [0; 0] [1; 2] Block). vm_compute in o. 
  exists (match o with Ret (ROk n) => n | _ => ng_new (CompileContext false false grey_default) 0 0 end), (Item (lit "a") 0 1), (Item (lit "b") 0 2), (Literal [97] [false]), (Literal [98] [false]), 1, 2.
  conjs; [vm_compute; reflexivity| | |discriminate|].
  - split; [repeat split|]. exists (lit "a"). split; [left; split; [intros v rest (V & _); discriminate V|reflexivity]|]. split; [apply literal_text_iff; split; [reflexivity|discriminate]|reflexivity].
  - split; [repeat split|]. exists (lit "b"). split; [left; split; [intros v rest (V & _); discriminate V|reflexivity]|]. split; [apply literal_text_iff; split; [reflexivity|discriminate]|reflexivity].
  - cbv zeta. conjs; try reflexivity.
    + apply (reach_cons _ 0 1 (TrieProps 97 [0]) [] 1); [vm_compute; auto|reflexivity|constructor].
    + apply (reach_cons _ 0 2 (TrieProps 98 [0]) [] 2); [vm_compute; auto|reflexivity|constructor].
Qed.
(** In every engine there is one internal report if there is any literal, and none
    otherwise. *)
Theorem C38_one_report_partial : forall p es fs ids m n, N.of_nat (List.length es) <= 8000000 -> engine p es fs ids m = Ret (ROk n) ->
  ((exists i it l, literal_at es fs ids i it l) -> num_reports (ng_rm n) = 1 /\ get_report (ng_rm n) 0 = Ret (Report 0)) /\ ((forall i it l, ~ literal_at es fs ids i it l) -> num_reports (ng_rm n) = 0).
Proof.
  intros p es fs ids m n L E. destruct (engine_rm _ _ _ _ _ _ L E) as (A & Ad & I & K). pose proof (ni_rm _ _ _ _ _ I) as R. unfold get_report, num_reports. rewrite (rk_ids _ _ R). split.
  - intros (i & it & l & La). assert (Ia : In (Addition (N.of_nat i) (it_id it) (single_match it) l) A) by (apply (adds_literal_at _ _ _ _ Ad); eauto). destruct A; [destruct Ia|]. split; reflexivity.
  - intro No. destruct A as [|a A]; [reflexivity|]. assert (Ia : In a (a :: A)) by (left; reflexivity). apply (adds_literal_at _ _ _ _ Ad) in Ia. destruct Ia as (i & it & l & La & _). destruct (No _ _ _ La).
Qed.
(** The reports an engine's own request history was answered with are all 0. *)
Theorem C38_all_zero_partial : forall p es fs ids m n A, N.of_nat (List.length es) <= 8000000 -> engine p es fs ids m = Ret (ROk n) ->
  adds 0 (items_of es fs ids) A -> rm_run (rm_new (limit_report_count grey_default)) (flat_map requests A) = Ret (ng_rm n) /\ forall r k, id_issued (limit_report_count grey_default) (flat_map requests A) r k -> k = 0 /\ r = Report 0.
Proof.
  intros p es fs ids m n A L E Ad. destruct (engine_rm _ _ _ _ _ _ L E) as (A' & Ad' & I & K). rewrite <- (adds_fun _ _ _ Ad _ Ad') in *. pose proof (ni_rm _ _ _ _ _ I) as R. split; [apply (rk_run _ _ R)|].
  intros r k Is. destruct (C35_ids _ _ _ (rk_run _ _ R)) as (_ & De & _ & Lk). assert (k < num_reports (ng_rm n)) by (apply De; eauto). apply Lk in Is. revert Is. unfold get_report, num_reports in *.
  rewrite (rk_ids _ _ R) in *. destruct A; cbn [List.length] in *; [lia|]. replace (k <? N.of_nat 1) with true by lia. replace k with 0 by lia. cbn. intros [= <-]. auto.
Qed.

(** ** C46 *)
Theorem C46_database : forall p es fs ids m db, compile_multi p es fs ids m = Ret (ROk db) ->
  re_mode (get_bytecode db) = scan_mode m /\ re_runtime_impl (get_bytecode db) = FullRose.
Proof.
  intros p es fs ids m db E. apply C45_engine_exists in E. destruct E as (_ & L & n & E & ->). destruct (engine_inv _ _ _ _ _ _ L E) as (A & _ & I).
  unfold build, get_bytecode, build_rose. cbn [db_rose]. rewrite (ni_rose _ _ _ _ _ I). destruct m as [|h|]; split; reflexivity.
Qed.
(** The engine it was made from: its mode, its configuration, no start of match asked
    for and nothing at the boundaries. *)
Theorem C46_engine : forall p es fs ids m n, N.of_nat (List.length es) <= 8000000 -> engine p es fs ids m = Ret (ROk n) ->
  rb_has_som (ng_rose n) = false /\ ng_boundary n = boundary_default /\ rb_cc (ng_rose n) = ng_cc n /\
  (streaming (ng_cc n) = true <-> m <> Block) /\ (vectored (ng_cc n) = true <-> m = Vectored) /\ cc_grey (ng_cc n) = grey_default.
Proof.
  intros p es fs ids m n L E. destruct (engine_inv _ _ _ _ _ _ L E) as (A & _ & I). rewrite (ni_rose _ _ _ _ _ I), (ni_boundary _ _ _ _ _ I), (ni_cc _ _ _ _ _ I). cbn.
  conjs; try reflexivity; destruct m as [|h|]; cbn; split; intro H; try discriminate; try reflexivity; try (contradiction H; reflexivity).
Qed.
(** The resources looked at; literals themselves are not held against it. *)
Theorem C46_pure_literal_iff : forall b r, pick_runtime_impl b r = PureLiteral <->
  has_floating r = true /\
  has_outfixes r = false /\ has_suffixes r = false /\ has_leftfixes r = false /\ has_anchored r = false /\ has_eod r = false /\ has_states r = false /\
  has_lit_delay r = false /\ checks_groups r = false /\ (streaming (rb_cc b) = true -> has_lit_check r = false).
Proof.
  intros b [a1 a2 a3 a4 a5 a6 a7 a8 a9 a10 a11 a12 a13]. unfold pick_runtime_impl, is_pure_floating, is_single_outfix. cbn.
  split.
  - intro H. destruct a12; [|discriminate H]. destruct a1; [discriminate H|]. destruct a2; [discriminate H|]. destruct a3; [discriminate H|]. destruct a9; [discriminate H|].
    destruct a13; [discriminate H|]. destruct a5; [discriminate H|]. destruct a7; [discriminate H|]. destruct (streaming (rb_cc b) && a8) eqn:S; [discriminate H|]. destruct a6; [discriminate H|].
    conjs; auto. intro T. rewrite T in S. exact S.
  - intros (-> & -> & -> & -> & -> & -> & -> & -> & -> & H). cbn. destruct (streaming (rb_cc b)); [rewrite H by reflexivity|]; reflexivity.
Qed.
Theorem C46_never_single_outfix : forall b r, pick_runtime_impl b r <> SingleOutfix.
Proof. intros b r. unfold pick_runtime_impl. destruct (is_pure_floating r (rb_cc b)); discriminate. Qed.
Example C46_engine_case : exists n, engine release [lit "a|b"; lit "abc"] [0; 0] [1; 2] (Stream (Some HLarge)) = Ret (ROk n) /\ rb_has_som (ng_rose n) = false /\ streaming (ng_cc n) = true.
Proof. eexists. split; [vm_compute; reflexivity|split; reflexivity]. Qed.
Example C46_case : (exists db, compile_multi release sample_es sample_fs sample_ids (Stream (Some HLarge)) = Ret (ROk db) /\ re_mode (get_bytecode db) = Stream None) /\ pick_runtime_impl (RoseBuild (CompileContext false false grey_default) false) (RoseResources false false false true false false false true false true true true false) = PureLiteral /\ pick_runtime_impl (RoseBuild (CompileContext true false grey_default) false) (RoseResources false false false true false false false true false true true true false) = FullRose.
Proof. split; [|split; reflexivity]. eexists. split; [vm_compute; reflexivity|reflexivity]. Qed.

(** ** C47 *)
Theorem C47_scan : forall db data s, scan db data s = (s, ROk tt).
Proof. intros db data s. unfold scan. destruct (re_runtime_impl (get_bytecode db)); reflexivity. Qed.
(** A run of scans, each with its own database and data, over one scratch. *)
Fixpoint scans (h : list (database * list N)) (s : scratch) : scratch * list (result rt_error unit) :=
  match h with
  | [] => (s, [])
  | (db, data) :: t => let (s1, r) := scan db data s in let (s2, rs) := scans t s1 in (s2, r :: rs)
  end.
Theorem C47_sequence : forall h s, scans h s = (s, map (fun _ => ROk tt) h).
Proof.
  induction h as [|[db data] h IH]; intro s; [reflexivity|]. cbn [scans]. rewrite C47_scan, IH. reflexivity.
Qed.
Example C47_case : scans [(Database (RoseEngine FullRose Block), [1; 2]); (Database (RoseEngine PureLiteral Vectored), [])] (Scratch 9) = (Scratch 9, [ROk tt; ROk tt]).
Proof. reflexivity. Qed.

(** ** C55 *)
(** Is the literal kept in the caseless dictionary? *)
Definition keeps_case (l : literal) : bool := negb (existsb (fun b => b) (lit_nocase l)).
Lemma in_short_sensitive : forall g h bs r, In (bs, r) (short_sensitive g h) <-> exists l, In (l, r) h /\ lit_s l = bs /\ lit_length l <= small_write_largest_buffer g /\ keeps_case l = true.
Proof.
  intros g h bs r. unfold short_sensitive. rewrite in_map_iff. split.
  - intros ([l r'] & E & I). apply filter_In in I. destruct I as [I X]. apply andb_true_iff in X. destruct X as [X Y]. unfold insertion_of in E. cbn [fst snd] in E. injection E as <- <-.
    exists l. unfold short, lit_length in *. cbn [fst] in X. conjs; auto. lia.
  - intros (l & I & <- & L & Kc). exists (l, r). split; [reflexivity|]. apply filter_In. split; [exact I|]. apply andb_true_iff. split; [unfold short, lit_length in *; cbn [fst]; lia|exact Kc].
Qed.
Lemma in_short_caseless : forall g h bs r, In (bs, r) (short_caseless g h) <-> exists l, In (l, r) h /\ lit_s l = bs /\ lit_length l <= small_write_largest_buffer g /\ keeps_case l = false.
Proof.
  intros g h bs r. unfold short_caseless. rewrite in_map_iff. split.
  - intros ([l r'] & E & I). apply filter_In in I. destruct I as [I X]. apply andb_true_iff in X. destruct X as [X Y]. unfold insertion_of in E. cbn [fst snd] in E. injection E as <- <-.
    exists l. unfold short, lit_length in *. cbn [fst] in X. conjs; auto; [lia|]. unfold keeps_case. unfold has_caseless in Y. cbn [fst] in Y. rewrite Y. reflexivity.
  - intros (l & I & <- & L & Kc). exists (l, r). split; [reflexivity|]. apply filter_In. split; [exact I|]. apply andb_true_iff. split; [unfold short, lit_length in *; cbn [fst]; lia|].
    unfold keeps_case in Kc. apply negb_false_iff in Kc. exact Kc.
Qed.
Lemma content_reports : forall t ps h, lt_root t = 0 -> content (lt_inner t) ps h -> forall bs r,
  (exists v, reach (lt_inner t) (lt_root t) bs v /\ In r (node_reports (lt_inner t) v)) <-> In (bs, r) h.
Proof.
  intros t ps h R C bs r. pose proof (ct_shape _ _ _ C) as Sh. rewrite R.
  assert (Rt : nth_error ps (N.to_nat 0) = Some []) by (apply (sh_root _ _ Sh)).
  assert (Rc : forall bs v, reach (lt_inner t) 0 bs v <-> nth_error ps (N.to_nat v) = Some bs) by (intros bs' v; rewrite (reach_iff _ _ _ 0 [] v bs' C Rt); reflexivity).
  split.
  - intros (v & Hv & Hr). apply Rc in Hv. unfold node_reports in Hr. destruct (nth_error (nodes (lt_inner t)) (N.to_nat v)) as [x|] eqn:X; [|contradiction].
    apply (ct_reports _ _ _ C _ _ _ Hv X). exact Hr.
  - intro I. assert (P : In bs ps) by (apply (ct_paths _ _ _ C); right; exists bs, r; split; [exact I|]; exists []; symmetry; apply app_nil_r).
    apply In_nth_error in P. destruct P as [i P]. exists (N.of_nat i). split; [apply Rc; rewrite Nat2N.id; exact P|].
    unfold node_reports. rewrite Nat2N.id. pose proof (sh_bound _ _ _ _ Sh P) as Li.
    destruct (nth_error (nodes (lt_inner t)) i) as [x|] eqn:X; [|apply nth_error_None in X; lia]. apply (ct_reports _ _ _ C _ _ _ P X). exact I.
Qed.
Lemma engine_smwr : forall p es fs ids m n, N.of_nat (List.length es) <= 8000000 -> engine p es fs ids m = Ret (ROk n) ->
  exists A, adds 0 (items_of es fs ids) A /\ smwr_run p (smwr_new (N.of_nat (List.length es)) grey_default) (dictionary_input A) = Ret (ng_smwr n) /\
    smwr_inv (N.of_nat (List.length es)) grey_default (dictionary_input A) (ng_smwr n) /\ (forall x, In x (dictionary_input A) -> lit_wf (fst x)).
Proof.
  intros p es fs ids m n L E. destruct (engine_inv _ _ _ _ _ _ L E) as (A & Ad & I). exists A. pose proof (ni_smwr _ _ _ _ _ I) as R.
  assert (W : forall x, In x (dictionary_input A) -> lit_wf (fst x)) by (intros x Ix; apply in_map_iff in Ix; destruct Ix as (a & <- & Ia); apply (ni_lits _ _ _ _ _ I a Ia)).
  destruct (smwr_run_inv p (N.of_nat (List.length es)) grey_default (dictionary_input A) [] _ (grey_default_ok p) W (smwr_inv_new _ _)) as (s & E' & Inv).
  rewrite R in E'. injection E' as <-. auto.
Qed.
Lemma in_dictionary_input : forall es fs ids A l r, adds 0 (items_of es fs ids) A -> (In (l, r) (dictionary_input A) <-> r = 0 /\ exists i it, literal_at es fs ids i it l).
Proof.
  intros es fs ids A l r Ad. unfold dictionary_input. rewrite in_map_iff. split.
  - intros (a & E & Ia). injection E as E <-. split; [reflexivity|]. apply (adds_literal_at _ _ _ _ Ad) in Ia. destruct Ia as (i & it & l' & La & ->). cbn in E. subst l'. eauto.
  - intros (-> & i & it & La). exists (Addition (N.of_nat i) (it_id it) (single_match it) l). split; [reflexivity|]. apply (adds_literal_at _ _ _ _ Ad). eauto.
Qed.
Theorem C55_contents : forall p es fs ids m n, N.of_nat (List.length es) <= 8000000 -> engine p es fs ids m = Ret (ROk n) -> sw_poisoned (ng_smwr n) = false ->
  forall bs r,
  ((exists v, reach (lt_inner (sw_trie (ng_smwr n))) (lt_root (sw_trie (ng_smwr n))) bs v /\ In r (node_reports (lt_inner (sw_trie (ng_smwr n))) v)) <->
     r = 0 /\ exists i it l, literal_at es fs ids i it l /\ lit_s l = bs /\ lit_length l <= 70 /\ keeps_case l = true) /\
  ((exists v, reach (lt_inner (sw_trie_nocase (ng_smwr n))) (lt_root (sw_trie_nocase (ng_smwr n))) bs v /\ In r (node_reports (lt_inner (sw_trie_nocase (ng_smwr n))) v)) <->
     r = 0 /\ exists i it l, literal_at es fs ids i it l /\ lit_s l = bs /\ lit_length l <= 70 /\ keeps_case l = false).
Proof.
  intros p es fs ids m n L E Np bs r. destruct (engine_smwr _ _ _ _ _ _ L E) as (A & Ad & _ & [Ig Ip _ Ic] & _). assert (D : disabled (N.of_nat (List.length es)) grey_default (dictionary_input A) = false) by congruence.
  destruct (Ic D) as (_ & R1 & R2 & (ps1 & C1) & (ps2 & C2)). rewrite (content_reports _ _ _ R1 C1), (content_reports _ _ _ R2 C2), in_short_sensitive, in_short_caseless. change (small_write_largest_buffer grey_default) with 70. split; split.
  - intros (l & I & X). apply (in_dictionary_input _ _ _ _ _ _ Ad) in I. destruct I as (-> & i & it & La). split; [reflexivity|]. exists i, it, l. auto.
  - intros (-> & i & it & l & La & X). exists l. split; [|exact X]. apply (in_dictionary_input _ _ _ _ _ _ Ad). eauto.
  - intros (l & I & X). apply (in_dictionary_input _ _ _ _ _ _ Ad) in I. destruct I as (-> & i & it & La). split; [reflexivity|]. exists i, it, l. auto.
  - intros (-> & i & it & l & La & X). exists l. split; [|exact X]. apply (in_dictionary_input _ _ _ _ _ _ Ad). eauto.
Qed.
(** When the dictionaries are given up. *)
Theorem C55_given_up : forall p es fs ids m n A, N.of_nat (List.length es) <= 8000000 -> engine p es fs ids m = Ret (ROk n) -> adds 0 (items_of es fs ids) A ->
  (sw_poisoned (ng_smwr n) = true <->
     10000 < N.of_nat (List.length es) \/
     10000 < N.of_nat (List.length (filter (fun a => lit_length (ad_lit a) <=? 70) A)) \/
     8000 < N.of_nat (List.length (distinct_prefixes (short_sensitive grey_default (dictionary_input A)))) \/
     8000 < N.of_nat (List.length (distinct_prefixes (short_caseless grey_default (dictionary_input A))))).
Proof.
  intros p es fs ids m n A L E Ad. destruct (engine_smwr _ _ _ _ _ _ L E) as (A' & Ad' & R & _ & W). rewrite <- (adds_fun _ _ _ Ad _ Ad') in *.
  assert (Ml : small_write_max_literals grey_default < largest p) by (pose proof (largest_lt p); cbn [small_write_max_literals grey_default]; lia).
  pose proof (C41_limits p (N.of_nat (List.length es)) grey_default (dictionary_input A) (N.lt_le_incl _ _ Ml) W) as P. rewrite R in P. destruct P as (_ & P & _). rewrite P. clear P. change (2 ^ usize_bits p - 1) with (largest p).
  assert (Len : List.length (filter (short grey_default) (dictionary_input A)) = List.length (filter (fun a => lit_length (ad_lit a) <=? 70) A)).
  { clear. unfold dictionary_input. induction A as [|a A IH]; [reflexivity|]. cbn [map filter]. unfold short at 1, lit_length at 1. cbn [fst]. change (small_write_largest_buffer grey_default) with 70.
    destruct (N.of_nat (List.length (lit_s (ad_lit a))) <=? 70); cbn [List.length]; rewrite IH; reflexivity. }
  rewrite Len. change (small_write_max_patterns grey_default) with 10000. change (small_write_max_literals grey_default) with 10000. change (allow_small_write grey_default) with true.
  change (small_write_max_literals grey_default) with 10000 in Ml. assert (Nl : 10000 <> largest p) by lia. split; [intros [X|X]; [discriminate X|tauto]|tauto].
Qed.
Example C55_case : exists n, engine release sample_es sample_fs sample_ids Block = Ret (ROk n) /\ sw_poisoned (ng_smwr n) = false /\ map tp_c (nodes (lt_inner (sw_trie (ng_smwr n)))) = 0 :: lit "foo" /\ map tp_c (nodes (lt_inner (sw_trie_nocase (ng_smwr n)))) = 0 :: lit "FOO" /\ map tp_reports (nodes (lt_inner (sw_trie (ng_smwr n)))) = [[]; []; []; [0]].
Proof. eexists. split; [vm_compute; reflexivity|]. repeat split. Qed.

(** ** C56 *)
(** From the text of an expression to the dictionaries: if any word of the
    expression's language is in a buffer of at most 70 bytes, the expression's bytes
    are in the dictionary for its case, with a report. *)
Theorem C56_no_match_lost : forall p es fs ids m n i it body e, N.of_nat (List.length es) <= 8000000 -> engine p es fs ids m = Ret (ROk n) -> sw_poisoned (ng_smwr n) = false ->
  item_at es fs ids i it -> body_of (it_expr it) body -> literal_text body -> wf_expr e -> text e = body ->
  forall a w b, lang (caseless_item it) e w -> N.of_nat (List.length (a ++ w ++ b)) <= 70 ->
  let l := text_literal (caseless_item it) body in
  let t := if keeps_case l then sw_trie (ng_smwr n) else sw_trie_nocase (ng_smwr n) in
  exists v, reach (lt_inner t) (lt_root t) (lit_s l) v /\ node_reports (lt_inner t) v <> [].
Proof.
  intros p es fs ids m n i it body e L E Np At B Lt We Te a w b Lw Len l t.
  assert (La : literal_at es fs ids i it l) by (split; [exact At|]; exists body; auto).
  assert (Ac : acceptable p it).
  { assert (Ex : exists db, compile_multi p es fs ids m = Ret (ROk db)) by (exists (build n); apply C45_engine_exists; conjs; [intros ->; destruct At as [At _]; destruct i; discriminate At|exact L|eauto]).
    apply C01_accepts_iff in Ex. destruct Ex as (_ & _ & Ac & _). apply (Ac i it At). }
  assert (Oc : lit_matches (lit_s l) (lit_nocase l) w).
  { destruct Ac as [_ _ (body' & B' & Asc & Bal & Gk)]. rewrite (body_fun _ _ _ B' B) in *. pose proof B as B0. apply (body_starts _ _ (item_mode it)) in B0. destruct B0 as (m' & St).
    assert (P : parse p (it_expr it) (item_mode it) = Ret (ROk (tree (caseless_item it) e, m'))) by (apply parse_outcome_fun; eapply po_ok; eassumption).
    destruct (C31_parsed _ _ _ _ _ P) as [_ Q]. apply (Q l) with (body := body) (e := e); auto. unfold recognise. rewrite walk_tree by (rewrite ?Te; assumption). rewrite Te.
    apply literal_text_iff in Lt. destruct Lt as [-> _]. reflexivity. }
  destruct (engine_smwr _ _ _ _ _ _ L E) as (A & Ad & R & _ & W).
  assert (I : In (l, 0) (dictionary_input A)) by (apply (in_dictionary_input _ _ _ _ _ _ Ad); eauto).
  assert (Ml : small_write_max_literals grey_default < largest p) by (pose proof (largest_lt p); cbn [small_write_max_literals grey_default]; lia).
  destruct (C42_no_match_lost p (N.of_nat (List.length es)) grey_default (dictionary_input A) (ng_smwr n) l 0 (a ++ w ++ b) (N.lt_le_incl _ _ Ml) W R Np I Len) as (v & V1 & V2); [exists a, w, b; auto|].
  exists v. unfold t, keeps_case. destruct (existsb (fun b0 => b0) (lit_nocase l)); cbn [negb]; (split; [exact V1|]); intro Z; rewrite Z in V2; exact V2.
Qed.
Example C56_case : exists n, engine release [lit "(F)oo"] [1] [4] Block = Ret (ROk n) /\ sw_poisoned (ng_smwr n) = false /\ literal_text (lit "(F)oo") /\ wf_expr [[Grp [[Ch 70]]; Ch 111; Ch 111]] /\ text [[Grp [[Ch 70]]; Ch 111; Ch 111]] = lit "(F)oo".
Proof.
  eexists. split; [vm_compute; reflexivity|]. split; [reflexivity|]. split; [apply literal_text_iff; split; [reflexivity|discriminate]|]. split; [|reflexivity].
  split; [discriminate|]. intros b a [<-|[]] Ia. destruct Ia as [<-|[<-|[<-|[]]]]; [|constructor; unfold plain; lia..]. apply wf_grp; [discriminate|]. intros b0 a0 [<-|[]] [<-|[]]. constructor. unfold plain. lia.
Qed.

(** ** C57 *)
(** The bookkeeping of match ids: a match id is recorded for the first literal that
    has it; exhaustion keys number the ids of the SINGLEMATCH literals in order of
    first appearance. *)
Theorem C57_recorded : forall p es fs ids m n id x, N.of_nat (List.length es) <= 8000000 -> engine p es fs ids m = Ret (ROk n) ->
  (assoc N.eqb (external_map (ng_rm n)) id = Some x <->
   exists i it l, literal_at es fs ids i it l /\ it_id it = id /\ x = ExtInfo (single_match it) (N.of_nat i) /\
     forall j it' l', (j < i)%nat -> literal_at es fs ids j it' l' -> it_id it' <> id).
Proof.
  intros p es fs ids m n id x L E. destruct (engine_inv _ _ _ _ _ _ L E) as (A & Ad & I). rewrite (rk_ext _ _ (ni_rm _ _ _ _ _ I)).
  assert (Lit : forall i it l, literal_at es fs ids i it l -> literal_item it) by (intros i it l (_ & body & B & Lt & _); exists body; auto).
  assert (Fwd : forall b, first_add A id = Some b -> exists i it l, literal_at es fs ids i it l /\ it_id it = id /\ b = Addition (N.of_nat i) id (single_match it) l /\
     forall j it' l', (j < i)%nat -> literal_at es fs ids j it' l' -> it_id it' <> id).
  { intros b Fa. destruct (adds_first _ _ _ Ad id b Fa) as (k & it & body & E1 & B & Lt & -> & Ei & Fst). exists k, it, (text_literal (caseless_item it) body). conjs; [|exact Ei|unfold addition_of; rewrite Ei; reflexivity|].
    - split; [apply items_of_nth; exact E1|eauto].
    - intros j it' l' Lj La. apply (Fst j it' Lj); [|eapply Lit; exact La]. apply items_of_nth. apply La. }
  split.
  - destruct (first_add A id) as [b|] eqn:Fa; [|discriminate]. cbn [option_map]. intros [= <-]. destruct (Fwd b eq_refl) as (i & it & l & La & Ei & -> & Fst). exists i, it, l. auto.
  - intros (i & it & l & La & Ei & -> & Fst). destruct (first_add A id) as [b|] eqn:Fa.
    + destruct (Fwd b eq_refl) as (i' & it' & l' & La' & Ei' & -> & Fst'). cbn [option_map ad_single ad_index].
      assert (i' = i). { destruct (Nat.lt_trichotomy i' i) as [Lt|[Eq|Lt]]; [destruct (Fst _ _ _ Lt La' Ei')|exact Eq|destruct (Fst' _ _ _ Lt La Ei)]. } subst i'.
      rewrite (item_at_fun _ _ _ _ _ _ (proj1 La') (proj1 La)). reflexivity.
    + exfalso. assert (Ia : In (Addition (N.of_nat i) (it_id it) (single_match it) l) A) by (apply (adds_literal_at _ _ _ _ Ad); eauto).
      pose proof (find_none _ _ Fa _ Ia) as Z. cbn [ad_id] in Z. apply N.eqb_neq in Z. congruence.
Qed.
Theorem C57_global_exhaust : forall p es fs ids m n, N.of_nat (List.length es) <= 8000000 -> engine p es fs ids m = Ret (ROk n) ->
  (global_exhaust (ng_rm n) = true <-> forall i it l, literal_at es fs ids i it l -> single_match it = true).
Proof.
  intros p es fs ids m n L E. destruct (engine_inv _ _ _ _ _ _ L E) as (A & Ad & I). rewrite (rk_glob _ _ (ni_rm _ _ _ _ _ I)).
  rewrite forallb_forall. split.
  - intros F i it l La. assert (Ia : In (Addition (N.of_nat i) (it_id it) (single_match it) l) A) by (apply (adds_literal_at _ _ _ _ Ad); eauto). apply (F _ Ia).
  - intros F a Ia. apply (adds_literal_at _ _ _ _ Ad) in Ia. destruct Ia as (i & it & l & La & ->). cbn. eapply F; exact La.
Qed.
(** Keys: exactly the ids of the SINGLEMATCH literals have one, the keys are dense,
    and an id whose first SINGLEMATCH literal comes earlier has the smaller key. *)
Lemma asked_single : forall A x, In x (asked_keys (requests_of A)) <-> exists a, In a A /\ ad_single a = true /\ ad_id a = x.
Proof.
  intros A x. rewrite asked_keys_dedup, in_dedup by exact N.eqb_eq. unfold requests_of. induction A as [|a A IH]; [cbn; split; [contradiction|intros (a & [] & _)]|].
  cbn [flat_map]. rewrite flat_map_app, in_app_iff, IH. unfold requests. cbn [flat_map op_key app]. destruct (ad_single a) eqn:S; cbn.
  - split; [intros [[<-|[]]|(b & I & X)]; eauto|]. intros (b & [<-|I] & Sb & Eb); [left; left; exact Eb|right; eauto].
  - split; [intros [[]|(b & I & X)]; eauto|]. intros (b & [<-|I] & Sb & Eb); [congruence|right; eauto].
Qed.
Lemma key_order : forall A k k' x y, nth_error (asked_keys (requests_of A)) k = Some x -> nth_error (asked_keys (requests_of A)) k' = Some y -> (k < k')%nat ->
  exists A1 a A2, A = A1 ++ a :: A2 /\ ad_single a = true /\ ad_id a = x /\ forall b, In b A1 -> ad_single b = true -> ad_id b <> y.
Proof.
  induction A as [|a A IH] using rev_ind; intros k k' x y Ex Ey L; [destruct k; discriminate Ex|]. rewrite requests_snoc in Ex, Ey.
  assert (Old : nth_error (asked_keys (requests_of A)) k = Some x -> nth_error (asked_keys (requests_of A)) k' = Some y ->
    exists A1 a0 A2, A ++ [a] = A1 ++ a0 :: A2 /\ ad_single a0 = true /\ ad_id a0 = x /\ forall b, In b A1 -> ad_single b = true -> ad_id b <> y).
  { intros P Q. destruct (IH _ _ _ _ P Q L) as (A1 & a0 & A2 & -> & X). exists A1, a0, (A2 ++ [a]). split; [rewrite <- app_assoc; reflexivity|exact X]. }
  destruct (ad_single a) eqn:Sa; [|auto]. destruct (existsb _ _) eqn:X; [auto|]. set (K := asked_keys (requests_of A)) in *.
  destruct (Nat.lt_ge_cases k' (List.length K)) as [L'|L'].
  - rewrite nth_error_app1 in Ex, Ey by lia. auto.
  - assert (k' = List.length K) by (assert (k' < List.length (K ++ [ad_id a]))%nat by (apply nth_error_Some; congruence); rewrite app_length in *; cbn in *; lia). subst k'.
    rewrite nth_error_app1 in Ex by lia. rewrite nth_error_app2, Nat.sub_diag in Ey by lia. injection Ey as <-.
    assert (Ix : In x K) by (eapply nth_error_In; exact Ex). apply asked_single in Ix. destruct Ix as (b & Ib & Sb & Eb). apply in_split in Ib. destruct Ib as (A1 & A2 & ->).
    exists A1, b, (A2 ++ [a]). split; [rewrite <- app_assoc; reflexivity|]. conjs; auto. intros c Ic Sc Ec.
    assert (In (ad_id a) K) by (apply asked_single; exists c; conjs; auto; apply in_or_app; left; exact Ic).
    apply not_true_iff_false in X. apply X. apply existsb_exists. exists (ad_id a). split; [assumption|apply N.eqb_refl].
Qed.
Lemma adds_sorted : forall i l A, adds i l A -> (forall b, In b A -> i <= ad_index b) /\ forall A1 a A2, A = A1 ++ a :: A2 -> forall b, In b A2 -> ad_index a < ad_index b.
Proof.
  intros i l A Ad. induction Ad as [i|i it t body l B Lt Ad [IH1 IH2]|i it t body l B Lt Ad [IH1 IH2]].
  - split; [intros b []|]. intros [|z z2] a A2 E; discriminate E.
  - split.
    + intros b [<-|I]; [cbn; lia|]. specialize (IH1 b I). lia.
    + intros [|c A1] a A2 E b I; injection E as <- E; [|exact (IH2 _ _ _ E b I)]. subst A2. specialize (IH1 b I). cbn. lia.
  - split; [intros b I; specialize (IH1 b I); lia|exact IH2].
Qed.
Theorem C57_keys : forall p es fs ids m n, N.of_nat (List.length es) <= 8000000 -> engine p es fs ids m = Ret (ROk n) ->
  let key id k := assoc N.eqb (exhaust_map (ng_rm n)) id = Some k in
  let wants id i := exists it l, literal_at es fs ids i it l /\ it_id it = id /\ single_match it = true in
  (forall id, (exists k, key id k) <-> exists i, wants id i) /\
  (forall k, k < N.of_nat (List.length (exhaust_map (ng_rm n))) <-> exists id, key id k) /\
  (forall id id' k k', key id k -> key id' k' -> k = k' -> id = id') /\
  (forall id id' k k', key id k -> key id' k' -> k < k' -> exists i, wants id i /\ forall j, wants id' j -> (i < j)%nat).
Proof.
  intros p es fs ids m n L E key wants. destruct (engine_rm _ _ _ _ _ _ L E) as (A & Ad & I & K). pose proof (rk_run _ _ (ni_rm _ _ _ _ _ I)) as R.
  destruct (hist_run _ _ limit_ok K) as (rm & R' & Hi). rewrite R in R'. injection R' as <-. pose proof (hi_keys _ _ _ Hi) as Ek.
  assert (Key : forall id k, key id k <-> nth_error (asked_keys (requests_of A)) (N.to_nat k) = Some id).
  { intros id k. unfold key. rewrite Ek. pose proof (asked_keys_NoDup (requests_of A)) as Nd. pose proof (assoc_idx N.eqb N.eqb_eq _ id Nd) as As. destruct (assoc N.eqb (idx_map _) id) as [k0|].
    - destruct As as [As Al]. split; [intros [= <-]; exact As|]. intro X. f_equal. assert (N.to_nat k0 = N.to_nat k); [|lia].
      eapply (proj1 (NoDup_nth_error _) Nd); [lia|congruence].
    - split; [discriminate|]. intro X. exfalso. apply As. eapply nth_error_In. exact X. }
  assert (Want : forall id, (exists a, In a A /\ ad_single a = true /\ ad_id a = id) <-> exists i, wants id i).
  { intro id. split.
    - intros (a & Ia & S & Ei). apply (adds_literal_at _ _ _ _ Ad) in Ia. destruct Ia as (i & it & l & La & ->). exists i, it, l. auto.
    - intros (i & it & l & La & Ei & S). exists (Addition (N.of_nat i) (it_id it) (single_match it) l). split; [apply (adds_literal_at _ _ _ _ Ad); eauto|auto]. }
  split; [|split; [|split]].
  - intro id. rewrite <- Want, <- asked_single. split.
    + intros (k & Hk). apply Key in Hk. eapply nth_error_In. exact Hk.
    + intro Ii. apply In_nth_error in Ii. destruct Ii as (k & Hk). exists (N.of_nat k). apply Key. rewrite Nat2N.id. exact Hk.
  - intro k. rewrite Ek. unfold idx_map. rewrite combine_length, seqN_length, Nat.min_id. split.
    + intro Lk. destruct (nth_error (asked_keys (requests_of A)) (N.to_nat k)) as [id|] eqn:X; [|apply nth_error_None in X; lia]. exists id. apply Key. exact X.
    + intros (id & Hk). apply Key in Hk. assert (N.to_nat k < List.length (asked_keys (requests_of A)))%nat by (apply nth_error_Some; congruence). lia.
  - intros id id' k k' H1 H2 <-. apply Key in H1, H2. congruence.
  - intros id id' k k' H1 H2 Lk. apply Key in H1, H2. assert (Lk' : (N.to_nat k < N.to_nat k')%nat) by lia. destruct (key_order _ _ _ _ _ H1 H2 Lk') as (A1 & a & A2 & EA & Sa & Ea & No).
    assert (Ia : In a A) by (rewrite EA; apply in_or_app; right; left; reflexivity). pose proof Ia as Ia'. apply (adds_literal_at _ _ _ _ Ad) in Ia. destruct Ia as (i & it & l & La & Eq). subst a.
    exists i. split; [exists it, l; auto|]. intros j (it' & l' & Lj & Ej & Sj).
    assert (Ib : In (Addition (N.of_nat j) (it_id it') (single_match it') l') A) by (apply (adds_literal_at _ _ _ _ Ad); eauto). rewrite EA in Ib. apply in_app_or in Ib. destruct Ib as [Ib|[Ib|Ib]].
    + destruct (No _ Ib Sj Ej).
    + exfalso. injection Ib as Ei Eid _ _. cbn [ad_id] in Ea. assert (Eqid : id = id') by congruence. subst id'. pose proof (asked_keys_NoDup (requests_of A)) as Nd.
      assert (N.to_nat k = N.to_nat k') by (eapply (proj1 (NoDup_nth_error _) Nd); [apply nth_error_Some; congruence|congruence]). lia.
    + pose proof (proj2 (adds_sorted _ _ _ Ad) _ _ _ EA _ Ib) as X. cbn [ad_index] in X. lia.
Qed.
Example C57_case : exists n, engine release [lit "a"; lit "b"; lit "c|d"; lit "e"; lit "f"] [8; 0; 8; 8; 8] [5; 7; 6; 5; 2] Block = Ret (ROk n) /\
  external_map (ng_rm n) = [(5, ExtInfo true 0); (7, ExtInfo false 1); (2, ExtInfo true 4)] /\ exhaust_map (ng_rm n) = [(5, 0); (2, 1)] /\ global_exhaust (ng_rm n) = false.
Proof. eexists. split; [vm_compute; reflexivity|]. repeat split. Qed.

Print Assumptions C45_engine_exists. Print Assumptions C45_min_width. Print Assumptions C45_no_depth_overflow. Print Assumptions C45_set.
Print Assumptions C38_refuted. Print Assumptions C38_one_report_partial. Print Assumptions C38_all_zero_partial.
Print Assumptions C46_database. Print Assumptions C46_engine. Print Assumptions C46_pure_literal_iff. Print Assumptions C46_never_single_outfix. Print Assumptions C47_scan. Print Assumptions C47_sequence.
Print Assumptions C55_contents. Print Assumptions C55_given_up. Print Assumptions C56_no_match_lost.
Print Assumptions C57_recorded. Print Assumptions C57_global_exhaust. Print Assumptions C57_keys.
