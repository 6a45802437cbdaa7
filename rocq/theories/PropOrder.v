(** Properties C68-C70: calls with the same items, texts that differ in case only,
    and texts that continue another. *)
From Coq Require Import Permutation.
From Verif Require Import Base ModelUtil ModelBitField ModelCharReach ModelLiteral ModelReport ModelPetgraph ModelParser ModelNfa ModelSmallWrite ModelCompiler
  SpecSet SpecGrammar SpecReport SpecTrie SpecTree SpecGraph SpecCompile SpecLang SpecOrder
  ProofBase ProofLiteral ProofReport ProofGrammar ProofParser ProofTree ProofVerb ProofTrie ProofShortcut ProofGraph ProofCompile ProofRun ProofOrder
  PropReport PropParser PropTrie PropShortcut PropCompile PropEngine.
Local Open Scope N_scope.
Local Open Scope list_scope.

(** ** C68 *)
Lemma same_items_sym : forall es fs ids es' fs' ids', same_items es fs ids es' fs' ids' -> same_items es' fs' ids' es fs ids.
Proof. intros es fs ids es' fs' ids' S it. symmetry. apply S. Qed.
Lemma same_literals : forall es fs ids es' fs' ids' it l, same_items es fs ids es' fs' ids' -> (exists i, literal_at es fs ids i it l) -> exists i, literal_at es' fs' ids' i it l.
Proof. intros es fs ids es' fs' ids' it l S (i & H & B). destruct (proj1 (S it) (ex_intro _ i H)) as (j & H'). exists j. split; assumption. Qed.
Lemma agree_single : forall p es fs ids m n, N.of_nat (List.length es) <= 8000000 -> engine p es fs ids m = Ret (ROk n) ->
  forall i it l j it' l', literal_at es fs ids i it l -> literal_at es fs ids j it' l' -> it_id it = it_id it' -> single_match it = single_match it'.
Proof.
  intros p es fs ids m n L E i it l j it' l' (Hi & b & B & T & _) (Hj & b' & B' & T' & _) Ei.
  assert (Ne : es <> []) by (intros ->; destruct Hi as (Hi & _); destruct i; discriminate Hi).
  assert (Cm : exists db, compile_multi p es fs ids m = Ret (ROk db)) by (exists (build n); apply C45_engine_exists; eauto).
  apply C01_accepts_iff in Cm. destruct Cm as (_ & _ & _ & Nc).
  destruct (Bool.bool_dec (single_match it) (single_match it')) as [Z|Z]; [exact Z|exfalso]. apply (Nc i j it it' Hi Hj). split; [exists b; auto|]. split; [exists b'; auto|]. auto.
Qed.
Lemma has_entry : forall p es fs ids m n, N.of_nat (List.length es) <= 8000000 -> engine p es fs ids m = Ret (ROk n) ->
  forall i it l, literal_at es fs ids i it l -> exists x, assoc N.eqb (external_map (ng_rm n)) (it_id it) = Some x.
Proof.
  intros p es fs ids m n L E i it l La. destruct (engine_inv _ _ _ _ _ _ L E) as (A & Ad & I). rewrite (rk_ext _ _ (ni_rm _ _ _ _ _ I)).
  assert (Ia : In (Addition (N.of_nat i) (it_id it) (single_match it) l) A) by (apply (adds_literal_at _ _ _ _ Ad); eauto).
  destruct (first_add A (it_id it)) as [b|] eqn:Fa; [cbn; eauto|]. unfold first_add in Fa. pose proof (find_none _ _ Fa _ Ia) as X. cbn [ad_id] in X. rewrite N.eqb_refl in X. discriminate X.
Qed.
(** What an engine holds depends on the set of items only: not on their order, on
    how often each is given, on the mode, or on the build. *)
Theorem C68_contents : forall p p' es fs ids es' fs' ids' m m' n n',
  N.of_nat (List.length es) <= 8000000 -> N.of_nat (List.length es') <= 8000000 ->
  engine p es fs ids m = Ret (ROk n) -> engine p' es' fs' ids' m' = Ret (ROk n') -> same_items es fs ids es' fs' ids' ->
  ng_min_width n = ng_min_width n' /\
  global_exhaust (ng_rm n) = global_exhaust (ng_rm n') /\
  num_reports (ng_rm n) = num_reports (ng_rm n') /\
  List.length (exhaust_map (ng_rm n)) = List.length (exhaust_map (ng_rm n')) /\
  (forall id, (exists k, assoc N.eqb (exhaust_map (ng_rm n)) id = Some k) <-> (exists k, assoc N.eqb (exhaust_map (ng_rm n')) id = Some k)) /\
  (forall id, option_map ei_highlander (assoc N.eqb (external_map (ng_rm n)) id) = option_map ei_highlander (assoc N.eqb (external_map (ng_rm n')) id)) /\
  (sw_poisoned (ng_smwr n) = false -> sw_poisoned (ng_smwr n') = false -> forall bs r,
    (let t := sw_trie (ng_smwr n) in let t' := sw_trie (ng_smwr n') in
     (exists v, reach (lt_inner t) (lt_root t) bs v /\ In r (node_reports (lt_inner t) v)) <-> (exists v, reach (lt_inner t') (lt_root t') bs v /\ In r (node_reports (lt_inner t') v))) /\
    (let t := sw_trie_nocase (ng_smwr n) in let t' := sw_trie_nocase (ng_smwr n') in
     (exists v, reach (lt_inner t) (lt_root t) bs v /\ In r (node_reports (lt_inner t) v)) <-> (exists v, reach (lt_inner t') (lt_root t') bs v /\ In r (node_reports (lt_inner t') v)))).
Proof.
  intros p p' es fs ids es' fs' ids' m m' n n' L L' E E' S. pose proof (same_items_sym _ _ _ _ _ _ S) as S'.
  assert (Lit : forall it l, (exists i, literal_at es fs ids i it l) <-> (exists i, literal_at es' fs' ids' i it l)) by (intros it l; split; apply same_literals; assumption).
  assert (Wants : forall id, (exists i it l, literal_at es fs ids i it l /\ it_id it = id /\ single_match it = true) <-> (exists i it l, literal_at es' fs' ids' i it l /\ it_id it = id /\ single_match it = true)).
  { intro id. split; intros (i & it & l & La & X).
    - destruct (proj1 (Lit it l) (ex_intro _ i La)) as (j & Lj). exists j, it, l. auto.
    - destruct (proj2 (Lit it l) (ex_intro _ i La)) as (j & Lj). exists j, it, l. auto. }
  conjs.
  - destruct (C45_set p es fs ids m n L E) as (W1 & W2 & W3), (C45_set p' es' fs' ids' m' n' L' E') as (W1' & W2' & W3').
    assert (Dec : forall d : depth, d = depth_infinity \/ d <> depth_infinity).
    { intros [v]. destruct (N.eq_dec v (depth_val depth_infinity)) as [Z|Z]; [left; rewrite Z; reflexivity|right; intro Y; apply Z; rewrite <- Y; reflexivity]. }
    destruct (Dec (ng_min_width n)) as [D|D], (Dec (ng_min_width n')) as [D'|D'].
    + congruence.
    + exfalso. destruct (W3' D') as (i & it & l & La & _). destruct (proj2 (Lit it l) (ex_intro _ i La)) as (j & Lj). apply (proj1 W1 D _ _ _ Lj).
    + exfalso. destruct (W3 D) as (i & it & l & La & _). destruct (proj1 (Lit it l) (ex_intro _ i La)) as (j & Lj). apply (proj1 W1' D' _ _ _ Lj).
    + destruct (W3 D) as (i & it & l & La & V). destruct (proj1 (Lit it l) (ex_intro _ i La)) as (j & Lj). pose proof (W2' _ _ _ Lj).
      destruct (W3' D') as (i' & it' & l' & La' & V'). destruct (proj2 (Lit it' l') (ex_intro _ i' La')) as (j' & Lj'). pose proof (W2 _ _ _ Lj').
      destruct (ng_min_width n) as [v], (ng_min_width n') as [v']. cbn [depth_val] in *. f_equal. lia.
  - apply eq_true_iff_eq. rewrite (C57_global_exhaust p es fs ids m n L E), (C57_global_exhaust p' es' fs' ids' m' n' L' E'). split; intros H i it l La.
    + destruct (proj2 (Lit it l) (ex_intro _ i La)) as (j & Lj). eapply H; exact Lj.
    + destruct (proj1 (Lit it l) (ex_intro _ i La)) as (j & Lj). eapply H; exact Lj.
  - destruct (C38_one_report_partial p es fs ids m n L E) as [R1 R0], (C38_one_report_partial p' es' fs' ids' m' n' L' E') as [R1' R0'].
    destruct (engine_inv _ _ _ _ _ _ L E) as (A & Ad & _). destruct A as [|a A].
    + assert (No : forall i it l, ~ literal_at es fs ids i it l).
      { intros i it l La. assert (Ia : In (Addition (N.of_nat i) (it_id it) (single_match it) l) []) by (apply (adds_literal_at _ _ _ _ Ad); eauto). destruct Ia. }
      rewrite (R0 No). rewrite R0'; [reflexivity|]. intros i it l La. destruct (proj2 (Lit it l) (ex_intro _ i La)) as (j & Lj). apply (No _ _ _ Lj).
    + assert (Ia : In a (a :: A)) by (left; reflexivity). apply (adds_literal_at _ _ _ _ Ad) in Ia. destruct Ia as (i & it & l & La & _).
      destruct (proj1 (Lit it l) (ex_intro _ i La)) as (j & Lj). rewrite (proj1 (R1 (ex_intro _ i (ex_intro _ it (ex_intro _ l La))))), (proj1 (R1' (ex_intro _ j (ex_intro _ it (ex_intro _ l Lj))))). reflexivity.
  - destruct (engine_rm _ _ _ _ _ _ L E) as (A & Ad & I & K), (engine_rm _ _ _ _ _ _ L' E') as (A' & Ad' & I' & K').
    pose proof (rk_run _ _ (ni_rm _ _ _ _ _ I)) as R. pose proof (rk_run _ _ (ni_rm _ _ _ _ _ I')) as R'.
    destruct (hist_run _ _ limit_ok K) as (rm & R1 & Hi). rewrite R in R1. injection R1 as <-. rewrite (hi_keys _ _ _ Hi).
    destruct (hist_run _ _ limit_ok K') as (rm & R1 & Hi'). rewrite R' in R1. injection R1 as <-. rewrite (hi_keys _ _ _ Hi').
    unfold idx_map. rewrite !combine_length, !seqN_length, !Nat.min_id. apply Permutation_length, NoDup_Permutation; [apply asked_keys_NoDup|apply asked_keys_NoDup|].
    intro id. rewrite !asked_single. specialize (Wants id). split.
    + intros (a & Ia & Sa & Ea). apply (adds_literal_at _ _ _ _ Ad) in Ia. destruct Ia as (i & it & l & La & ->). cbn in Sa, Ea.
      destruct (proj1 (Lit it l) (ex_intro _ i La)) as (j & Lj). exists (Addition (N.of_nat j) (it_id it) (single_match it) l). split; [|auto]. apply (adds_literal_at _ _ _ _ Ad'). eauto.
    + intros (a & Ia & Sa & Ea). apply (adds_literal_at _ _ _ _ Ad') in Ia. destruct Ia as (i & it & l & La & ->). cbn in Sa, Ea.
      destruct (proj2 (Lit it l) (ex_intro _ i La)) as (j & Lj). exists (Addition (N.of_nat j) (it_id it) (single_match it) l). split; [|auto]. apply (adds_literal_at _ _ _ _ Ad). eauto.
  - intro id. rewrite (proj1 (C57_keys p es fs ids m n L E) id), (proj1 (C57_keys p' es' fs' ids' m' n' L' E') id). apply Wants.
  - intro id. assert (Half : forall p p' es fs ids es' fs' ids' m m' n n', N.of_nat (List.length es) <= 8000000 -> N.of_nat (List.length es') <= 8000000 ->
      engine p es fs ids m = Ret (ROk n) -> engine p' es' fs' ids' m' = Ret (ROk n') -> same_items es fs ids es' fs' ids' ->
      forall b, option_map ei_highlander (assoc N.eqb (external_map (ng_rm n)) id) = Some b -> option_map ei_highlander (assoc N.eqb (external_map (ng_rm n')) id) = Some b).
    { clear. intros p p' es fs ids es' fs' ids' m m' n n' L L' E E' S b H. destruct (assoc N.eqb (external_map (ng_rm n)) id) as [x|] eqn:X; [|discriminate H].
      apply (C57_recorded p es fs ids m n id x L E) in X. destruct X as (i & it & l & La & Ei & -> & _). cbn in H. injection H as <-.
      destruct (same_literals _ _ _ _ _ _ it l S (ex_intro _ i La)) as (j & Lj).
      destruct (assoc N.eqb (external_map (ng_rm n')) id) as [y|] eqn:Y.
      - apply (C57_recorded p' es' fs' ids' m' n' id y L' E') in Y. destruct Y as (i' & it' & l' & La' & Ei' & -> & _). cbn. f_equal.
        destruct (same_literals _ _ _ _ _ _ it' l' (same_items_sym _ _ _ _ _ _ S) (ex_intro _ i' La')) as (j' & Lj').
        destruct (Bool.bool_dec (single_match it') (single_match it)) as [Z|Z]; [exact Z|exfalso].
        apply Z. apply (agree_single p es fs ids m n L E _ _ _ _ _ _ Lj' La). congruence.
      - exfalso. destruct (has_entry p' es' fs' ids' m' n' L' E' _ _ _ Lj) as (y & Hy). rewrite Ei in Hy. congruence. }
    destruct (option_map ei_highlander (assoc N.eqb (external_map (ng_rm n)) id)) as [b|] eqn:B; [symmetry; exact (Half _ _ _ _ _ _ _ _ _ _ _ _ L L' E E' S b B)|].
    destruct (option_map ei_highlander (assoc N.eqb (external_map (ng_rm n')) id)) as [b|] eqn:B'; [|reflexivity]. rewrite (Half _ _ _ _ _ _ _ _ _ _ _ _ L' L E' E S' b B') in B. discriminate B.
  - intros Np Np' bs r. destruct (C55_contents p es fs ids m n L E Np bs r) as [C1 C2], (C55_contents p' es' fs' ids' m' n' L' E' Np' bs r) as [C1' C2']. cbv zeta. rewrite C1, C1', C2, C2'.
    split; split; intros (-> & i & it & l & La & X); (split; [reflexivity|]).
    + destruct (proj1 (Lit it l) (ex_intro _ i La)) as (j & Lj). exists j, it, l. auto.
    + destruct (proj2 (Lit it l) (ex_intro _ i La)) as (j & Lj). exists j, it, l. auto.
    + destruct (proj1 (Lit it l) (ex_intro _ i La)) as (j & Lj). exists j, it, l. auto.
    + destruct (proj2 (Lit it l) (ex_intro _ i La)) as (j & Lj). exists j, it, l. auto.
Qed.

Lemma filter_perm : forall {A} (f : A -> bool) l l', Permutation l l' -> Permutation (filter f l) (filter f l').
Proof.
  intros A f l l' P. induction P as [|x l l' P IH|x y l|l l' l'' P1 IH1 P2 IH2]; cbn [filter]; [constructor| | |eapply Permutation_trans; eassumption].
  - destruct (f x); [constructor|]; exact IH.
  - destruct (f x), (f y); try apply Permutation_refl. constructor.
Qed.
Lemma adds_total : forall l i, (forall it, In it l -> exists body, body_of (it_expr it) body) -> exists A, adds i l A.
Proof.
  induction l as [|it l IH]; intros i H; [exists []; constructor|]. destruct (IH (i + 1)) as (A & Ad); [intros x Ix; apply H; right; exact Ix|].
  destruct (H it (or_introl eq_refl)) as (body & B). destruct (literal_text_dec body) as [T|T]; [eexists; eapply adds_literal; eassumption|eexists; eapply adds_other; eassumption].
Qed.
Lemma adds_bodies : forall i l A, adds i l A -> forall it, In it l -> exists body, body_of (it_expr it) body.
Proof. intros i l A Ad. induction Ad as [i|i it t body l B T Ad IH|i it t body l B T Ad IH]; intros x Ix; [destruct Ix| |]; (destruct Ix as [<-|Ix]; [eauto|apply IH; exact Ix]). Qed.
Lemma adds_shift : forall i l A, adds i l A -> forall j A', adds j l A' -> map ad_lit A = map ad_lit A'.
Proof.
  intros i l A Ad. induction Ad as [i|i it t body l B T Ad IH|i it t body l B T Ad IH]; intros j A' Ad'; inversion Ad' as [|? ? ? body' ? B' T' Ad1|? ? ? body' ? B' T' Ad1]; subst.
  - reflexivity.
  - rewrite (body_fun _ _ _ B B') in *. cbn [map ad_lit]. f_equal. eapply IH. exact Ad1.
  - rewrite (body_fun _ _ _ B B') in *. contradiction.
  - rewrite (body_fun _ _ _ B B') in *. contradiction.
  - eapply IH. exact Ad1.
Qed.
Lemma adds_perm : forall l l', Permutation l l' -> forall i A, adds i l A -> forall j A', adds j l' A' -> Permutation (map ad_lit A) (map ad_lit A').
Proof.
  intros l l' P. induction P as [|x l l' P IH|x y l|l l1 l' P1 IH1 P2 IH2]; intros i A Ad j A' Ad'.
  - inversion Ad; inversion Ad'; subst. constructor.
  - inversion Ad as [|? ? ? b ? B T Ad1|? ? ? b ? B T Ad1]; inversion Ad' as [|? ? ? b' ? B' T' Ad1'|? ? ? b' ? B' T' Ad1']; subst; rewrite (body_fun _ _ _ B B') in *; try contradiction.
    + cbn [map ad_lit]. constructor. eapply IH; eassumption.
    + eapply IH; eassumption.
  - inversion Ad as [|? ? ? b ? B T Ad1|? ? ? b ? B T Ad1]; inversion Ad' as [|? ? ? b' ? B' T' Ad1'|? ? ? b' ? B' T' Ad1']; subst;
      inversion Ad1 as [|? ? ? c ? C U Ad2|? ? ? c ? C U Ad2]; inversion Ad1' as [|? ? ? c' ? C' U' Ad2'|? ? ? c' ? C' U' Ad2']; subst;
      rewrite (body_fun _ _ _ B C'), (body_fun _ _ _ C B') in *; try contradiction; cbn [map ad_lit]; rewrite (adds_shift _ _ _ Ad2 _ _ Ad2'); try apply Permutation_refl. constructor.
  - destruct (adds_total l1 0) as (A1 & Ad1); [intros it I; eapply adds_bodies; [exact Ad|]; apply (Permutation_in _ (Permutation_sym P1)); exact I|].
    eapply Permutation_trans; [eapply IH1|eapply IH2]; eassumption.
Qed.
Lemma distinct_prefixes_perm : forall h h', Permutation h h' -> List.length (distinct_prefixes h) = List.length (distinct_prefixes h').
Proof.
  intros h h' P. apply Permutation_length, NoDup_Permutation; [apply NoDup_nodup|apply NoDup_nodup|]. intro x. unfold distinct_prefixes. rewrite !nodup_In. cbn [In].
  rewrite !in_flat_map. split; (intros [->|(y & Iy & Ix)]; [left; reflexivity|right; exists y; split; [|exact Ix]]); [apply (Permutation_in _ P); exact Iy|apply (Permutation_in _ (Permutation_sym P)); exact Iy].
Qed.
(** Whether the dictionaries are given up does not depend on the order. *)
Theorem C68_given_up : forall p p' l l' m m' n n', Permutation l l' -> N.of_nat (List.length l) <= 8000000 ->
  engine p (exprs l) (flag_words l) (match_ids l) m = Ret (ROk n) -> engine p' (exprs l') (flag_words l') (match_ids l') m' = Ret (ROk n') ->
  sw_poisoned (ng_smwr n) = sw_poisoned (ng_smwr n').
Proof.
  intros p p' l l' m m' n n' P L E E'.
  assert (Len : List.length (exprs l) = List.length l) by apply map_length. assert (Len' : List.length (exprs l') = List.length l) by (unfold exprs; rewrite map_length; symmetry; apply Permutation_length; exact P).
  assert (L1 : N.of_nat (List.length (exprs l)) <= 8000000) by lia. assert (L1' : N.of_nat (List.length (exprs l')) <= 8000000) by lia.
  destruct (engine_inv _ _ _ _ _ _ L1 E) as (A & Ad & _), (engine_inv _ _ _ _ _ _ L1' E') as (A' & Ad' & _).
  assert (Items : forall k, items_of (exprs k) (flag_words k) (match_ids k) = k) by (induction k as [|[a b c] k IH]; [reflexivity|unfold exprs, flag_words, match_ids in *; cbn [map items_of it_expr it_flags it_id]; rewrite IH; reflexivity]).
  pose proof Ad as Ad0. pose proof Ad' as Ad0'. rewrite Items in Ad0, Ad0'. pose proof (adds_perm _ _ P _ _ Ad0 _ _ Ad0') as Pl.
  assert (Pd : Permutation (dictionary_input A) (dictionary_input A')).
  { assert (Di : forall B, dictionary_input B = map (fun l => (l, 0)) (map ad_lit B)) by (intro B; unfold dictionary_input; rewrite map_map; reflexivity). rewrite !Di. apply Permutation_map. exact Pl. }
  assert (Cnt : List.length (filter (fun a => lit_length (ad_lit a) <=? 70) A) = List.length (filter (fun a => lit_length (ad_lit a) <=? 70) A')).
  { assert (Fm : forall B, List.length (filter (fun a => lit_length (ad_lit a) <=? 70) B) = List.length (filter (fun x => lit_length x <=? 70) (map ad_lit B))).
    { induction B as [|b B IH]; [reflexivity|]. cbn [filter map]. destruct (_ <=? 70); cbn [List.length]; rewrite IH; reflexivity. }
    rewrite !Fm. apply Permutation_length, filter_perm. exact Pl. }
  apply eq_true_iff_eq. rewrite (C55_given_up p _ _ _ m n A L1 E Ad), (C55_given_up p' _ _ _ m' n' A' L1' E' Ad'). rewrite Len, Len', Cnt.
  rewrite (distinct_prefixes_perm (short_sensitive grey_default (dictionary_input A)) (short_sensitive grey_default (dictionary_input A'))) by (apply Permutation_map, filter_perm; exact Pd).
  rewrite (distinct_prefixes_perm (short_caseless grey_default (dictionary_input A)) (short_caseless grey_default (dictionary_input A'))) by (apply Permutation_map, filter_perm; exact Pd).
  reflexivity.
Qed.
(** Repetition does not change what is held, order changes the recorded indices. *)
Example C68_case : let es := [lit "foo"; lit "a|b"; lit "Bar"; lit "foo"] in let es' := [lit "Bar"; lit "foo"; lit "a|b"] in
  same_items es [8; 0; 1; 8] [5; 5; 7; 5] es' [1; 8; 0] [7; 5; 5] /\
  exists n n', engine dev es [8; 0; 1; 8] [5; 5; 7; 5] Block = Ret (ROk n) /\ engine release es' [1; 8; 0] [7; 5; 5] Vectored = Ret (ROk n') /\
    external_map (ng_rm n) = [(5, ExtInfo true 0); (7, ExtInfo false 2)] /\ external_map (ng_rm n') = [(7, ExtInfo false 0); (5, ExtInfo true 1)].
Proof.
  cbv zeta. split.
  - intro it. rewrite <- (In_items _ _ _ it), <- (In_items _ _ _ it). cbn [items_of In]. tauto.
  - do 2 eexists. split; [vm_compute; reflexivity|]. split; [vm_compute; reflexivity|]. split; reflexivity.
Qed.

(** ** C69 *)
Theorem C69_parse : forall p s s' m, caseless m = true -> same_but_case s s' -> parse p s m = parse p s' m.
Proof. exact case_parse. Qed.
Lemma case_add_all : forall p es es' fs ids i n, equal_but_case es es' fs -> add_all p n i (zip3 es fs ids) = add_all p n i (zip3 es' fs ids).
Proof.
  intros p es. induction es as [|e es IH]; intros [|e' es'] fs ids i n [L H]; try discriminate L; [reflexivity|]. destruct fs as [|f fs]; [reflexivity|]. destruct ids as [|d ids]; [reflexivity|].
  cbn [zip3 add_all]. rewrite (case_add_expression p n i e e' f d (H 0%nat e e' f eq_refl eq_refl eq_refl)).
  destruct (add_expression p n i e' f d) as [[n1 [u|er]]|w|]; cbn [bind]; try reflexivity. apply IH. split; [injection L as L; exact L|]. intros k x x' g X X' G. apply (H (S k) x x' g X X' G).
Qed.
Theorem C69_set : forall p es es' fs ids m, equal_but_case es es' fs ->
  engine p es fs ids m = engine p es' fs ids m /\ compile_multi p es fs ids m = compile_multi p es' fs ids m.
Proof.
  intros p es es' fs ids m H. assert (E : engine p es fs ids m = engine p es' fs ids m) by (unfold engine; rewrite (case_add_all p es es' fs ids _ _ H), (proj1 H); reflexivity).
  split; [exact E|]. unfold compile_multi, compile_multi_int. destruct H as [L _]. destruct es as [|e es], es' as [|e' es']; try discriminate L; [reflexivity|]. cbv zeta.
  rewrite <- L at 1.
  destruct (_ <? _); [reflexivity|]. change (bindr (engine p (e :: es) fs ids m) (fun n => Ret (ROk (build n))) = bindr (engine p (e' :: es') fs ids m) (fun n => Ret (ROk (build n)))). rewrite E. reflexivity.
Qed.
(** Inside a control verb case matters, and without CASELESS it does too. *)
Example C69_case : same_but_case (lit "(*UTF)aB|c") (lit "(*UTF)Ab|C") /\
  (exists r, parse release (lit "(*UTF)aB|c") (mode_new 1) = Ret (ROk r)) /\
  parse release (lit "(*utf)aB|c") (mode_new 1) = Ret (RErr (verb_error (lit "Unknown control verb ") (lit "utf") 0)) /\
  parse release (lit "aB") (mode_new 0) <> parse release (lit "Ab") (mode_new 0).
Proof.
  conjs.
  - right. exists (lit "UTF"), (lit "aB|c"), (lit "Ab|C"). conjs.
    + split; [reflexivity|]. split; [discriminate|vm_compute; intuition discriminate].
    + split; [reflexivity|]. split; [discriminate|vm_compute; intuition discriminate].
    + repeat (constructor; [vm_compute; auto|]). constructor.
  - eexists. vm_compute. reflexivity.
  - vm_compute. reflexivity.
  - vm_compute. discriminate.
Qed.

(** ** C70 *)
(** An error of the located kind stays whatever is appended. *)
Theorem C70_final : forall p s m e, parse p s m = Ret (RErr e) -> err_kind e = ELocatedParse -> forall t, parse p (s ++ t) m = Ret (RErr e).
Proof. intros p s m e E K t. apply located_app; assumption. Qed.
(** The other parse error says that a group is open; the text can be completed,
    unless it is the beginning of a control verb that is not the beginning of an
    accepted one. *)
Theorem C70_repairable : forall p s m e, parse p s m = Ret (RErr e) -> err_kind e <> ELocatedParse ->
  ((exists t r, parse p (s ++ t) m = Ret (ROk r)) <-> forall v, unfinished s v -> exists w, accepted_verb (v ++ w)).
Proof.
  intros p s m e E K.
  assert (Mi : exists i, e = missing_error i).
  { pose proof (parse_cases p s m) as C. rewrite E in C. remember (Ret (RErr e)) as o eqn:Eo. clear E.
    destruct C as [v' rest what V Na W|body m' e' St A G We T|body m' a b St A G N L E' B|body m' a b St E' G Cl|body m' a c b St E' G Cl|body m' a b St Oc E' G Cl]; try discriminate Eo; injection Eo as Eo; subst e.
    - destruct (K eq_refl).
    - eauto.
    - destruct (K eq_refl). }
  destruct Mi as (i & ->). split.
  - intros R v U. apply (unfinished_repair p s v m U). exact R.
  - intro H. destruct (unfinished_dec s) as [(v & U)|U].
    + apply (unfinished_repair p s v m U). apply H. exact U.
    + destruct (repairable p s m i E U) as (k & r & R). eauto.
Qed.
(** A panic stays too, except that an unfinished control verb may still become one. *)
Theorem C70_panics : forall p s m w, parse p s m = Panic w -> (forall v, ~ unfinished s v) -> forall t, parse p (s ++ t) m = Panic w.
Proof. intros p s m w E U t. apply panic_app; assumption. Qed.
(** Every accepted text is spoilt for good by one closing parenthesis. *)
Theorem C70_spoilt : forall p s m r t, parse p s m = Ret (ROk r) -> parse p (s ++ 41 :: t) m = Ret (RErr unmatched_error).
Proof.
  intros p s m r t E. replace (s ++ 41 :: t) with ((s ++ [41]) ++ t) by (rewrite <- app_assoc; reflexivity). apply located_app; [eapply ok_then_close; exact E|reflexivity].
Qed.
Example C70_case : parse release (lit "a)") (mode_new 0) = Ret (RErr unmatched_error) /\
  parse release (lit "(*U") (mode_new 0) = Ret (RErr (missing_error 0)) /\ unfinished (lit "(*U") (lit "U") /\ accepted_verb (lit "U" ++ lit "TF") /\
  unfinished (lit "(*x") (lit "x") /\ (forall w, ~ accepted_verb (lit "x" ++ w)) /\
  parse release (lit "(*" ++ [233]) (mode_new 0) = Panic PAssert /\
  parse release (lit "(*" ++ [233] ++ lit ")") (mode_new 0) = Ret (RErr (verb_error (lit "Unknown control verb ") [233] 0)).
Proof.
  conjs; try (vm_compute; reflexivity).
  - split; [reflexivity|]. split; [discriminate|vm_compute; intuition discriminate].
  - right. left. reflexivity.
  - split; [reflexivity|]. split; [discriminate|vm_compute; intuition discriminate].
  - intros w [X|[X|X]]; discriminate X.
Qed.

Print Assumptions C68_contents. Print Assumptions C68_given_up. Print Assumptions C69_parse. Print Assumptions C69_set.
Print Assumptions C70_final. Print Assumptions C70_repairable. Print Assumptions C70_panics. Print Assumptions C70_spoilt.
