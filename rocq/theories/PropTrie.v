(** Properties C39-C42: the small-write dictionaries. *)
From Coq Require FinFun.
From Verif Require Import Base ModelUtil ModelLiteral ModelPetgraph ModelSmallWrite SpecTrie ProofBase ProofLiteral ProofTrie ProofLimits.
Local Open Scope N_scope.

Definition L (s : list N) : literal := Literal s (map (fun _ => false) s).
(** a, ab, ac, the empty literal, b twice *)
Definition sample_literals : list (literal * N) :=
  [(L [97; 98], 1); (L [97], 2); (L [97; 99], 1); (L [], 7); (L [98], 3); (L [98], 4)].

Lemma insert_default : forall h, (forall x, In x h -> lit_wf (fst x)) -> N.of_nat (List.length (distinct_prefixes (map insertion_of h))) <= IX_END ->
  exists t ps, insert_all trie_default h = Ret t /\ lt_root t = 0 /\ content (lt_inner t) ps (map insertion_of h).
Proof.
  intros h W Hc. destruct (insert_all_cases h trie_default [[]] [] eq_refl content_default W) as [(_ & t & ps & E & R & C)|(Big & _)]; [vm_compute; discriminate|exists t, ps; auto|].
  cbn [app] in Big. unfold n_prefixes in Big. lia.
Qed.
Lemma insert_default_inv : forall h t, (forall x, In x h -> lit_wf (fst x)) -> insert_all trie_default h = Ret t ->
  exists ps, lt_root t = 0 /\ content (lt_inner t) ps (map insertion_of h).
Proof.
  intros h t W E. destruct (insert_all_cases h trie_default [[]] [] eq_refl content_default W) as [(_ & t' & ps & E' & R & C)|(_ & E')]; [vm_compute; discriminate| |congruence].
  rewrite E in E'. injection E' as <-. exists ps. auto.
Qed.
Lemma in_insertions : forall h b r, In (b, r) (map insertion_of h) <-> exists l, In (l, r) h /\ lit_s l = b.
Proof.
  intros h b r. rewrite in_map_iff. split.
  - intros ([l r'] & E & I). injection E as <- <-. eauto.
  - intros (l & I & <-). exists (l, r). auto.
Qed.
Lemma set_extend_In : forall xs s y, In y (set_extend N.eqb s xs) <-> In y s \/ In y xs.
Proof.
  unfold set_extend. induction xs as [|x xs IH]; intros s y; simpl; [tauto|].
  rewrite IH, (set_insert_In N.eqb N.eqb_eq). intuition.
Qed.

(** ** C39 *)
Theorem C39_contents : forall h, (forall x, In x h -> lit_wf (fst x)) -> N.of_nat (List.length (distinct_prefixes (map insertion_of h))) <= 2 ^ 32 - 1 ->
  exists t, insert_all trie_default h = Ret t /\
    (forall bs r, (exists v, reach (lt_inner t) (lt_root t) bs v /\ In r (node_reports (lt_inner t) v)) <->
                  exists l, In (l, r) h /\ lit_s l = bs) /\
    (forall bs v w, reach (lt_inner t) (lt_root t) bs v -> reach (lt_inner t) (lt_root t) bs w -> v = w) /\
    (forall r, In r (trie_all_reports t) <-> exists l, In (l, r) h) /\
    (trie_is_empty t = true <-> forall l r, In (l, r) h -> lit_s l = []).
Proof.
  change (2 ^ 32 - 1) with IX_END.
  intros h W Hc. destruct (insert_default h W Hc) as (t & ps & E & R & C). exists t. split; [exact E|].
  pose proof (ct_shape _ _ _ C) as Sh. rewrite R.
  assert (Rt : nth_error ps (N.to_nat 0) = Some []) by (apply (sh_root _ _ Sh)).
  assert (Rc : forall bs v, reach (lt_inner t) 0 bs v <-> nth_error ps (N.to_nat v) = Some bs).
  { intros bs v. rewrite (reach_iff _ _ _ 0 [] v bs C Rt). reflexivity. }
  conjs.
  - intros bs r. rewrite <- in_insertions. split.
    + intros (v & Hv & Hr). apply Rc in Hv. unfold node_reports in Hr.
      destruct (nth_error (nodes (lt_inner t)) (N.to_nat v)) as [x|] eqn:X; [|contradiction].
      apply (ct_reports _ _ _ C _ _ _ Hv X). exact Hr.
    + intro I. assert (P : In bs ps).
      { apply (ct_paths _ _ _ C). right. exists bs, r. split; [exact I|]. exists []. symmetry; apply app_nil_r. }
      apply In_nth_error in P. destruct P as [i P]. exists (N.of_nat i). split; [apply Rc; rewrite Nat2N.id; exact P|].
      unfold node_reports. rewrite Nat2N.id. pose proof (sh_bound _ _ _ _ Sh P) as Li.
      destruct (nth_error (nodes (lt_inner t)) i) as [x|] eqn:X; [|apply nth_error_None in X; lia].
      apply (ct_reports _ _ _ C _ _ _ P X). exact I.
  - intros bs v w Hv Hw. apply Rc in Hv, Hw. assert (N.to_nat v = N.to_nat w) by (eapply sh_inj; eassumption). lia.
  - intro r. unfold trie_all_reports.
    assert (G : forall ns s, In r (fold_left (fun s v => set_extend N.eqb s (tp_reports v)) ns s) <->
                In r s \/ exists x, In x ns /\ In r (tp_reports x)).
    { induction ns as [|x ns IH]; intro s; simpl.
      - split; [auto|]. intros [I|(x & [] & _)]; exact I.
      - rewrite IH, set_extend_In. split.
        + intros [[I|I]|(y & I & J)]; eauto.
        + intros [I|(y & [<-|I] & J)]; eauto. }
    rewrite G. split.
    + intros [[]|(x & I & J)]. apply In_nth_error in I. destruct I as [i I].
      assert (Li : (i < List.length ps)%nat) by (rewrite (sh_len _ _ Sh); apply nth_error_Some; congruence).
      destruct (nth_error ps i) as [q|] eqn:Q; [|apply nth_error_None in Q; lia].
      apply (ct_reports _ _ _ C _ _ _ Q I) in J. apply in_insertions in J. destruct J as (l & J & _). eauto.
    + intros (l & I). right. assert (I' : In (lit_s l, r) (map insertion_of h)) by (apply in_insertions; eauto).
      assert (P : In (lit_s l) ps).
      { apply (ct_paths _ _ _ C). right. do 2 eexists. split; [exact I'|]. exists []. symmetry; apply app_nil_r. }
      apply In_nth_error in P. destruct P as [i P]. pose proof (sh_bound _ _ _ _ Sh P) as Li.
      destruct (nth_error (nodes (lt_inner t)) i) as [x|] eqn:X; [|apply nth_error_None in X; lia].
      exists x. split; [eapply nth_error_In; exact X|]. apply (ct_reports _ _ _ C _ _ _ P X). exact I'.
  - unfold trie_is_empty, node_count. rewrite <- (sh_len _ _ Sh). split.
    + intros Hn l r I. destruct ps as [|p0 [|p1 ps]]; [cbn in Hn; lia| |cbn [List.length] in Hn; lia].
      cbn in Rt. injection Rt as ->. assert (P : In (lit_s l) [[]]).
      { apply (ct_paths _ _ _ C). right. exists (lit_s l), r. split; [apply in_insertions; eauto|]. exists []. symmetry; apply app_nil_r. }
      destruct P as [<-|[]]. reflexivity.
    + intro H. assert (All : forall q, In q ps -> q = []).
      { intros q I. apply (ct_paths _ _ _ C) in I. destruct I as [->|(b & r & I & [u U])]; [reflexivity|].
        apply in_insertions in I. destruct I as (l & I & <-). rewrite (H _ _ I) in U. symmetry in U. apply app_eq_nil in U. apply U. }
      pose proof (sh_nodup _ _ Sh) as Nd. destruct ps as [|p0 [|p1 ps]]; [discriminate|reflexivity|exfalso].
      rewrite (All p0), (All p1) in Nd by (cbn; auto). inversion Nd as [|? ? X]; subst. apply X. left; reflexivity.
Qed.
(** The bound is the dictionary's own: with one prefix more there is no node index left for it. *)
Theorem C39_full : forall h, (forall x, In x h -> lit_wf (fst x)) -> 2 ^ 32 - 1 < N.of_nat (List.length (distinct_prefixes (map insertion_of h))) ->
  insert_all trie_default h = Panic PCapacity.
Proof.
  change (2 ^ 32 - 1) with IX_END.
  intros h W Hc. destruct (insert_all_cases h trie_default [[]] [] eq_refl content_default W) as [(Le & _)|(_ & E)]; [vm_compute; discriminate| |exact E].
  cbn [app] in Le. unfold n_prefixes in Le. lia.
Qed.
Definition sample_trie : lit_trie := match insert_all trie_default sample_literals with Ret t => t | _ => trie_default end.
(** Inserting again what is there already changes nothing. *)
Lemma walk_known : forall es g ps u pu, shape g ps -> nth_error ps (N.to_nat u) = Some pu -> (forall t, is_prefix t (map el_c es) -> In (pu ++ t) ps) ->
  exists v, trie_walk_insert g u es = Ret (g, v) /\ nth_error ps (N.to_nat v) = Some (pu ++ map el_c es).
Proof.
  induction es as [|e es IH]; intros g ps u pu H Eu K; cbn [trie_walk_insert map]; [exists u; rewrite app_nil_r; auto|]. unfold trie_step.
  destruct (find_child_ok g (el_c e) (neighbors_out g u)) as [(v & x & F & I & N' & C)|(F & Q)].
  - intros v I. apply in_neighbors_out in I. destruct (sh_child _ _ _ _ _ H Eu I) as (x & X & _). eauto.
  - rewrite F. cbn [bind]. apply in_neighbors_out in I. destruct (sh_child _ _ _ _ _ H Eu I) as (x' & X & Y). rewrite X in N'. injection N' as ->. rewrite C in Y.
    destruct (IH g ps v _ H Y) as (v' & E & Ev).
    + intros t (t' & T). rewrite <- app_assoc. apply K. exists t'. cbn [map]. rewrite T. reflexivity.
    + exists v'. rewrite <- app_assoc in Ev. auto.
  - exfalso. assert (I : In (pu ++ [el_c e]) ps) by (apply K; exists (map el_c es); reflexivity). apply In_nth_error in I. destruct I as [i I].
    destruct (sh_child_exists _ _ _ _ _ _ H Eu I) as (x & X1 & X2 & X3). apply (Q (N.of_nat i) x); [apply in_neighbors_out; exact X1|rewrite Nat2N.id; exact X2|exact X3].
Qed.
Lemma list_upd_same : forall {A} (l : list A) i f x, nth_error l i = Some x -> f x = x -> list_upd l i f = l.
Proof. induction l as [|y l IH]; intros [|i] f x E F; cbn in *; try discriminate; [injection E as ->; rewrite F; reflexivity|]. rewrite (IH i f x E F). reflexivity. Qed.
Theorem C39_again : forall h l l' r t, (forall x, In x h -> lit_wf (fst x)) -> insert_all trie_default h = Ret t ->
  In (l', r) h -> lit_s l = lit_s l' -> lit_wf l -> add_to_trie l r t = Ret (t, node_count (lt_inner t) <=? 8000).
Proof.
  intros h l l' r t W E I El Wl. destruct (insert_default_inv h t W E) as (ps & Hr & C).
  assert (Ih : In (lit_s l, r) (map insertion_of h)) by (rewrite El; apply (in_map insertion_of) in I; exact I).
  unfold add_to_trie. rewrite lit_iter_ok, Hr.
  assert (Bytes : map el_c (pairs_of l) = lit_s l).
  { unfold pairs_of. rewrite map_map. cbn. unfold lit_wf in Wl. revert Wl. generalize (lit_s l) (lit_nocase l).
    intro s; induction s as [|c s IH]; intros [|n ns] Z; simpl in *; try discriminate; [reflexivity|]. f_equal. apply IH. lia. }
  destruct (walk_known (pairs_of l) (lt_inner t) ps 0 [] (ct_shape _ _ _ C)) as (v & Ew & Ev).
  { apply (sh_root _ _ (ct_shape _ _ _ C)). }
  { intros q P. rewrite Bytes in P. apply (ct_paths _ _ _ C). right. exists (lit_s l), r. auto. }
  rewrite Ew. cbn [bind]. rewrite Bytes in Ev. cbn [app] in Ev. pose proof (sh_bound _ _ _ _ (ct_shape _ _ _ C) Ev) as Lv.
  unfold node_update, node_weight, node_count. replace (v <? N.of_nat (List.length (nodes (lt_inner t)))) with true by lia.
  destruct (nth_error (nodes (lt_inner t)) (N.to_nat v)) as [xv|] eqn:Xv; [|apply nth_error_None in Xv; lia]. cbn [bind nodes].
  rewrite (list_upd_same _ _ _ _ Xv).
  - destruct t as [[ns es] rt]. cbn in *. subst rt. reflexivity.
  - destruct xv as [c rs]. cbn [tp_c tp_reports]. unfold set_insert. assert (J : In r rs) by (apply (ct_reports _ _ _ C _ _ _ Ev Xv); exact Ih).
    assert (Z : existsb (N.eqb r) rs = true) by (apply existsb_exists; exists r; split; [exact J|apply N.eqb_refl]). rewrite Z. reflexivity.
Qed.
Example C39_case : (forall x, In x sample_literals -> lit_wf (fst x)) /\ N.of_nat (List.length (distinct_prefixes (map insertion_of sample_literals))) <= 2 ^ 32 - 1 /\
  trie_is_empty sample_trie = false /\ trie_all_reports sample_trie = [7; 2; 1; 3; 4] /\
  reach (lt_inner sample_trie) 0 [97; 99] 3 /\ node_reports (lt_inner sample_trie) 3 = [1].
Proof.
  conjs; try (vm_compute; congruence).
  - intros x I. cbn in I. repeat (destruct I as [<-|I]; [reflexivity|]). contradiction.
  - apply (reach_cons _ 0 1 (TrieProps 97 [2]) [99] 3); [vm_compute; auto|reflexivity|].
    apply (reach_cons _ 1 3 (TrieProps 99 [1]) [] 3); [vm_compute; auto|reflexivity|constructor].
Qed.
Example C39_full_case : exists h, (forall x, In x h -> lit_wf (fst x)) /\ 2 ^ 32 - 1 < N.of_nat (List.length (distinct_prefixes (map insertion_of h))).
Proof.
  assert (Z : exists k, N.of_nat k = 2 ^ 32) by (exists (N.to_nat (2 ^ 32)); apply N2Nat.id). destruct Z as (k & Hk).
  exists [(Literal (repeat 97%N k) (repeat false k), 0%N)]. split.
  - intros x [<-|[]]. unfold lit_wf. cbn [fst lit_s lit_nocase]. rewrite !repeat_length. reflexivity.
  - assert (Le : (List.length (map (repeat 97%N) (List.seq 0 k)) <= List.length (distinct_prefixes (map insertion_of [(Literal (repeat 97%N k) (repeat false k), 0%N)])))%nat).
    { apply NoDup_incl_length.
      - apply FinFun.Injective_map_NoDup; [|apply seq_NoDup]. intros a b E. rewrite <- (repeat_length 97 a), E. apply repeat_length.
      - intros x I. apply in_map_iff in I. destruct I as (i & <- & I). apply in_seq in I. apply in_distinct. right. exists (repeat 97%N k), 0%N. split; [left; reflexivity|].
        exists (repeat 97%N (k - i)). rewrite <- repeat_app. f_equal. lia. }
    rewrite map_length, seq_length in Le. lia.
Qed.

(** ** C40 *)
Theorem C40_tree : forall h, (forall x, In x h -> lit_wf (fst x)) -> N.of_nat (List.length (distinct_prefixes (map insertion_of h))) <= 2 ^ 32 - 1 ->
  exists t, insert_all trie_default h = Ret t /\ let g := lt_inner t in
    lt_root t < node_count g /\
    (* one parent each, none for the root *)
    (forall v, v < node_count g -> List.length (filter (fun e : N * N => snd e =? v) (edges g)) = if v =? lt_root t then 0%nat else 1%nat) /\
    (forall u v, In (u, v) (edges g) -> u < node_count g /\ v < node_count g) /\
    (* reachable *)
    (forall v, v < node_count g -> exists bs, reach g (lt_root t) bs v) /\
    (* siblings differ *)
    (forall u v w x y, In (u, v) (edges g) -> In (u, w) (edges g) ->
       nth_error (nodes g) (N.to_nat v) = Some x -> nth_error (nodes g) (N.to_nat w) = Some y -> tp_c x = tp_c y -> v = w) /\
    node_count g = N.of_nat (List.length (distinct_prefixes (map insertion_of h))).
Proof.
  change (2 ^ 32 - 1) with IX_END.
  intros h W Hc. destruct (insert_default h W Hc) as (t & ps & E & R & C). exists t. split; [exact E|]. cbv zeta.
  pose proof (ct_shape _ _ _ C) as Sh. rewrite R. pose proof (sh_root _ _ Sh) as Rt.
  assert (Len : node_count (lt_inner t) = N.of_nat (List.length ps)) by (unfold node_count; rewrite <- (sh_len _ _ Sh); reflexivity).
  assert (Ed : forall u v, In (u, v) (edges (lt_inner t)) -> u < v /\ v < node_count (lt_inner t) /\
     exists pu x, nth_error ps (N.to_nat u) = Some pu /\ nth_error (nodes (lt_inner t)) (N.to_nat v) = Some x /\ nth_error ps (N.to_nat v) = Some (pu ++ [tp_c x])).
  { intros u v I. apply In_nth_error in I. destruct I as [k K]. destruct (sh_edge _ _ Sh _ _ _ K) as (-> & Lt & x & pa & N1 & N2 & N3).
    split; [exact Lt|]. split; [|exists pa, x; rewrite Nat2N.id; auto].
    rewrite Len. assert (S k < List.length ps)%nat by (apply nth_error_Some; congruence). lia. }
  conjs.
  - rewrite Len. destruct ps; [discriminate|cbn [List.length]; lia].
  - intros v Hv. rewrite Len in Hv.
    assert (Gen : forall es s, (forall k a b, nth_error es k = Some (a, b) -> b = N.of_nat (S k + s)) ->
      List.length (filter (fun e : N * N => snd e =? v) es) = if (N.of_nat s <? v) && (v <=? N.of_nat (List.length es + s)) then 1%nat else 0%nat).
    { induction es as [|[a b] es IH]; intros s Hb; cbn [filter snd List.length].
      - replace ((N.of_nat s <? v) && (v <=? N.of_nat (0 + s))) with false by lia. reflexivity.
      - pose proof (Hb 0%nat a b eq_refl) as Hb0. specialize (IH (S s)).
        assert (Hb' : forall k a b, nth_error es k = Some (a, b) -> b = N.of_nat (S k + S s)).
        { intros k a' b' K. rewrite (Hb (S k) a' b' K). f_equal. lia. }
        specialize (IH Hb'). destruct (N.eqb_spec b v) as [Eb|Nb]; cbn [List.length]; rewrite IH; clear IH Hb Hb'.
        + replace ((N.of_nat (S s) <? v) && (v <=? N.of_nat (List.length es + S s))) with false by lia.
          replace ((N.of_nat s <? v) && (v <=? N.of_nat (S (List.length es) + s))) with true by lia. reflexivity.
        + replace ((N.of_nat (S s) <? v) && (v <=? N.of_nat (List.length es + S s)))
            with ((N.of_nat s <? v) && (v <=? N.of_nat (S (List.length es) + s))) by lia. reflexivity. }
    rewrite (Gen _ 0%nat).
    + pose proof (sh_elen _ _ Sh). destruct (N.eqb_spec v 0).
      * replace ((N.of_nat 0 <? v) && (v <=? N.of_nat (List.length (edges (lt_inner t)) + 0))) with false by lia. reflexivity.
      * replace ((N.of_nat 0 <? v) && (v <=? N.of_nat (List.length (edges (lt_inner t)) + 0))) with true by lia. reflexivity.
    + intros k a b K. destruct (sh_edge _ _ Sh _ _ _ K) as (-> & _). f_equal. lia.
  - intros u v I. destruct (Ed u v I) as (H1 & H2 & _). lia.
  - intros v Hv. rewrite Len in Hv. destruct (nth_error ps (N.to_nat v)) as [q|] eqn:Q; [|apply nth_error_None in Q; lia].
    exists q. apply (reach_iff _ _ _ 0 [] v q C Rt). exact Q.
  - intros u v w x y I J X Y Exy. destruct (Ed u v I) as (_ & _ & pu & x' & U1 & U2 & U3).
    destruct (Ed u w J) as (_ & _ & pu' & y' & V1 & V2 & V3).
    assert (N.to_nat v = N.to_nat w); [|lia]. eapply sh_inj; [exact Sh|exact U3|]. rewrite V3. do 3 f_equal; congruence.
  - apply (content_n _ _ _ C).
Qed.
Example C40_case : node_count (lt_inner sample_trie) = 5 /\ edges (lt_inner sample_trie) = [(0, 1); (1, 2); (1, 3); (0, 4)]
  /\ List.length (distinct_prefixes (map insertion_of sample_literals)) = 5%nat.
Proof. vm_compute. auto. Qed.

(** ** C41 *)
(** The only hypothesis on the configuration is that its limit is a number of type [usize]. *)
Theorem C41_limits : forall p np g h, small_write_max_literals g <= largest p -> (forall x, In x h -> lit_wf (fst x)) ->
  match smwr_run p (smwr_new np g) h with
  | Ret s =>
    (forall a x b w, h = a ++ x :: b -> ~ stops p np g a x w) /\
    (sw_poisoned s = true <->
       allow_small_write g = false \/ small_write_max_patterns g < np \/
       (small_write_max_literals g < N.of_nat (List.length (filter (short g) h)) /\ small_write_max_literals g <> 2 ^ usize_bits p - 1) \/
       8000 < N.of_nat (List.length (distinct_prefixes (short_sensitive g h))) \/
       8000 < N.of_nat (List.length (distinct_prefixes (short_caseless g h)))) /\
    node_count (lt_inner (sw_trie s)) <= 8000 + small_write_largest_buffer g /\
    node_count (lt_inner (sw_trie_nocase s)) <= 8000 + small_write_largest_buffer g /\
    (sw_poisoned s = true -> forall l r, smwr_add_literal p s l r = Ret s) /\
    (forall l r, small_write_largest_buffer g < N.of_nat (List.length (lit_s l)) -> smwr_add_literal p s l r = Ret s)
  | Panic w => exists a x b, h = a ++ x :: b /\ stops p np g a x w
  | Diverge => False
  end.
Proof.
  intros p np g h Ml W. pose proof (limits_run p np g h [] (smwr_new np g) Ml W (limits_inv_new p np g)) as R.
  destruct (smwr_run p (smwr_new np g) h) as [s|w|]; [|exact R..]. destruct R as [[Ig Ip Is _ _] N]. cbn [app] in *. conjs.
  - exact N.
  - rewrite Ip. apply gone_iff.
  - apply Is.
  - apply Is.
  - intros Hp l r. unfold smwr_add_literal. rewrite Hp. reflexivity.
  - intros l r Hl. unfold smwr_add_literal. rewrite Ig. destruct (sw_poisoned s); [reflexivity|].
    unfold lit_len. replace (small_write_largest_buffer g <? N.of_nat (List.length (lit_s l))) with true by lia. reflexivity.
Qed.
(** A literal the builder stops at stops it whatever follows. *)
Theorem C41_stops : forall p np g a x b w, small_write_max_literals g <= largest p -> (forall y, In y (a ++ x :: b) -> lit_wf (fst y)) ->
  stops p np g a x w -> smwr_run p (smwr_new np g) (a ++ x :: b) = Panic w.
Proof. exact limits_stop. Qed.
(** No literal stops it when the buffer limit and the literal limit are below the largest numbers. *)
Theorem C41_runs : forall p np g h, small_write_largest_buffer g + 8000 < 2 ^ 32 -> small_write_max_literals g < largest p ->
  (forall x, In x h -> lit_wf (fst x)) -> exists s, smwr_run p (smwr_new np g) h = Ret s.
Proof.
  intros p np g h Lb Ll W. assert (Ml : small_write_max_literals g <= largest p) by lia.
  pose proof (limits_run p np g h [] (smwr_new np g) Ml W (limits_inv_new p np g)) as R.
  destruct (smwr_run p (smwr_new np g) h) as [s|w|]; [eauto| |contradiction].
  destruct R as (a & x & b & _ & Ng & Sx & S). cbn [app] in *. exfalso.
  assert (Dp : 8000 + small_write_largest_buffer g < 2 ^ 32) by lia.
  assert (N1 : ~ gone p np g a) by exact Ng. unfold gone in N1. destruct S as [(_ & O & F)|(_ & _ & Big)].
  - apply N1. right; right; left. lia.
  - fold (n_prefixes (short_sensitive g a)) (n_prefixes (short_caseless g a)) in N1.
    assert (Lx : N.of_nat (List.length (fst (insertion_of x))) <= small_write_largest_buffer g).
    { unfold short in Sx. unfold insertion_of. cbn [fst]. lia. }
    pose proof (short_sensitive_snoc g a x) as Ss. pose proof (short_caseless_snoc g a x) as Sc. rewrite Sx in Ss, Sc. cbn [andb] in Ss, Sc.
    destruct (has_caseless x); cbn [negb] in Ss, Sc.
    + rewrite Sc in Big. pose proof (distinct_snoc (short_caseless g a) (insertion_of x)) as Z. unfold n_prefixes in *. lia.
    + rewrite Ss in Big. pose proof (distinct_snoc (short_sensitive g a) (insertion_of x)) as Z. unfold n_prefixes in *. lia.
Qed.
(** The largest limits make both kinds of stop possible: a literal that needs too many nodes, and one literal too many to count. *)
Example C41_case : let tight := Grey true false true true 1 5 3 0 0 0 in
  (forall p, small_write_max_literals grey_default <= largest p) /\ (forall p, small_write_max_literals tight <= largest p) /\
  match smwr_run dev (smwr_new 5 tight) (sample_literals ++ sample_literals) with Ret s => sw_poisoned s | _ => false end = true /\
  match smwr_run dev (smwr_new 5 tight) (firstn 5 sample_literals) with Ret s => sw_poisoned s | _ => true end = false.
Proof.
  cbv zeta. conjs; [intro p; pose proof (largest_lt p) as [Z _]; cbn [small_write_largest_buffer small_write_max_literals grey_default]; lia..| |]; vm_compute; reflexivity.
Qed.
Example C41_stops_case : let huge := Grey true false true true (2 ^ 64 - 1) 5 (2 ^ 64 - 1) 0 0 0 in
  (exists x, lit_wf (fst x) /\ stops dev 5 huge [] x PCapacity) /\
  (exists a, (forall y, In y (a ++ [(L [], 0)]) -> lit_wf (fst y)) /\ stops dev 5 huge a (L [], 0) POverflow).
Proof.
  cbv zeta. split.
  - assert (Z : exists k, N.of_nat k = 2 ^ 32) by (exists (N.to_nat (2 ^ 32)); apply N2Nat.id). destruct Z as (k & Hk).
    exists (Literal (repeat 97%N k) (repeat false k), 0%N).
    assert (Nc : has_caseless (Literal (repeat 97%N k) (repeat false k), 0%N) = false) by (unfold has_caseless; cbn [fst lit_nocase]; clear Hk; induction k; [reflexivity|exact IHk]).
    assert (Sx : short (Grey true false true true (2 ^ 64 - 1) 5 (2 ^ 64 - 1) 0 0 0) (Literal (repeat 97%N k) (repeat false k), 0%N) = true).
    { unfold short. cbn [fst lit_s small_write_largest_buffer]. rewrite repeat_length, Hk. reflexivity. }
    split; [unfold lit_wf; cbn [fst lit_s lit_nocase]; rewrite !repeat_length; reflexivity|]. unfold stops. split; [|split; [exact Sx|right]].
    + rewrite <- gone_iff. vm_compute. discriminate.
    + split; [reflexivity|]. split; [left; vm_compute; reflexivity|]. rewrite Nc. cbn [app]. unfold short_sensitive. cbn [filter]. rewrite Sx, Nc. cbn [negb andb map].
      assert (Le : (List.length (map (repeat 97%N) (List.seq 0 k)) <= List.length (distinct_prefixes [insertion_of (Literal (repeat 97%N k) (repeat false k), 0%N)]))%nat).
      { apply NoDup_incl_length.
        - apply FinFun.Injective_map_NoDup; [|apply seq_NoDup]. intros a b E. rewrite <- (repeat_length 97 a), E. apply repeat_length.
        - intros x I. apply in_map_iff in I. destruct I as (i & <- & I). apply in_seq in I. apply in_distinct. right. exists (repeat 97%N k), 0%N. split; [left; reflexivity|].
          exists (repeat 97%N (k - i)). rewrite <- repeat_app. f_equal. lia. }
      rewrite map_length, seq_length in Le. lia.
  - assert (Z : exists k, N.of_nat k = largest dev) by (exists (N.to_nat (largest dev)); apply N2Nat.id). destruct Z as (k & Hk).
    exists (repeat (L [], 0) k). split.
    + intros y I. apply in_app_or in I. destruct I as [I|[<-|[]]]; [apply repeat_spec in I; subst y|]; reflexivity.
    + set (huge := Grey true false true true (2 ^ 64 - 1) 5 (2 ^ 64 - 1) 0 0 0).
      assert (Ns : n_short huge (repeat (L [], 0) k) = N.of_nat k).
      { clear Hk. unfold n_short. f_equal. induction k as [|k IH]; [reflexivity|]. cbn [repeat filter]. change (short huge (L [], 0)) with true. cbn [List.length]. f_equal. exact IH. }
      assert (Dp : forall n, (n <= 1)%nat -> N.of_nat n <= 8000) by (intros n Ln; lia).
      assert (One : forall hh, (forall b r, In (b, r) hh -> b = []) -> (List.length (distinct_prefixes hh) <= 1)%nat).
      { intros hh Hh. change 1%nat with (List.length [@nil N]). apply NoDup_incl_length; [apply NoDup_nodup|]. intros q I. apply in_distinct in I. destruct I as [->|(b & r & I & [t T])]; [left; reflexivity|].
        rewrite (Hh _ _ I) in T. symmetry in T. apply app_eq_nil in T. destruct T as [-> _]. left; reflexivity. }
      unfold stops. split; [|split; [reflexivity|left; split; [reflexivity|split; [reflexivity|rewrite Ns; exact Hk]]]].
      unfold gone. intros [X|[X|[[_ X]|[X|X]]]]; [discriminate X|vm_compute in X; discriminate X|apply X; reflexivity|..];
        (apply N.lt_nge in X; apply X, Dp, One; intros b r I; unfold short_sensitive, short_caseless in I; apply in_map_iff in I; destruct I as (y & E & I);
         apply filter_In in I; destruct I as [I _]; apply repeat_spec in I; subst y; injection E as <- _; reflexivity).
Qed.

(** ** C42 *)
Lemma lit_matches_length : forall s nc m, lit_matches s nc m -> List.length s = List.length m.
Proof.
  induction s as [|c s IH]; intros [|n nc] [|x m] H; simpl in *; try contradiction; [reflexivity|].
  f_equal. apply (IH nc). apply H.
Qed.
Theorem C42_no_match_lost : forall p np g h s l r buf, small_write_max_literals g <= largest p -> (forall x, In x h -> lit_wf (fst x)) ->
  smwr_run p (smwr_new np g) h = Ret s -> sw_poisoned s = false ->
  In (l, r) h -> N.of_nat (List.length buf) <= small_write_largest_buffer g -> occurs l buf ->
  let t := if existsb (fun b => b) (lit_nocase l) then sw_trie_nocase s else sw_trie s in
  exists v, reach (lt_inner t) (lt_root t) (lit_s l) v /\ In r (node_reports (lt_inner t) v).
Proof.
  intros p np g h s l r buf G W E Hp I Hb (a & m & b & Eb & M).
  pose proof (limits_run p np g h [] (smwr_new np g) G W (limits_inv_new p np g)) as Inv.
  rewrite E in Inv. cbn [app] in Inv. destruct Inv as [[Ig Ip _ _ Ic] _].
  assert (D : gone_b p np g h = false) by congruence. destruct (Ic D) as (_ & R1 & R2 & (ps1 & C1) & (ps2 & C2)).
  assert (Sx : short g (l, r) = true).
  { unfold short. cbn [fst]. rewrite (lit_matches_length _ _ _ M). rewrite Eb in Hb. rewrite !app_length in Hb. lia. }
  assert (Found : forall t ps hh, lt_root t = 0 -> content (lt_inner t) ps hh -> In (lit_s l, r) hh ->
    exists v, reach (lt_inner t) (lt_root t) (lit_s l) v /\ In r (node_reports (lt_inner t) v)).
  { intros t ps hh Rt C J. pose proof (ct_shape _ _ _ C) as Sh. rewrite Rt.
    assert (P : In (lit_s l) ps).
    { apply (ct_paths _ _ _ C). right. do 2 eexists. split; [exact J|]. exists []. symmetry; apply app_nil_r. }
    apply In_nth_error in P. destruct P as [i P]. pose proof (sh_bound _ _ _ _ Sh P) as Li. exists (N.of_nat i). split.
    - apply (reach_iff _ _ _ 0 [] _ _ C); [apply (sh_root _ _ Sh)|]. rewrite Nat2N.id. exact P.
    - unfold node_reports. rewrite Nat2N.id. destruct (nth_error (nodes (lt_inner t)) i) as [x|] eqn:X; [|apply nth_error_None in X; lia].
      apply (ct_reports _ _ _ C _ _ _ P X). exact J. }
  cbv zeta. change (existsb (fun b => b) (lit_nocase l)) with (has_caseless (l, r)).
  destruct (has_caseless (l, r)) eqn:Hc.
  - apply (Found _ _ _ R2 C2). unfold short_caseless. change (lit_s l, r) with (insertion_of (l, r)). apply in_map.
    apply filter_In. rewrite Sx, Hc. auto.
  - apply (Found _ _ _ R1 C1). unfold short_sensitive. change (lit_s l, r) with (insertion_of (l, r)). apply in_map.
    apply filter_In. rewrite Sx, Hc. auto.
Qed.
Example C42_case : exists s, smwr_run dev (smwr_new 6 grey_default) (sample_literals ++ [(Literal [65; 66] [true; true], 9)]) = Ret s /\
  sw_poisoned s = false /\ occurs (Literal [65; 66] [true; true]) [120; 97; 66; 120] /\
  node_count (lt_inner (sw_trie_nocase s)) = 3.
Proof.
  exists (match smwr_run dev (smwr_new 6 grey_default) (sample_literals ++ [(Literal [65; 66] [true; true], 9)]) with Ret s => s | _ => smwr_new 0 grey_default end).
  conjs; try (vm_compute; reflexivity). exists [120], [97; 66], [120]. split; [reflexivity|]. cbn. unfold byte_matches. auto.
Qed.

Print Assumptions C39_contents. Print Assumptions C39_full.
Print Assumptions C39_again. Print Assumptions C40_tree. Print Assumptions C41_limits. Print Assumptions C41_stops. Print Assumptions C41_runs. Print Assumptions C42_no_match_lost.
