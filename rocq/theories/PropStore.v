(** C73: the builder of a pattern graph is a growing store of classes. *)
From Verif Require Import Base ModelUtil ModelBitField ModelCharReach ModelPetgraph ModelNfa
  SpecSet SpecStore ProofBase ProofBitField ProofGraph.
Local Open Scope N_scope.
Local Open Scope list_scope.

Definition weight (b : nfa_builder) (v : N) : vertex_props := match nth_error (nodes (inner (nb_graph b))) (N.to_nat v) with Some x => x | None => vertex_default end.
Definition size (b : nfa_builder) : nat := List.length (nodes (inner (nb_graph b))).
Definition framed (b b' : nfa_builder) : Prop :=
  nb_expr b' = nb_expr b /\ edges (inner (nb_graph b')) = edges (inner (nb_graph b)) /\ start (nb_graph b') = start (nb_graph b) /\ start_ds (nb_graph b') = start_ds (nb_graph b) /\
  accept (nb_graph b') = accept (nb_graph b) /\ accept_eod (nb_graph b') = accept_eod (nb_graph b).
Lemma framed_trans : forall a b c, framed a b -> framed b c -> framed a c.
Proof. intros a b c (A1 & A2 & A3 & A4 & A5 & A6) (B1 & B2 & B3 & B4 & B5 & B6). unfold framed. conjs; congruence. Qed.
Lemma make_position_step : forall b, N.of_nat (size b) < 2 ^ 32 - 1 -> exists b', make_position b = Ret (b', N.of_nat (size b)) /\ framed b b' /\ size b' = S (size b) /\ forall v, weight b' v = weight b v.
Proof.
  intros [[[ns es] s1 s2 s3 s4] ei] L. unfold make_position, ngh_add_vertex, add_node, node_count, size, weight, framed in *. cbn [nb_graph inner nodes edges nb_expr start start_ds accept accept_eod] in *.
  change IX_END with (2 ^ 32 - 1). replace (N.of_nat (List.length ns) =? 2 ^ 32 - 1) with false by lia. cbn [bind]. eexists. split; [reflexivity|].
  cbn [nb_graph inner nodes edges nb_expr start start_ds accept accept_eod]. split; [repeat split|]. split; [rewrite app_length; cbn; lia|].
  intro v. destruct (Nat.lt_ge_cases (N.to_nat v) (List.length ns)) as [H|H].
  - rewrite nth_error_app1 by exact H. reflexivity.
  - rewrite (proj2 (nth_error_None ns _) H), nth_error_app2 by exact H. destruct (N.to_nat v - List.length ns)%nat as [|[|k]]; reflexivity.
Qed.
Lemma make_position_full : forall b, N.of_nat (size b) = 2 ^ 32 - 1 -> make_position b = Panic PCapacity.
Proof.
  intros b L. unfold make_position, ngh_add_vertex, add_node, node_count. fold (size b). rewrite L. reflexivity.
Qed.
Lemma upd_nth : forall {A} (l : list A) i f j, nth_error (list_upd l i f) j = if (i =? j)%nat then option_map f (nth_error l j) else nth_error l j.
Proof.
  induction l as [|x l IH]; intros [|i] f [|j]; cbn; try reflexivity; [destruct (i =? j)%nat; reflexivity|apply IH].
Qed.
Lemma add_char_reach_step : forall b v k, v < N.of_nat (size b) -> wf k -> (forall u, wf (char_reach (weight b u))) ->
  exists b', add_char_reach b v k = Ret b' /\ framed b b' /\ size b' = size b /\
  forall u, reports (weight b' u) = reports (weight b u) /\ assert_flags (weight b' u) = assert_flags (weight b u) /\ wf (char_reach (weight b' u)) /\
    forall c, byte c -> mem (char_reach (weight b' u)) c = mem (char_reach (weight b u)) c || ((v =? u) && mem k c).
Proof.
  intros b v k L Wk W. destruct b as [[[ns es] s1 s2 s3 s4] ei]. unfold size, weight, framed in *. cbn [nb_graph inner nodes edges nb_expr start start_ds accept accept_eod] in *.
  unfold add_char_reach, ngh_update, node_update, node_weight, node_count. cbn [nb_graph inner nodes edges]. replace (v <? N.of_nat (List.length ns)) with true by lia.
  destruct (nth_error ns (N.to_nat v)) as [x|] eqn:E. 2:{ apply nth_error_None in E. lia. }
  cbn [expect bind]. rewrite ?E. cbn [bind]. eexists. split; [reflexivity|]. cbn [nb_graph inner nodes edges nb_expr start start_ds accept accept_eod].
  assert (Ln : forall (l : list vertex_props) i f, List.length (list_upd l i f) = List.length l) by (induction l as [|y l IH]; intros [|i] f; cbn; congruence).
  split; [repeat split|]. split; [apply Ln|]. intro u. specialize (W u). rewrite upd_nth. destruct (Nat.eqb_spec (N.to_nat v) (N.to_nat u)) as [Q|Q].
  - apply Nnat.N2Nat.inj in Q. subst u. rewrite E in *. cbn [option_map reports assert_flags char_reach]. rewrite N.eqb_refl. cbn [andb]. pose proof (bf_or_ok (char_reach x) k W Wk) as [W' M']. conjs; auto.
  - replace (v =? u) with false by lia. cbn [andb]. conjs; auto. intros. rewrite orb_false_r. reflexivity.
Qed.
Lemma builder_run_ok : forall h b, (forall u, wf (char_reach (weight b u))) -> classes_wf h -> legal (N.of_nat (size b)) h -> N.of_nat (size b + positions h) <= 2 ^ 32 - 1 ->
  exists b', builder_run b h = Ret (b', map N.of_nat (List.seq (size b) (positions h))) /\ framed b b' /\ size b' = (size b + positions h)%nat /\
  forall u, reports (weight b' u) = reports (weight b u) /\ assert_flags (weight b' u) = assert_flags (weight b u) /\ wf (char_reach (weight b' u)) /\
    forall c, byte c -> mem (char_reach (weight b' u)) c = mem (char_reach (weight b u)) c || given h u c.
Proof.
  induction h as [|[|v k] h IH]; intros b W Wh Lg Lc; cbn [builder_run positions legal] in *.
  - exists b. split; [reflexivity|]. split; [repeat split|]. split; [lia|]. intro u. split; [reflexivity|]. split; [reflexivity|]. split; [apply W|]. intros. cbn [given existsb]. rewrite orb_false_r. reflexivity.
  - destruct (make_position_step b) as (b1 & E & F & S & Wt); [lia|]. rewrite E. cbn [bind].
    destruct (IH b1) as (b2 & E2 & F2 & S2 & Wt2); [intro u; rewrite Wt; apply W|intros v k I; apply (Wh v k); right; exact I|rewrite S; replace (N.of_nat (Datatypes.S (size b))) with (N.of_nat (size b) + 1) by lia; exact Lg|lia|].
    rewrite E2. cbn [bind]. exists b2. rewrite S. conjs; [reflexivity|eapply framed_trans; eassumption|lia|]. intro u. specialize (Wt2 u). rewrite Wt in Wt2. exact Wt2.
  - destruct Lg as [Lv Lg]. destruct (add_char_reach_step b v k Lv (Wh v k (or_introl eq_refl)) W) as (b1 & E & F & S & Wt). rewrite E. cbn [bind].
    destruct (IH b1) as (b2 & E2 & F2 & S2 & Wt2); [intro u; apply (Wt u)|intros v' k' I; apply (Wh v' k'); right; exact I|rewrite S; exact Lg|lia|].
    rewrite E2. exists b2. rewrite <- S. conjs; [reflexivity|eapply framed_trans; eassumption|exact S2|]. intro u. destruct (Wt u) as (R1 & A1 & W1 & M1), (Wt2 u) as (R2 & A2 & W2 & M2).
    conjs; [congruence|congruence|exact W2|]. intros c Hc. rewrite M2, M1 by exact Hc. cbn [given existsb]. unfold given. rewrite orb_assoc. reflexivity.
Qed.
Lemma builder_run_app : forall h t b b' vs, builder_run b h = Ret (b', vs) -> builder_run b (h ++ t) = let! (b2, ws) := builder_run b' t in Ret (b2, vs ++ ws).
Proof.
  induction h as [|[|v k] h IH]; intros t b b' vs E; cbn [builder_run app] in *.
  - injection E as <- <-. destruct (builder_run b t) as [[b2 ws]|w|]; reflexivity.
  - destruct (make_position b) as [[b1 v]|w|]; cbn [bind] in *; try discriminate E. destruct (builder_run b1 h) as [[b2 ws]|w|] eqn:E2; cbn [bind] in E; try discriminate E. injection E as <- <-.
    rewrite (IH t _ _ _ E2). destruct (builder_run b2 t) as [[b3 us]|w|]; reflexivity.
  - destruct (add_char_reach b v k) as [b1|w|]; cbn [bind] in *; try discriminate E. apply IH. exact E.
Qed.
Lemma new_weight : forall ei, exists b, make_nfa_builder ei = Ret b /\ nb_expr b = ei /\ size b = 4%nat /\ edges (inner (nb_graph b)) = [(0, 1); (1, 1); (2, 3)] /\
  get_start b = 0 /\ get_start_dot_star b = 1 /\ get_accept b = 2 /\ get_accept_eod b = 3 /\
  forall u, reports (weight b u) = [] /\ assert_flags (weight b u) = 0 /\ wf (char_reach (weight b u)) /\ forall c, byte c -> mem (char_reach (weight b u)) c = (u <? 2).
Proof.
  intro ei. eexists. split; [vm_compute; reflexivity|]. conjs; try reflexivity. intro u.
  assert (A : forall c, byte c -> mem (BF 18446744073709551615 18446744073709551615 18446744073709551615 18446744073709551615) c = true).
  { intros x H. assert (F : forallb (fun i => mem (BF 18446744073709551615 18446744073709551615 18446744073709551615 18446744073709551615) (N.of_nat i)) (List.seq 0 256) = true) by (vm_compute; reflexivity).
    rewrite forallb_forall in F. rewrite <- (Nnat.N2Nat.id x). apply F. unfold byte in H. apply in_seq. lia. }
  assert (D : forall c, mem (BF 0 0 0 0) c = false) by apply mem_default.
  unfold weight. cbn [nb_graph inner nodes].
  destruct (N.to_nat u) as [|[|[|[|k]]]] eqn:Eu; cbn [nth_error reports assert_flags char_reach].
  - replace (u <? 2) with true by lia. conjs; auto. vm_compute. auto.
  - replace (u <? 2) with true by lia. conjs; auto. vm_compute. auto.
  - replace (u <? 2) with false by lia. conjs; auto. vm_compute. auto.
  - replace (u <? 2) with false by lia. conjs; auto. vm_compute. auto.
  - replace (u <? 2) with false by lia. destruct k; cbn; conjs; auto; vm_compute; auto.
Qed.
Lemma index_weight : forall b v, ngh_index (nb_graph b) v = if v <? N.of_nat (size b) then Ret (weight b v) else Panic PExpect.
Proof.
  intros b v. unfold ngh_index, node_weight, node_count. fold (size b). destruct (N.ltb_spec v (N.of_nat (size b))) as [L|L]; [|reflexivity].
  unfold weight, size in *. destruct (nth_error (nodes (inner (nb_graph b))) (N.to_nat v)) eqn:E; [reflexivity|]. apply nth_error_None in E. lia.
Qed.

(** After any requests the store has the four special positions and those made,
    numbered in order; each position has exactly the bytes of the classes given to
    it, the two start positions all; nothing else ever changes. *)
Theorem C73_store : forall ei h, classes_wf h -> legal 4 h -> N.of_nat (4 + positions h) < 2 ^ 32 ->
  exists b0 b, make_nfa_builder ei = Ret b0 /\ builder_run b0 h = Ret (b, map N.of_nat (List.seq 4 (positions h))) /\
  num_vertices b = 4 + N.of_nat (positions h) /\ get_start b = 0 /\ get_start_dot_star b = 1 /\ get_accept b = 2 /\ get_accept_eod b = 3 /\
  nb_expr b = ei /\ edges (inner (nb_graph b)) = [(0, 1); (1, 1); (2, 3)] /\
  (forall v, v < num_vertices b -> exists x, ngh_index (nb_graph b) v = Ret x /\ reports x = [] /\ get_assert_flag b v = Ret 0 /\
     forall c, byte c -> mem (char_reach x) c = (v <? 2) || given h v c) /\
  (forall v, num_vertices b <= v -> ngh_index (nb_graph b) v = Panic PExpect /\ get_assert_flag b v = Panic PExpect).
Proof.
  intros ei h Wh Lg Lc. destruct (new_weight ei) as (b0 & E0 & X0 & S0 & G0 & N1 & N2 & N3 & N4 & W0).
  destruct (builder_run_ok h b0) as (b & E & (F1 & F2 & F3 & F4 & F5 & F6) & S & W); [intro u; apply W0|exact Wh|rewrite S0; exact Lg|rewrite S0; lia|].
  rewrite S0 in *. assert (Nv : num_vertices b = N.of_nat (size b)) by reflexivity.
  exists b0, b. unfold get_start, get_start_dot_star, get_accept, get_accept_eod in *. rewrite F3, F4, F5, F6. conjs; try assumption; try congruence.
  - rewrite Nv, S. lia.
  - intros v Lv. rewrite Nv in Lv. exists (weight b v). destruct (W v) as (R & A & _ & M), (W0 v) as (R0 & A0 & _ & M0). unfold get_assert_flag. rewrite index_weight. replace (v <? N.of_nat (size b)) with true by lia.
    cbn [bind]. conjs; [reflexivity|rewrite R; exact R0|rewrite A, A0; reflexivity|]. intros c Hc. rewrite M, M0 by exact Hc. reflexivity.
  - intros v Lv. rewrite Nv in Lv. unfold get_assert_flag. rewrite index_weight. replace (v <? N.of_nat (size b)) with false by lia. split; reflexivity.
Qed.
(** The first request that cannot be met stops the run. *)
Theorem C73_stops : forall ei h t b0, classes_wf h -> legal 4 h -> N.of_nat (4 + positions h) < 2 ^ 32 -> make_nfa_builder ei = Ret b0 ->
  (forall v k, N.of_nat (4 + positions h) <= v -> builder_run b0 (h ++ Reach v k :: t) = Panic PExpect) /\
  (N.of_nat (4 + positions h) = 2 ^ 32 - 1 -> builder_run b0 (h ++ Position :: t) = Panic PCapacity).
Proof.
  intros ei h t b0 Wh Lg Lc E0'. destruct (new_weight ei) as (b1 & E0 & _ & S0 & _ & _ & _ & _ & _ & W0). rewrite E0' in E0. injection E0 as <-.
  destruct (builder_run_ok h b0) as (b & E & _ & S & _); [intro u; apply W0|exact Wh|rewrite S0; exact Lg|rewrite S0; lia|]. rewrite S0 in *.
  split.
  - intros v k L. rewrite (builder_run_app _ _ _ _ _ E). cbn [builder_run]. unfold add_char_reach, ngh_update, node_weight, node_count. fold (size b). replace (v <? N.of_nat (size b)) with false by lia. reflexivity.
  - intro L. rewrite (builder_run_app _ _ _ _ _ E). cbn [builder_run]. rewrite make_position_full by lia. reflexivity.
Qed.
Definition sample_requests : list builder_op := [Position; Reach 4 (BF 2 0 0 0); Position; Reach 5 (BF 4 0 0 0); Reach 4 (BF 8 0 0 1)].
Example C73_case : classes_wf sample_requests /\ legal 4 sample_requests /\ positions sample_requests = 2%nat /\
  (let! b0 := make_nfa_builder (ExpressionInfo 0 0 false false false false SomNone false) in let! (b, vs) := builder_run b0 sample_requests in let! x := ngh_index (nb_graph b) 4 in
   Ret (vs, num_vertices b, elements (char_reach x))) = Ret ([4; 5], 6, [1; 3; 192]).
Proof.
  split; [intros v k I; repeat (destruct I as [I|I]; [try discriminate I; injection I as <- <-; vm_compute; auto|]); destruct I|]. split; [cbn; lia|]. split; [reflexivity|].
  vm_compute. reflexivity.
Qed.

Print Assumptions C73_store. Print Assumptions C73_stops.
