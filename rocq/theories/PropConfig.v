(** Properties C66 and C67: adding literals and compiling sets under any
    configuration of the grey box. *)
From Verif Require Import Base ModelUtil ModelBitField ModelCharReach ModelLiteral ModelReport ModelPetgraph ModelParser ModelNfa ModelSmallWrite ModelCompiler
  SpecSet SpecGrammar SpecReport SpecTrie SpecTree SpecGraph SpecCompile SpecConfig
  ProofBase ProofLiteral ProofReport ProofGrammar ProofParser ProofTree ProofVerb ProofTrie ProofShortcut ProofGraph ProofCompile ProofRun ProofConfig
  PropLiteral PropCompile.
Local Open Scope N_scope.
Local Open Scope list_scope.

(** ** C66 *)
Lemma entered_snoc : forall g h q, entered g (h ++ [q]) = if enters g (entered g h) q then entered g h ++ [q] else entered g h.
Proof. intros g h q. unfold entered. rewrite fold_left_app. reflexivity. Qed.
Lemma ask_history : forall p g np cc h before n, cc_grey cc = g -> small_write_max_literals g <= largest p -> hist_inv p g np cc (entered g before) n -> (forall q, In q h -> proper p q) ->
  match ask_all p n h with
  | Ret (n', l) => hist_inv p g np cc (entered g (before ++ h)) n' /\ List.length l = List.length h /\
      (forall i q a, nth_error h i = Some q -> nth_error l i = Some a -> answered g (entered g (before ++ firstn i h)) q a) /\
      (forall i q w, nth_error h i = Some q -> ~ runs_into p np g (entered g (before ++ firstn i h)) q w)
  | Panic w => exists i q, nth_error h i = Some q /\ runs_into p np g (entered g (before ++ firstn i h)) q w /\
      forall j q' w', (j < i)%nat -> nth_error h j = Some q' -> ~ runs_into p np g (entered g (before ++ firstn j h)) q' w'
  | Diverge => False
  end.
Proof.
  intros p g np cc h; induction h as [|q h IH]; intros before n G Ml Inv Pr; cbn [ask_all].
  { rewrite app_nil_r. conjs; [exact Inv|reflexivity|..]; intros [|i] q a E; discriminate E. }
  assert (Pq : proper p q) by (apply Pr; left; reflexivity). assert (Pr' : forall q, In q h -> proper p q) by (intros x Ix; apply Pr; right; exact Ix).
  set (T := entered g before) in *.
  assert (Dec : (enters g T q = true /\ keyed q = true /\ ~ keys_left T) \/ (enters g T q = true -> keyed q = true -> keys_left T)).
  { unfold keys_left. destruct (enters g T q), (keyed q); try (right; intros; congruence). destruct (N.ltb_spec (N.of_nat (List.length (keyed_ids T))) (2 ^ 32)); [right; auto|left; conjs; auto; lia]. }
  destruct Dec as [(D1 & D2 & D3)|D].
  { rewrite (ask_full p g np cc _ n q Inv G Pq D1 D2 D3). cbn [bind]. exists 0%nat, q. cbn [nth_error firstn]. rewrite app_nil_r. conjs; [reflexivity|split; [exact D1|left; auto]|intros; lia]. }
  pose proof (ask_step p g np cc T n q Inv G Ml Pq D) as St.
  assert (Go : forall n1 a, ask p n q = Ret (n1, a) -> answered g T q a -> hist_inv p g np cc (entered g (before ++ [q])) n1 -> (forall w, ~ runs_into p np g T q w) ->
    match (let! (n1, a) := ask p n q in let! (n2, l) := ask_all p n1 h in Ret (n2, a :: l)) with
    | Ret (n', l) => hist_inv p g np cc (entered g (before ++ q :: h)) n' /\ List.length l = List.length (q :: h) /\
        (forall i x a, nth_error (q :: h) i = Some x -> nth_error l i = Some a -> answered g (entered g (before ++ firstn i (q :: h))) x a) /\
        (forall i x w, nth_error (q :: h) i = Some x -> ~ runs_into p np g (entered g (before ++ firstn i (q :: h))) x w)
    | Panic w => exists i x, nth_error (q :: h) i = Some x /\ runs_into p np g (entered g (before ++ firstn i (q :: h))) x w /\
        forall j q' w', (j < i)%nat -> nth_error (q :: h) j = Some q' -> ~ runs_into p np g (entered g (before ++ firstn j (q :: h))) q' w'
    | Diverge => False
    end).
  { intros n1 a Ea An I1 Nr. rewrite Ea. cbn [bind]. specialize (IH (before ++ [q]) n1 G Ml I1 Pr').
    assert (Fx : forall k, before ++ firstn (S k) (q :: h) = (before ++ [q]) ++ firstn k h) by (intro k; rewrite <- app_assoc; reflexivity).
    assert (F0 : entered g (before ++ firstn 0 (q :: h)) = T) by (cbn [firstn]; rewrite app_nil_r; reflexivity).
    destruct (ask_all p n1 h) as [[n2 l]|w|]; cbn [bind]; [| |contradiction].
    - destruct IH as (J1 & J2 & J3 & J4). conjs.
      + rewrite <- app_assoc in J1. exact J1.
      + cbn [List.length]. f_equal. exact J2.
      + intros [|i] x b Ex Eb; [rewrite F0; cbn in Ex, Eb; injection Ex as <-; injection Eb as <-; exact An|]. rewrite Fx. apply J3; assumption.
      + intros [|i] x w Ex; [rewrite F0; cbn in Ex; injection Ex as <-; apply Nr|]. rewrite Fx. apply J4; assumption.
    - destruct IH as (i & x & Ex & Rx & Nx). exists (S i), x. conjs; [exact Ex|rewrite Fx; exact Rx|]. intros [|j] y w' Lj Ey; [rewrite F0; cbn in Ey; injection Ey as <-; apply Nr|]. rewrite Fx. apply Nx; [lia|exact Ey]. }
  pose proof (entered_snoc g before q) as Es. fold T in Es. destruct (enters g T q) eqn:En.
  - destruct St as [(n1 & a & Ea & An & I1 & Nc)|[Co Ea]].
    + apply (Go n1 a Ea An); [rewrite Es; exact I1|]. intros w (_ & [(_ & K & X)|(_ & _ & X)]); [apply X, D; auto|exact (Nc X)].
    + rewrite Ea. cbn [bind]. exists 0%nat, q. cbn [nth_error firstn]. rewrite app_nil_r. fold T. conjs; [reflexivity|split; [exact En|right; auto]|intros; lia].
  - destruct St as (a & Ea & An). apply (Go n a Ea An); [rewrite Es; exact Inv|]. intros w (X & _). congruence.
Qed.
(** No request of the history runs into anything. *)
Theorem C66_answers : forall p cc np sp h, small_write_max_literals (cc_grey cc) <= largest p -> (forall q, In q h -> proper p q) ->
  (forall i q w, nth_error h i = Some q -> ~ runs_into p np (cc_grey cc) (entered (cc_grey cc) (firstn i h)) q w) ->
  exists n l, ask_all p (ng_new cc np sp) h = Ret (n, l) /\ List.length l = List.length h /\
    forall i q a, nth_error h i = Some q -> nth_error l i = Some a -> answered (cc_grey cc) (entered (cc_grey cc) (firstn i h)) q a.
Proof.
  intros p cc np sp h Ml Pr Hn. pose proof (ask_history p (cc_grey cc) np cc h [] (ng_new cc np sp) eq_refl Ml (hist_inv_new p np cc sp) Pr) as R.
  destruct (ask_all p (ng_new cc np sp) h) as [[n l]|w|]; [|destruct R as (i & q & E & X & _); destruct (Hn i q w E X)|contradiction].
  destruct R as (_ & Ll & Al & _). exists n, l. auto.
Qed.
(** Otherwise the history stops at the first one that does. *)
Theorem C66_full : forall p cc np sp h i q w, small_write_max_literals (cc_grey cc) <= largest p -> (forall q, In q h -> proper p q) ->
  nth_error h i = Some q -> runs_into p np (cc_grey cc) (entered (cc_grey cc) (firstn i h)) q w ->
  (forall j q' w', (j < i)%nat -> nth_error h j = Some q' -> ~ runs_into p np (cc_grey cc) (entered (cc_grey cc) (firstn j h)) q' w') ->
  ask_all p (ng_new cc np sp) h = Panic w.
Proof.
  intros p cc np sp h i q w Ml Pr E Rq Fst. pose proof (ask_history p (cc_grey cc) np cc h [] (ng_new cc np sp) eq_refl Ml (hist_inv_new p np cc sp) Pr) as R.
  destruct (ask_all p (ng_new cc np sp) h) as [[n l]|w'|]; [destruct R as (_ & _ & _ & N); destruct (N i q w E Rq)| |contradiction].
  destruct R as (k & x & Ek & Rk & Fk). cbn [app] in *. destruct (Nat.lt_trichotomy i k) as [L|[->|L]]; [destruct (Fk i q w L E Rq)| |destruct (Fst k x w' L Ek Rk)].
  assert (x = q) by congruence. subst x. destruct Rk as (_ & [(-> & K & X)|(-> & K & X)]), Rq as (_ & [(-> & K' & X')|(-> & K' & X')]); try reflexivity; exfalso; auto.
Qed.
(** The engine after a history: what it has of each request is decided by whether the
    request was registered and whether it stayed. *)
Theorem C66_state : forall p cc np sp h n l, small_write_max_literals (cc_grey cc) <= largest p -> (forall q, In q h -> proper p q) ->
  ask_all p (ng_new cc np sp) h = Ret (n, l) ->
  let g := cc_grey cc in
  let T := entered g h in
  ng_cc n = cc /\ ng_boundary n = boundary_default /\ rb_cc (ng_rose n) = cc /\
  (rb_has_som (ng_rose n) = true <-> exists q, In q T /\ lr_som q = SomLeft) /\
  (forall id, assoc N.eqb (external_map (ng_rm n)) id = option_map (fun q => ExtInfo (lr_single q) (lr_index q)) (find (fun q => id =? lr_id q) T)) /\
  (global_exhaust (ng_rm n) = true <-> forall q, In q T -> lr_single q = true) /\
  NoDup (map fst (exhaust_map (ng_rm n))) /\
  (forall id, In id (map fst (exhaust_map (ng_rm n))) <-> exists q, In q T /\ lr_single q = true /\ lr_som q = SomNone /\ lr_id q = id) /\
  report_ids (ng_rm n) = (if limit_report_count g =? 0 then [] else match T with [] => [] | _ => [Report 0] end) /\
  smwr_run p (smwr_new np g) (map (fun q => (lr_lit q, 0)) (filter (stays g) T)) = Ret (ng_smwr n) /\
  (filter (stays g) T = [] -> ng_min_width n = depth_infinity) /\
  (forall q, In q T -> stays g q = true -> depth_val (ng_min_width n) <= lit_length (lr_lit q)) /\
  (filter (stays g) T <> [] -> exists q, In q T /\ stays g q = true /\ depth_val (ng_min_width n) = lit_length (lr_lit q)).
Proof.
  intros p cc np sp h n l Ml Pr E g T. pose proof (ask_history p g np cc h [] (ng_new cc np sp) eq_refl Ml (hist_inv_new p np cc sp) Pr) as R.
  rewrite E in R. destruct R as (I & _). cbn [app] in I. fold T in I. destruct I as [Icc Irose Ib Il Ii Im Ix Ik Ig Is Iw Iv Ia].
  assert (Wd : forall (L : list lit_request) w, (forall q, In q L -> lit_length (lr_lit q) <= MAX_VALUE) ->
    fold_left (fun w q => N.min w (lit_length (lr_lit q))) L w <= w /\ (forall q, In q L -> fold_left (fun w q => N.min w (lit_length (lr_lit q))) L w <= lit_length (lr_lit q)) /\
    (fold_left (fun w q => N.min w (lit_length (lr_lit q))) L w = w \/ exists q, In q L /\ fold_left (fun w q => N.min w (lit_length (lr_lit q))) L w = lit_length (lr_lit q))).
  { induction L as [|q L IH]; intros w B; cbn [fold_left].
    - conjs; auto; [lia|intros q []].
    - destruct (IH (N.min w (lit_length (lr_lit q)))) as (W1 & W2 & W3); [intros x Ix'; apply B; right; exact Ix'|]. conjs; [lia| |].
      + intros x [<-|Ix']; [lia|apply W2; exact Ix'].
      + destruct W3 as [W3|(x & Ix' & W3)]; [|right; exists x; split; [right; exact Ix'|exact W3]]. rewrite W3. destruct (N.leb_spec w (lit_length (lr_lit q))); [left; lia|right; exists q; split; [left; reflexivity|lia]]. }
  assert (Bd : forall q, In q (filter (stays g) T) -> lit_length (lr_lit q) <= MAX_VALUE).
  { intros q I. apply filter_In in I. destruct I as [_ I]. unfold stays in I. apply andb_true_iff in I. change deepest with MAX_VALUE in I. lia. }
  destruct (Wd (filter (stays g) T) INFINITY Bd) as (W1 & W2 & W3). fold (request_width g T) in W1, W2, W3. rewrite <- Iw in W1, W2, W3.
  conjs; auto.
  - rewrite Irose. reflexivity.
  - rewrite Irose. cbn [rb_has_som]. rewrite existsb_exists. split; intros (q & I & S); exists q; (split; [exact I|]).
    + unfold wants_start in S. destruct (lr_som q); [discriminate|reflexivity].
    + unfold wants_start. rewrite S. reflexivity.
  - rewrite Ig. apply forallb_forall.
  - apply Ik.
  - intro id. rewrite (proj2 Ik id), in_map_iff. split.
    + intros (q & Eq & I). apply filter_In in I. destruct I as [I K]. unfold keyed, wants_start in K. apply andb_true_iff in K. destruct K as [K1 K2]. exists q. conjs; auto. destruct (lr_som q); [reflexivity|discriminate K2].
    + intros (q & I & K1 & K2 & Eq). exists q. split; [exact Eq|]. apply filter_In. split; [exact I|]. unfold keyed, wants_start. rewrite K1, K2. reflexivity.
  - rewrite Ii. unfold issued. destruct (limit_report_count g =? 0); [reflexivity|]. destruct T; reflexivity.
  - intro Em. unfold request_width in Iw. rewrite Em in Iw. cbn [fold_left] in Iw. destruct (ng_min_width n) as [v]. cbn [depth_val] in Iw. subst v. reflexivity.
  - intros q I S. apply W2. apply filter_In. auto.
  - intro Ne. destruct W3 as [W3|(q & I & W3)]; [|apply filter_In in I; exists q; tauto]. exfalso. destruct (filter (stays g) T) as [|q r]; [contradiction|].
    pose proof (W2 q (or_introl eq_refl)) as X. pose proof (Bd q (or_introl eq_refl)) as Y. assert (MAX_VALUE < INFINITY) by reflexivity. lia.
Qed.
(** Which debug assertion a request runs into, in any state. *)
Theorem C66_asserts : forall p n q, ask p n q = Panic PDebugAssert <->
  debug_assertions p = true /\
  (lit_s (lr_lit q) = [] \/
   (shortcut_literals (cc_grey (ng_cc n)) = true /\ mixed_case (lr_lit q) = false /\ lr_som q = SomLeft /\ lr_single q = true /\
    forall e, assoc N.eqb (external_map (ng_rm n)) (lr_id q) = Some e -> ei_highlander e = true)).
Proof.
  assert (Sw : forall p s l r, smwr_add_literal p s l r <> Panic PDebugAssert).
  { assert (Fc : forall g c vs, find_child g c vs <> Panic PDebugAssert).
    { intros g c vs. induction vs as [|v vs IH]; cbn [find_child]; [discriminate|]. unfold node_index. destruct (node_weight g v) as [t|]; cbn [bind]; [|discriminate]. destruct (tp_c t =? c); [discriminate|exact IH]. }
    assert (St : forall g u c, trie_step g u c <> Panic PDebugAssert).
    { intros g u c. unfold trie_step. pose proof (Fc g c (neighbors_out g u)) as F. destruct (find_child g c (neighbors_out g u)) as [[v|]|w|]; cbn [bind]; try discriminate; [|congruence].
      unfold add_node. destruct (_ =? _); cbn [bind]; [discriminate|]. unfold add_edge. destruct (_ =? _); cbn [bind]; [discriminate|]. destruct (_ && _); discriminate. }
    assert (Wk : forall es g u, trie_walk_insert g u es <> Panic PDebugAssert).
    { induction es as [|e es IH]; intros g u; cbn [trie_walk_insert]; [discriminate|]. pose proof (St g u (el_c e)) as S. destruct (trie_step g u (el_c e)) as [[g' u']|w|]; cbn [bind]; [apply IH|congruence|discriminate]. }
    assert (Tr : forall l r t, add_to_trie l r t <> Panic PDebugAssert).
    { intros l r t. unfold add_to_trie. pose proof (Wk (lit_iter l) (lt_inner t) (lt_root t)) as S. destruct (trie_walk_insert _ _ _) as [[g u]|w|]; cbn [bind]; [|congruence|discriminate].
      unfold node_update. destruct (node_weight g u); cbn [bind]; discriminate. }
    intros p s l r. unfold smwr_add_literal. destruct (sw_poisoned s); [discriminate|]. destruct (_ <? _); [discriminate|]. assert (Ck : chk_add p (usize_bits p) (sw_num_literals s) 1 <> Panic PDebugAssert) by (unfold chk_add; destruct (_ <? _); [discriminate|]; destruct (overflow_checks p); discriminate).
    destruct (chk_add p (usize_bits p) (sw_num_literals s) 1) as [k|w|]; cbn [bind]; [|congruence|discriminate]. destruct (_ <? _); [discriminate|]. destruct (lit_any_nocase l).
    - match goal with |- context [add_to_trie ?a ?b ?c] => pose proof (Tr a b c) as S; destruct (add_to_trie a b c) as [[t ok]|w|] end; cbn [bind]; [discriminate|congruence|discriminate].
    - match goal with |- context [add_to_trie ?a ?b ?c] => pose proof (Tr a b c) as S; destruct (add_to_trie a b c) as [[t ok]|w|] end; cbn [bind]; [discriminate|congruence|discriminate]. }
  intros p n q. unfold ask, ng_add_literal, rs_debug_assert.
  assert (Em : lit_is_empty (lr_lit q) = true <-> lit_s (lr_lit q) = []) by (unfold lit_is_empty; destruct (lit_s (lr_lit q)); split; congruence).
  rewrite negb_involutive. destruct (debug_assertions p && lit_is_empty (lr_lit q)) eqn:D; cbn [bind].
  { apply andb_true_iff in D. split; [|reflexivity]. intros _. tauto. }
  assert (Nd : debug_assertions p = true -> lit_s (lr_lit q) <> []) by (intros Dp E; apply Em in E; rewrite Dp, E in D; discriminate).
  destruct (shortcut_literals (cc_grey (ng_cc n))); cbn [negb].
  2:{ split; [discriminate|]. intros [Dp [E|(X & _)]]; [destruct (Nd Dp E)|discriminate X]. }
  rewrite mixed_case_ok. destruct (mixed_case (lr_lit q)).
  { split; [discriminate|]. intros [Dp [E|(_ & X & _)]]; [destruct (Nd Dp E)|discriminate X]. }
  assert (Gi : forall rm r, get_internal_id rm r <> Panic PDebugAssert).
  { intros rm r. unfold get_internal_id. destruct (assoc _ _ _); [discriminate|]. destruct (_ <=? _); [discriminate|]. cbv zeta. destruct (_ <? _); discriminate. }
  assert (Rest : forall n2 rid, (match rid : result compile_error N with
      | RErr e => Ret (n2, RErr e)
      | ROk id => let rose' := rose_add (ng_rose n2) false false (lr_lit q) [id] in
         match depth_try_from_usize (lit_len (lr_lit q)) with
         | RErr _ => Ret (n2, RErr (error_new EOther (lit "depth overflow")))
         | ROk d => let! smwr' := smwr_add_literal p (ng_smwr n2) (lr_lit q) id in
                    Ret (Ng (depth_min (ng_min_width n2) d) (ng_rm n2) (ng_boundary n2) (ng_cc n2) smwr' rose', ROk true)
         end
      end) <> Panic PDebugAssert).
  { intros n2 [id|e]; [|discriminate]. cbv zeta. destruct (depth_try_from_usize _); [|discriminate]. pose proof (Sw p (ng_smwr n2) (lr_lit q) id) as S. destruct (smwr_add_literal p (ng_smwr n2) (lr_lit q) id); cbn [bind]; congruence. }
  unfold register_ext_report. cbn [ei_highlander ei_first_index].
  assert (Go : forall rm1, (let! (n2, rid) := literal_report_id p (ng_set_rm n rm1) (lr_lit q) (lr_id q) (lr_single q) (lr_som q) (lr_quiet q) in
      match rid with
      | RErr e => Ret (n2, RErr e)
      | ROk id => let rose' := rose_add (ng_rose n2) false false (lr_lit q) [id] in
         match depth_try_from_usize (lit_len (lr_lit q)) with
         | RErr _ => Ret (n2, RErr (error_new EOther (lit "depth overflow")))
         | ROk d => let! smwr' := smwr_add_literal p (ng_smwr n2) (lr_lit q) id in
                    Ret (Ng (depth_min (ng_min_width n2) d) (ng_rm n2) (ng_boundary n2) (ng_cc n2) smwr' rose', ROk true)
         end
      end) = Panic PDebugAssert <-> debug_assertions p = true /\ lr_som q = SomLeft /\ lr_single q = true).
  { intro rm1. unfold literal_report_id. destruct (lr_som q).
    - split; [|intros (_ & X & _); discriminate X]. intro E. exfalso. revert E.
      assert (K : (if lr_single q then let! (rm2, k) := get_exhaustible_key (ng_rm (ng_set_rm n rm1)) (lr_id q) in Ret (rm2, Some k) else Ret (ng_rm (ng_set_rm n rm1), None)) <> Panic PDebugAssert).
      { destruct (lr_single q); [|discriminate]. unfold get_exhaustible_key. destruct (_ <? _); cbn [bind]; [|discriminate]. destruct (assoc _ _ _); discriminate. }
      destruct (if lr_single q then _ else _) as [[rm2 k]|w|]; cbn [bind]; [|congruence|discriminate]. pose proof (Gi rm2 (make_e_callback (lr_id q) 0 k (lr_quiet q))) as S.
      destruct (get_internal_id rm2 _) as [[rm3 id]|w|]; cbn [bind]; [apply Rest|congruence|discriminate].
    - unfold rs_debug_assert. rewrite negb_involutive. destruct (debug_assertions p && lr_single q) eqn:D2; cbn [bind].
      + apply andb_true_iff in D2. split; [tauto|reflexivity].
      + split; [|intros (X & _ & Y); rewrite X, Y in D2; discriminate]. intro E. exfalso. revert E.
        match goal with |- context [get_internal_id ?a ?b] => pose proof (Gi a b) as S; destruct (get_internal_id a b) as [[rm3 id]|w|] end; cbn [bind]; [apply Rest|congruence|discriminate]. }
  destruct (assoc N.eqb (external_map (ng_rm n)) (lr_id q)) as [e|] eqn:A.
  - destruct (Bool.eqb (ei_highlander e) (lr_single q)) eqn:B; cbn [negb].
    + rewrite Go. apply eqb_prop in B. split.
      * intros (Dp & S & H). split; [exact Dp|]. right. conjs; auto. intros e' [= <-]. congruence.
      * intros (Dp & [E|(_ & _ & S & H & _)]); [destruct (Nd Dp E)|auto].
    + apply eqb_false_iff in B. split; [discriminate|]. intros (Dp & [E|(_ & _ & S & H & X)]); [destruct (Nd Dp E)|]. exfalso. apply B. rewrite H. apply X. reflexivity.
  - rewrite Go. split.
    + intros (Dp & S & H). split; [exact Dp|]. right. conjs; auto. discriminate.
    + intros (Dp & [E|(_ & _ & S & H & _)]); [destruct (Nd Dp E)|auto].
Qed.
(** A history with a registered start-of-match literal, a mixed-case one, a clash, one
    taken twice, under a configuration with a small-write buffer of one byte. *)
Definition case_requests : list lit_request :=
  [LitRequest (Literal (lit "ab") [false; false]) 0 7 false SomLeft false;
   LitRequest (Literal (lit "aB") [false; true]) 1 7 true SomNone false;
   LitRequest (Literal (lit "c") [false]) 2 7 true SomNone false;
   LitRequest (Literal (lit "c") [false]) 3 8 true SomNone true].
Definition case_grey (reports : N) : grey := Grey true true true true 1 10 10 5 20 reports.
Example C66_case : (forall q, In q case_requests -> proper dev q) /\ (forall p, usize_limits p (case_grey 3)) /\
  (exists n e, ask_all dev (ng_new (CompileContext false false (case_grey 3)) 4 0) case_requests = Ret (n, [ROk true; ROk false; RErr e; ROk true]) /\
     rb_has_som (ng_rose n) = true /\ depth_val (ng_min_width n) = 1 /\ err_index e = Some 2) /\
  (exists n, ask_all dev (ng_new (CompileContext false false (case_grey 0)) 4 0) [hd (LitRequest lit_default 0 0 false SomNone false) case_requests] =
     Ret (n, [RErr (CompileError EResourceLimit (lit "Resource limit exceeded.") None)]) /\ rb_has_som (ng_rose n) = true) /\
  ask dev (ng_new (CompileContext false false (case_grey 3)) 4 0) (LitRequest (Literal (lit "c") [false]) 3 8 true SomLeft true) = Panic PDebugAssert.
Proof.
  split; [|split; [|split; [|split]]].
  - intros q [<-|[<-|[<-|[<-|[]]]]]; (split; [reflexivity|]); intros _; (split; [discriminate|]); cbn; intros [X Y]; discriminate.
  - intros [o d []]; unfold usize_limits, largest; cbn; lia.
  - eexists _, _. split; [vm_compute; reflexivity|]. split; [reflexivity|]. split; reflexivity.
  - eexists. split; [vm_compute; reflexivity|reflexivity].
  - vm_compute. reflexivity.
Qed.
Lemma entered_length : forall g h, (List.length (entered g h) <= List.length h)%nat.
Proof.
  intros g h. induction h as [|q h IH] using rev_ind; [cbn; lia|]. rewrite entered_snoc, app_length. destruct (enters g (entered g h) q); [rewrite app_length|]; cbn [List.length]; lia.
Qed.
(** A history that takes a key for each of the first [2 ^ 32] ids, and then asks again. *)
Definition key_request (id : N) : lit_request := LitRequest (Literal (lit "c") [false]) 0 id true SomNone false.
Lemma all_enter : forall g ids, shortcut_literals g = true -> entered g (map key_request ids) = map key_request ids.
Proof.
  intros g ids S. induction ids as [|x ids IH] using rev_ind; [reflexivity|]. rewrite map_app. cbn [map]. rewrite entered_snoc, IH. replace (enters g (map key_request ids) (key_request x)) with true; [reflexivity|].
  symmetry. apply enters_inv. conjs; [exact S|reflexivity|]. intros t I _. apply in_map_iff in I. destruct I as (y & <- & _). reflexivity.
Qed.
Lemma all_keyed : forall ids, NoDup ids -> List.length (keyed_ids (map key_request ids)) = List.length ids.
Proof.
  intros ids Nd. unfold keyed_ids. replace (filter keyed (map key_request ids)) with (map key_request ids).
  - rewrite map_map. cbn [key_request lr_id]. rewrite map_id, nodup_fixed_point by exact Nd. reflexivity.
  - clear Nd. induction ids as [|x ids IH]; [reflexivity|]. cbn [map filter]. change (keyed (key_request x)) with true. cbv iota. rewrite <- IH. reflexivity.
Qed.
Example C66_full_case : exists h i q, (forall q, In q h -> proper dev q) /\ nth_error h i = Some q /\ enters (case_grey 3) (entered (case_grey 3) (firstn i h)) q = true /\ keyed q = true /\
  ~ keys_left (entered (case_grey 3) (firstn i h)) /\ (forall q, In q h -> lr_id q < 2 ^ 32) /\ ask_all dev (ng_new (CompileContext false false (case_grey 3)) 4 0) h = Panic PExpect.
Proof.
  assert (Main : forall n : nat, N.of_nat n = 2 ^ 32 -> exists h i q, (forall q, In q h -> proper dev q) /\ nth_error h i = Some q /\ enters (case_grey 3) (entered (case_grey 3) (firstn i h)) q = true /\ keyed q = true /\
    ~ keys_left (entered (case_grey 3) (firstn i h)) /\ (forall q, In q h -> lr_id q < 2 ^ 32) /\ ask_all dev (ng_new (CompileContext false false (case_grey 3)) 4 0) h = Panic PExpect).
  { intros n Hn. pose (ids := map N.of_nat (List.seq 0 n)). pose (h := map key_request (ids ++ [0])). assert (Li : List.length ids = n) by (unfold ids; rewrite map_length, seq_length; reflexivity).
    assert (Fi : firstn n h = map key_request ids) by (unfold h; rewrite map_app, firstn_app, map_length, Li, Nat.sub_diag, firstn_all2 by (rewrite map_length; lia); cbn [firstn]; apply app_nil_r).
    assert (Nd : NoDup ids).
    { unfold ids. apply FinFun.Injective_map_NoDup; [intros a b E; lia|apply seq_NoDup]. }
    assert (Pr : forall q, In q h -> proper dev q).
    { intros q I. unfold h in I. apply in_map_iff in I. destruct I as (x & <- & _). split; [reflexivity|]. intros _. split; [discriminate|]. intros [X _]. discriminate X. }
    assert (En : enters (case_grey 3) (entered (case_grey 3) (firstn n h)) (key_request 0) = true).
    { rewrite Fi, all_enter by reflexivity. apply enters_inv. conjs; [reflexivity|reflexivity|]. intros t I _. apply in_map_iff in I. destruct I as (y & <- & _). reflexivity. }
    assert (At : nth_error h n = Some (key_request 0)) by (unfold h; rewrite map_app, nth_error_app2; rewrite map_length, Li; [rewrite Nat.sub_diag; reflexivity|lia]).
    assert (Fu : ~ keys_left (entered (case_grey 3) (firstn n h))) by (rewrite Fi, all_enter by reflexivity; unfold keys_left; rewrite all_keyed by exact Nd; lia).
    exists h, n, (key_request 0). conjs; auto.
    - intros q I. unfold h in I. apply in_map_iff in I. destruct I as (x & <- & I). cbn [key_request lr_id]. apply in_app_or in I. destruct I as [I|[<-|[]]]; [|lia]. unfold ids in I. apply in_map_iff in I. destruct I as (k & <- & I). apply in_seq in I. lia.
    - apply (C66_full dev (CompileContext false false (case_grey 3)) 4 0 h n (key_request 0)); auto; [vm_compute; discriminate|split; [exact En|left; auto]|].
      intros j q' w' Lj _ (_ & [(_ & _ & X)|(_ & _ & (_ & X))]).
      + apply X. unfold keys_left. pose proof (keyed_ids_length (entered (case_grey 3) (firstn j h))). pose proof (entered_length (case_grey 3) (firstn j h)). pose proof (firstn_le_length j h). cbn [cc_grey] in *. lia.
      + destruct X as (_ & _ & [(_ & _ & X)|(X & _)]); [|discriminate X]. cbn [cc_grey] in X. pose proof (n_short_taken (case_grey 3) (entered (case_grey 3) (firstn j h))) as Y. pose proof (entered_length (case_grey 3) (firstn j h)) as Z.
        pose proof (firstn_le_length j h). change (largest dev) with 18446744073709551615 in X. lia. }
  exact (Main (N.to_nat (2 ^ 32)) (N2Nat.id _)).
Qed.

(** A history of [2 ^ 64 - 1] short literals under a configuration that allows as many, and one more. *)
Definition count_grey : grey := Grey true true true true 1 10 (2 ^ 64 - 1) 5 20 3.
Definition plain_request : lit_request := LitRequest (Literal (lit "c") [false]) 0 7 false SomNone false.
Example C66_counted_case : exists h i q, (forall q, In q h -> proper dev q) /\ nth_error h i = Some q /\ runs_into dev 4 count_grey (entered count_grey (firstn i h)) q POverflow /\
  ask_all dev (ng_new (CompileContext false false count_grey) 4 0) h = Panic POverflow.
Proof.
  assert (Main : forall n : nat, N.of_nat n = 2 ^ 64 - 1 -> exists h i q, (forall q, In q h -> proper dev q) /\ nth_error h i = Some q /\ runs_into dev 4 count_grey (entered count_grey (firstn i h)) q POverflow /\
    ask_all dev (ng_new (CompileContext false false count_grey) 4 0) h = Panic POverflow).
  { intros n Hn. pose (h := repeat plain_request (S n)).
    assert (En : forall k, enters count_grey (repeat plain_request k) plain_request = true).
    { intro k. apply enters_inv. conjs; [reflexivity|reflexivity|]. intros t I _. apply repeat_spec in I. subst t. reflexivity. }
    assert (Ent : forall k, entered count_grey (repeat plain_request k) = repeat plain_request k).
    { induction k as [|k IH]; [reflexivity|]. cbn [repeat]. rewrite repeat_cons, entered_snoc, IH, En. reflexivity. }
    assert (Fi : forall k, (k <= S n)%nat -> firstn k h = repeat plain_request k).
    { unfold h. generalize (S n) as N. intros N k; revert N. induction k as [|k IH]; intros [|N] Le; try reflexivity; [lia|]. cbn [repeat firstn]. f_equal. apply IH. lia. }
    assert (Ta : forall k, taken_inputs count_grey (repeat plain_request k) = repeat (Literal (lit "c") [false], 0) k).
    { unfold taken_inputs. induction k as [|k IH]; [reflexivity|]. cbn [repeat filter]. change (stays count_grey plain_request) with true. cbn [map]. rewrite IH. reflexivity. }
    assert (Ns : forall k, n_short count_grey (repeat (Literal (lit "c") [false], 0) k) = N.of_nat k).
    { intro k. unfold n_short. f_equal. induction k as [|k IH]; [reflexivity|]. cbn [repeat filter]. change (short count_grey (Literal (lit "c") [false], 0)) with true. cbn [List.length]. f_equal. exact IH. }
    assert (Ng : forall k, ~ gone dev 4 count_grey (repeat (Literal (lit "c") [false], 0) k)).
    { intros k [X|[X|[[_ X]|X]]]; [discriminate X|vm_compute in X; discriminate X|apply X; reflexivity|].
      assert (Two : forall hh, (forall b r, In (b, r) hh -> b = lit "c") -> (List.length (distinct_prefixes hh) <= 2)%nat).
      { intros hh Hh. change 2%nat with (List.length [[]; lit "c"]). apply NoDup_incl_length; [apply NoDup_nodup|]. intros q I. apply in_distinct in I. destruct I as [->|(b & r & I & [t T])]; [left; reflexivity|].
        rewrite (Hh _ _ I) in T. destruct q as [|c q]; [left; reflexivity|]. injection T as <- T. symmetry in T. apply app_eq_nil in T. destruct T as [-> _]. right; left; reflexivity. }
      assert (Lt : forall m, (m <= 2)%nat -> 8000 < N.of_nat m -> False) by (intros; lia).
      destruct X as [X|X]; (eapply Lt; [|exact X]; apply Two; intros b r I; unfold short_sensitive, short_caseless in I; apply in_map_iff in I; destruct I as (y & E & I);
        apply filter_In in I; destruct I as [I _]; apply repeat_spec in I; subst y; injection E as <- _; reflexivity). }
    assert (Pr : forall q, In q h -> proper dev q).
    { intros q I. apply repeat_spec in I. subst q. split; [reflexivity|]. intros _. split; [discriminate|]. intros [X _]. discriminate X. }
    assert (At : nth_error h n = Some plain_request).
    { unfold h. rewrite (nth_error_nth' _ plain_request) by (rewrite repeat_length; lia). f_equal. apply (repeat_spec (S n)). apply nth_In. rewrite repeat_length. lia. }
    assert (Ru : runs_into dev 4 count_grey (entered count_grey (firstn n h)) plain_request POverflow).
    { rewrite Fi by lia. rewrite Ent. split; [apply En|]. right. conjs; [reflexivity|discriminate|]. split; [reflexivity|]. rewrite Ta. split; [apply Ng|]. split; [reflexivity|]. left. conjs; [reflexivity|reflexivity|]. rewrite Ns. exact Hn. }
    exists h, n, plain_request. conjs; auto.
    apply (C66_full dev (CompileContext false false count_grey) 4 0 h n plain_request POverflow); auto; [vm_compute; discriminate|].
    intros j q' w' Lj Ej (_ & [(_ & K & _)|(_ & _ & (_ & _ & _ & [(_ & _ & X)|(X & _)]))]).
    - apply nth_error_In in Ej. apply repeat_spec in Ej. subst q'. discriminate K.
    - cbn [cc_grey] in X. rewrite Fi, Ent, Ta, Ns in X by lia. change (largest dev) with 18446744073709551615 in X. lia.
    - discriminate X. }
  exact (Main (N.to_nat (2 ^ 64 - 1)) (N2Nat.id _)).
Qed.

(** ** C67 *)
Lemma item_at_nth : forall es fs ids i it, item_at es fs ids i it <-> nth_error (items_of es fs ids) i = Some it.
Proof.
  induction es as [|e es IH]; intros fs ids i it; [cbn; split; [intros (X & _); destruct i; discriminate X|destruct i; discriminate]|].
  destruct fs as [|f fs]; [cbn; split; [intros (_ & X & _); destruct i; discriminate X|destruct i; discriminate]|].
  destruct ids as [|d ids]; [cbn; split; [intros (_ & _ & X); destruct i; discriminate X|destruct i; discriminate]|].
  destruct i as [|i]; cbn [items_of nth_error].
  - split; [intros ([= ->] & [= ->] & [= ->]); destruct it; reflexivity|]. intros [= <-]. repeat split.
  - rewrite <- IH. reflexivity.
Qed.
Theorem C67_accepts_iff : forall p g es fs ids m, usize_limits p g ->
  ((exists db, compile_multi_int p es fs ids m g = Ret (ROk db)) <->
   es <> [] /\ N.of_nat (List.length es) <= limit_pattern_count g /\
   (forall i it, item_at es fs ids i it -> acceptable_upto (limit_pattern_length g) p it) /\
   (forall i it, item_at es fs ids i it -> in_range g it) /\
   (allow_literal g = true -> shortcut_literals g = true ->
      (forall i it, item_at es fs ids i it -> literal_item it -> limit_report_count g <> 0) /\
      (forall i j a b, item_at es fs ids i a -> item_at es fs ids j b -> ~ conflict a b)) /\
   (allow_literal g = true -> forall i it, item_at es fs ids i it -> literal_item it -> N.of_nat i < 2 ^ 32)).
Proof.
  intros p g es fs ids m Sn. destruct es as [|e0 es0] eqn:Ees; [split; [intros (db & E); discriminate E|intros (X & _); destruct (X eq_refl)]|]. rewrite <- Ees in *.
  destruct (N.leb_spec (N.of_nat (List.length es)) (limit_pattern_count g)) as [Lc|Lc].
  2:{ split; [|intros (_ & X & _); lia]. intros (db & E). unfold compile_multi_int in E. rewrite Ees in E. cbv zeta in E. rewrite <- Ees in E. replace (limit_pattern_count g <? N.of_nat (List.length es)) with true in E by lia. discriminate E. }
  assert (Ne : es <> []) by (rewrite Ees; discriminate).
  destruct (compile_cfg p g es fs ids m Ne Lc Sn) as (o & R & E). rewrite E.
  assert (Eq : (exists db, finish m o = Ret (ROk db)) <-> exists T, o = Ret (ROk T)).
  { split; [intros (db & X); destruct o as [[T|?]|?|]; try discriminate X; eauto|intros (T & ->); eexists; reflexivity]. }
  rewrite Eq, (run_accepts _ _ _ _ _ _ R).
  assert (Ac : (forall it, In it (items_of es fs ids) -> fine p g it) <->
    (forall i it, item_at es fs ids i it -> acceptable_upto (limit_pattern_length g) p it) /\ (forall i it, item_at es fs ids i it -> in_range g it)).
  { split; [intros H; split; intros i it A; apply H; eapply nth_error_In; apply item_at_nth; exact A|]. intros [H H'] it I. apply In_nth_error in I. destruct I as (i & I). apply item_at_nth in I. split; [apply (H i)|apply (H' i)]; exact I. }
  rewrite Ac. split; intros H.
  - destruct H as ((H1 & H1') & H2 & H5). conjs; auto. 2:{ intros Al i it A Lt. apply item_at_nth in A. specialize (H5 Al i it A Lt). lia. } intros Al Sl. destruct H2 as [H2 H3]; [unfold shortcuts; rewrite Al, Sl; reflexivity|]. split.
    + intros i it A Lt. apply (H2 it); [eapply nth_error_In; apply item_at_nth; exact A|exact Lt].
    + assert (Fo : forall l, ForallOrdPairs agreeing l -> forall i j a b, nth_error l i = Some a -> nth_error l j = Some b -> (i < j)%nat -> agreeing a b).
      { intros l F. induction F as [|x l Fa F IH]; intros i j a b Ea Eb Lt; [destruct i; discriminate Ea|]. destruct j as [|j]; [lia|]. destruct i as [|i]; cbn [nth_error] in *.
        - injection Ea as <-. rewrite Forall_forall in Fa. apply Fa. eapply nth_error_In. exact Eb.
        - apply (IH i j a b Ea Eb). lia. }
      intros i j a b A B (La & Lb & Id & Sm). apply item_at_nth in A, B. destruct (Nat.lt_trichotomy i j) as [Lt|[->|Lt]].
      * apply Sm. apply (Fo _ H3 i j a b A B Lt La Lb Id).
      * rewrite A in B. injection B as ->. congruence.
      * apply Sm. symmetry. apply (Fo _ H3 j i b a B A Lt Lb La). congruence.
  - destruct H as (_ & _ & H1 & H1' & H2 & H5). conjs; [split; assumption| |intros Al i it A Lt; apply item_at_nth in A; specialize (H5 Al i it A Lt); lia]. intro Sh. unfold shortcuts in Sh. apply andb_true_iff in Sh. destruct Sh as [Al Sl]. destruct (H2 Al Sl) as [H3 H4]. split.
    + intros it I Lt. apply In_nth_error in I. destruct I as (i & I). split; [apply (H3 i it); [apply item_at_nth; exact I|exact Lt]|intros t []].
    + assert (Fo : forall l, (forall i j a b, nth_error l i = Some a -> nth_error l j = Some b -> agreeing a b) -> ForallOrdPairs agreeing l).
      { induction l as [|x l IH]; intro Ag; constructor.
        - apply Forall_forall. intros y I. apply In_nth_error in I. destruct I as (j & I). apply (Ag 0%nat (S j)); [reflexivity|exact I].
        - apply IH. intros i j a b A B. apply (Ag (S i) (S j)); assumption. }
      apply Fo. intros i j a b A B La Lb Id. apply item_at_nth in A, B. destruct (Bool.bool_dec (single_match a) (single_match b)) as [X|X]; [exact X|]. exfalso. apply (H4 i j a b A B). repeat split; assumption.
Qed.
(** Of the whole configuration a call depends on five things only. *)
Theorem C67_depends : forall p g g' es fs ids m, usize_limits p g -> usize_limits p g' -> N.of_nat (List.length es) <= 2 ^ 32 \/ allow_literal g = allow_literal g' ->
  allow_literal g && shortcut_literals g = allow_literal g' && shortcut_literals g' ->
  limit_pattern_count g = limit_pattern_count g' -> limit_pattern_length g = limit_pattern_length g' -> (limit_report_count g = 0 <-> limit_report_count g' = 0) ->
  compile_multi_int p es fs ids m g = compile_multi_int p es fs ids m g'.
Proof.
  intros p g g' es fs ids m Sn Sn' Hn Sh Lc Ll Lr. destruct es as [|e0 es0] eqn:Ees; [reflexivity|]. rewrite <- Ees in *. assert (Ne : es <> []) by (rewrite Ees; discriminate).
  destruct (N.leb_spec (N.of_nat (List.length es)) (limit_pattern_count g)) as [L|L].
  2:{ unfold compile_multi_int. rewrite Ees. cbv zeta. rewrite <- Ees. replace (limit_pattern_count g <? N.of_nat (List.length es)) with true by lia. replace (limit_pattern_count g' <? N.of_nat (List.length es)) with true by lia. reflexivity. }
  destruct (compile_cfg p g es fs ids m Ne L Sn) as (o & R & E). destruct (compile_cfg p g' es fs ids m Ne) as (o' & R' & E'); [lia|exact Sn'|].
  rewrite E, E'. f_equal. eapply run_cfg_fun; [|exact R']. eapply run_alike; [| |exact R]; [split; [exact Sh|split; [exact Ll|exact Lr]]|].
  pose proof (items_of_length es fs ids) as Li. destruct Hn as [Hn|Hn]; [left; lia|right; exact Hn].
Qed.
(** The database does not depend on the configuration at all. *)
Theorem C67_database : forall p g es fs ids m db, usize_limits p g -> compile_multi_int p es fs ids m g = Ret (ROk db) ->
  db = Database (RoseEngine FullRose (scan_mode m)).
Proof.
  intros p g es fs ids m db Sn E. destruct es as [|e0 es0] eqn:Ees; [discriminate E|]. rewrite <- Ees in *. assert (Ne : es <> []) by (rewrite Ees; discriminate).
  destruct (N.leb_spec (N.of_nat (List.length es)) (limit_pattern_count g)) as [L|L].
  - destruct (compile_cfg p g es fs ids m Ne L Sn) as (o & R & E'). rewrite E in E'. destruct o as [[T|?]|?|]; cbn [finish] in E'; try discriminate E'. unfold made in E'. congruence.
  - unfold compile_multi_int in E. rewrite Ees in E. cbv zeta in E. rewrite <- Ees in E. replace (limit_pattern_count g <? N.of_nat (List.length es)) with true in E by lia. discriminate E.
Qed.
(** With literals not taken by themselves, match ids play no part. *)
Theorem C67_without_shortcuts : forall p g es fs ids ids' m, usize_limits p g ->
  allow_literal g = false \/ shortcut_literals g = false -> List.length ids = List.length ids' ->
  compile_multi_int p es fs ids m g = compile_multi_int p es fs ids' m g.
Proof.
  intros p g es fs ids ids' m Sn Off Li. destruct es as [|e0 es0] eqn:Ees; [reflexivity|]. rewrite <- Ees in *. assert (Ne : es <> []) by (rewrite Ees; discriminate).
  destruct (N.leb_spec (N.of_nat (List.length es)) (limit_pattern_count g)) as [L|L].
  2:{ unfold compile_multi_int. rewrite Ees. cbv zeta. rewrite <- Ees. replace (limit_pattern_count g <? N.of_nat (List.length es)) with true by lia. reflexivity. }
  destruct (compile_cfg p g es fs ids m Ne L Sn) as (o & R & E). destruct (compile_cfg p g es fs ids' m Ne L Sn) as (o' & R' & E').
  assert (Sh : shortcuts g = false) by (unfold shortcuts; destruct Off as [->| ->]; [reflexivity|apply andb_false_r]).
  assert (U : Forall2 unnamed (items_of es fs ids) (items_of es fs ids')).
  { clear -Li. revert fs ids ids' Li. induction es as [|e es IH]; intros fs ids ids' Li; [constructor|]. destruct fs as [|f fs]; [constructor|]. destruct ids as [|d ids], ids' as [|d' ids']; try discriminate Li; [constructor|].
    cbn [items_of]. constructor; [split; reflexivity|]. apply IH. injection Li as Li. exact Li. }
  destruct (unnamed_run _ _ _ _ _ _ Sh R [] _ U) as (o2 & R2 & F). rewrite E, E', <- F. f_equal. eapply run_cfg_fun; eassumption.
Qed.
(** What a pattern out of range comes to: one too deep for the dictionary is an error,
    one too big for a graph a panic. *)
Theorem C67_out_of_range : forall p g e f id m body, usize_limits p g -> 1 <= limit_pattern_count g ->
  acceptable_upto (limit_pattern_length g) p (Item e f id) -> body_of e body ->
  (shortcuts g = true /\ literal_text body -> limit_report_count g <> 0 -> 2 ^ 31 - 2 < N.of_nat (List.length (lit_text body)) ->
     compile_multi_int p [e] [f] [id] m g = Ret (RErr (CompileError EOther (lit "depth overflow") (Some 0)))) /\
  (~ (shortcuts g = true /\ literal_text body) -> 2 ^ 32 - 1 < 4 + N.of_nat (List.length (plain_text body)) ->
     compile_multi_int p [e] [f] [id] m g = Panic PCapacity).
Proof.
  intros p g e f id m body Sn Lc Ac B. destruct (compile_cfg p g [e] [f] [id] m) as (o & R & E); [discriminate|cbn [List.length]; lia|exact Sn|].
  rewrite E. cbn [items_of] in R. split.
  - intros [Sh Li] Z D. assert (R' : run_cfg p g [] 0 [Item e f id] (Ret (RErr (at_index 0 (CompileError EOther (lit "depth overflow") None))))).
    { apply rc_err; [|lia|left; reflexivity]. apply (jc_fails p g [] 0 (Item e f id) body); auto; [lia|]. apply an_deep; [|exact Z|].
      - apply enters_inv. unfold shortcuts in Sh. apply andb_true_iff in Sh. conjs; [apply Sh| |intros t []]. unfold request_of. cbn [lr_lit]. rewrite <- mixed_case_ok. apply text_literal_not_mixed.
      - unfold request_of, lit_length, text_literal. cbn [lr_lit lit_s]. rewrite map_length. exact D. }
    rewrite (run_cfg_fun _ _ _ _ _ _ R _ R'). reflexivity.
  - intros Nl D. assert (R' : run_cfg p g [] 0 [Item e f id] (Panic PCapacity)).
    { apply rc_panic. apply (jc_big p g [] 0 (Item e f id) body); auto; [|unfold graph_fits; lia]. intros Al Li. split; [|lia]. unfold shortcuts in Nl. rewrite Al in Nl. destruct (shortcut_literals g); [destruct Nl; auto|reflexivity]. }
    rewrite (run_cfg_fun _ _ _ _ _ _ R _ R'). reflexivity.
Qed.
Example C67_case : (forall p, usize_limits p grey_default) /\ (forall p, usize_limits p (Grey false true true false 3 4 5 2 6 7)) /\
  (exists db, compile_multi_int release [lit "ab"; lit "a(b)c"] [0; 8] [3; 3] Block (Grey false true true false 3 4 5 2 6 7) = Ret (ROk db)) /\
  (exists e, compile_multi_int release [lit "ab"; lit "a(b)c"] [0; 8] [3; 3] Block grey_default = Ret (RErr e) /\ err_index e = Some 1) /\
  (exists e, compile_multi_int release [lit "ab"; lit "a(b)cdef"] [0; 8] [3; 3] Block (Grey false true true false 3 4 5 2 6 7) = Ret (RErr e) /\ err_index e = Some 1) /\
  (exists e, compile_multi_int release [lit "ab"] [0] [3] Block (Grey true true true false 3 4 5 2 6 0) = Ret (RErr e) /\ err_kind e = EResourceLimit) /\
  (exists db, compile_multi_int release [lit "a|b"] [0] [3] Block (Grey true true true false 3 4 5 2 6 0) = Ret (ROk db)).
Proof.
  split; [intros [o d []]; unfold usize_limits, largest; cbn; lia|]. split; [intros [o d []]; unfold usize_limits, largest; cbn; lia|]. split; [eexists; vm_compute; reflexivity|]. split; [eexists; split; [vm_compute; reflexivity|reflexivity]|].
  split; [eexists; split; [vm_compute; reflexivity|reflexivity]|]. split; [eexists; split; [vm_compute; reflexivity|reflexivity]|]. eexists; vm_compute; reflexivity.
Qed.
(** A set so long that the last index does not fit 32 bits: fine for patterns that are
    not literals, not for literals. *)
Definition long_grey : grey := Grey true true false false 3 4 5 8589934592 6 7.
Example C67_long_case : usize_limits release long_grey /\ exists n : nat, N.of_nat n = 2 ^ 32 + 1 /\
  (exists db, compile_multi_int release (repeat (lit "|") n) (repeat 0 n) (repeat 3 n) Block long_grey = Ret (ROk db)) /\
  ~ (exists db, compile_multi_int release (repeat (lit "a") n) (repeat 0 n) (repeat 3 n) Block long_grey = Ret (ROk db)).
Proof.
  assert (Sn : usize_limits release long_grey) by (unfold usize_limits, largest; cbn; lia). split; [exact Sn|].
  assert (Main : forall n : nat, N.of_nat n = 2 ^ 32 + 1 -> (exists db, compile_multi_int release (repeat (lit "|") n) (repeat 0 n) (repeat 3 n) Block long_grey = Ret (ROk db)) /\
    ~ (exists db, compile_multi_int release (repeat (lit "a") n) (repeat 0 n) (repeat 3 n) Block long_grey = Ret (ROk db))).
  { intros n Hn. assert (Rp : forall {A} (x y : A) i, nth_error (repeat x n) i = Some y -> y = x) by (intros A x y i E; apply nth_error_In, repeat_spec in E; exact E).
    assert (Bo : forall c, c <> 40 -> body_of [c] [c]).
    { intros c Hc. left. split; [|reflexivity]. intros v rest (E & _). injection E as E _. congruence. }
    split.
    - apply C67_accepts_iff; [exact Sn|]. conjs.
      + destruct n; [lia|discriminate].
      + rewrite repeat_length, Hn. discriminate.
      + intros i it (E1 & E2 & _). apply Rp in E1, E2. constructor; rewrite ?E1.
        * discriminate.
        * unfold quiet. rewrite E2. intros [X _]. discriminate X.
        * exists (lit "|"). conjs; [apply Bo; discriminate| | |intro X; discriminate X].
          -- intros c [<-|[]]. reflexivity.
          -- split; [|reflexivity]. intros a b E. destruct a as [|x a]; [apply le_n|]. injection E as <- E. destruct a; [apply le_n|discriminate E].
      + intros i it (E1 & _) b B. apply Rp in E1. rewrite E1 in B. rewrite (body_fun _ _ _ B (Bo 124 ltac:(discriminate))). split; [intros [X _]; discriminate X|]. intros _. vm_compute. discriminate.
      + intros _ X. discriminate X.
      + intros _ i it (E1 & _) (b & B & Li). exfalso. apply Rp in E1. rewrite E1 in B. rewrite (body_fun _ _ _ B (Bo 124 ltac:(discriminate))) in Li. apply (proj1 Li). left; reflexivity.
    - intro X. apply C67_accepts_iff in X; [|exact Sn]. destruct X as (_ & _ & _ & _ & _ & X). assert (L : N.of_nat (n - 1) < 2 ^ 32); [|lia].
      assert (Re : forall {A} (x : A) k, (k < n)%nat -> nth_error (repeat x n) k = Some x).
      { intros A x k Hk. rewrite (nth_error_nth' _ x) by (rewrite repeat_length; exact Hk). f_equal. apply (repeat_spec n). apply nth_In. rewrite repeat_length. exact Hk. }
      apply (X eq_refl (n - 1)%nat (Item (lit "a") 0 3)).
      + repeat split; apply Re; lia.
      + exists (lit "a"). split; [apply Bo; discriminate|]. split; [intros [Y|[]]; discriminate Y|]. exists 97. conjs; [left; reflexivity|discriminate|discriminate]. }
  exists (N.to_nat (2 ^ 32 + 1)). split; [apply N2Nat.id|]. exact (Main _ (N2Nat.id _)).
Qed.

(** One text of [2 ^ 32] letters, under a configuration that lets it through: too deep when
    literals are taken by themselves, too big when they are not. *)
Definition wide_grey (b : bool) : grey := Grey true true b true 3 4 5 2 (2 ^ 40) 7.
Example C67_out_of_range_case : exists e, literal_text e /\ body_of e e /\
  (forall b, usize_limits release (wide_grey b) /\ acceptable_upto (limit_pattern_length (wide_grey b)) release (Item e 0 3)) /\
  (forall m, compile_multi_int release [e] [0] [3] m (wide_grey true) = Ret (RErr (CompileError EOther (lit "depth overflow") (Some 0)))) /\
  (forall m, compile_multi_int release [e] [0] [3] m (wide_grey false) = Panic PCapacity).
Proof.
  assert (Main : forall n : nat, N.of_nat n = 2 ^ 32 -> exists e, literal_text e /\ body_of e e /\
    (forall b, usize_limits release (wide_grey b) /\ acceptable_upto (limit_pattern_length (wide_grey b)) release (Item e 0 3)) /\
    (forall m, compile_multi_int release [e] [0] [3] m (wide_grey true) = Ret (RErr (CompileError EOther (lit "depth overflow") (Some 0)))) /\
    (forall m, compile_multi_int release [e] [0] [3] m (wide_grey false) = Panic PCapacity)).
  { intros n Hn. exists (repeat 97 n).
    assert (Li : literal_text (repeat 97 n)).
    { split; [intro X; apply repeat_spec in X; discriminate X|]. exists 97. conjs; [destruct n; [lia|left; reflexivity]|discriminate|discriminate]. }
    assert (Bo : body_of (repeat 97 n) (repeat 97 n)).
    { left. split; [|reflexivity]. intros v rest (E & _). destruct n; [lia|]. discriminate E. }
    assert (Fl : forall q : N -> bool, q 97 = true -> filter q (repeat 97 n) = repeat 97 n).
    { intros q Q. clear -Q. induction n as [|n IH]; [reflexivity|]. cbn [repeat filter]. rewrite Q, IH. reflexivity. }
    assert (Sl : str_len (repeat 97 n) = N.of_nat n).
    { clear. induction n as [|n IH]; [reflexivity|]. cbn [repeat str_len]. change (char_len 97) with 1. lia. }
    assert (Ac : forall b, usize_limits release (wide_grey b) /\ acceptable_upto (limit_pattern_length (wide_grey b)) release (Item (repeat 97 n) 0 3)).
    { intro b. split; [unfold usize_limits, largest; cbn; lia|]. constructor; cbn [it_expr].
      - rewrite Sl, Hn. vm_compute. discriminate.
      - intros [X _]. discriminate X.
      - exists (repeat 97 n). conjs; [exact Bo| | |].
        + intros c I. apply repeat_spec in I. subst c. reflexivity.
        + split.
          * intros a b' E. assert (Z : forall c, c <> 97 -> count_occ N.eq_dec a c = 0%nat); [|unfold closes, opens; rewrite (Z 40), (Z 41) by lia; lia]. intros c Nc. apply count_occ_not_In. intro I. apply Nc. apply (repeat_spec n). rewrite E. apply in_or_app. left; exact I.
          * assert (Z : forall c, c <> 97 -> count_occ N.eq_dec (repeat 97 n) c = 0%nat); [|unfold closes, opens; rewrite (Z 40), (Z 41) by lia; reflexivity]. intros c Nc. apply count_occ_not_In. intro I. apply Nc. apply (repeat_spec n). exact I.
        + intro X; discriminate X. }
    conjs; auto; intro m.
    - destruct (Ac true) as [A1 A2]. apply (C67_out_of_range release (wide_grey true) (repeat 97 n) 0 3 m (repeat 97 n) A1 ltac:(vm_compute; discriminate) A2 Bo); [split; [reflexivity|exact Li]|discriminate|].
      unfold lit_text. rewrite Fl by reflexivity. rewrite repeat_length, Hn. reflexivity.
    - destruct (Ac false) as [A1 A2]. apply (C67_out_of_range release (wide_grey false) (repeat 97 n) 0 3 m (repeat 97 n) A1 ltac:(vm_compute; discriminate) A2 Bo); [intros [X _]; discriminate X|].
      unfold plain_text. rewrite Fl by reflexivity. rewrite repeat_length, Hn. reflexivity. }
  exact (Main (N.to_nat (2 ^ 32)) (N2Nat.id _)).
Qed.

Print Assumptions C66_answers.
Print Assumptions C66_full.
Print Assumptions C66_state.
Print Assumptions C66_asserts.
Print Assumptions C67_accepts_iff.
Print Assumptions C67_depends.
Print Assumptions C67_database.
Print Assumptions C67_without_shortcuts.
Print Assumptions C67_out_of_range.
