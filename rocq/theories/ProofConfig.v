(** Lemmas about requests to add a literal under any configuration. *)
From Verif Require Import Base ModelUtil ModelBitField ModelCharReach ModelLiteral ModelReport ModelPetgraph ModelParser ModelNfa ModelSmallWrite ModelCompiler
  SpecSet SpecGrammar SpecReport SpecTrie SpecTree SpecGraph SpecCompile SpecConfig
  ProofBase ProofLiteral ProofReport ProofGrammar ProofParser ProofTree ProofVerb ProofTrie ProofShortcut ProofGraph ProofCompile ProofRun ProofLimits.
Local Open Scope N_scope.
Local Open Scope list_scope.

Lemma letterb_ok : forall c, letterb c = ourisalpha c.
Proof. intro c. unfold letterb, ourisalpha, mytolower, mytoupper, myisupper, myislower. ifs; lia. Qed.
Lemma existsb_map : forall {A B} (f : A -> B) (q : B -> bool) l, existsb q (map f l) = existsb (fun x => q (f x)) l.
Proof. intros A B f q l. induction l as [|x l IH]; [reflexivity|]. cbn. rewrite IH. reflexivity. Qed.
Lemma existsb_ext' : forall {A} (f h : A -> bool) l, (forall x, f x = h x) -> existsb f l = existsb h l.
Proof. intros A f h l E. induction l as [|x l IH]; [reflexivity|]. cbn. rewrite E, IH. reflexivity. Qed.
Lemma mixed_case_ok : forall l, mixed_sensitivity (lit_iter l) = mixed_case l.
Proof.
  intro l. unfold mixed_sensitivity, mixed_case. rewrite lit_iter_ok, mixed_loop_ok. unfold pairs_of. rewrite !existsb_map, !orb_false_l, andb_comm. cbn [el_c el_nocase].
  f_equal; apply existsb_ext'; intros [c b]; rewrite letterb_ok; reflexivity.
Qed.

Definition request_width (g : grey) (T : list lit_request) : N :=
  fold_left (fun w q => N.min w (lit_length (lr_lit q))) (filter (stays g) T) INFINITY.
Definition issued (g : grey) (T : list lit_request) : bool :=
  negb (limit_report_count g =? 0) && match T with [] => false | _ => true end.
Record hist_inv (p : profile) (g : grey) (np : N) (cc : compile_context) (T : list lit_request) (n : ng) : Prop := HistInv {
  hi_cc : ng_cc n = cc;
  hi_rose : ng_rose n = RoseBuild cc (existsb wants_start T);
  hi_boundary : ng_boundary n = boundary_default;
  hi_limit : rm_limit (ng_rm n) = limit_report_count g;
  hi_ids : report_ids (ng_rm n) = if issued g T then [Report 0] else [];
  hi_map : internal_map (ng_rm n) = if issued g T then [(Report 0, 0)] else [];
  hi_ext : forall id, assoc N.eqb (external_map (ng_rm n)) id = option_map (fun q => ExtInfo (lr_single q) (lr_index q)) (first_request T id);
  hi_keys : NoDup (map fst (exhaust_map (ng_rm n))) /\ forall id, In id (map fst (exhaust_map (ng_rm n))) <-> In id (map lr_id (filter keyed T));
  hi_glob : global_exhaust (ng_rm n) = forallb lr_single T;
  hi_smwr : smwr_run p (smwr_new np g) (taken_inputs g T) = Ret (ng_smwr n);
  hi_width : depth_val (ng_min_width n) = request_width g T;
  hi_lits : forall q, In q T -> lit_wf (lr_lit q);
  hi_agree : forall q t, In q T -> In t T -> lr_id q = lr_id t -> lr_single q = lr_single t
}.
Lemma hist_inv_new : forall p np cc sp, hist_inv p (cc_grey cc) np cc [] (ng_new cc np sp).
Proof.
  intros p np cc sp. constructor; try reflexivity; unfold issued; rewrite ?andb_false_r; try reflexivity; [|intros q []|intros q t []]. split; [constructor|reflexivity].
Qed.
Lemma keys_count : forall p g np cc T n, hist_inv p g np cc T n -> List.length (exhaust_map (ng_rm n)) = List.length (keyed_ids T).
Proof.
  intros p g np cc T n Inv. destruct (hi_keys _ _ _ _ _ _ Inv) as [Nd Hk]. rewrite <- (map_length fst). unfold keyed_ids. apply Nat.le_antisymm.
  - apply NoDup_incl_length; [exact Nd|]. intros x I. apply nodup_In. apply Hk. exact I.
  - apply NoDup_incl_length; [apply NoDup_nodup|]. intros x I. apply nodup_In in I. apply Hk. exact I.
Qed.
Lemma keyed_ids_length : forall T, (List.length (keyed_ids T) <= List.length T)%nat.
Proof.
  intro T. unfold keyed_ids. etransitivity; [apply NoDup_incl_length; [apply NoDup_nodup|intros x I; apply nodup_In in I; exact I]|]. rewrite map_length. apply filter_length_le'.
Qed.
Lemma assoc_in_keys : forall {B} (m : list (N * B)) k, (assoc N.eqb m k = None <-> ~ In k (map fst m)).
Proof.
  intros B m k. induction m as [|[x v] m IH]; cbn [assoc map fst In]; [tauto|]. destruct (N.eqb_spec k x) as [->|Ne].
  - split; [discriminate|]. intro X. exfalso. apply X. left; reflexivity.
  - rewrite IH. split; [intros X [E|E]; [congruence|tauto]|tauto].
Qed.

(** Registration with a history that agrees. *)
Lemma enters_clash : forall p g np cc T n q, hist_inv p g np cc T n -> shortcut_literals g = true -> mixed_case (lr_lit q) = false ->
  (enters g T q = true /\ forall t, first_request T (lr_id q) = Some t -> lr_single t = lr_single q) \/
  (enters g T q = false /\ exists t, first_request T (lr_id q) = Some t /\ lr_single t <> lr_single q).
Proof.
  intros p g np cc T n q Inv S M. unfold enters. rewrite S, M. cbn [negb andb]. destruct (forallb _ T) eqn:F; [left|right]; (split; [reflexivity|]).
  - intros t Ft. apply find_some in Ft. destruct Ft as [It E]. rewrite forallb_forall in F. specialize (F t It). apply N.eqb_eq in E.
    rewrite <- E, N.eqb_refl in F. apply eqb_prop in F. exact F.
  - destruct (first_request T (lr_id q)) as [t|] eqn:Ft.
    + exists t. split; [reflexivity|]. intro E. apply find_some in Ft. destruct Ft as [It Et]. apply N.eqb_eq in Et. rewrite <- not_true_iff_false in F. apply F. apply forallb_forall. intros x Ix.
      destruct (N.eqb_spec (lr_id x) (lr_id q)) as [Ex|]; [|reflexivity]. cbn [negb orb]. rewrite (hi_agree _ _ _ _ _ _ Inv x t Ix It), E by congruence. apply eqb_reflx.
    + exfalso. rewrite <- not_true_iff_false in F. apply F. apply forallb_forall. intros x Ix. unfold first_request in Ft. pose proof (find_none _ _ Ft x Ix) as Nx.
      rewrite N.eqb_sym, Nx. reflexivity.
Qed.
Lemma register_agrees : forall rm id s i, (forall e, assoc N.eqb (external_map rm) id = Some e -> ei_highlander e = s) ->
  exists rm1, register_ext_report rm id (ExtInfo s i) = (rm1, ROk tt) /\ rm_limit rm1 = rm_limit rm /\ report_ids rm1 = report_ids rm /\ internal_map rm1 = internal_map rm /\
    exhaust_map rm1 = exhaust_map rm /\ global_exhaust rm1 = global_exhaust rm && s /\
    forall x, assoc N.eqb (external_map rm1) x = match assoc N.eqb (external_map rm) x with Some e => Some e | None => if x =? id then Some (ExtInfo s i) else None end.
Proof.
  intros rm id s i Ok. unfold register_ext_report. destruct (assoc N.eqb (external_map rm) id) as [e|] eqn:A.
  - cbn [ei_highlander]. rewrite (Ok e eq_refl), eqb_reflx. cbn [negb]. eexists. split; [reflexivity|]. cbn [rm_limit report_ids internal_map external_map exhaust_map global_exhaust ei_highlander].
    conjs; try reflexivity.
    + destruct s; cbn [negb]; rewrite ?andb_true_r, ?andb_false_r; reflexivity.
    + intro x. destruct (assoc N.eqb (external_map rm) x) eqn:B; [reflexivity|]. destruct (N.eqb_spec x id) as [->|]; [congruence|reflexivity].
  - eexists. split; [reflexivity|]. cbn [rm_limit report_ids internal_map external_map exhaust_map global_exhaust ei_highlander]. conjs; try reflexivity.
    + destruct s; cbn [negb]; rewrite ?andb_true_r, ?andb_false_r; reflexivity.
    + intro x. apply assoc_snoc.
Qed.
(** The report of a literal: always the same one. *)
Lemma report_step : forall g T rm, rm_limit rm = limit_report_count g ->
  report_ids rm = (if issued g T then [Report 0] else []) -> internal_map rm = (if issued g T then [(Report 0, 0)] else []) ->
  exists rm1, get_internal_id rm (Report 0) = Ret (rm1, if limit_report_count g =? 0 then RErr (error_new EResourceLimit (lit "Resource limit exceeded.")) else ROk 0) /\
    rm_limit rm1 = limit_report_count g /\ (forall q, report_ids rm1 = if issued g (T ++ [q]) then [Report 0] else []) /\
    (forall q, internal_map rm1 = if issued g (T ++ [q]) then [(Report 0, 0)] else []) /\
    external_map rm1 = external_map rm /\ exhaust_map rm1 = exhaust_map rm /\ global_exhaust rm1 = global_exhaust rm.
Proof.
  intros g T rm L I M. assert (Is : forall q : lit_request, issued g (T ++ [q]) = negb (limit_report_count g =? 0)).
  { intro q. unfold issued. destruct T; cbn [app]; rewrite andb_true_r; reflexivity. }
  unfold get_internal_id, num_reports. rewrite L, I, M. unfold issued in *. destruct (N.eqb_spec (limit_report_count g) 0) as [Z|Z]; cbn [negb andb assoc List.length].
  - rewrite Z. cbn [N.of_nat N.leb N.compare]. exists rm. conjs; auto; congruence.
  - destruct T as [|t T].
    + cbn [assoc List.length]. replace (limit_report_count g <=? N.of_nat 0) with false by lia. change (N.of_nat 0 <? 2 ^ 32) with true. cbv iota. eexists. split; [reflexivity|].
      cbn [rm_limit report_ids internal_map external_map exhaust_map global_exhaust]. conjs; auto; intro q; rewrite Is; reflexivity.
    + cbn [assoc]. change (report_eqb (Report 0) (Report 0)) with true. cbv iota. exists rm. conjs; auto.
Qed.
Lemma first_request_snoc : forall T q id, first_request (T ++ [q]) id = match first_request T id with Some t => Some t | None => if id =? lr_id q then Some q else None end.
Proof. intros T q id. exact (find_snoc (fun t => id =? lr_id t) T q). Qed.
Lemma filter_snoc : forall {A} (f : A -> bool) l x, filter f (l ++ [x]) = filter f l ++ (if f x then [x] else []).
Proof. intros A f l x. rewrite filter_app. reflexivity. Qed.

(** Nothing with a depth makes a dictionary too big. *)
Lemma deep_enough : forall p np g h l r, lit_length l <= deepest -> ~ stops p np g h (l, r) PCapacity.
Proof.
  intros p np g h l r D (Ng & Sx & [(X & _)|(_ & _ & Big)]); [discriminate X|]. change deepest with 2147483646 in D. unfold gone in Ng.
  assert (Lx : N.of_nat (List.length (fst (insertion_of (l, r)))) <= 2147483646) by exact D.
  pose proof (short_sensitive_snoc g h (l, r)) as Ss. pose proof (short_caseless_snoc g h (l, r)) as Sc. rewrite Sx in Ss, Sc. cbn [andb] in Ss, Sc.
  destruct (has_caseless (l, r)); cbn [negb] in Ss, Sc.
  - rewrite Sc in Big. pose proof (distinct_snoc (short_caseless g h) (insertion_of (l, r))) as Z. unfold n_prefixes in Z. lia.
  - rewrite Ss in Big. pose proof (distinct_snoc (short_sensitive g h) (insertion_of (l, r))) as Z. unfold n_prefixes in Z. lia.
Qed.
(** What becomes of a registered request. *)
Definition registered (p : profile) (g : grey) (np : N) (cc : compile_context) (T : list lit_request) (q : lit_request) (o : outcome (ng * result compile_error bool)) : Prop :=
  (exists n' a, o = Ret (n', a) /\ answered g T q a /\ hist_inv p g np cc (T ++ [q]) n' /\ ~ counted_out p np g T q) \/
  (counted_out p np g T q /\ o = Panic POverflow).
Lemma registered_eq : forall p g np cc T q o o', registered p g np cc T q o -> o' = o -> registered p g np cc T q o'.
Proof. intros p g np cc T q o o' R ->. exact R. Qed.
Lemma ask_step : forall p g np cc T n q, hist_inv p g np cc T n -> cc_grey cc = g -> small_write_max_literals g <= largest p -> proper p q -> (enters g T q = true -> keyed q = true -> keys_left T) ->
  if enters g T q then registered p g np cc T q (ask p n q) else exists a, ask p n q = Ret (n, a) /\ answered g T q a.
Proof.
  intros p g np cc T n q Inv G Ml [W Dbg] Hn. pose proof Inv as [Icc Irose Ib Il Ii Im Ix Ik Ig Is Iw Iv Ia].
  unfold ask, ng_add_literal. assert (D1 : rs_debug_assert p (negb (lit_is_empty (lr_lit q))) = Ret tt).
  { unfold rs_debug_assert. destruct (debug_assertions p); [|reflexivity]. destruct (Dbg eq_refl) as [Ne _]. unfold lit_is_empty. destruct (lit_s (lr_lit q)); [contradiction|reflexivity]. }
  rewrite D1. cbn [bind]. rewrite Icc, G. destruct (shortcut_literals g) eqn:Sh; cbn [negb].
  2:{ replace (enters g T q) with false by (unfold enters; rewrite Sh; reflexivity). exists (ROk false). split; [reflexivity|apply an_off; exact Sh]. }
  rewrite mixed_case_ok. destruct (mixed_case (lr_lit q)) eqn:Mx.
  { replace (enters g T q) with false by (unfold enters; rewrite Sh, Mx; reflexivity). exists (ROk false). split; [reflexivity|apply an_mixed; exact Mx]. }
  destruct (enters_clash p g np cc T n q Inv Sh Mx) as [[En Ok]|[En (t & Ft & Nt)]].
  2:{ unfold register_ext_report. rewrite Ix, Ft. cbn [option_map ei_highlander]. replace (Bool.eqb (lr_single t) (lr_single q)) with false by (symmetry; apply eqb_false_iff; exact Nt).
      cbn [negb]. rewrite ng_set_rm_same, En. eexists. split; [reflexivity|]. eapply an_clash; eauto. }
  destruct (register_agrees (ng_rm n) (lr_id q) (lr_single q) (lr_index q)) as (rm1 & E1 & R1 & R2 & R3 & R4 & R5 & R6).
  { intros e. rewrite Ix. destruct (first_request T (lr_id q)) as [t|] eqn:Ft; [|discriminate]. cbn [option_map]. intros [= <-]. cbn [ei_highlander]. apply Ok. reflexivity. }
  rewrite E1. rewrite En. unfold literal_report_id.
  assert (Ag : forall a b, In a (T ++ [q]) -> In b (T ++ [q]) -> lr_id a = lr_id b -> lr_single a = lr_single b).
  { assert (Q : forall a, In a T -> lr_id a = lr_id q -> lr_single a = lr_single q).
    { intros a Ha E. unfold enters in En. apply andb_true_iff in En. destruct En as [_ En]. rewrite forallb_forall in En. specialize (En a Ha). rewrite E, N.eqb_refl in En. apply eqb_prop in En. exact En. }
    intros a b Ha Hb E. apply in_app_or in Ha, Hb. destruct Ha as [Ha|[<-|[]]], Hb as [Hb|[<-|[]]]; auto. symmetry; apply Q; congruence. }
  assert (Wf : forall x, In x (T ++ [q]) -> lit_wf (lr_lit x)) by (intros x I; apply in_app_or in I; destruct I as [I|[<-|[]]]; auto).
  assert (Xx : forall id, match assoc N.eqb (external_map (ng_rm n)) id with Some e => Some e | None => if id =? lr_id q then Some (ExtInfo (lr_single q) (lr_index q)) else None end =
    option_map (fun q => ExtInfo (lr_single q) (lr_index q)) (first_request (T ++ [q]) id)).
  { intro id. rewrite first_request_snoc, Ix. destruct (first_request T id); [reflexivity|]. cbn [option_map]. destruct (id =? lr_id q); reflexivity. }
  assert (Main : forall rm2 n1, rm_limit rm2 = limit_report_count g -> report_ids rm2 = report_ids (ng_rm n) -> internal_map rm2 = internal_map (ng_rm n) -> external_map rm2 = external_map rm1 ->
    (NoDup (map fst (exhaust_map rm2)) /\ forall id, In id (map fst (exhaust_map rm2)) <-> In id (map lr_id (filter keyed (T ++ [q])))) -> global_exhaust rm2 = global_exhaust rm1 ->
    n1 = (if wants_start q then ng_set_has_som n else n) ->
    registered p g np cc T q (let! (n2, rid) := (let! (rm3, id) := get_internal_id rm2 (Report 0) in Ret (ng_set_rm n1 rm3, id)) in
       match rid with
       | RErr e => Ret (n2, RErr e)
       | ROk id =>
         let rose' := rose_add (ng_rose n2) false false (lr_lit q) [id] in
         match depth_try_from_usize (lit_len (lr_lit q)) with
         | RErr _ => Ret (n2, RErr (error_new EOther (lit "depth overflow")))
         | ROk d => let! smwr' := smwr_add_literal p (ng_smwr n2) (lr_lit q) id in
                    Ret (Ng (depth_min (ng_min_width n2) d) (ng_rm n2) (ng_boundary n2) (ng_cc n2) smwr' rose', ROk true)
         end
       end)).
  { intros rm2 n1 L1 L2 L3 L4 L5 L6 ->. destruct (report_step g T rm2) as (rm3 & E3 & M1 & M2 & M3 & M4 & M5 & M6); [congruence|congruence|congruence|]. rewrite E3. cbn [bind].
    set (n1 := if wants_start q then ng_set_has_som n else n).
    assert (N1 : ng_min_width n1 = ng_min_width n /\ ng_boundary n1 = ng_boundary n /\ ng_cc n1 = cc /\ ng_smwr n1 = ng_smwr n /\ ng_rose n1 = RoseBuild cc (existsb wants_start (T ++ [q]))).
    { rewrite existsb_app. cbn [existsb]. rewrite orb_false_r. unfold n1. destruct (wants_start q); cbn [ng_set_has_som ng_min_width ng_boundary ng_cc ng_smwr ng_rose]; rewrite Irose; cbn [rb_cc]; rewrite ?orb_true_r, ?orb_false_r; auto 6. }
    destruct N1 as (W1 & W2 & W3 & W4 & W5).
    assert (Fail : stays g q = false -> hist_inv p g np cc (T ++ [q]) (ng_set_rm n1 rm3)).
    { intro St. constructor; cbn [ng_set_rm ng_cc ng_rose ng_boundary ng_rm ng_smwr ng_min_width]; auto; try congruence.
      - intro id. rewrite M4, L4, R6. apply Xx.
      - rewrite M5. exact L5.
      - rewrite M6, L6, R5, Ig, forallb_app. cbn [forallb]. rewrite andb_true_r. reflexivity.
      - unfold taken_inputs. rewrite filter_snoc, St, app_nil_r, W4. exact Is.
      - unfold request_width. rewrite filter_snoc, St, app_nil_r, W1. exact Iw. }
    destruct (N.eqb_spec (limit_report_count g) 0) as [Z|Z].
    { assert (St : stays g q = false) by (unfold stays; rewrite Z; reflexivity). left. eexists _, _. conjs; [reflexivity|apply an_limit; assumption|apply Fail; exact St|]. intros [X _]. congruence. }
    assert (Dm : deepest = MAX_VALUE) by reflexivity.
    unfold depth_try_from_usize. change (lit_len (lr_lit q)) with (lit_length (lr_lit q)). destruct (N.leb_spec (lit_length (lr_lit q)) MAX_VALUE) as [Le|Le].
    2:{ assert (St : stays g q = false) by (unfold stays; replace (lit_length (lr_lit q) <=? deepest) with false by lia; apply andb_false_r).
        left. eexists _, _. conjs; [reflexivity|apply an_deep; [assumption|assumption|lia]|apply Fail; exact St|]. intros [X _]. congruence. }
    assert (St : stays g q = true) by (unfold stays; replace (limit_report_count g =? 0) with false by lia; replace (lit_length (lr_lit q) <=? deepest) with true by lia; reflexivity).
    assert (Wall : forall x, In x (taken_inputs g T) -> lit_wf (fst x)).
    { intros x I. apply in_map_iff in I. destruct I as (y & <- & I). apply filter_In in I. apply Iv. apply I. }
    pose proof (limits_run p np g (taken_inputs g T) [] (smwr_new np g) Ml Wall (limits_inv_new p np g)) as Li. rewrite Is in Li. destruct Li as [Li _]. cbn [app] in Li.
    pose proof (limits_step p np g (taken_inputs g T) (ng_smwr n) (lr_lit q) 0 Ml W Li) as Ls.
    cbn [ng_set_rm ng_smwr]. rewrite W4. destruct (smwr_add_literal p (ng_smwr n) (lr_lit q) 0) as [s1|w|] eqn:Es; cbn [bind]; [| |contradiction].
    2:{ right. assert (Sw : stops p np g (taken_inputs g T) (lr_lit q, 0) w) by (apply Ls; reflexivity). assert (Ew : w = POverflow).
        { pose proof Sw as (_ & _ & [(X & _)|(X & _)]); [exact X|]. subst w. exfalso. apply (deep_enough p np g (taken_inputs g T) (lr_lit q) 0); [lia|exact Sw]. }
        subst w. split; [split; [exact St|exact Sw]|reflexivity]. }
    destruct Ls as [_ Ns]. left. eexists _, _. conjs; [reflexivity|apply an_taken; assumption| |intros [_ X]; apply (Ns POverflow X)]. constructor; cbn [ng_set_rm ng_cc ng_rose ng_boundary ng_rm ng_smwr ng_min_width]; auto; try congruence.
    - rewrite W5. unfold rose_add. cbn [rb_cc]. destruct (flood_as_puffette (cc_grey cc)); reflexivity.
    - intro id. rewrite M4, L4, R6. apply Xx.
    - rewrite M5. exact L5.
    - rewrite M6, L6, R5, Ig, forallb_app. cbn [forallb]. rewrite andb_true_r. reflexivity.
    - unfold taken_inputs. rewrite filter_snoc, St, map_app. fold (taken_inputs g T). rewrite smwr_run_app, Is. cbn [bind smwr_run map]. rewrite Es. reflexivity.
    - unfold request_width. rewrite filter_snoc, St, fold_left_app. fold (request_width g T). cbn [fold_left]. rewrite <- Iw, W1. unfold depth_min, depth_cmp, cast. cbn [depth_val].
      assert (MAX_VALUE < 2 ^ 32) by reflexivity. rewrite N.mod_small by lia. destruct (N.compare_spec (depth_val (ng_min_width n)) (lit_length (lr_lit q))); cbn [depth_val]; lia. }
  destruct Ik as [Nd Hk].
  assert (Same : (keyed q = true -> In (lr_id q) (map fst (exhaust_map (ng_rm n)))) -> NoDup (map fst (exhaust_map rm1)) /\ forall id, In id (map fst (exhaust_map rm1)) <-> In id (map lr_id (filter keyed (T ++ [q])))).
  { intro K. rewrite R4. split; [exact Nd|]. intro id. rewrite filter_snoc, map_app, in_app_iff, Hk. destruct (keyed q) eqn:Kq; cbn [map In]; [|tauto]. rewrite Hk in K. split; [tauto|]. intros [X|[<-|[]]]; auto. }
  destruct (lr_som q) eqn:So.
  - cbn [ng_set_rm ng_rm]. destruct (lr_single q) eqn:Sg.
    + unfold get_exhaustible_key. rewrite R4. assert (Kq : keyed q = true) by (unfold keyed, wants_start; rewrite Sg, So; reflexivity).
      pose proof (Hn En Kq) as Kl. unfold keys_left in Kl. rewrite <- (keys_count _ _ _ _ _ _ Inv) in Kl.
      replace (N.of_nat (List.length (exhaust_map (ng_rm n))) <? 2 ^ 32) with true by lia. destruct (assoc N.eqb (exhaust_map (ng_rm n)) (lr_id q)) as [k|] eqn:Ak; cbn [bind].
      * eapply registered_eq; [apply (Main rm1 n); try congruence; [apply Same; intros _; destruct (in_dec N.eq_dec (lr_id q) (map fst (exhaust_map (ng_rm n)))) as [X|X]; [exact X|]; apply assoc_in_keys in X; congruence|unfold wants_start; rewrite So; reflexivity]|].
        unfold make_e_callback. destruct (get_internal_id rm1 (Report 0)) as [[? ?]| |]; reflexivity.
      * set (rm2 := ReportManager _ _ _ _ _ _).
        eapply registered_eq; [apply (Main rm2 n)|]; try (unfold rm2; cbn [rm_limit report_ids internal_map external_map exhaust_map global_exhaust]; congruence).
        { unfold rm2. cbn [exhaust_map]. apply assoc_in_keys in Ak. rewrite map_app. cbn [map fst]. split.
          - apply NoDup_snoc; assumption.
          - intro id. rewrite filter_snoc, Kq, map_app, !in_app_iff, Hk. reflexivity. } { unfold wants_start. rewrite So. reflexivity. }
        unfold make_e_callback. destruct (get_internal_id rm2 (Report 0)) as [[? ?]| |]; reflexivity.
    + cbn [bind]. eapply registered_eq; [apply (Main rm1 n); try congruence; [apply Same; unfold keyed; rewrite Sg; discriminate|unfold wants_start; rewrite So; reflexivity]|].
      unfold make_e_callback. destruct (get_internal_id rm1 (Report 0)) as [[? ?]| |]; reflexivity.
  - assert (D2 : rs_debug_assert p (negb (lr_single q)) = Ret tt).
    { unfold rs_debug_assert. destruct (debug_assertions p); [|reflexivity]. destruct (Dbg eq_refl) as [_ Ns]. destruct (lr_single q); [exfalso; apply Ns; split; reflexivity|reflexivity]. }
    rewrite D2. cbn [bind]. eapply registered_eq; [apply (Main rm1 (ng_set_has_som n)); try congruence; [apply Same; unfold keyed, wants_start; rewrite So, andb_false_r; discriminate|unfold wants_start; rewrite So; reflexivity]|].
    unfold make_som_relative_callback. cbn [ng_set_rm ng_rm]. destruct (get_internal_id rm1 (Report 0)) as [[? ?]| |]; reflexivity.
Qed.
(** A request that takes a key when none is left. *)
Lemma ask_full : forall p g np cc T n q, hist_inv p g np cc T n -> cc_grey cc = g -> proper p q -> enters g T q = true -> keyed q = true -> ~ keys_left T ->
  ask p n q = Panic PExpect.
Proof.
  intros p g np cc T n q Inv G [W Dbg] En Kq Hf. pose proof Inv as [Icc _ _ _ _ _ Ix _ _ _ _ _ _].
  unfold ask, ng_add_literal. assert (D1 : rs_debug_assert p (negb (lit_is_empty (lr_lit q))) = Ret tt).
  { unfold rs_debug_assert. destruct (debug_assertions p); [|reflexivity]. destruct (Dbg eq_refl) as [Ne _]. unfold lit_is_empty. destruct (lit_s (lr_lit q)); [contradiction|reflexivity]. }
  rewrite D1. cbn [bind]. rewrite Icc, G. pose proof En as En'. unfold enters in En'. apply andb_true_iff in En'. destruct En' as [En' _]. apply andb_true_iff in En'. destruct En' as [Sh Mx]. apply negb_true_iff in Mx.
  rewrite Sh, mixed_case_ok, Mx. cbn [negb]. destruct (enters_clash p g np cc T n q Inv Sh Mx) as [[_ Ok]|[Bad _]]; [|congruence].
  destruct (register_agrees (ng_rm n) (lr_id q) (lr_single q) (lr_index q)) as (rm1 & E1 & _ & _ & _ & R4 & _ & _).
  { intros e. rewrite Ix. destruct (first_request T (lr_id q)) as [t|] eqn:Ft; [|discriminate]. cbn [option_map]. intros [= <-]. cbn [ei_highlander]. apply Ok. reflexivity. }
  rewrite E1. unfold literal_report_id. unfold keyed, wants_start in Kq. apply andb_true_iff in Kq. destruct Kq as [Sg So]. destruct (lr_som q); [|discriminate So]. rewrite Sg. cbn [ng_set_rm ng_rm].
  unfold get_exhaustible_key. unfold keys_left in Hf. rewrite <- (keys_count _ _ _ _ _ _ Inv) in Hf. rewrite R4. replace (N.of_nat (List.length (exhaust_map (ng_rm n))) <? 2 ^ 32) with false by lia. reflexivity.
Qed.

(** ** One expression, and all of them *)
Definition request_of (i : N) (it : item) (body : str) : lit_request :=
  LitRequest (text_literal (caseless_item it) body) i (it_id it) (single_match it) SomNone (quiet it).
Inductive judged_cfg (p : profile) (g : grey) (T : list lit_request) (i : N) (it : item) : outcome (result compile_error (list lit_request)) -> Prop :=
| jc_long : limit_pattern_length g < str_len (it_expr it) -> judged_cfg p g T i it (Ret (RErr too_long))
| jc_flags : str_len (it_expr it) <= limit_pattern_length g -> quiet it = true -> som_leftmost it = true -> judged_cfg p g T i it (Ret (RErr bad_flags))
| jc_parse : forall e, str_len (it_expr it) <= limit_pattern_length g -> ~ (quiet it = true /\ som_leftmost it = true) ->
    parse p (it_expr it) (item_mode it) = Ret (RErr e) -> judged_cfg p g T i it (Ret (RErr e))
| jc_panic : forall w, str_len (it_expr it) <= limit_pattern_length g -> ~ (quiet it = true /\ som_leftmost it = true) ->
    parse p (it_expr it) (item_mode it) = Panic w -> judged_cfg p g T i it (Panic w)
| jc_index : forall body, acceptable_upto (limit_pattern_length g) p it -> body_of (it_expr it) body -> literal_text body -> allow_literal g = true -> 2 ^ 32 <= i ->
    judged_cfg p g T i it (Panic PExpect)
| jc_graph : forall body, acceptable_upto (limit_pattern_length g) p it -> body_of (it_expr it) body ->
    (allow_literal g = true -> literal_text body -> shortcut_literals g = false /\ i < 2 ^ 32) -> graph_fits body ->
    judged_cfg p g T i it (Ret (ROk []))
| jc_big : forall body, acceptable_upto (limit_pattern_length g) p it -> body_of (it_expr it) body ->
    (allow_literal g = true -> literal_text body -> shortcut_literals g = false /\ i < 2 ^ 32) -> ~ graph_fits body ->
    judged_cfg p g T i it (Panic PCapacity)
| jc_fails : forall body e, acceptable_upto (limit_pattern_length g) p it -> body_of (it_expr it) body -> literal_text body -> shortcuts g = true -> i < 2 ^ 32 ->
    answered g T (request_of i it body) (RErr e) -> judged_cfg p g T i it (Ret (RErr e))
| jc_literal : forall body, acceptable_upto (limit_pattern_length g) p it -> body_of (it_expr it) body -> literal_text body -> shortcuts g = true -> i < 2 ^ 32 ->
    answered g T (request_of i it body) (ROk true) -> judged_cfg p g T i it (Ret (ROk [request_of i it body])).
Lemma n_short_taken : forall g T, n_short g (taken_inputs g T) <= N.of_nat (List.length T).
Proof.
  intros g T. unfold n_short. pose proof (filter_length_le' (short g) (taken_inputs g T)) as A. unfold taken_inputs in *. rewrite map_length in A.
  pose proof (filter_length_le' (stays g) T). lia.
Qed.
Lemma flags_quiet : forall it, contains (it_flags it) QUIET = quiet it.
Proof. intro it. change QUIET with (2 ^ 10). apply contains_bit. Qed.
Lemma add_expression_cfg : forall p g np cc T n i it, hist_inv p g np cc T n -> cc_grey cc = g -> small_write_max_literals g <= largest p -> N.of_nat (List.length T) <= i -> i < largest p ->
  exists o, judged_cfg p g T i it o /\
  match o with
  | Ret (ROk l) => exists n', add_expression p n i (it_expr it) (it_flags it) (it_id it) = Ret (n', ROk tt) /\ hist_inv p g np cc (T ++ l) n'
  | Ret (RErr e) => exists n', add_expression p n i (it_expr it) (it_flags it) (it_id it) = Ret (n', RErr e)
  | Panic w => add_expression p n i (it_expr it) (it_flags it) (it_id it) = Panic w
  | Diverge => False
  end.
Proof.
  intros p g np cc T n i it Inv G Ml Hn Hl. pose proof (hi_cc _ _ _ _ _ _ Inv) as Icc. unfold add_expression. rewrite Icc, G.
  destruct (N.ltb_spec (limit_pattern_length g) (str_len (it_expr it))) as [L|L].
  { eexists. split; [apply jc_long; exact L|]. eexists. reflexivity. }
  unfold parsed_expression_new. rewrite flags_forbidden. destruct (quiet it && som_leftmost it) eqn:Q.
  { apply andb_true_iff in Q. destruct Q. eexists. split; [apply jc_flags; assumption|]. eexists. reflexivity. }
  assert (Fl : ~ (quiet it = true /\ som_leftmost it = true)) by (intros [A B]; rewrite A, B in Q; discriminate).
  rewrite flags_mode, flags_single, flags_quiet. pose proof (parse_cases p (it_expr it) (item_mode it)) as C.
  destruct (parse p (it_expr it) (item_mode it)) as [[[t m']|e]|w|] eqn:P; cbn [bindr bind].
  2:{ eexists. split; [eapply jc_parse; eassumption|]. eexists. reflexivity. }
  2:{ eexists. split; [eapply jc_panic; eassumption|]. reflexivity. }
  2:{ inversion C. }
  inversion C as [|body m1 e St A Gk We Te| | | |]; subst m1. clear C. subst t.
  assert (Ac : acceptable_upto (limit_pattern_length g) p it).
  { constructor; [exact L|exact Fl|]. exists body. conjs; [apply (body_starts _ _ (item_mode it)); eauto|exact A|rewrite <- Te; apply text_balanced; exact We|exact Gk]. }
  assert (Bo : body_of (it_expr it) body) by (apply (body_starts _ _ (item_mode it)); eauto).
  change (let _ := _ in ?k) with k. set (ei := ExpressionInfo _ _ _ _ _ _ _ _). cbn [pe_expr pe_component].
  assert (At : ascii_text (text e)) by (rewrite Te; exact A).
  unfold shortcut_literal. rewrite Icc, G. cbn [pe_component pe_expr].
  change (caseless (item_mode it)) with (caseless_item it) in *. change (N.testbit (it_flags it) 0) with (caseless_item it).
  pose proof (body_length _ _ Bo) as F2. pose proof (str_len_length (it_expr it)) as F3.
  assert (Grp : (graph_fits body /\ build_graph p (ParsedExpression ei (tree (caseless_item it) e)) = Ret (ei, holder_with (map vertex_of (leaves (tree (caseless_item it) e))))) \/
    (~ graph_fits body /\ build_graph p (ParsedExpression ei (tree (caseless_item it) e)) = Panic PCapacity)).
  { rewrite build_graph_ok, (tree_leaves _ _ We), map_length, Te. unfold graph_fits, IX_END.
    destruct (N.leb_spec (4 + N.of_nat (List.length (plain_text body))) (2 ^ 32 - 1)) as [Lf|Lf]; [left|right]; (split; [lia|reflexivity]). }
  assert (Gr : (allow_literal g = true -> literal_text body -> shortcut_literals g = false /\ i < 2 ^ 32) ->
    exists o, judged_cfg p g T i it o /\
    match o with
    | Ret (ROk l) => exists n', (let! (ei', g') := build_graph p (ParsedExpression ei (tree (caseless_item it) e)) in Ret (add_graph n ei' g', ROk tt : result compile_error unit)) = Ret (n', ROk tt) /\ hist_inv p g np cc (T ++ l) n'
    | Ret (RErr e0) => exists n', (let! (ei', g') := build_graph p (ParsedExpression ei (tree (caseless_item it) e)) in Ret (add_graph n ei' g', ROk tt)) = Ret (n', RErr e0)
    | Panic w => (let! (ei', g') := build_graph p (ParsedExpression ei (tree (caseless_item it) e)) in Ret (add_graph n ei' g', ROk tt : result compile_error unit)) = Panic w
    | Diverge => False
    end).
  { intro Nl. destruct Grp as [[Fi ->]|[Fi ->]]; cbn [bind].
    - eexists. split; [eapply jc_graph; eassumption|]. cbv beta iota. rewrite app_nil_r. exists n. split; [reflexivity|exact Inv].
    - eexists. split; [eapply jc_big; eassumption|]. reflexivity. }
  destruct (allow_literal g) eqn:Al; cbn [negb].
  2:{ cbn [bind]. apply Gr. discriminate. }
  rewrite walk_tree by assumption. rewrite Te. cbn [bind].
  destruct (literal_text_dec body) as [Lt|Lt].
  - pose proof Lt as Lt'. apply literal_text_iff in Lt'. destruct Lt' as [X1 X2]. rewrite X1. rewrite text_literal_empty.
    destruct (lit_text body) as [|c0 r0] eqn:Tx; [contradiction|]. unfold to_u32. change (ex_index ei) with i. destruct (N.ltb_spec i (2 ^ 32)) as [Hi|Hi].
    2:{ eexists. split; [eapply jc_index; eassumption|]. reflexivity. }
    cbn [bind].
    change (ng_add_literal p n (text_literal (caseless_item it) body) i (ex_report ei) (ex_highlander ei) (ex_som ei) (ex_quiet ei)) with (ask p n (request_of i it body)).
    assert (Pr : proper p (request_of i it body)).
    { split; [apply text_literal_wf|]. intros _. split; [|intros [X _]; discriminate X]. unfold request_of. cbn [lr_lit]. intro Z. pose proof (text_literal_empty (caseless_item it) body) as X. unfold lit_is_empty in X. rewrite Z, Tx in X. discriminate X. }
    pose proof (ask_step p g np cc T n (request_of i it body) Inv G Ml Pr) as St1.
    assert (St2 : exists n' a, ask p n (request_of i it body) = Ret (n', a) /\ answered g T (request_of i it body) a /\
      (if enters g T (request_of i it body) then hist_inv p g np cc (T ++ [request_of i it body]) n' else n' = n)).
    { assert (Co : ~ counted_out p np g T (request_of i it body)).
      { intros (_ & _ & _ & [(_ & _ & X)|(X & _)]); [|discriminate X]. pose proof (n_short_taken g T). lia. }
      assert (Kl : keys_left T) by (unfold keys_left; pose proof (keyed_ids_length T); lia). specialize (St1 (fun _ _ => Kl)).
      destruct (enters g T (request_of i it body)).
      - destruct St1 as [(n' & a & Ea & An & Hh & _)|[X _]]; [exists n', a; auto|destruct (Co X)].
      - destruct St1 as (a & Ea & An). exists n, a. auto. }
    destruct St2 as (n' & a & Ea & An & Hh).
    rewrite Ea. cbn [bind]. assert (Mx : mixed_case (lr_lit (request_of i it body)) = false) by (unfold request_of; cbn [lr_lit]; rewrite <- mixed_case_ok; apply text_literal_not_mixed).
    destruct a as [[|]|e'].
    + assert (En : enters g T (request_of i it body) = true) by (inversion An; assumption). rewrite En in Hh.
      assert (Sh : shortcuts g = true) by (unfold shortcuts; rewrite Al; unfold enters in En; apply andb_true_iff in En; destruct En as [En _]; apply andb_true_iff in En; apply En).
      eexists. split; [eapply jc_literal; eassumption|]. exists n'. split; [reflexivity|exact Hh].
    + assert (Sh : shortcut_literals g = false) by (inversion An; congruence). assert (En : enters g T (request_of i it body) = false) by (unfold enters; rewrite Sh; reflexivity). rewrite En in Hh. subst n'.
      apply Gr. intros _ _. split; [exact Sh|exact Hi].
    + assert (Sh : shortcuts g = true).
      { unfold shortcuts. rewrite Al. inversion An as [| |? ? S1|En|En|]; subst; [exact S1| |]; unfold enters in En; apply andb_true_iff in En; destruct En as [En _]; apply andb_true_iff in En; apply En. }
      eexists. split; [eapply jc_fails; eassumption|]. exists n'. reflexivity.
  - assert (Nl : allow_literal g = true -> literal_text body -> shortcut_literals g = false /\ i < 2 ^ 32) by (intros _ X; destruct (Lt X)). rewrite Al in Nl.
    rewrite literal_text_iff in Lt. destruct (existsb (N.eqb 124) body); cbn [bind]; [apply Gr; exact Nl|].
    rewrite text_literal_empty. destruct (lit_text body) eqn:Tx; [|exfalso; apply Lt; split; [reflexivity|discriminate]]. cbn [bind]. apply Gr. exact Nl.
Qed.
Inductive run_cfg (p : profile) (g : grey) : list lit_request -> N -> list item -> outcome (result compile_error (list lit_request)) -> Prop :=
| rc_nil : forall T i, run_cfg p g T i [] (Ret (ROk T))
| rc_ok : forall T i it t l o, judged_cfg p g T i it (Ret (ROk l)) -> run_cfg p g (T ++ l) (i + 1) t o -> run_cfg p g T i (it :: t) o
| rc_err : forall T i it t e, judged_cfg p g T i it (Ret (RErr e)) -> i < 2 ^ 32 -> err_index e = None \/ debug_assertions p = false ->
    run_cfg p g T i (it :: t) (Ret (RErr (at_index i e)))
| rc_assert : forall T i it t e, judged_cfg p g T i it (Ret (RErr e)) -> i < 2 ^ 32 -> err_index e <> None -> debug_assertions p = true ->
    run_cfg p g T i (it :: t) (Panic PDebugAssert)
| rc_index : forall T i it t e, judged_cfg p g T i it (Ret (RErr e)) -> 2 ^ 32 <= i -> run_cfg p g T i (it :: t) (Panic PExpect)
| rc_panic : forall T i it t w, judged_cfg p g T i it (Panic w) -> run_cfg p g T i (it :: t) (Panic w).
Lemma judged_cfg_length : forall p g T i it l, judged_cfg p g T i it (Ret (ROk l)) -> (List.length l <= 1)%nat.
Proof. intros p g T i it l J. inversion J; subst; cbn; lia. Qed.
Lemma add_all_cfg : forall p g np cc items T n i, hist_inv p g np cc T n -> cc_grey cc = g -> small_write_max_literals g <= largest p ->
  N.of_nat (List.length T) <= i -> i + N.of_nat (List.length items) <= largest p ->
  exists o, run_cfg p g T i items o /\
  match o with
  | Ret (ROk T') => exists n', add_all p n i (map triple items) = Ret (ROk n') /\ hist_inv p g np cc T' n'
  | Ret (RErr e) => add_all p n i (map triple items) = Ret (RErr e)
  | Panic w => add_all p n i (map triple items) = Panic w
  | Diverge => False
  end.
Proof.
  intros p g np cc items; induction items as [|it items IH]; intros T n i Inv G Ml Hn Hl; cbn [map add_all]; cbn [List.length] in Hl.
  - eexists. split; [constructor|]. exists n. auto.
  - change (triple it) with (it_expr it, it_flags it, it_id it). cbv iota beta. destruct (add_expression_cfg p g np cc T n i it Inv G Ml) as (o & J & R); [exact Hn|lia|].
    destruct o as [[l|e]|w|]; [| | |contradiction].
    + destruct R as (n' & E & I'). rewrite E. cbn [bind]. pose proof (judged_cfg_length _ _ _ _ _ _ J). destruct (IH (T ++ l) n' (i + 1) I' G Ml) as (o & Ro & Rr).
      { rewrite app_length. lia. } { lia. }
      exists o. split; [eapply rc_ok; eassumption|exact Rr].
    + destruct R as (n' & E). rewrite E. cbn [bind]. unfold to_u32. destruct (N.ltb_spec i (2 ^ 32)) as [Hi|Hi].
      2:{ eexists. split; [eapply rc_index; eassumption|]. reflexivity. }
      cbn [bind]. unfold set_expression_index, rs_debug_assert.
      destruct (err_index e) as [k|] eqn:Ei.
      * destruct (debug_assertions p) eqn:D; cbn [andb negb bind].
        -- eexists. split; [eapply rc_assert; [exact J|exact Hi|congruence|exact D]|]. reflexivity.
        -- eexists. split; [eapply rc_err; [exact J|exact Hi|right; exact D]|]. reflexivity.
      * rewrite andb_false_r. cbn [bind]. eexists. split; [eapply rc_err; [exact J|exact Hi|left; exact Ei]|]. reflexivity.
    + rewrite R. eexists. split; [apply rc_panic; exact J|]. reflexivity.
Qed.

Definition made (m : mode) : database := Database (RoseEngine FullRose (scan_mode m)).
Definition finish (m : mode) (o : outcome (result compile_error (list lit_request))) : outcome (result compile_error database) :=
  match o with Ret (ROk _) => Ret (ROk (made m)) | Ret (RErr e) => Ret (RErr e) | Panic w => Panic w | Diverge => Diverge end.
Lemma compile_cfg : forall p g es fs ids m, es <> [] -> N.of_nat (List.length es) <= limit_pattern_count g -> usize_limits p g ->
  exists o, run_cfg p g [] 0 (items_of es fs ids) o /\ compile_multi_int p es fs ids m g = finish m o.
Proof.
  intros p g es fs ids m Ne Lc Sn. pose proof (items_of_length es fs ids) as L. set (cc := CompileContext (is_streaming m) (is_vectored m) g).
  assert (Eq : compile_multi_int p es fs ids m g = bindr (add_all p (ng_new cc (N.of_nat (List.length es)) (som_precision m)) 0 (zip3 es fs ids)) (fun n => Ret (ROk (build n)))).
  { unfold compile_multi_int. destruct es as [|e0 es0]; [contradiction|]. cbv zeta. replace (limit_pattern_count g <? N.of_nat (List.length (e0 :: es0))) with false by lia. reflexivity. }
  rewrite Eq. clear Eq. destruct (add_all_cfg p g (N.of_nat (List.length es)) cc (items_of es fs ids) [] (ng_new cc (N.of_nat (List.length es)) (som_precision m)) 0) as (o & R & M).
  { apply (hist_inv_new p _ cc). } { reflexivity. } { destruct Sn as (_ & _ & X & _). exact X. } { cbn [List.length]. lia. } { destruct Sn as (_ & _ & _ & X & _). lia. }
  exists o. split; [exact R|]. rewrite items_of_zip in M. destruct o as [[T|e]|w|]; [| | |contradiction].
  - destruct M as (n & E & I). rewrite E. cbn [bindr bind finish]. unfold build, build_rose, made. rewrite (hi_rose _ _ _ _ _ _ I). destruct m as [|h|]; reflexivity.
  - rewrite M. reflexivity.
  - rewrite M. reflexivity.
Qed.
Lemma acceptable_upto_parse : forall n p it, acceptable_upto n p it -> exists t m, parse p (it_expr it) (item_mode it) = Ret (ROk (t, m)).
Proof.
  intros n p it [_ _ (body & Bo & A & B & G)]. apply (body_starts _ _ (item_mode it)) in Bo. destruct Bo as (m' & St).
  apply balanced_derivation in B. destruct B as (e & W & T).
  exists (tree (caseless (item_mode it)) e), m'. apply parse_outcome_fun. eapply po_ok; eassumption.
Qed.
Lemma error_ext : forall e e', err_kind e = err_kind e' -> err_reason e = err_reason e' -> err_index e = err_index e' -> e = e'.
Proof. intros [a b c] [a' b' c']. cbn. congruence. Qed.
Lemma enters_inv : forall g T q, enters g T q = true <->
  shortcut_literals g = true /\ mixed_case (lr_lit q) = false /\ forall t, In t T -> lr_id t = lr_id q -> lr_single t = lr_single q.
Proof.
  intros g T q. unfold enters. rewrite !andb_true_iff, negb_true_iff, forallb_forall. split.
  - intros [[A B] C]. conjs; auto. intros t It E. specialize (C t It). rewrite E, N.eqb_refl in C. apply eqb_prop in C. exact C.
  - intros (A & B & C). conjs; auto. intros t It. destruct (N.eqb_spec (lr_id t) (lr_id q)) as [E|]; [|reflexivity]. rewrite (C t It E). apply eqb_reflx.
Qed.
Lemma first_request_In : forall T id t, first_request T id = Some t -> In t T /\ lr_id t = id.
Proof. intros T id t F. apply find_some in F. destruct F as [A B]. apply N.eqb_eq in B. auto. Qed.
Lemma answered_fun : forall g T q a a', answered g T q a -> answered g T q a' -> a = a'.
Proof.
  intros g T q a a' A A'. assert (X : forall t, enters g T q = true -> first_request T (lr_id q) = Some t -> lr_single t <> lr_single q -> False).
  { intros t E F N. apply enters_inv in E. apply first_request_In in F. apply N. apply E; apply F. }
  assert (Y : enters g T q = true -> shortcut_literals g = true /\ mixed_case (lr_lit q) = false) by (intro E; apply enters_inv in E; tauto).
  destruct A as [S|M|t e S M F N K I R|E Z|E Z D|E Z D]; destruct A' as [S'|M'|t' e' S' M' F' N' K' I' R'|E' Z'|E' Z' D'|E' Z' D']; try reflexivity; try congruence; try lia;
    try (exfalso; eapply X; eassumption); try (destruct (Y E); congruence); try (destruct (Y E'); congruence).
  assert (t' = t) by congruence. subst t'. f_equal. apply error_ext; congruence.
Qed.
Lemma judged_cfg_fun : forall p g T i it o o', judged_cfg p g T i it o -> judged_cfg p g T i it o' -> o = o'.
Proof.
  intros p g T i it o o' J J'.
  assert (X : forall a, acceptable_upto (limit_pattern_length g) p it -> str_len (it_expr it) <= limit_pattern_length g /\ ~ (quiet it = true /\ som_leftmost it = true) /\ (parse p (it_expr it) (item_mode it) = a -> exists t, a = Ret (ROk t))).
  { intros a Ac. conjs; [apply Ac|apply Ac|]. intros <-. destruct (acceptable_upto_parse _ p it Ac) as (t & m & ->). eauto. }
  destruct J as [L|L Q S|e L F P|w L F P|body Ac B Li Al Hi|body Ac B Nl Fi|body Ac B Nl Fi|body e Ac B Li Sh Hi An|body Ac B Li Sh Hi An];
    destruct J' as [L'|L' Q' S'|e' L' F' P'|w' L' F' P'|body' Ac' B' Li' Al' Hi'|body' Ac' B' Nl' Fi'|body' Ac' B' Nl' Fi'|body' e' Ac' B' Li' Sh' Hi' An'|body' Ac' B' Li' Sh' Hi' An'];
    try reflexivity; try lia; try (exfalso; tauto); try congruence;
    try (match goal with Ac : acceptable_upto _ _ _ |- _ => destruct (X (Panic PAssert) Ac) as (Y1 & Y2 & _) end; lia);
    try (match goal with Ac : acceptable_upto _ _ _ |- _ => destruct (X (Panic PAssert) Ac) as (Y1 & Y2 & _) end; exfalso; tauto);
    try (match goal with Ac : acceptable_upto _ _ _, P : parse _ _ _ = ?a |- _ => destruct (X a Ac) as (_ & _ & Y); destruct (Y P); discriminate end);
    pose proof (body_fun _ _ _ B B') as Eb; subst body'; try reflexivity; try contradiction; try lia;
    try (match goal with Sh : shortcuts g = true |- _ => unfold shortcuts in Sh; apply andb_true_iff in Sh; destruct Sh end);
    try (match goal with Nl : allow_literal g = true -> _ |- _ => destruct Nl as [N1 N2]; [assumption|assumption|]; try lia; congruence end);
    pose proof (answered_fun _ _ _ _ _ An An'); congruence.
Qed.
Lemma run_cfg_fun : forall p g T i l o, run_cfg p g T i l o -> forall o', run_cfg p g T i l o' -> o = o'.
Proof.
  intros p g T i l o R. induction R as [T i|T i it t l o J R IH|T i it t e J Hi D|T i it t e J Hi N D|T i it t e J Hi|T i it t w J]; intros o' R';
    inversion R' as [|? ? ? ? l' ? J' R''|? ? ? ? e' J' Hi' D'|? ? ? ? e' J' Hi' N' D'|? ? ? ? e' J' Hi'|? ? ? ? w' J']; subst;
    try reflexivity; try lia; pose proof (judged_cfg_fun _ _ _ _ _ _ _ J J') as E; try discriminate E.
  - injection E as <-. apply IH. exact R''.
  - injection E as <-. reflexivity.
  - injection E as <-. destruct D; congruence.
  - injection E as <-. destruct D'; congruence.
  - exact E.
Qed.

(** ** What of the configuration matters *)
Definition alike (g g' : grey) : Prop :=
  shortcuts g = shortcuts g' /\ limit_pattern_length g = limit_pattern_length g' /\ (limit_report_count g = 0 <-> limit_report_count g' = 0).
Lemma judged_alike : forall p g g' T i it o, alike g g' -> i < 2 ^ 32 \/ allow_literal g = allow_literal g' -> judged_cfg p g T i it o -> judged_cfg p g' T i it o.
Proof.
  intros p g g' T i it o (S & L & R) Hx J.
  assert (An : forall q a, shortcuts g = true -> answered g T q a -> answered g' T q a).
  { intros q a Sh A. pose proof Sh as Sh'. rewrite S in Sh'. unfold shortcuts in Sh, Sh'. apply andb_true_iff in Sh, Sh'. destruct Sh as [_ Sh], Sh' as [_ Sh'].
    assert (E : enters g' T q = enters g T q) by (unfold enters; rewrite Sh, Sh'; reflexivity).
    destruct A as [S1|M|t e S1 M F N K I Rs|E1 Z|E1 Z D|E1 Z D]; [congruence|apply an_mixed; exact M|eapply an_clash; eassumption|apply an_limit; [congruence|tauto]|apply an_deep; [congruence|tauto|exact D]|apply an_taken; [congruence|tauto|exact D]]. }
  destruct J as [Lg|Lg Q Sm|e Lg F P|w Lg F P|body Ac B Li Al Hi|body Ac B Nl Fi|body Ac B Nl Fi|body e Ac B Li Sh Hi A|body Ac B Li Sh Hi A]; rewrite ?L in *.
  - apply jc_long; assumption.
  - apply jc_flags; assumption.
  - apply jc_parse; assumption.
  - apply jc_panic; assumption.
  - eapply jc_index; [exact Ac|exact B|exact Li|destruct Hx; [lia|congruence]|exact Hi].
  - eapply jc_graph; [exact Ac|exact B| |exact Fi]. intros Al' Li. unfold shortcuts in S. rewrite Al' in S. destruct (allow_literal g) eqn:Al.
    + destruct (Nl eq_refl Li) as [N1 N2]. rewrite N1 in S. split; [symmetry; exact S|exact N2].
    + split; [symmetry; exact S|]. destruct Hx; [assumption|congruence].
  - eapply jc_big; [exact Ac|exact B| |exact Fi]. intros Al' Li. unfold shortcuts in S. rewrite Al' in S. destruct (allow_literal g) eqn:Al.
    + destruct (Nl eq_refl Li) as [N1 N2]. rewrite N1 in S. split; [symmetry; exact S|exact N2].
    + split; [symmetry; exact S|]. destruct Hx; [assumption|congruence].
  - eapply jc_fails; [exact Ac|exact B|exact Li|congruence|exact Hi|apply An; assumption].
  - eapply jc_literal; [exact Ac|exact B|exact Li|congruence|exact Hi|apply An; assumption].
Qed.
Lemma run_alike : forall p g g' T i l o, alike g g' -> i + N.of_nat (List.length l) <= 2 ^ 32 \/ allow_literal g = allow_literal g' -> run_cfg p g T i l o -> run_cfg p g' T i l o.
Proof.
  intros p g g' T i l o A Hx R. assert (Hj : forall i (it : item) t, i + N.of_nat (List.length (it :: t)) <= 2 ^ 32 \/ allow_literal g = allow_literal g' -> i < 2 ^ 32 \/ allow_literal g = allow_literal g').
  { intros i' it t [X|X]; [left; cbn [List.length] in X; lia|right; exact X]. }
  induction R as [T i|T i it t l o J R IH|T i it t e J Hi D|T i it t e J Hi N D|T i it t e J Hi|T i it t w J]; try apply Hj in Hx as Hy.
  - constructor.
  - eapply rc_ok; [eapply judged_alike; eassumption|apply IH]. destruct Hx as [X|X]; [left; cbn [List.length] in X; lia|right; exact X].
  - eapply rc_err; [eapply judged_alike; eassumption|exact Hi|exact D].
  - eapply rc_assert; [eapply judged_alike; eassumption|exact Hi|exact N|exact D].
  - eapply rc_index; [eapply judged_alike; eassumption|exact Hi].
  - eapply rc_panic; eapply judged_alike; eassumption.
Qed.

(** ** Without shortcuts *)
Definition unnamed (a b : item) : Prop := it_expr a = it_expr b /\ it_flags a = it_flags b.
Lemma unnamed_judged : forall p g T T' i a b o, shortcuts g = false -> unnamed a b -> judged_cfg p g T i a o -> judged_cfg p g T' i b o.
Proof.
  intros p g T T' i a b o S [E F] J.
  assert (Q : quiet b = quiet a) by (unfold quiet; rewrite F; reflexivity). assert (Sm : som_leftmost b = som_leftmost a) by (unfold som_leftmost; rewrite F; reflexivity).
  assert (M : item_mode b = item_mode a) by (unfold item_mode; rewrite F; reflexivity).
  assert (Ac : acceptable_upto (limit_pattern_length g) p a -> acceptable_upto (limit_pattern_length g) p b) by (intros [A1 A2 A3]; constructor; rewrite <- ?E, ?Q, ?Sm; assumption).
  destruct J as [Lg|Lg Qt Sl|e Lg Fl P|w Lg Fl P|body Aa B Li Al Hi|body Aa B Nl Fi|body Aa B Nl Fi|body e Aa B Li Sh Hi A|body Aa B Li Sh Hi A]; try congruence; rewrite E in *.
  - apply jc_long; assumption.
  - apply jc_flags; [assumption|congruence|congruence].
  - apply jc_parse; [assumption|rewrite Q, Sm; assumption|rewrite M; assumption].
  - apply jc_panic; [assumption|rewrite Q, Sm; assumption|rewrite M; assumption].
  - eapply jc_index; [apply Ac; exact Aa|exact B|exact Li|exact Al|exact Hi].
  - eapply jc_graph; [apply Ac; exact Aa|exact B|exact Nl|exact Fi].
  - eapply jc_big; [apply Ac; exact Aa|exact B|exact Nl|exact Fi].
Qed.
Lemma unnamed_run : forall p g T i l o, shortcuts g = false -> run_cfg p g T i l o -> forall T' l', Forall2 unnamed l l' ->
  exists o', run_cfg p g T' i l' o' /\ forall m, finish m o' = finish m o.
Proof.
  intros p g T i l o S R. induction R as [T i|T i it t l o J R IH|T i it t e J Hi D|T i it t e J Hi N D|T i it t e J Hi|T i it t w J]; intros T' l' F; inversion F as [|? b ? t' U F']; subst.
  - eexists. split; [constructor|reflexivity].
  - destruct (IH (T' ++ l) t' F') as (o' & R' & E). exists o'. split; [|exact E]. eapply rc_ok; [eapply unnamed_judged; eassumption|exact R'].
  - eexists. split; [eapply rc_err; [eapply unnamed_judged; eassumption|exact Hi|exact D]|reflexivity].
  - eexists. split; [eapply rc_assert; [eapply unnamed_judged; eassumption|exact Hi|exact N|exact D]|reflexivity].
  - eexists. split; [eapply rc_index; [eapply unnamed_judged; eassumption|exact Hi]|reflexivity].
  - eexists. split; [eapply rc_panic; eapply unnamed_judged; eassumption|reflexivity].
Qed.

(** ** Acceptance *)
Definition agreeing (a b : item) : Prop := literal_item a -> literal_item b -> it_id a = it_id b -> single_match a = single_match b.
Definition welcome (g : grey) (T : list lit_request) (it : item) : Prop :=
  literal_item it -> limit_report_count g <> 0 /\ forall t, In t T -> lr_id t = it_id it -> lr_single t = single_match it.
Definition fine (p : profile) (g : grey) (it : item) : Prop := acceptable_upto (limit_pattern_length g) p it /\ in_range g it.
Lemma judged_accepts : forall p g T i it o, judged_cfg p g T i it o ->
  ((exists l, o = Ret (ROk l)) <-> fine p g it /\ (shortcuts g = true -> welcome g T it) /\ (allow_literal g = true -> literal_item it -> i < 2 ^ 32)).
Proof.
  intros p g T i it o J.
  assert (Lk : forall body, N.of_nat (List.length (lit_text body)) = lit_length (lr_lit (request_of i it body))).
  { intro body. unfold request_of, lit_length, text_literal. cbn [lr_lit lit_s]. rewrite map_length. reflexivity. }
  split.
  - intros (l & ->). inversion J as [| | | | |body Ac B Nl Fi| | |body Ac B Li Sh Hi A]; subst; (split; [split; [exact Ac|]|split]).
    + intros b B'. rewrite (body_fun _ _ _ B' B). split; [|intros _; exact Fi]. intros [Sh Li]. unfold shortcuts in Sh. apply andb_true_iff in Sh. destruct Sh as [S1 S2]. destruct (Nl S1 Li). congruence.
    + intros Sh (b & B' & Li). rewrite (body_fun _ _ _ B' B) in Li. unfold shortcuts in Sh. apply andb_true_iff in Sh. destruct Sh as [S1 S2]. destruct (Nl S1 Li). congruence.
    + intros Al (b & B' & Li). rewrite (body_fun _ _ _ B' B) in Li. apply (Nl Al Li).
    + intros b B'. rewrite (body_fun _ _ _ B' B). split; [|intro X; destruct X; auto]. intros _. inversion A as [| | | | |En Z D]; subst. rewrite Lk. exact D.
    + intros _ _. inversion A as [| | | | |En Z D]; subst. apply enters_inv in En. split; [exact Z|]. apply En.
    + intros _ _. exact Hi.
  - intros ((Ac & Ir) & Wl & Ix). destruct (acceptable_upto_parse _ _ _ Ac) as (t & m & P). destruct Ac as [A1 A2 A3].
    destruct J as [Lg|Lg Q Sm|e Lg F P'|w Lg F P'|body Ac B Li Al Hi|body Ac B Nl Fi|body Ac B Nl Fi|body e Ac B Li Sh Hi A|body Ac B Li Sh Hi A]; try (exfalso; tauto); try lia; try congruence; try eauto.
    { exfalso. assert (i < 2 ^ 32) by (apply Ix; [exact Al|exists body; auto]). lia. }
    { exfalso. apply Fi. apply (Ir body B). intros [Sh Li]. unfold shortcuts in Sh. apply andb_true_iff in Sh. destruct Sh as [S1 S2]. destruct (Nl S1 Li). congruence. }
    exfalso. destruct (Wl Sh) as [Z Ag]; [exists body; auto|]. inversion A as [| |t' e' S1 M F N K I Rs|En Z'|En Z' D|]; subst; try contradiction.
    + apply first_request_In in F. apply N. apply Ag; apply F.
    + destruct (Ir body B) as [X _]. specialize (X (conj Sh Li)). rewrite Lk in X. lia.
Qed.
(** The literals of a set that starts at index [i] all have an index that graph_fits 32 bits. *)
Definition indexed (i : N) (l : list item) : Prop := forall k it, nth_error l k = Some it -> literal_item it -> i + N.of_nat k < 2 ^ 32.
Lemma indexed_cons : forall i it l, indexed i (it :: l) <-> (literal_item it -> i < 2 ^ 32) /\ indexed (i + 1) l.
Proof.
  intros i it l. split.
  - intro H. split; [intro Lt; specialize (H 0%nat it eq_refl Lt); lia|]. intros k x E Lt. specialize (H (S k) x E Lt). lia.
  - intros [A B] [|k] x E Lt; cbn [nth_error] in E; [injection E as ->; specialize (A Lt); lia|]. specialize (B k x E Lt). lia.
Qed.
Lemma run_accepts : forall p g T i l o, run_cfg p g T i l o ->
  ((exists T', o = Ret (ROk T')) <->
   (forall it, In it l -> fine p g it) /\ (shortcuts g = true -> (forall it, In it l -> welcome g T it) /\ ForallOrdPairs agreeing l) /\ (allow_literal g = true -> indexed i l)).
Proof.
  intros p g T i l o R. induction R as [T i|T i it t l o J R IH|T i it t e J Hi D|T i it t e J Hi N D|T i it t e J Hi|T i it t w J].
  - split; [|eauto]. intros _. conjs; [intros it []|intros _; split; [intros it []|constructor]|]. intros _ [|k] it E; discriminate E.
  - rewrite IH. clear IH. assert (Ok : exists l', Ret (ROk l : result compile_error (list lit_request)) = Ret (ROk l')) by eauto. apply (judged_accepts _ _ _ _ _ _ J) in Ok. destruct Ok as (Ac & Wl & Wi).
    assert (Lx : shortcuts g = true -> forall r, In r l <-> exists body, body_of (it_expr it) body /\ literal_text body /\ r = request_of i it body).
    { intros Sh r. inversion J as [| | | | |body Ac' B Nl Fi| | |body Ac' B Li _ _ A]; subst; cbn [In].
      - split; [intros []|]. intros (b & B' & Li & _). rewrite (body_fun _ _ _ B' B) in Li. unfold shortcuts in Sh. apply andb_true_iff in Sh. destruct Sh as [S1 S2]. destruct (Nl S1 Li). congruence.
      - split; [intros [<-|[]]; eauto|]. intros (b & B' & _ & ->). left. rewrite (body_fun _ _ _ B' B). reflexivity. }
    split; intros (H1 & H2 & H5); conjs.
    + intros x [<-|I]; auto.
    + intro Sh. destruct (H2 Sh) as [H3 H4]. split.
      * intros x [<-|I]; [auto|]. intro Lt. destruct (H3 x I Lt) as [Z W]. split; [exact Z|]. intros r Ir E. apply W; [apply in_or_app; left; exact Ir|exact E].
      * constructor; [|exact H4]. apply Forall_forall. intros x I La Lb E. destruct (H3 x I Lb) as [_ W]. destruct La as (b & B & Li). apply (W (request_of i it b)); [|exact E].
        apply in_or_app. right. apply (Lx Sh). eauto.
    + intro Al. apply indexed_cons. auto.
    + intros x I. apply H1. right; exact I.
    + intro Sh. destruct (H2 Sh) as [H3 H4]. inversion H4 as [|? ? Fa Fo]; subst. split; [|exact Fo]. intros x I Lt. destruct (H3 x (or_intror I) Lt) as [Z W]. split; [exact Z|].
      intros r Ir E. apply in_app_or in Ir. destruct Ir as [Ir|Ir]; [apply W; assumption|]. apply (Lx Sh) in Ir. destruct Ir as (b & B & Li & ->). cbn [request_of lr_id lr_single] in *.
      rewrite Forall_forall in Fa. apply (Fa x I); [exists b; auto|exact Lt|exact E].
    + intro Al. specialize (H5 Al). apply indexed_cons in H5. apply H5.
  - split; [intros (T' & X); discriminate|]. intros (H1 & H2 & H3). assert (Bad : exists l', Ret (RErr e : result compile_error (list lit_request)) = Ret (ROk l')).
    { apply (judged_accepts _ _ _ _ _ _ J). conjs; [apply H1; left; reflexivity|intro Sh; apply (H2 Sh); left; reflexivity|]. intros Al. specialize (H3 Al). apply indexed_cons in H3. apply H3. }
    destruct Bad; discriminate.
  - split; [intros (T' & X); discriminate|]. intros (H1 & H2 & H3). assert (Bad : exists l', Ret (RErr e : result compile_error (list lit_request)) = Ret (ROk l')).
    { apply (judged_accepts _ _ _ _ _ _ J). conjs; [apply H1; left; reflexivity|intro Sh; apply (H2 Sh); left; reflexivity|]. intros Al. specialize (H3 Al). apply indexed_cons in H3. apply H3. }
    destruct Bad; discriminate.
  - split; [intros (T' & X); discriminate|]. intros (H1 & H2 & H3). assert (Bad : exists l', Ret (RErr e : result compile_error (list lit_request)) = Ret (ROk l')).
    { apply (judged_accepts _ _ _ _ _ _ J). conjs; [apply H1; left; reflexivity|intro Sh; apply (H2 Sh); left; reflexivity|]. intros Al. specialize (H3 Al). apply indexed_cons in H3. apply H3. }
    destruct Bad; discriminate.
  - split; [intros (T' & X); discriminate|]. intros (H1 & H2 & H3). assert (Bad : exists l', (Panic w : outcome (result compile_error (list lit_request))) = Ret (ROk l')).
    { apply (judged_accepts _ _ _ _ _ _ J). conjs; [apply H1; left; reflexivity|intro Sh; apply (H2 Sh); left; reflexivity|]. intros Al. specialize (H3 Al). apply indexed_cons in H3. apply H3. }
    destruct Bad; discriminate.
Qed.
