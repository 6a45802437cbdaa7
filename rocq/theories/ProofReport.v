(** Invariants of the report manager over request histories. *)
From Verif Require Import Base ModelUtil ModelReport SpecReport ProofBase.
Local Open Scope N_scope.

(** ** Index maps *)
Definition idx_map {A} (l : list A) : list (A * N) := combine l (seqN 0 (List.length l)).

Section Idx.
  Context {A : Type} (eqb : A -> A -> bool) (eqb_ok : forall a b, eqb a b = true <-> a = b).
  Lemma eqb_dec : forall a b : A, {a = b} + {a <> b}.
  Proof. intros a b. destruct (eqb a b) eqn:E; [left; apply eqb_ok; exact E|right; intros H; apply eqb_ok in H; congruence]. Qed.
  Lemma assoc_combine_none : forall l s x, ~ In x l -> assoc eqb (combine l (seqN s (List.length l))) x = None.
  Proof.
    induction l as [|y l IH]; intros s x H; simpl; [reflexivity|].
    destruct (eqb x y) eqn:E; [apply eqb_ok in E; subst; exfalso; apply H; left; reflexivity|].
    apply IH. intro I; apply H; right; exact I.
  Qed.
  Lemma assoc_combine_some : forall l s x, In x l ->
    exists k, assoc eqb (combine l (seqN s (List.length l))) x = Some (s + N.of_nat k) /\ nth_error l k = Some x.
  Proof.
    induction l as [|y l IH]; intros s x H; [contradiction|]. simpl.
    destruct (eqb x y) eqn:E.
    - apply eqb_ok in E. subst. exists 0%nat. split; [f_equal; lia|reflexivity].
    - destruct H as [->|H]; [rewrite (proj2 (eqb_ok x x) eq_refl) in E; discriminate|].
      destruct (IH (s + 1) x H) as (k & K1 & K2). exists (S k). rewrite K1. split; [f_equal; lia|exact K2].
  Qed.
  Lemma assoc_idx : forall l x, NoDup l ->
    match assoc eqb (idx_map l) x with
    | Some k => nth_error l (N.to_nat k) = Some x /\ k < N.of_nat (List.length l)
    | None => ~ In x l
    end.
  Proof.
    intros l x Hn. unfold idx_map. destruct (in_dec eqb_dec x l) as [I|I].
    - destruct (assoc_combine_some l 0 x I) as (k & -> & K). rewrite N.add_0_l, Nat2N.id. split; [exact K|].
      pose proof (proj1 (nth_error_Some l k) ltac:(congruence)). lia.
    - rewrite assoc_combine_none by exact I. exact I.
  Qed.
End Idx.
Lemma idx_map_snoc : forall {A} (l : list A) x, idx_map (l ++ [x]) = idx_map l ++ [(x, N.of_nat (List.length l))].
Proof.
  intros A l x. unfold idx_map. rewrite app_length. cbn [List.length]. rewrite seqN_app.
  assert (C : forall (a : list A) (b : list N) c d, List.length a = List.length b -> combine (a ++ c) (b ++ d) = combine a b ++ combine c d).
  { induction a as [|y a IH]; intros [|z b] c d H; simpl in *; try discriminate; [reflexivity|]. f_equal. apply IH. lia. }
  rewrite C by (rewrite seqN_length; reflexivity). cbn [seqN combine]. rewrite N.add_0_l. reflexivity.
Qed.
Lemma report_eqb_ok : forall a b, report_eqb a b = true <-> a = b.
Proof. intros [a] [b]. unfold report_eqb. cbn. rewrite N.eqb_eq. split; congruence. Qed.
Lemma NoDup_snoc : forall {A} (l : list A) x, NoDup l -> ~ In x l -> NoDup (l ++ [x]).
Proof.
  intros A l x H I. induction H as [|y l H1 H2 IH]; simpl.
  - constructor; [intros []|constructor].
  - constructor.
    + rewrite in_app_iff. intros [J|[->|[]]]; [auto|]. apply I; left; reflexivity.
    + apply IH. intro J; apply I; right; exact J.
Qed.
Lemma nth_error_app_some : forall {A} (l : list A) k x l', nth_error l k = Some x -> nth_error (l ++ l') k = Some x.
Proof. intros A l k x l' H. rewrite nth_error_app1; [exact H|]. apply nth_error_Some. congruence. Qed.

(** ** The invariant *)
Definition rm_inv (rm : report_manager) : Prop :=
  internal_map rm = idx_map (report_ids rm) /\ NoDup (report_ids rm) /\
  (exists ks, exhaust_map rm = idx_map ks /\ NoDup ks).

Lemma rm_inv_new : forall l, rm_inv (rm_new l).
Proof. intro l. unfold rm_inv, rm_new; simpl. conjs; try constructor. exists []. split; [reflexivity|constructor]. Qed.

(** ** get_internal_id *)
Lemma get_internal_id_cases : forall rm r, rm_inv rm ->
  (exists rm' res, get_internal_id rm r = Ret (rm', res) /\ rm_inv rm' /\
  rm_limit rm' = rm_limit rm /\ external_map rm' = external_map rm /\ exhaust_map rm' = exhaust_map rm /\
  global_exhaust rm' = global_exhaust rm /\
  ((exists k, res = ROk k /\ rm' = rm /\ nth_error (report_ids rm) (N.to_nat k) = Some r /\ k < num_reports rm) \/
   (~ In r (report_ids rm) /\ num_reports rm < rm_limit rm /\ num_reports rm < 2 ^ 32 /\ res = ROk (num_reports rm) /\
      report_ids rm' = report_ids rm ++ [r]) \/
   (~ In r (report_ids rm) /\ rm_limit rm <= num_reports rm /\ rm' = rm /\
      res = RErr (error_new EResourceLimit (lit "Resource limit exceeded."))))) \/
  (get_internal_id rm r = Panic PExpect /\ ~ In r (report_ids rm) /\ num_reports rm < rm_limit rm /\ 2 ^ 32 <= num_reports rm).
Proof.
  intros rm r (Hi & Hn & ks & Hk & Hnk). unfold get_internal_id.
  pose proof (assoc_idx report_eqb report_eqb_ok (report_ids rm) r Hn) as A. rewrite <- Hi in A.
  destruct (assoc report_eqb (internal_map rm) r) as [k|] eqn:E.
  - left. destruct A as [A1 A2]. do 2 eexists. split; [reflexivity|]. conjs; try reflexivity.
    + unfold rm_inv; eauto.
    + left. exists k. auto.
  - destruct (N.leb_spec (rm_limit rm) (num_reports rm)) as [L|L].
    + left. do 2 eexists. split; [reflexivity|]. conjs; try reflexivity.
      * unfold rm_inv; eauto.
      * right; right. auto.
    + unfold num_reports in *. cbv zeta. destruct (N.ltb_spec (N.of_nat (List.length (report_ids rm))) (2 ^ 32)) as [F|F]; [left|right; auto].
      do 2 eexists. split; [reflexivity|]. conjs; try reflexivity.
      * unfold rm_inv. cbn [internal_map report_ids exhaust_map]. conjs.
        -- rewrite Hi. symmetry. apply idx_map_snoc.
        -- apply NoDup_snoc; assumption.
        -- eauto.
      * right; left. auto.
Qed.

(** ** get_exhaustible_key *)
Lemma get_key_ok : forall rm a ks, exhaust_map rm = idx_map ks -> NoDup ks -> N.of_nat (List.length ks) < 2 ^ 32 ->
  exists rm' k, get_exhaustible_key rm a = Ret (rm', k) /\
   rm_limit rm' = rm_limit rm /\ external_map rm' = external_map rm /\ report_ids rm' = report_ids rm /\
   internal_map rm' = internal_map rm /\ global_exhaust rm' = global_exhaust rm /\
   ((rm' = rm /\ nth_error ks (N.to_nat k) = Some a /\ k < N.of_nat (List.length ks)) \/
    (~ In a ks /\ k = N.of_nat (List.length ks) /\ exhaust_map rm' = idx_map (ks ++ [a]))).
Proof.
  intros rm a ks Hk Hn Hl. unfold get_exhaustible_key.
  assert (Len : List.length (exhaust_map rm) = List.length ks).
  { rewrite Hk. unfold idx_map. rewrite combine_length, seqN_length. apply Nat.min_id. }
  rewrite Len. replace (N.of_nat (List.length ks) <? 2 ^ 32) with true by (symmetry; apply N.ltb_lt; exact Hl).
  pose proof (assoc_idx N.eqb N.eqb_eq ks a Hn) as A. rewrite <- Hk in A.
  destruct (assoc N.eqb (exhaust_map rm) a) as [k|] eqn:E.
  - destruct A as [A1 A2]. do 2 eexists. split; [reflexivity|]. conjs; try reflexivity. left. auto.
  - do 2 eexists. split; [reflexivity|]. conjs; try reflexivity. right. conjs; auto.
    cbn [exhaust_map]. rewrite Hk. symmetry; apply idx_map_snoc.
Qed.

(** ** register_ext_report *)
Lemma register_ok : forall rm id e,
  let rm' := fst (register_ext_report rm id e) in
  rm_limit rm' = rm_limit rm /\ report_ids rm' = report_ids rm /\ internal_map rm' = internal_map rm /\
  exhaust_map rm' = exhaust_map rm /\
  match assoc N.eqb (external_map rm) id with
  | None => snd (register_ext_report rm id e) = ROk tt /\ external_map rm' = external_map rm ++ [(id, e)] /\
            global_exhaust rm' = ei_highlander e && global_exhaust rm
  | Some e0 =>
    if Bool.eqb (ei_highlander e0) (ei_highlander e) then
      snd (register_ext_report rm id e) = ROk tt /\ external_map rm' = external_map rm /\
      global_exhaust rm' = ei_highlander e && global_exhaust rm
    else
      snd (register_ext_report rm id e) = RErr (error_with_index (ei_first_index e) (conflict_message id e e0)) /\ rm' = rm
  end.
Proof.
  intros rm id e. unfold register_ext_report. destruct (assoc N.eqb (external_map rm) id) as [e0|].
  - destruct (Bool.eqb (ei_highlander e0) (ei_highlander e)); cbn [negb fst snd rm_limit report_ids internal_map exhaust_map external_map global_exhaust].
    + conjs; try reflexivity. destruct (ei_highlander e); reflexivity.
    + conjs; reflexivity.
  - cbn [fst snd rm_limit report_ids internal_map exhaust_map external_map global_exhaust].
    conjs; try reflexivity. destruct (ei_highlander e); reflexivity.
Qed.

Lemma rm_run_app : forall h1 h2 rm, rm_run rm (h1 ++ h2) = let! rm' := rm_run rm h1 in rm_run rm' h2.
Proof.
  induction h1 as [|o h1 IH]; intros h2 rm; cbn [app rm_run bind]; [reflexivity|].
  destruct (rm_step rm o); cbn [bind]; [apply IH|reflexivity|reflexivity].
Qed.

(** ** Distinct elements in order of first occurrence *)
Section Dedup.
  Context {A : Type} (eqb : A -> A -> bool) (eqb_ok : forall a b, eqb a b = true <-> a = b).
  Fixpoint dedup (l : list A) : list A :=
    match l with [] => [] | x :: t => x :: filter (fun y => negb (eqb y x)) (dedup t) end.
  Lemma in_dedup : forall l x, In x (dedup l) <-> In x l.
  Proof.
    induction l as [|y l IH]; intro x; simpl; [reflexivity|]. rewrite filter_In, IH, negb_true_iff.
    split; [tauto|]. intros [->|I]; [auto|]. destruct (eqb x y) eqn:E; [apply eqb_ok in E; auto|auto].
  Qed.
  Lemma dedup_NoDup : forall l, NoDup (dedup l).
  Proof.
    induction l as [|y l IH]; simpl; constructor.
    - rewrite filter_In. intros [_ H]. rewrite (proj2 (eqb_ok y y) eq_refl) in H. discriminate.
    - apply NoDup_filter. exact IH.
  Qed.
  Lemma dedup_snoc : forall l x, dedup (l ++ [x]) = if existsb (eqb x) l then dedup l else dedup l ++ [x].
  Proof.
    induction l as [|y l IH]; intro x; simpl; [reflexivity|]. rewrite IH.
    destruct (existsb (eqb x) l) eqn:E; [rewrite orb_true_r; reflexivity|].
    rewrite orb_false_r, filter_app. simpl. destruct (eqb x y); simpl; [rewrite app_nil_r|]; reflexivity.
  Qed.
  Lemma existsb_In : forall l x, existsb (eqb x) l = true <-> In x l.
  Proof.
    intros l x. rewrite existsb_exists. split.
    - intros (y & I & E). apply eqb_ok in E. subst; exact I.
    - intro I. exists x. split; [exact I|apply eqb_ok; reflexivity].
  Qed.
End Dedup.

Definition op_report (o : rm_op) : list report := match o with AskId r => [r] | _ => [] end.
Definition op_key (o : rm_op) : list N := match o with AskKey a => [a] | _ => [] end.
Lemma asked_reports_dedup : forall h, asked_reports h = dedup report_eqb (flat_map op_report h).
Proof. induction h as [|o h IH]; [reflexivity|]. destruct o; simpl; rewrite <- ?IH; reflexivity. Qed.
Lemma asked_keys_dedup : forall h, asked_keys h = dedup N.eqb (flat_map op_key h).
Proof. induction h as [|o h IH]; [reflexivity|]. destruct o; simpl; rewrite <- ?IH; reflexivity. Qed.

Lemma asked_reports_snoc : forall h r, asked_reports (h ++ [AskId r]) =
  if existsb (report_eqb r) (asked_reports h) then asked_reports h else asked_reports h ++ [r].
Proof.
  intros h r. rewrite !asked_reports_dedup, flat_map_app. simpl. rewrite dedup_snoc.
  destruct (existsb (report_eqb r) (flat_map op_report h)) eqn:E.
  - apply (existsb_In report_eqb report_eqb_ok) in E. rewrite <- (in_dedup report_eqb report_eqb_ok) in E.
    apply (existsb_In report_eqb report_eqb_ok) in E. rewrite E. reflexivity.
  - destruct (existsb (report_eqb r) (dedup report_eqb (flat_map op_report h))) eqn:F; [|reflexivity].
    apply (existsb_In report_eqb report_eqb_ok) in F. rewrite (in_dedup report_eqb report_eqb_ok) in F.
    apply (existsb_In report_eqb report_eqb_ok) in F. congruence.
Qed.
Lemma asked_reports_snoc_other : forall h o, op_report o = [] -> asked_reports (h ++ [o]) = asked_reports h.
Proof. intros h o H. rewrite !asked_reports_dedup, flat_map_app. simpl. rewrite H. simpl. rewrite app_nil_r. reflexivity. Qed.
Lemma asked_keys_snoc : forall h a, asked_keys (h ++ [AskKey a]) =
  if existsb (N.eqb a) (asked_keys h) then asked_keys h else asked_keys h ++ [a].
Proof.
  intros h r. rewrite !asked_keys_dedup, flat_map_app. simpl. rewrite dedup_snoc.
  destruct (existsb (N.eqb r) (flat_map op_key h)) eqn:E.
  - apply (existsb_In N.eqb N.eqb_eq) in E. rewrite <- (in_dedup N.eqb N.eqb_eq) in E.
    apply (existsb_In N.eqb N.eqb_eq) in E. rewrite E. reflexivity.
  - destruct (existsb (N.eqb r) (dedup N.eqb (flat_map op_key h))) eqn:F; [|reflexivity].
    apply (existsb_In N.eqb N.eqb_eq) in F. rewrite (in_dedup N.eqb N.eqb_eq) in F.
    apply (existsb_In N.eqb N.eqb_eq) in F. congruence.
Qed.
Lemma asked_keys_snoc_other : forall h o, op_key o = [] -> asked_keys (h ++ [o]) = asked_keys h.
Proof. intros h o H. rewrite !asked_keys_dedup, flat_map_app. simpl. rewrite H. simpl. rewrite app_nil_r. reflexivity. Qed.
Lemma asked_keys_NoDup : forall h, NoDup (asked_keys h).
Proof. intro h. rewrite asked_keys_dedup. apply dedup_NoDup. exact N.eqb_eq. Qed.
Lemma asked_keys_mono : forall h o, (List.length (asked_keys h) <= List.length (asked_keys (h ++ [o])))%nat.
Proof.
  intros h [r|id e|a]; try (rewrite asked_keys_snoc_other by reflexivity; lia).
  rewrite asked_keys_snoc. destruct (existsb _ _); [lia|]. rewrite app_length. lia.
Qed.

Lemma first_registration_snoc : forall h o id, first_registration (h ++ [o]) id =
  match first_registration h id with
  | Some e => Some e
  | None => match o with Register id' e => if id =? id' then Some e else None | _ => None end
  end.
Proof.
  induction h as [|o' h IH]; intros o id; simpl.
  - destruct o; reflexivity.
  - destruct o'; auto. destruct (id =? id0); auto.
Qed.
(** Registrations that agree with the first one for their id. *)
Definition good_registrations (h : list rm_op) : Prop :=
  forall h1 h2 id e, h = h1 ++ Register id e :: h2 ->
    (match first_registration h1 id with Some e0 => ei_highlander e0 = ei_highlander e | None => True end) ->
    ei_highlander e = true.

Record hist_inv (limit : N) (h : list rm_op) (rm : report_manager) : Prop := HistInv {
  hi_inv : rm_inv rm;
  hi_limit : rm_limit rm = limit;
  hi_reports : report_ids rm = firstn (N.to_nat limit) (asked_reports h);
  hi_keys : exhaust_map rm = idx_map (asked_keys h);
  hi_ext : forall id, assoc N.eqb (external_map rm) id = first_registration h id;
  hi_glob : global_exhaust rm = true <-> good_registrations h;
  hi_few : num_reports rm <= 2 ^ 32
}.

Lemma assoc_snoc : forall {K V} (eqb : K -> K -> bool) (m : list (K * V)) k v x,
  assoc eqb (m ++ [(k, v)]) x = match assoc eqb m x with Some y => Some y | None => if eqb x k then Some v else None end.
Proof.
  intros K V eqb m k v x; induction m as [|[k' v'] m IH]; simpl; [reflexivity|]. destruct (eqb x k'); auto.
Qed.
Lemma snoc_split : forall {A} (h h1 h2 : list A) o x, h ++ [o] = h1 ++ x :: h2 ->
  (h2 = [] /\ h1 = h /\ x = o) \/ exists h2', h2 = h2' ++ [o] /\ h = h1 ++ x :: h2'.
Proof.
  intros A h h1 h2 o x H. destruct h2 as [|z h2'] using rev_ind.
  - left. apply app_inj_tail in H. destruct H; auto.
  - right. clear IHh2'. exists h2'. change (h1 ++ x :: h2' ++ [z]) with (h1 ++ (x :: h2') ++ [z]) in H.
    rewrite app_assoc in H. apply app_inj_tail in H. destruct H as [-> ->]. auto.
Qed.
Lemma good_snoc_other : forall h o, (match o with Register _ _ => False | _ => True end) ->
  (good_registrations (h ++ [o]) <-> good_registrations h).
Proof.
  intros h o Ho. unfold good_registrations. split; intros H h1 h2 id e E F.
  - apply (H h1 (h2 ++ [o]) id e); [|exact F]. subst. rewrite <- app_assoc. reflexivity.
  - destruct (snoc_split _ _ _ _ _ E) as [(-> & -> & <-)|(h2' & -> & ->)]; [contradiction|]. eapply H; [reflexivity|exact F].
Qed.
Lemma good_snoc : forall h id e, (good_registrations (h ++ [Register id e]) <->
  good_registrations h /\
  (match first_registration h id with Some e0 => ei_highlander e0 = ei_highlander e | None => True end -> ei_highlander e = true)).
Proof.
  intros h id e. unfold good_registrations. split.
  - intro H. split.
    + intros h1 h2 id' e' E F. apply (H h1 (h2 ++ [Register id e]) id' e'); [|exact F]. subst. rewrite <- app_assoc. reflexivity.
    + intro F. exact (H h [] id e eq_refl F).
  - intros [H1 H2] h1 h2 id' e' E F.
    destruct (snoc_split _ _ _ _ _ E) as [(-> & -> & E')|(h2' & -> & ->)].
    + injection E' as -> ->. apply H2. exact F.
    + eapply H1; [reflexivity|exact F].
Qed.

Lemma firstn_snoc_same : forall {A} n (l : list A) x, (n <= List.length l)%nat -> firstn n (l ++ [x]) = firstn n l.
Proof. intros A n l x H. rewrite firstn_app. replace (n - List.length l)%nat with 0%nat by lia. simpl. apply app_nil_r. Qed.
Lemma firstn_snoc_new : forall {A} n (l : list A) x, (List.length l < n)%nat -> firstn n (l ++ [x]) = l ++ [x].
Proof. intros A n l x H. apply firstn_all2. rewrite app_length. simpl. lia. Qed.

Lemma hist_step : forall limit h rm o, hist_inv limit h rm ->
  (exists rm', rm_step rm o = Ret rm' /\ hist_inv limit (h ++ [o]) rm') \/ (rm_step rm o = Panic PExpect /\ no_number limit h o).
Proof.
  intros limit h rm o [Hinv Hlim Hrep Hkey Hext Hg Hfew]. destruct o as [r|id e|a]; cbn [rm_step].
  - assert (Len : num_reports rm = N.min limit (N.of_nat (List.length (asked_reports h)))).
    { unfold num_reports. rewrite Hrep, firstn_length. lia. }
    destruct (get_internal_id_cases rm r Hinv) as [(rm' & res & E & I' & L' & X' & K' & G' & C)|(E & Nin & Lt & Big)].
    2: { right. rewrite E. cbn [bind]. split; [reflexivity|]. cbn [no_number]. rewrite Hlim, Len in Lt. rewrite Len in Big. conjs; [lia| |lia].
      rewrite Hrep in Nin. rewrite firstn_all2 in Nin by lia. exact Nin. }
    left. rewrite E. cbn [bind]. exists rm'. split; [reflexivity|]. constructor.
    + exact I'.
    + congruence.
    + rewrite asked_reports_snoc.
      assert (Ir : existsb (report_eqb r) (asked_reports h) = true <-> In r (asked_reports h))
        by (apply existsb_In, report_eqb_ok).
      destruct C as [(k & _ & -> & Nk & _)|[(Nin & Lt & _ & _ & ->)|(Nin & Le & -> & _)]].
      * assert (In r (asked_reports h)).
        { apply nth_error_In in Nk. rewrite Hrep in Nk. rewrite <- (firstn_skipn (N.to_nat limit)). apply in_app_iff. auto. }
        rewrite (proj2 Ir H). exact Hrep.
      * rewrite Hlim, Len in Lt. rewrite Hrep in Nin |- *. rewrite firstn_all2 in Nin |- * by lia.
        destruct (existsb (report_eqb r) (asked_reports h)) eqn:X; [exfalso; apply Nin, Ir; reflexivity|].
        rewrite firstn_snoc_new by lia. reflexivity.
      * rewrite Hlim, Len in Le. rewrite Hrep. destruct (existsb (report_eqb r) (asked_reports h)); [reflexivity|].
        rewrite firstn_snoc_same by lia. reflexivity.
    + rewrite asked_keys_snoc_other by reflexivity. congruence.
    + intro id. rewrite X', Hext, first_registration_snoc. destruct (first_registration h id); reflexivity.
    + rewrite G', Hg. symmetry. apply good_snoc_other. exact I.
    + destruct C as [(k & _ & -> & _)|[(_ & _ & F & _ & Er)|(_ & _ & -> & _)]]; [exact Hfew| |exact Hfew].
      unfold num_reports in *. rewrite Er, app_length. cbn [List.length]. lia.
  - left. pose proof (register_ok rm id e) as R. cbv zeta in R. destruct R as (R1 & R2 & R3 & R4 & R5).
    eexists. split; [reflexivity|]. rewrite Hext in R5. constructor.
    + unfold rm_inv in *. rewrite R2, R3, R4. exact Hinv.
    + congruence.
    + rewrite R2, asked_reports_snoc_other by reflexivity. exact Hrep.
    + rewrite R4, asked_keys_snoc_other by reflexivity. exact Hkey.
    + intro i. rewrite first_registration_snoc. destruct (first_registration h id) as [e0|] eqn:F.
      * destruct (Bool.eqb (ei_highlander e0) (ei_highlander e)); destruct R5 as [_ R5].
        -- destruct R5 as [-> _]. rewrite Hext. destruct (first_registration h i) eqn:Fi; [reflexivity|].
           destruct (N.eqb_spec i id); [congruence|reflexivity].
        -- rewrite R5, Hext. destruct (first_registration h i) eqn:Fi; [reflexivity|].
           destruct (N.eqb_spec i id); [congruence|reflexivity].
      * destruct R5 as (_ & -> & _). rewrite assoc_snoc, Hext. destruct (first_registration h i); reflexivity.
    + rewrite good_snoc, <- Hg. destruct (first_registration h id) as [e0|] eqn:F.
      * destruct (Bool.eqb (ei_highlander e0) (ei_highlander e)) eqn:B; destruct R5 as [_ R5].
        -- destruct R5 as [_ ->]. apply eqb_prop in B. rewrite andb_true_iff. tauto.
        -- rewrite R5. apply eqb_false_iff in B. tauto.
      * destruct R5 as (_ & _ & ->). rewrite andb_true_iff. tauto.
    + unfold num_reports in *. rewrite R2. exact Hfew.
  - destruct (N.ltb_spec (N.of_nat (List.length (asked_keys h))) (2 ^ 32)) as [Hk'|Hk'].
    2: { right. split; [|exact Hk']. unfold get_exhaustible_key. cbv zeta. rewrite Hkey. unfold idx_map at 1. rewrite combine_length, seqN_length, Nat.min_id.
      replace (N.of_nat (List.length (asked_keys h)) <? 2 ^ 32) with false by lia. reflexivity. }
    left. destruct (get_key_ok rm a (asked_keys h) Hkey (asked_keys_NoDup h) Hk')
      as (rm' & k & E & L' & X' & R' & M' & G' & C).
    rewrite E. cbn [bind]. exists rm'. split; [reflexivity|].
    assert (K' : exhaust_map rm' = idx_map (asked_keys (h ++ [AskKey a]))).
    { rewrite asked_keys_snoc. destruct C as [(-> & Nk & _)|(Nin & _ & ->)].
      - rewrite (proj2 (existsb_In N.eqb N.eqb_eq _ _)); [exact Hkey|]. eapply nth_error_In; exact Nk.
      - destruct (existsb (N.eqb a) (asked_keys h)) eqn:X; [|reflexivity].
        exfalso. apply Nin, (existsb_In N.eqb N.eqb_eq), X. }
    constructor.
    + destruct Hinv as (I1 & I2 & _). unfold rm_inv. rewrite R', M'. conjs; auto.
      eexists. split; [exact K'|apply asked_keys_NoDup].
    + congruence.
    + rewrite R', asked_reports_snoc_other by reflexivity. exact Hrep.
    + exact K'.
    + intro id. rewrite X', Hext, first_registration_snoc. destruct (first_registration h id); reflexivity.
    + rewrite G', Hg. symmetry. apply good_snoc_other. exact I.
    + unfold num_reports in *. rewrite R'. exact Hfew.
Qed.
Lemma no_number_stops : forall limit h rm o, hist_inv limit h rm -> no_number limit h o -> rm_step rm o = Panic PExpect.
Proof.
  intros limit h rm o Hi Nn. destruct (hist_step limit h rm o Hi) as [(rm' & E & Hi')|(E & _)]; [exfalso|exact E].
  destruct Hi as [Hinv Hlim Hrep Hkey Hext Hg Hfew]. destruct o as [r|id e|a]; cbn [no_number] in Nn.
  - destruct Nn as (L & Nin & Big). pose proof (hi_reports _ _ _ Hi') as Hrep'. pose proof (hi_few _ _ _ Hi') as Few. unfold num_reports in Few.
    rewrite Hrep', asked_reports_snoc in Few. destruct (existsb (report_eqb r) (asked_reports h)) eqn:X; [apply Nin; apply (existsb_In report_eqb report_eqb_ok); exact X|].
    rewrite firstn_length, app_length in Few. cbn [List.length] in Few. lia.
  - exact Nn.
  - cbn [rm_step] in E. unfold get_exhaustible_key in E. cbv zeta in E. rewrite Hkey in E. unfold idx_map at 1 in E. rewrite combine_length, seqN_length, Nat.min_id in E.
    replace (N.of_nat (List.length (asked_keys h)) <? 2 ^ 32) with false in E by lia. discriminate E.
Qed.

Lemma hist_new : forall limit, hist_inv limit [] (rm_new limit).
Proof.
  intro limit. constructor; try reflexivity.
  - apply rm_inv_new.
  - cbn. destruct (N.to_nat limit); reflexivity.
  - cbn. split; [|reflexivity]. intros _ h1 h2 id e E. destruct h1; discriminate.
  - vm_compute. discriminate.
Qed.
Lemma asked_keys_prefix : forall h1 h2, (List.length (asked_keys h1) <= List.length (asked_keys (h1 ++ h2)))%nat.
Proof.
  intros h1 h2. revert h1. induction h2 as [|o h2 IH]; intro h1; [rewrite app_nil_r; lia|].
  replace (h1 ++ o :: h2) with ((h1 ++ [o]) ++ h2) by (rewrite <- app_assoc; reflexivity).
  pose proof (IH (h1 ++ [o])). pose proof (asked_keys_mono h1 o). lia.
Qed.
Lemma hist_cases : forall limit h,
  (exists rm, rm_run (rm_new limit) h = Ret rm /\ hist_inv limit h rm) \/
  (rm_run (rm_new limit) h = Panic PExpect /\ exists h1 o h2, h = h1 ++ o :: h2 /\ no_number limit h1 o).
Proof.
  intros limit h. induction h as [|o h IH] using rev_ind.
  - left. eexists. split; [reflexivity|apply hist_new].
  - rewrite rm_run_app. destruct IH as [(rm & E & Hi)|(E & h1 & o1 & h2 & -> & Nn)]; rewrite E; cbn [bind rm_run].
    + destruct (hist_step limit h rm o Hi) as [(rm' & E' & Hi')|(E' & Nn)]; rewrite E'; cbn [bind].
      * left. exists rm'. auto.
      * right. split; [reflexivity|]. exists h, o, []. auto.
    + right. split; [reflexivity|]. exists h1, o1, (h2 ++ [o]). rewrite <- app_assoc. auto.
Qed.
Lemma hist_inv_of : forall limit h rm, rm_run (rm_new limit) h = Ret rm -> hist_inv limit h rm.
Proof. intros limit h rm E. destruct (hist_cases limit h) as [(rm' & E' & Hi)|(E' & _)]; [|congruence]. rewrite E in E'. injection E' as <-. exact Hi. Qed.
Lemma run_prefix : forall rm h1 h2 rm', rm_run rm (h1 ++ h2) = Ret rm' -> exists rm1, rm_run rm h1 = Ret rm1 /\ rm_run rm1 h2 = Ret rm'.
Proof. intros rm h1 h2 rm' E. rewrite rm_run_app in E. destruct (rm_run rm h1) as [rm1| |]; try discriminate E. exists rm1. auto. Qed.
Lemma hist_run : forall limit h, limit <= 2 ^ 32 -> N.of_nat (List.length (asked_keys h)) < 2 ^ 32 ->
  exists rm, rm_run (rm_new limit) h = Ret rm /\ hist_inv limit h rm.
Proof.
  intros limit h Hl Hk. destruct (hist_cases limit h) as [H|(_ & h1 & o & h2 & -> & Nn)]; [exact H|exfalso].
  destruct o as [r|id e|a]; cbn [no_number] in Nn; [lia|exact Nn|]. pose proof (asked_keys_prefix h1 (AskKey a :: h2)). lia.
Qed.

(** ** What was issued *)
Lemma id_issued_iff : forall limit h rm r k,
  rm_run (rm_new limit) h = Ret rm ->
  (id_issued limit h r k <-> nth_error (report_ids rm) (N.to_nat k) = Some r).
Proof.
  intros limit h rm r k. revert rm. induction h as [|o h IH] using rev_ind; intros rm Hrun.
  - cbn in Hrun. injection Hrun as <-. cbn. split.
    + intros (h1 & h2 & _ & _ & E & _). destruct h1; discriminate.
    + destruct (N.to_nat k); discriminate.
  - destruct (run_prefix _ _ _ _ Hrun) as (rm0 & E0 & Hrun'). clear Hrun. rename Hrun' into Hrun. pose proof (hist_inv_of _ _ _ E0) as I0. specialize (IH rm0 E0).
    cbn [bind rm_run] in Hrun.
    destruct (rm_step rm0 o) as [rm1|w|] eqn:Es; try discriminate. cbn [bind] in Hrun. injection Hrun as <-.
    assert (Split : id_issued limit (h ++ [o]) r k <->
                    id_issued limit h r k \/ (o = AskId r /\ exists rm2, get_internal_id rm0 r = Ret (rm2, ROk k))).
    { split.
      - intros (h1 & h2 & m1 & m2 & E & R & G). destruct (snoc_split _ _ _ _ _ E) as [(-> & -> & <-)|(h2' & -> & ->)].
        + right. split; [reflexivity|]. exists m2. congruence.
        + left. exists h1, h2', m1, m2. auto.
      - intros [(h1 & h2 & m1 & m2 & E & R & G)|(-> & m2 & G)].
        + exists h1, (h2 ++ [o]), m1, m2. subst h. rewrite <- app_assoc. auto.
        + exists h, [], rm0, m2. auto. }
    rewrite Split, IH. clear Split IH.
    destruct o as [r'|id e|a]; cbn [rm_step] in Es.
    + destruct (get_internal_id_cases rm0 r' (hi_inv _ _ _ I0)) as [(m & res & E & _ & _ & _ & _ & _ & C)|(E & _)]; [|rewrite E in Es; discriminate Es].
      rewrite E in Es. cbn [bind] in Es. injection Es as <-.
      destruct C as [(k' & -> & -> & Nk & _)|[(Nin & Lt & _ & -> & Er)|(Nin & Le & -> & ->)]].
      * split; [|auto]. intros [?|(Eq & m2 & G)]; [assumption|]. injection Eq as ->. rewrite E in G. injection G as _ <-. exact Nk.
      * rewrite Er. unfold num_reports in *. split.
        -- intros [H|(Eq & m2 & G)]; [apply nth_error_app_some; exact H|]. injection Eq as ->. rewrite E in G.
           injection G as _ <-. rewrite nth_error_app2 by lia. rewrite Nat2N.id, Nat.sub_diag. reflexivity.
        -- intro H. destruct (Nat.lt_ge_cases (N.to_nat k) (List.length (report_ids rm0))) as [L|G].
           ++ left. rewrite nth_error_app1 in H by exact L. exact H.
           ++ right. rewrite nth_error_app2 in H by exact G.
              destruct (N.to_nat k - List.length (report_ids rm0))%nat as [|n] eqn:D; [|destruct n; discriminate].
              injection H as ->. split; [reflexivity|]. exists m. rewrite E. do 3 f_equal. lia.
      * split; [|auto]. intros [?|(Eq & m2 & G)]; [assumption|]. injection Eq as ->. rewrite E in G. discriminate.
    + injection Es as <-. rewrite (proj1 (proj2 (register_ok rm0 id e))). split; [intros [?|(? & _)]; [assumption|discriminate]|auto].
    + destruct (get_exhaustible_key rm0 a) as [[m k']|w|] eqn:G; try discriminate. cbn [bind] in Es. injection Es as <-.
      assert (R : report_ids m = report_ids rm0).
      { destruct (N.ltb_spec (N.of_nat (List.length (asked_keys h))) (2 ^ 32)) as [Hk0|Hk0].
        - destruct (get_key_ok rm0 a _ (hi_keys _ _ _ I0) (asked_keys_NoDup h) Hk0) as (m' & k2 & E & _ & _ & R & _).
          rewrite G in E. injection E as <- <-. exact R.
        - pose proof (no_number_stops _ _ _ (AskKey a) I0 Hk0) as Z. cbn [rm_step] in Z. rewrite G in Z. discriminate Z. }
      rewrite R. split; [intros [?|(? & _)]; [assumption|discriminate]|auto].
Qed.

Lemma key_issued_iff : forall limit h rm a k, rm_run (rm_new limit) h = Ret rm ->
  (key_issued limit h a k <-> nth_error (asked_keys h) (N.to_nat k) = Some a).
Proof.
  intros limit h rm a k. revert rm. induction h as [|o h IH] using rev_ind; intros rm Hrun.
  - cbn. split.
    + intros (h1 & h2 & _ & _ & E & _). destruct h1; discriminate.
    + destruct (N.to_nat k); discriminate.
  - destruct (run_prefix _ _ _ _ Hrun) as (rm0 & E0 & Hrun'). pose proof (hist_inv_of _ _ _ E0) as I0. specialize (IH rm0 E0).
    assert (Split : key_issued limit (h ++ [o]) a k <->
                    key_issued limit h a k \/ (o = AskKey a /\ exists rm2, get_exhaustible_key rm0 a = Ret (rm2, k))).
    { split.
      - intros (h1 & h2 & m1 & m2 & E & R & G). destruct (snoc_split _ _ _ _ _ E) as [(-> & -> & <-)|(h2' & -> & ->)].
        + right. split; [reflexivity|]. exists m2. congruence.
        + left. exists h1, h2', m1, m2. auto.
      - intros [(h1 & h2 & m1 & m2 & E & R & G)|(-> & m2 & G)].
        + exists h1, (h2 ++ [o]), m1, m2. subst h. rewrite <- app_assoc. auto.
        + exists h, [], rm0, m2. auto. }
    rewrite Split, IH. clear Split IH.
    destruct o as [r'|id e|a'].
    + rewrite asked_keys_snoc_other by reflexivity. split; [intros [?|(? & _)]; [assumption|discriminate]|auto].
    + rewrite asked_keys_snoc_other by reflexivity. split; [intros [?|(? & _)]; [assumption|discriminate]|auto].
    + assert (Hk0 : N.of_nat (List.length (asked_keys h)) < 2 ^ 32).
      { destruct (N.ltb_spec (N.of_nat (List.length (asked_keys h))) (2 ^ 32)) as [L|L]; [exact L|exfalso].
        cbn [rm_run] in Hrun'. rewrite (no_number_stops _ _ _ (AskKey a') I0 L) in Hrun'. discriminate Hrun'. }
      destruct (get_key_ok rm0 a' _ (hi_keys _ _ _ I0) (asked_keys_NoDup h) Hk0) as (m & k' & E & _ & _ & _ & _ & _ & C).
      rewrite asked_keys_snoc.
      destruct C as [(-> & Nk & _)|(Nin & -> & Er)].
      * rewrite (proj2 (existsb_In N.eqb N.eqb_eq _ _)); [|eapply nth_error_In; exact Nk].
        split; [|auto]. intros [?|(Eq & m2 & G)]; [assumption|]. injection Eq as ->. rewrite E in G. injection G as _ <-. exact Nk.
      * destruct (existsb (N.eqb a') (asked_keys h)) eqn:X.
        { exfalso. apply Nin, (existsb_In N.eqb N.eqb_eq), X. }
        split.
        -- intros [H|(Eq & m2 & G)]; [apply nth_error_app_some; exact H|]. injection Eq as ->. rewrite E in G.
           injection G as _ <-. rewrite nth_error_app2 by lia. rewrite Nat2N.id, Nat.sub_diag. reflexivity.
        -- intro H. destruct (Nat.lt_ge_cases (N.to_nat k) (List.length (asked_keys h))) as [L|G].
           ++ left. rewrite nth_error_app1 in H by exact L. exact H.
           ++ right. rewrite nth_error_app2 in H by exact G.
              destruct (N.to_nat k - List.length (asked_keys h))%nat as [|n] eqn:D; [|destruct n; discriminate].
              injection H as ->. split; [reflexivity|]. exists m. rewrite E. do 2 f_equal. lia.
Qed.

Lemma registered_iff : forall limit h rm id e, rm_run (rm_new limit) h = Ret rm ->
  (registered limit h id e <-> exists h1 h2, h = h1 ++ Register id e :: h2 /\
     match first_registration h1 id with Some e0 => ei_highlander e0 = ei_highlander e | None => True end).
Proof.
  intros limit h rm id e Hrun. unfold registered. split.
  - intros (h1 & h2 & m1 & m2 & E & R & G). exists h1, h2. split; [exact E|].
    pose proof (hist_inv_of _ _ _ R) as I0. rename m1 into rm0.
    pose proof (register_ok rm0 id e) as Q. cbv zeta in Q. destruct Q as (_ & _ & _ & _ & Q).
    rewrite (hi_ext _ _ _ I0), G in Q. cbn [fst snd] in Q. destruct (first_registration h1 id) as [e0|]; [|exact I].
    destruct (Bool.eqb (ei_highlander e0) (ei_highlander e)) eqn:B; [apply eqb_prop; exact B|]. destruct Q; discriminate.
  - intros (h1 & h2 & E & F).
    rewrite E in Hrun. destruct (run_prefix _ _ _ _ Hrun) as (rm0 & E0 & _). pose proof (hist_inv_of _ _ _ E0) as I0.
    exists h1, h2, rm0, (fst (register_ext_report rm0 id e)). conjs; auto.
    pose proof (register_ok rm0 id e) as Q. cbv zeta in Q. destruct Q as (_ & _ & _ & _ & Q). rewrite (hi_ext _ _ _ I0) in Q.
    destruct (register_ext_report rm0 id e) as [m res]; cbn [fst snd] in *. f_equal.
    destruct (first_registration h1 id) as [e0|]; [|apply Q]. rewrite F, eqb_reflx in Q. apply Q.
Qed.
