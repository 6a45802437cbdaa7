(** Properties C35-C37: the report manager over arbitrary request histories. *)
From Coq Require FinFun.
From Verif Require Import Base ModelUtil ModelReport SpecReport ProofBase ProofReport.
Local Open Scope N_scope.

(** The three kinds of request interleaved, including a refused registration and a
    report refused because of the limit. *)
Definition sample_history : list rm_op :=
  [AskId (Report 3); AskKey 9; Register 5 (ExtInfo true 0); AskId (Report 0); AskId (Report 3);
   Register 5 (ExtInfo false 1); AskKey 4; AskKey 9; AskId (Report 7); Register 6 (ExtInfo true 2)].
Definition sample_rm : outcome report_manager := rm_run (rm_new 2) sample_history.

(** ** C35 *)
Theorem C35_never_panics : forall limit h, limit <= 2 ^ 32 -> N.of_nat (List.length (asked_keys h)) < 2 ^ 32 ->
  exists rm, rm_run (rm_new limit) h = Ret rm.
Proof. intros limit h Hl Hk. destruct (hist_run limit h Hl Hk) as (rm & E & _). eauto. Qed.
(** Whatever the limit and however many requests: a history runs through unless one of
    its requests finds no number left, and then it stops at the [expect]. *)
Theorem C35_stops : forall limit h,
  ((exists rm, rm_run (rm_new limit) h = Ret rm) <-> forall h1 o h2, h = h1 ++ o :: h2 -> ~ no_number limit h1 o) /\
  (rm_run (rm_new limit) h = Panic PExpect <-> exists h1 o h2, h = h1 ++ o :: h2 /\ no_number limit h1 o).
Proof.
  intros limit h.
  assert (No : forall rm h1 o h2, rm_run (rm_new limit) h = Ret rm -> h = h1 ++ o :: h2 -> ~ no_number limit h1 o).
  { intros rm h1 o h2 E -> Nn. destruct (run_prefix _ _ _ _ E) as (rm1 & E1 & E2). cbn [rm_run] in E2.
    rewrite (no_number_stops _ _ _ o (hist_inv_of _ _ _ E1) Nn) in E2. discriminate E2. }
  destruct (hist_cases limit h) as [(rm & E & _)|(E & h1 & o & h2 & Eh & Nn)]; rewrite E; split; split.
  - intros _ h1 o h2 Eh. eapply No; eassumption.
  - intros _. eauto.
  - discriminate.
  - intros (h1 & o & h2 & Eh & Nn). exfalso. eapply No; eassumption.
  - intros (rm & X). discriminate X.
  - intro X. exfalso. eapply X; eassumption.
  - intros _. exists h1, o, h2. auto.
  - reflexivity.
Qed.
Theorem C35_ids : forall limit h rm,
  rm_run (rm_new limit) h = Ret rm ->
  (* same report, same id; different reports, different ids *)
  (forall r a r' b, id_issued limit h r a -> id_issued limit h r' b -> (r = r' <-> a = b)) /\
  (* dense *)
  (forall a, a < num_reports rm <-> exists r, id_issued limit h r a) /\
  (* as many as distinct reports asked for, up to the limit *)
  num_reports rm = N.min limit (N.of_nat (List.length (asked_reports h))) /\
  (* lookup inverts *)
  (forall r a, id_issued limit h r a <-> get_report rm a = Ret r).
Proof.
  intros limit h rm Hrun. destruct (hist_inv_of _ _ _ Hrun) as [Inv Lim Rep _ _ _ _].
  assert (Iss : forall r a, id_issued limit h r a <-> nth_error (report_ids rm) (N.to_nat a) = Some r)
    by (intros; apply id_issued_iff; assumption).
  destruct Inv as (_ & Nd & _).
  assert (Lt : forall r a, id_issued limit h r a -> a < num_reports rm).
  { intros r a H. apply Iss in H. unfold num_reports. pose proof (proj1 (nth_error_Some (report_ids rm) (N.to_nat a)) ltac:(congruence)). lia. }
  conjs.
  - intros r a r' b Ha Hb. apply Iss in Ha, Hb. split.
    + intros <-. rewrite NoDup_nth_error in Nd.
      assert (N.to_nat a = N.to_nat b); [|lia]. apply Nd; [apply nth_error_Some; congruence|congruence].
    + intros <-. congruence.
  - intro a. split.
    + intro L. unfold num_reports in L. destruct (nth_error (report_ids rm) (N.to_nat a)) as [r|] eqn:X.
      * exists r. apply Iss. exact X.
      * apply nth_error_None in X. lia.
    + intros [r H]. eapply Lt; exact H.
  - unfold num_reports. rewrite Rep, firstn_length. lia.
  - intros r a. unfold get_report. split.
    + intro H. pose proof (Lt r a H). replace (a <? num_reports rm) with true by lia. apply Iss in H. rewrite H. reflexivity.
    + destruct (a <? num_reports rm); [|discriminate]. intro H. apply Iss.
      destruct (nth_error (report_ids rm) (N.to_nat a)); congruence.
Qed.
(** The next request: known reports get their id, new ones the next id unless the
    limit is reached, in which case nothing changes. *)
Theorem C35_next : forall limit h rm r,
  rm_run (rm_new limit) h = Ret rm ->
  (forall a, id_issued limit h r a -> get_internal_id rm r = Ret (rm, ROk a)) /\
  ((forall a, ~ id_issued limit h r a) -> num_reports rm < limit -> num_reports rm < 2 ^ 32 ->
     exists rm', get_internal_id rm r = Ret (rm', ROk (num_reports rm))) /\
  ((forall a, ~ id_issued limit h r a) -> limit <= num_reports rm ->
     get_internal_id rm r = Ret (rm, RErr (error_new EResourceLimit (lit "Resource limit exceeded.")))) /\
  ((forall a, ~ id_issued limit h r a) -> num_reports rm < limit -> 2 ^ 32 <= num_reports rm -> get_internal_id rm r = Panic PExpect).
Proof.
  intros limit h rm r Hrun. destruct (hist_inv_of _ _ _ Hrun) as [Inv Lim Rep _ _ _ _].
  assert (Iss : forall a, id_issued limit h r a <-> nth_error (report_ids rm) (N.to_nat a) = Some r)
    by (intros; apply id_issued_iff; assumption).
  assert (NotIn : (forall a, ~ id_issued limit h r a) <-> ~ In r (report_ids rm)).
  { split; intro H.
    - intro I. apply In_nth_error in I. destruct I as [n X]. apply (H (N.of_nat n)), Iss. rewrite Nat2N.id. exact X.
    - intros a X. apply Iss, nth_error_In in X. contradiction. }
  destruct (get_internal_id_cases rm r Inv) as [(rm1 & res & G & _ & _ & _ & _ & _ & C)|(G & Nin & Lt & Big)].
  2: { rewrite G. conjs.
    - intros a Ha. apply Iss, nth_error_In in Ha. contradiction.
    - intros _ _ Z. lia.
    - intros _ Z. lia.
    - intros _ _ _. reflexivity. }
  destruct C as [(k & -> & -> & Nk & _)|[(Nin & Lt & Few & -> & Er)|(Nin & Le & -> & ->)]]; rewrite G; conjs.
  - intros a Ha. apply Iss in Ha. do 3 f_equal. destruct Inv as (_ & Nd & _). rewrite NoDup_nth_error in Nd.
    assert (N.to_nat k = N.to_nat a); [|lia]. apply Nd; [apply nth_error_Some; congruence|congruence].
  - intro H. apply NotIn in H. apply nth_error_In in Nk. contradiction.
  - intro H. apply NotIn in H. apply nth_error_In in Nk. contradiction.
  - intro H. apply NotIn in H. apply nth_error_In in Nk. contradiction.
  - intros a Ha. apply Iss, nth_error_In in Ha. contradiction.
  - intros _ _ _. eauto.
  - lia.
  - lia.
  - intros a Ha. apply Iss, nth_error_In in Ha. contradiction.
  - lia.
  - reflexivity.
  - lia.
Qed.
Example C35_case : match sample_rm with
  | Ret rm => report_ids rm = [Report 3; Report 0] /\ get_report rm 1 = Ret (Report 0) /\
      get_internal_id rm (Report 0) = Ret (rm, ROk 1) /\
      get_internal_id rm (Report 7) = Ret (rm, RErr (error_new EResourceLimit (lit "Resource limit exceeded.")))
  | _ => False end /\ N.of_nat (List.length (asked_keys sample_history)) < 2 ^ 32.
Proof. vm_compute. repeat split. Qed.
Lemma asked_keys_distinct : forall l, NoDup l -> asked_keys (map AskKey l) = l.
Proof.
  induction l as [|a l IH]; intro Nd; [reflexivity|]. inversion Nd; subst. cbn [map asked_keys]. rewrite IH by assumption. f_equal.
  assert (F : forall m, ~ In a m -> filter (fun x => negb (x =? a)) m = m); [|auto].
  induction m as [|x m IHm]; intro H; [reflexivity|]. cbn [filter]. replace (x =? a) with false by (symmetry; apply N.eqb_neq; intros ->; apply H; left; reflexivity).
  cbn [negb]. rewrite IHm; [reflexivity|]. intro I. apply H. right. exact I.
Qed.
Example C35_stops_case : exists h o, (exists rm, rm_run (rm_new 5) h = Ret rm) /\ no_number 5 h o /\ rm_run (rm_new 5) (h ++ [o]) = Panic PExpect.
Proof.
  assert (Z : exists k, N.of_nat k = 2 ^ 32) by (exists (N.to_nat (2 ^ 32)); apply N2Nat.id). destruct Z as (k & Hk).
  assert (Nd : forall j, NoDup (map N.of_nat (List.seq 0 j))).
  { intro j. apply FinFun.Injective_map_NoDup; [intros a b E; lia|apply seq_NoDup]. }
  exists (map AskKey (map N.of_nat (List.seq 0 k))), (AskKey 0).
  assert (Nn : no_number 5 (map AskKey (map N.of_nat (List.seq 0 k))) (AskKey 0)).
  { cbn [no_number]. rewrite asked_keys_distinct by apply Nd. rewrite map_length, seq_length, Hk. apply N.le_refl. }
  conjs; [|exact Nn|].
  - apply C35_stops. intros h1 o h2 E. apply map_eq_app in E. destruct E as (l1 & l2 & E & <- & E2). destruct l2 as [|a l2]; [discriminate|].
    injection E2 as <- _. apply map_eq_app in E. destruct E as (m1 & m2 & E & <- & E2). destruct m2 as [|i m2]; [discriminate|].
    assert (L : (List.length m1 < k)%nat). { rewrite <- (seq_length k 0), E, app_length. cbn [List.length]. lia. }
    assert (N1 : NoDup (map N.of_nat m1)). { specialize (Nd k). rewrite E, map_app in Nd. revert Nd. generalize (map N.of_nat m1) (map N.of_nat (i :: m2)). clear. intros l m. induction l as [|a l IH]; intro H; [constructor|].
      inversion H; subst. constructor; [|auto]. intro I. apply H2. apply in_or_app. auto. }
    cbn [no_number]. rewrite asked_keys_distinct by exact N1. rewrite map_length, <- Hk. lia.
  - apply C35_stops. do 3 eexists. split; [reflexivity|exact Nn].
Qed.

(** ** C36 *)
Theorem C36_keys : forall limit h rm, rm_run (rm_new limit) h = Ret rm ->
  (forall a k b l, key_issued limit h a k -> key_issued limit h b l -> (a = b <-> k = l)) /\
  (forall a k, key_issued limit h a k <-> nth_error (asked_keys h) (N.to_nat k) = Some a) /\
  (forall k, k < N.of_nat (List.length (asked_keys h)) <-> exists a, key_issued limit h a k).
Proof.
  intros limit h rm Hrun. assert (Iss : forall a k, key_issued limit h a k <-> nth_error (asked_keys h) (N.to_nat k) = Some a)
    by (intros; eapply key_issued_iff; eassumption).
  conjs.
  - intros a k b l Ha Hb. apply Iss in Ha, Hb. split.
    + intros <-. pose proof (asked_keys_NoDup h) as Nd. rewrite NoDup_nth_error in Nd.
      assert (N.to_nat k = N.to_nat l); [|lia]. apply Nd; [apply nth_error_Some; congruence|congruence].
    + intros <-. congruence.
  - exact Iss.
  - intro k. split.
    + intro L. destruct (nth_error (asked_keys h) (N.to_nat k)) as [a|] eqn:X.
      * exists a. apply Iss. exact X.
      * apply nth_error_None in X. lia.
    + intros [a H]. apply Iss in H. pose proof (proj1 (nth_error_Some (asked_keys h) (N.to_nat k)) ltac:(congruence)). lia.
Qed.
Theorem C36_next : forall limit h rm a,
  rm_run (rm_new limit) h = Ret rm ->
  (N.of_nat (List.length (asked_keys h)) < 2 ^ 32 ->
   exists rm' k, get_exhaustible_key rm a = Ret (rm', k) /\
    ((key_issued limit h a k /\ rm' = rm) \/
     ((forall l, ~ key_issued limit h a l) /\ k = N.of_nat (List.length (asked_keys h))))) /\
  (2 ^ 32 <= N.of_nat (List.length (asked_keys h)) -> get_exhaustible_key rm a = Panic PExpect).
Proof.
  intros limit h rm a Hrun. pose proof (hist_inv_of _ _ _ Hrun) as Hi. split; intro Hk.
  2: { pose proof (no_number_stops _ _ _ (AskKey a) Hi Hk) as Z. cbn [rm_step] in Z. destruct (get_exhaustible_key rm a) as [[m k]|w|]; cbn [bind] in Z; [discriminate Z|congruence|discriminate Z]. }
  destruct (get_key_ok rm a _ (hi_keys _ _ _ Hi) (asked_keys_NoDup h) Hk) as (rm1 & k & G & _ & _ & _ & _ & _ & C).
  exists rm1, k. split; [exact G|]. destruct C as [(-> & Nk & _)|(Nin & -> & _)].
  - left. split; [|reflexivity]. eapply key_issued_iff; eassumption.
  - right. split; [|reflexivity]. intros l H. eapply key_issued_iff in H; [|eassumption]. apply nth_error_In in H. contradiction.
Qed.
Example C36_case : asked_keys sample_history = [9; 4] /\
  match sample_rm with Ret rm => exhaust_map rm = [(9, 0); (4, 1)] | _ => False end.
Proof. vm_compute. auto. Qed.

(** ** C37 *)
Theorem C37_recorded : forall limit h rm,
  rm_run (rm_new limit) h = Ret rm ->
  (forall id, assoc N.eqb (external_map rm) id = first_registration h id) /\
  (global_exhaust rm = true <-> forall id e, registered limit h id e -> ei_highlander e = true).
Proof.
  intros limit h rm Hrun. pose proof (hist_inv_of _ _ _ Hrun) as Hi. split; [apply (hi_ext _ _ _ Hi)|]. rewrite (hi_glob _ _ _ Hi).
  unfold good_registrations. split.
  - intros H id e R. eapply registered_iff in R; [|eassumption]. destruct R as (h1 & h2 & -> & F). eapply H; [reflexivity|exact F].
  - intros H h1 h2 id e -> F. apply (H id e). eapply registered_iff; [eassumption|]. eauto.
Qed.
Theorem C37_next : forall limit h rm id e,
  rm_run (rm_new limit) h = Ret rm ->
  (snd (register_ext_report rm id e) <> ROk tt <->
     exists e0, first_registration h id = Some e0 /\ ei_highlander e0 <> ei_highlander e) /\
  (snd (register_ext_report rm id e) <> ROk tt -> fst (register_ext_report rm id e) = rm).
Proof.
  intros limit h rm id e Hrun. pose proof (hist_inv_of _ _ _ Hrun) as Hi.
  pose proof (register_ok rm id e) as Q. cbv zeta in Q. destruct Q as (_ & _ & _ & _ & Q). rewrite (hi_ext _ _ _ Hi) in Q.
  destruct (first_registration h id) as [e0|].
  - destruct (Bool.eqb (ei_highlander e0) (ei_highlander e)) eqn:B.
    + destruct Q as [-> _]. apply eqb_prop in B. split; [|congruence]. split; [congruence|].
      intros (e1 & X & Y). congruence.
    + destruct Q as [-> ->]. apply eqb_false_iff in B. split; [|reflexivity]. split; [eauto|discriminate].
  - destruct Q as [-> _]. split; [|congruence]. split; [congruence|]. intros (e1 & X & _). discriminate.
Qed.
Example C37_case : first_registration sample_history 5 = Some (ExtInfo true 0) /\
  match sample_rm with Ret rm => global_exhaust rm = true /\ external_map rm = [(5, ExtInfo true 0); (6, ExtInfo true 2)]
    /\ fst (register_ext_report rm 5 (ExtInfo false 3)) = rm | _ => False end.
Proof. vm_compute. repeat split. Qed.

Print Assumptions C35_never_panics. Print Assumptions C35_stops. Print Assumptions C35_ids. Print Assumptions C35_next. Print Assumptions C36_keys.
Print Assumptions C36_next. Print Assumptions C37_recorded. Print Assumptions C37_next.
