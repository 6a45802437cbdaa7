(** C82: the documented panics. *)
From Verif Require Import Base ModelUtil ModelBitField ModelCharReach ModelReport ModelDump SpecSet SpecReport SpecDump SpecDoc
  ProofBase ProofBitField ProofBitField2 ProofCharReach ProofReport ProofDump PropSet PropReport.
Local Open Scope N_scope.
Local Open Scope list_scope.

(** [describe_range] does not always panic although it says so. *)
Theorem C82_refuted : exists c1 c2 o t, c2 < c1 < 256 /\ describe_range release c1 c2 o = Ret t.
Proof. exists 98, 97, Text. eexists. split; [lia|]. vm_compute. reflexivity. Qed.
(** Everything else does, and but for [fill_bitvector] under no other condition;
    [describe_range] does with overflow checks. *)
Theorem C82_documented_partial : forall p,
  (forall b from to, wf b -> byte from -> byte to -> (panics (bf_set_range p b from to) <-> to < from)) /\
  (forall b from to, wf b -> byte from -> byte to -> (panics (cr_set_range p b from to) <-> to < from)) /\
  (forall from to, byte from -> byte to -> (panics (cr_from_range p from to) <-> to < from)) /\
  (forall rm id, panics (get_report rm id) <-> num_reports rm <= id) /\
  (forall b buf, wf b -> (List.length buf < 32)%nat -> panics (fill_bitvector p b buf)) /\
  (overflow_checks p = true -> forall c1 c2 o, byte c1 -> byte c2 ->
     (panics (describe_range p c1 c2 o) <-> c2 < c1 \/ (c2 = 255 /\ 252 <= c1 <= 254))).
Proof.
  intro p.
  assert (R : forall b from to, wf b -> byte from -> byte to -> (panics (cr_set_range p b from to) <-> to < from)).
  { intros b from to Hb Hf Ht. pose proof (C23_set_range p b from to Hb Hf Ht) as H. destruct (N.leb_spec from to) as [L|L].
    - destruct H as (r & E & _). rewrite E. split; [intros (w & Z); discriminate Z|lia].
    - rewrite H. split; [intros _; exact L|intros _; eexists; reflexivity]. }
  conjs.
  - exact R.
  - exact R.
  - intros from to Hf Ht. pose proof (C23_from_range p from to Hf Ht) as H. destruct (N.leb_spec from to) as [L|L].
    + destruct H as (r & E & _). rewrite E. split; [intros (w & Z); discriminate Z|lia].
    + rewrite H. split; [intros _; exact L|intros _; eexists; reflexivity].
  - intros rm id. unfold get_report. destruct (N.ltb_spec id (num_reports rm)) as [L|L].
    + split; [|lia]. destruct (nth_error (report_ids rm) (N.to_nat id)) eqn:E; [intros (w & Z); discriminate Z|]. apply nth_error_None in E. unfold num_reports in L. lia.
    + split; [intros _; exact L|intros _; eexists; reflexivity].
  - intros b buf Hb L. pose proof (C29_actual_partial p b buf Hb) as H. destruct (Nat.ltb_spec (List.length buf) 32); [|lia]. rewrite H. eexists. reflexivity.
  - intros P c1 c2 o H1 H2. unfold byte in *. destruct (N.lt_ge_cases c2 c1) as [L|L].
    + split; [auto|]. intros _. unfold describe_range. replace (c1 =? c2) with false by lia. unfold chk_sub. replace (c1 <=? c2) with false by lia. rewrite P. eexists. reflexivity.
    + rewrite describe_range_ok by lia. unfold run_result. cbn [fst snd]. rewrite P. destruct ((c2 =? 255) && (252 <=? c1) && (c1 <=? 254)) eqn:E.
      * split; [intros _; lia|intros _; eexists; reflexivity].
      * split; [intros (w & Z); discriminate Z|lia].
Qed.
(** What [describe_range] does instead, without overflow checks. *)
Theorem C82_reversed : forall p c1 c2 o, overflow_checks p = false -> c2 < c1 < 256 -> describe_range p c1 c2 o = Ret (reversed_text (fun c => describe_char c o) c1 c2).
Proof.
  intros p c1 c2 o P H. unfold describe_range, reversed_text. replace (c1 =? c2) with false by lia. unfold chk_sub. replace (c1 <=? c2) with false by lia. rewrite P. cbn [bind].
  replace ((2 ^ 8 + c2 - c1) mod 2 ^ 8) with (256 - (c1 - c2)) by (rewrite N.mod_small; lia).
  destruct (N.leb_spec 4 (256 - (c1 - c2))) as [L|L].
  - replace (256 - (c1 - c2) <? 4) with false by lia. reflexivity.
  - replace (256 - (c1 - c2) <? 4) with true by lia. cbn [describe_range_loop]. unfold chk_add. rewrite P.
    destruct (N.ltb_spec c1 255) as [L1|L1].
    + replace (c1 + 1 <? 2 ^ 8) with true by lia. cbn [bind]. replace (c2 <? c1 + 1) with true by lia. reflexivity.
    + assert (c1 = 255) by lia. subst c1. assert (C : c2 = 0 \/ c2 = 1 \/ c2 = 2) by lia. destruct C as [-> | [-> | ->]]; destruct o; vm_compute; reflexivity.
Qed.
(** [get_exhaustible_key] cannot be given an index above [u32::MAX], the documented
    condition.  It panics if 2^32 keys are out, and this can happen: *)
Theorem C82_keys : forall rm a, panics (get_exhaustible_key rm a) <-> 2 ^ 32 <= N.of_nat (List.length (exhaust_map rm)).
Proof.
  intros rm a. unfold get_exhaustible_key. cbv zeta. destruct (N.ltb_spec (N.of_nat (List.length (exhaust_map rm))) (2 ^ 32)) as [L|L].
  - split; [|lia]. intros (w & E). destruct (assoc N.eqb (exhaust_map rm) a); discriminate E.
  - split; [intros _; exact L|intros _; eexists; reflexivity].
Qed.
Lemma ask_all : forall n k rm, exhaust_map rm = map (fun i => (N.of_nat i, N.of_nat i)) (List.seq 0 k) -> N.of_nat (k + n) <= 2 ^ 32 ->
  exists rm', rm_run rm (map (fun i => AskKey (N.of_nat i)) (List.seq k n)) = Ret rm' /\ exhaust_map rm' = map (fun i => (N.of_nat i, N.of_nat i)) (List.seq 0 (k + n)).
Proof.
  induction n as [|n IH]; intros k rm E L; cbn [List.seq map rm_run].
  - exists rm. split; [reflexivity|]. rewrite Nat.add_0_r. exact E.
  - cbn [rm_step]. unfold get_exhaustible_key. cbv zeta.
    replace (N.of_nat (List.length (exhaust_map rm)) <? 2 ^ 32) with true by (rewrite E, map_length, seq_length; lia).
    assert (A : assoc N.eqb (exhaust_map rm) (N.of_nat k) = None).
    { rewrite E. assert (G : forall l, (forall i, In i l -> (i < k)%nat) -> assoc N.eqb (map (fun i => (N.of_nat i, N.of_nat i)) l) (N.of_nat k) = None).
      { induction l as [|i l IHl]; intro H; [reflexivity|]. cbn [map assoc]. specialize (H i (or_introl eq_refl)) as Hi. replace (N.of_nat i =? N.of_nat k) with false by lia. try replace (N.of_nat k =? N.of_nat i) with false by lia. apply IHl. intros j J. apply H. right. exact J. }
      apply G. intros i I. apply in_seq in I. lia. }
    rewrite A. cbn [bind].
    destruct (IH (S k) (ReportManager (rm_limit rm) (report_ids rm) (internal_map rm) (external_map rm) (exhaust_map rm ++ [(N.of_nat k, N.of_nat (List.length (exhaust_map rm)))]) (global_exhaust rm))) as (rm' & R & X).
    + cbn [exhaust_map]. rewrite E, map_length, seq_length, seq_S, map_app. reflexivity.
    + lia.
    + exists rm'. split; [exact R|]. rewrite X. do 2 f_equal. lia.
Qed.
(** after one call for each of the 2^32 indexes every further call panics, whatever
    the index, although its key is known. *)
Lemma run_out : forall n limit, N.of_nat n = 2 ^ 32 -> exists h rm, rm_run (rm_new limit) h = Ret rm /\ (forall o, In o h -> exists a, o = AskKey a /\ a < 2 ^ 32) /\
  forall a, a < 2 ^ 32 -> In (a, a) (exhaust_map rm) /\ panics (get_exhaustible_key rm a).
Proof.
  intros n limit Hn. destruct (ask_all n 0 (rm_new limit) eq_refl) as (rm & R & X); [rewrite Nat.add_0_l, Hn; apply N.le_refl|].
  exists (map (fun i => AskKey (N.of_nat i)) (List.seq 0 n)), rm. rewrite Nat.add_0_l in X. split; [exact R|]. split.
  - intros o I. apply in_map_iff in I. destruct I as (i & <- & I). apply in_seq in I. exists (N.of_nat i). split; [reflexivity|]. rewrite <- Hn. lia.
  - intros a L. split.
    + rewrite X. apply in_map_iff. exists (N.to_nat a). rewrite N2Nat.id. split; [reflexivity|]. apply in_seq. rewrite <- Hn in L. lia.
    + apply C82_keys. rewrite X, map_length, seq_length, Hn. apply N.le_refl.
Qed.
Theorem C82_keys_run_out : forall limit, exists h rm, rm_run (rm_new limit) h = Ret rm /\ (forall o, In o h -> exists a, o = AskKey a /\ a < 2 ^ 32) /\
  forall a, a < 2 ^ 32 -> In (a, a) (exhaust_map rm) /\ panics (get_exhaustible_key rm a).
Proof. intro limit. exact (run_out _ limit (N2Nat.id (2 ^ 32))). Qed.
Example C82_case : describe_range release 255 2 Text = Ret (lit "\xff\x 0\x 1\x 2") /\ describe_range release 254 0 Text = Ret (lit "\xfe") /\ describe_range release 122 97 Text = Ret (lit "z-a") /\
  panics (describe_range dev 122 97 Text) /\ panics (describe_range dev 253 255 Text) /\ describe_range release 253 255 Text = Diverge /\ panics (get_report (rm_new 5) 0) /\ panics (cr_from_range release 5 4).
Proof. conjs; try (vm_compute; reflexivity); eexists; vm_compute; reflexivity. Qed.
Print Assumptions C82_refuted.
Print Assumptions C82_documented_partial.
Print Assumptions C82_reversed.
Print Assumptions C82_keys.
Print Assumptions C82_keys_run_out.
