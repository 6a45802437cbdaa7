(** Lemmas about literals. *)
From Verif Require Import Base ModelUtil ModelLiteral ProofBase SpecSet ModelBitField.
Local Open Scope N_scope.

(** The elements as pairs. *)
Definition pairs_of (l : literal) : list lit_elem :=
  map (fun x => LitElem (fst x) (snd x)) (combine (lit_s l) (lit_nocase l)).

Lemma combine_skipn : forall {A B} (a : list A) (b : list B) k,
  combine (skipn k a) (skipn k b) = skipn k (combine a b).
Proof.
  intros A B a; induction a as [|x a IH]; intros b k; destruct k; simpl; try reflexivity.
  - destruct b; simpl; [|apply IH]. destruct (skipn k a); reflexivity.
Qed.
Lemma skipn_nth : forall {A} (l : list A) k x, nth_error l k = Some x -> skipn k l = x :: skipn (S k) l.
Proof.
  intros A l; induction l as [|y l IH]; intros [|k] x H; simpl in *; try discriminate.
  - congruence.
  - apply IH; exact H.
Qed.
Lemma skipn_none : forall {A} (l : list A) k, nth_error l k = None -> skipn k l = [].
Proof. intros A l k H. apply skipn_all2. apply nth_error_None. exact H. Qed.

Lemma lit_iter_from_ok : forall fuel l idx, (List.length (lit_s l) < fuel + idx)%nat ->
  lit_iter_from fuel l idx =
  map (fun x => LitElem (fst x) (snd x)) (combine (skipn idx (lit_s l)) (skipn idx (lit_nocase l))).
Proof.
  intro fuel; induction fuel as [|fuel IH]; intros l idx H; cbn [lit_iter_from].
  - rewrite (skipn_all2 (lit_s l)) by lia. reflexivity.
  - unfold lit_iter_next. destruct (nth_error (lit_s l) idx) as [c|] eqn:E.
    + destruct (nth_error (lit_nocase l) idx) as [n|] eqn:F.
      * rewrite (skipn_nth _ _ _ E), (skipn_nth _ _ _ F). cbn [combine map fst snd]. f_equal. apply IH. lia.
      * rewrite (skipn_none _ _ F). destruct (skipn idx (lit_s l)); reflexivity.
    + rewrite (skipn_none _ _ E). reflexivity.
Qed.
Lemma lit_iter_ok : forall l, lit_iter l = pairs_of l.
Proof. intro l. unfold lit_iter. rewrite lit_iter_from_ok by lia. reflexivity. Qed.

Lemma pairs_nth : forall l e, In e (pairs_of l) <->
  exists i, nth_error (lit_s l) i = Some (el_c e) /\ nth_error (lit_nocase l) i = Some (el_nocase e).
Proof.
  intros [s n] [c b]. unfold pairs_of. cbn [lit_s lit_nocase el_c el_nocase]. rewrite in_map_iff. split.
  - intros ([c' b'] & E & I). injection E as -> ->. revert n I. induction s as [|x s IH]; intros n I; [contradiction|].
    destruct n as [|y n]; [contradiction|]. destruct I as [I|I].
    + injection I as -> ->. exists 0%nat. auto.
    + destruct (IH n I) as (i & H). exists (S i). exact H.
  - intros (i & H1 & H2). exists (c, b). split; [reflexivity|]. revert s n H1 H2.
    induction i as [|i IH]; intros [|x s] [|y n] H1 H2; simpl in *; try discriminate.
    + left; congruence.
    + right; apply IH; assumption.
Qed.

Lemma ourisalpha_letter : forall c, ourisalpha c = true <-> is_letter c.
Proof.
  intro c. unfold ourisalpha, mytolower, mytoupper, myisupper, myislower, is_letter, is_upper, is_lower. ifs; lia.
Qed.

Lemma mixed_loop_ok : forall es cs nc, mixed_loop es cs nc =
  (cs || existsb (fun e => ourisalpha (el_c e) && negb (el_nocase e)) es,
   nc || existsb (fun e => ourisalpha (el_c e) && el_nocase e) es).
Proof.
  intro es; induction es as [|e es IH]; intros cs nc; cbn [mixed_loop existsb].
  - rewrite !orb_false_r. reflexivity.
  - destruct (ourisalpha (el_c e)); cbn [negb andb orb]; [|apply IH].
    destruct (el_nocase e); cbn [negb orb]; rewrite IH; rewrite ?orb_true_r, ?orb_true_l; reflexivity.
Qed.
Lemma mixed_ok : forall es, mixed_sensitivity es = true <->
  (exists e, In e es /\ is_letter (el_c e) /\ el_nocase e = false) /\
  (exists e, In e es /\ is_letter (el_c e) /\ el_nocase e = true).
Proof.
  intro es. unfold mixed_sensitivity. rewrite mixed_loop_ok. rewrite !orb_false_l, andb_true_iff, !existsb_exists.
  split; intros [(a & Ia & Ha) (b & Ib & Hb)].
  - apply andb_true_iff in Ha, Hb. rewrite ourisalpha_letter in Ha, Hb. rewrite negb_true_iff in Ha.
    split; [exists a|exists b]; auto.
  - split; [exists a|exists b]; (split; [assumption|]); apply andb_true_iff; rewrite ourisalpha_letter; [|assumption].
    rewrite negb_true_iff. exact Ha.
Qed.

(** ** Lexicographic order *)
Section Lex.
  Context {A : Type} (cmp : A -> A -> comparison).
  Context (cmp_eq : forall a b, cmp a b = Eq <-> a = b).
  Context (cmp_sym : forall a b, cmp b a = CompOpp (cmp a b)).
  Context (cmp_trans : forall a b c, cmp a b = Lt -> cmp b c = Lt -> cmp a c = Lt).
  Lemma lex_eq : forall a b, lex_cmp cmp a b = Eq <-> a = b.
  Proof.
    induction a as [|x a IH]; intros [|y b]; simpl; try (split; congruence).
    destruct (cmp x y) eqn:E.
    - apply cmp_eq in E. subst. rewrite IH. split; congruence.
    - split; [discriminate|]. intro H. injection H as -> ->. pose proof (proj2 (cmp_eq y y) eq_refl). congruence.
    - split; [discriminate|]. intro H. injection H as -> ->. pose proof (proj2 (cmp_eq y y) eq_refl). congruence.
  Qed.
  Lemma lex_sym : forall a b, lex_cmp cmp b a = CompOpp (lex_cmp cmp a b).
  Proof.
    induction a as [|x a IH]; intros [|y b]; simpl; try reflexivity.
    rewrite (cmp_sym x y). destruct (cmp x y); simpl; auto.
  Qed.
  Lemma lex_trans : forall a b c, lex_cmp cmp a b = Lt -> lex_cmp cmp b c = Lt -> lex_cmp cmp a c = Lt.
  Proof.
    induction a as [|x a IH]; intros [|y b] [|z c]; simpl; try congruence.
    destruct (cmp x y) eqn:E1; try discriminate; destruct (cmp y z) eqn:E2; try discriminate; intros H1 H2.
    - apply cmp_eq in E1, E2. subst. rewrite (proj2 (cmp_eq z z) eq_refl). eapply IH; eassumption.
    - apply cmp_eq in E1. subst. rewrite E2. reflexivity.
    - apply cmp_eq in E2. subst. rewrite E1. reflexivity.
    - rewrite (cmp_trans _ _ _ E1 E2). reflexivity.
  Qed.
End Lex.
Lemma bool_cmp_eq : forall a b, bool_cmp a b = Eq <-> a = b.
Proof. intros [] []; simpl; split; congruence. Qed.
Lemma bool_cmp_sym : forall a b, bool_cmp b a = CompOpp (bool_cmp a b).
Proof. intros [] []; reflexivity. Qed.
Lemma bool_cmp_trans : forall a b c, bool_cmp a b = Lt -> bool_cmp b c = Lt -> bool_cmp a c = Lt.
Proof. intros [] [] []; simpl; congruence. Qed.
Lemma ncmp_trans : forall a b c, (a ?= b) = Lt -> (b ?= c) = Lt -> (a ?= c) = Lt.
Proof. intros a b c. rewrite !N.compare_lt_iff. lia. Qed.
Definition lexN_eq := lex_eq N.compare N.compare_eq_iff.
Definition lexN_sym := lex_sym N.compare (fun a b => N.compare_antisym a b).
Definition lexN_trans := lex_trans N.compare N.compare_eq_iff ncmp_trans.
Definition lexB_eq := lex_eq bool_cmp bool_cmp_eq.
Definition lexB_sym := lex_sym bool_cmp bool_cmp_sym.
Definition lexB_trans := lex_trans bool_cmp bool_cmp_eq bool_cmp_trans.

Lemma lit_cmp_eq : forall a b, lit_cmp a b = Eq <-> a = b.
Proof.
  intros [s n] [s' n']. unfold lit_cmp. cbn [lit_s lit_nocase]. destruct (lex_cmp N.compare s s') eqn:E.
  - apply lexN_eq in E. subst. rewrite lexB_eq. split; congruence.
  - split; [discriminate|]. intro H; injection H as -> ->. rewrite (proj2 (lexN_eq s' s') eq_refl) in E. discriminate.
  - split; [discriminate|]. intro H; injection H as -> ->. rewrite (proj2 (lexN_eq s' s') eq_refl) in E. discriminate.
Qed.
Lemma lit_cmp_sym : forall a b, lit_cmp b a = CompOpp (lit_cmp a b).
Proof.
  intros a b. unfold lit_cmp. rewrite (lexN_sym (lit_s a)). destruct (lex_cmp N.compare (lit_s a) (lit_s b)); simpl; auto.
  apply lexB_sym.
Qed.
Lemma lit_cmp_trans : forall a b c, lit_cmp a b = Lt -> lit_cmp b c = Lt -> lit_cmp a c = Lt.
Proof.
  intros a b c. unfold lit_cmp.
  destruct (lex_cmp N.compare (lit_s a) (lit_s b)) eqn:E1; try discriminate;
  destruct (lex_cmp N.compare (lit_s b) (lit_s c)) eqn:E2; try discriminate; intros H1 H2.
  - apply lexN_eq in E1, E2. rewrite E1, E2, (proj2 (lexN_eq _ _) eq_refl). eapply lexB_trans; eassumption.
  - apply lexN_eq in E1. rewrite E1, E2. reflexivity.
  - apply lexN_eq in E2. rewrite <- E2, E1. reflexivity.
  - rewrite (lexN_trans _ _ _ E1 E2). reflexivity.
Qed.
Lemma listN_eqb_ok : forall a b, listN_eqb a b = true <-> a = b.
Proof.
  induction a as [|x a IH]; intros [|y b]; simpl; try (split; congruence).
  rewrite andb_true_iff, N.eqb_eq, IH. split; [intros [-> ->]; reflexivity|]. intro H; injection H; auto.
Qed.
