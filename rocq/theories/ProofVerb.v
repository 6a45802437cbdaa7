(** Lemmas about control verbs and the [parse] function. *)
From Coq Require DecimalString DecimalN.
From Verif Require Import Base ModelUtil ModelBitField ModelCharReach ModelParser SpecSet SpecGrammar
  ProofBase ProofBitField ProofCharReach ProofGrammar ProofParser.
Local Open Scope N_scope.
Local Open Scope list_scope.

(** Printed numbers are different when the numbers are. *)
Lemma lit_inj : forall a b, lit a = lit b -> a = b.
Proof.
  induction a as [|x a IH]; intros [|y b] E; try discriminate; [reflexivity|]. unfold lit in E. cbn [list_ascii_of_string map] in E.
  injection E as E1 E2. f_equal.
  - rewrite <- (ascii_N_embedding x), <- (ascii_N_embedding y). f_equal. exact E1.
  - apply IH. exact E2.
Qed.
Lemma show_inj : forall i j, show i = show j -> i = j.
Proof.
  intros i j E. unfold show in E. apply lit_inj in E. apply (f_equal DecimalString.NilZero.uint_of_string) in E.
  assert (Ne : forall n, N.to_uint n <> Decimal.Nil).
  { intros n Z. apply (f_equal N.of_uint) in Z as Z'. rewrite DecimalN.Unsigned.of_to in Z'. cbn in Z'. subst n. discriminate Z. }
  rewrite !DecimalString.NilZero.usu in E by apply Ne. injection E as E. rewrite <- (DecimalN.Unsigned.of_to i), <- (DecimalN.Unsigned.of_to j). congruence.
Qed.
Lemma missing_error_inj : forall i j, missing_error i = missing_error j -> i = j.
Proof.
  intros i j E. unfold missing_error in E. apply (f_equal err_reason) in E. cbn [err_reason] in E. apply app_inv_head in E. apply app_inv_tail in E.
  apply show_inj. exact E.
Qed.

Lemma span_not_ok : forall c s a b, span_not c s = (a, b) -> s = a ++ b /\ ~ In c a /\ (b = [] \/ exists t, b = c :: t).
Proof.
  intros c s; induction s as [|x s IH]; intros a b H; cbn [span_not] in H.
  - injection H as <- <-. auto.
  - destruct (N.eqb_spec x c) as [->|N].
    + injection H as <- <-. split; [reflexivity|]. split; [intros []|]. right. eauto.
    + destruct (span_not c s) as [a' b'] eqn:E. injection H as <- <-. destruct (IH _ _ eq_refl) as (-> & Ni & T).
      split; [reflexivity|]. split; [|exact T]. intros [Z|Z]; [congruence|contradiction].
Qed.
Lemma span_not_stop : forall c a t, ~ In c a -> span_not c (a ++ c :: t) = (a, c :: t).
Proof.
  intros c a t; induction a as [|x a IH]; intro H; cbn [app span_not].
  - rewrite N.eqb_refl. reflexivity.
  - destruct (N.eqb_spec x c) as [->|N]; [exfalso; apply H; left; reflexivity|].
    rewrite IH; [reflexivity|]. intro Z; apply H; right; exact Z.
Qed.
Lemma control_verb_ok : forall s rest v, control_verb s = Some (rest, v) <-> verb_then s v rest.
Proof.
  intros s rest v. unfold control_verb, verb_then. change (lit "(*") with [40; 42]. split.
  - intro H. destruct s as [|x [|y s]]; cbn [nom_tag] in H; try discriminate.
    { destruct (40 =? x); discriminate. }
    destruct (N.eqb_spec 40 x) as [<-|]; [|discriminate]. destruct (N.eqb_spec 42 y) as [<-|]; [|discriminate].
    unfold nom_is_not in H. destruct (span_not 41 s) as [a b] eqn:E. destruct (span_not_ok _ _ _ _ E) as (-> & Ni & T).
    destruct a as [|a0 a]; [discriminate|]. destruct T as [->|(t & ->)]; [discriminate|]. cbn [nom_char] in H.
    change (41 =? 41) with true in H. cbv iota in H. injection H as <- <-. split; [reflexivity|]. split; [discriminate|exact Ni].
  - intros (-> & Ne & Ni). cbn [nom_tag]. change (40 =? 40) with true. change (42 =? 42) with true. cbv iota.
    unfold nom_is_not. rewrite span_not_stop by exact Ni. destruct v as [|v0 v]; [contradiction|].
    cbn [nom_char]. change (41 =? 41) with true. reflexivity.
Qed.
Lemma no_verb_ok : forall s, control_verb s = None <-> no_verb s.
Proof.
  intro s. split.
  - intros H v rest V. apply control_verb_ok in V. congruence.
  - intro H. destruct (control_verb s) as [[rest v]|] eqn:E; [|reflexivity]. apply control_verb_ok in E. destruct (H _ _ E).
Qed.
Lemma verb_unique : forall s v rest v' rest', verb_then s v rest -> verb_then s v' rest' -> v = v' /\ rest = rest'.
Proof. intros s v rest v' rest' H H'. apply control_verb_ok in H, H'. rewrite H in H'. injection H' as -> ->. auto. Qed.
Lemma starts_with_ok : forall pre s, starts_with pre s = true <-> exists t, s = pre ++ t.
Proof.
  induction pre as [|x pre IH]; intros [|y s]; cbn [starts_with app].
  - split; [exists []; reflexivity|reflexivity].
  - split; [eexists; reflexivity|reflexivity].
  - split; [discriminate|intros (t & E); discriminate].
  - rewrite andb_true_iff, IH, N.eqb_eq. split.
    + intros (-> & t & ->). exists t. reflexivity.
    + intros (t & E). injection E as -> ->. split; [reflexivity|]. exists t. reflexivity.
Qed.
Lemma existsb_str : forall v l, existsb (str_eqb v) l = true <-> In v l.
Proof.
  intros v l. rewrite existsb_exists. split.
  - intros (x & I & E). apply str_eqb_eq in E. subst. exact I.
  - intro I. exists v. split; [exact I|]. apply str_eqb_eq. reflexivity.
Qed.
Lemma accepted_dec : forall v, {accepted_verb v} + {~ accepted_verb v}.
Proof.
  intro v. unfold accepted_verb.
  destruct (list_eq_dec N.eq_dec v (lit "UCP")); [auto|]. destruct (list_eq_dec N.eq_dec v (lit "UTF")); [auto|].
  destruct (list_eq_dec N.eq_dec v (lit "UTF8")); [auto|]. right. tauto.
Qed.
Lemma read_verbs_ok : forall p s start m, start + 2 < 2 ^ usize_bits p ->
  (forall rest m', starts s m rest m' -> read_control_verbs p s start m = Ret (ROk (rest, m'))) /\
  (forall v rest, verb_then s v rest -> unsupported_verb v -> ~ accepted_verb v ->
     read_control_verbs p s start m = Ret (RErr (verb_error (lit "Unsupported control verb ") v start))) /\
  (forall v rest, verb_then s v rest -> ~ unsupported_verb v -> ~ accepted_verb v ->
     read_control_verbs p s start m = Ret (RErr (verb_error (lit "Unknown control verb ") v start))).
Proof.
  intros p s start m Hs.
  assert (Bad : forall v, ~ accepted_verb v -> str_eqb v (lit "UCP") = false /\ str_eqb v (lit "UTF8") = false /\ str_eqb v (lit "UTF") = false).
  { intros v Na. unfold accepted_verb in Na. repeat split; apply not_true_is_false; intro E; apply str_eqb_eq in E; tauto. }
  split; [|split].
  - intros rest m' St. unfold read_control_verbs. destruct St as [s m Nv|s m rest V|s m v rest V Ev].
    + apply no_verb_ok in Nv. rewrite Nv. reflexivity.
    + apply control_verb_ok in V. rewrite V. reflexivity.
    + apply control_verb_ok in V. rewrite V. destruct Ev as [-> | ->]; reflexivity.
  - intros v rest V Un Na. unfold read_control_verbs. apply control_verb_ok in V. rewrite V. destruct (Bad v Na) as (-> & -> & ->). cbn [orb].
    rewrite chk_add_ok by exact Hs. cbn [bind]. destruct Un as [I|[I|I]].
    + assert (X : existsb (str_eqb v) unsupported_verbs = true) by (apply existsb_str; exact I). rewrite X. reflexivity.
    + apply starts_with_ok in I. rewrite I. cbn [orb]. destruct (existsb (str_eqb v) unsupported_verbs); reflexivity.
    + apply starts_with_ok in I. rewrite I, orb_true_r. destruct (existsb (str_eqb v) unsupported_verbs); reflexivity.
  - intros v rest V Un Na. unfold read_control_verbs. apply control_verb_ok in V. rewrite V. destruct (Bad v Na) as (-> & -> & ->). cbn [orb].
    rewrite chk_add_ok by exact Hs. cbn [bind].
    assert (X : existsb (str_eqb v) unsupported_verbs = false).
    { apply not_true_is_false. intro E. apply existsb_str in E. apply Un. left. exact E. }
    assert (Y : starts_with (lit "LIMIT_MATCH=") v = false).
    { apply not_true_is_false. intro E. apply starts_with_ok in E. apply Un. right. left. exact E. }
    assert (Z : starts_with (lit "LIMIT_RECURSION=") v = false).
    { apply not_true_is_false. intro E. apply starts_with_ok in E. apply Un. right. right. exact E. }
    rewrite X, Y, Z. reflexivity.
Qed.

Lemma starts_caseless : forall s m body m', starts s m body m' -> caseless m' = caseless m.
Proof. intros s m body m' H. destruct H; reflexivity. Qed.
Lemma starts_suffix : forall s m body m', starts s m body m' -> exists pre, s = pre ++ body.
Proof.
  intros s m body m' H. destruct H as [|s m rest (E & _)|s m v rest (E & _) _].
  - exists []. reflexivity.
  - exists (40 :: 42 :: lit "UCP" ++ [41]). rewrite E. rewrite !app_comm_cons. change (41 :: rest) with ([41] ++ rest). rewrite !app_assoc. reflexivity.
  - exists (40 :: 42 :: v ++ [41]). rewrite E. cbn [app]. rewrite <- app_assoc. reflexivity.
Qed.
Lemma starts_fun : forall s m body m1 body' m2, starts s m body m1 -> starts s m body' m2 -> body = body' /\ m1 = m2.
Proof.
  intros s m body m1 body' m2 H H'. assert (Z : 0 + 2 < 2 ^ usize_bits dev) by reflexivity.
  pose proof (proj1 (read_verbs_ok dev s 0 m Z) _ _ H) as E. rewrite (proj1 (read_verbs_ok dev s 0 m Z) _ _ H') in E. injection E as -> ->. auto.
Qed.
(** Every expression has an accepted start or a rejected verb. *)
Lemma starts_total : forall s m, (exists body m', starts s m body m') \/ (exists v rest, verb_then s v rest /\ ~ accepted_verb v).
Proof.
  intros s m. destruct (control_verb s) as [[rest v]|] eqn:E.
  - apply control_verb_ok in E. destruct (accepted_dec v) as [A|A]; [left|right; eauto].
    destruct A as [->|[->| ->]]; do 2 eexists; [apply starts_ucp; exact E|eapply starts_utf; [exact E|auto]|eapply starts_utf; [exact E|auto]].
  - apply no_verb_ok in E. left. do 2 eexists. apply starts_plain. exact E.
Qed.
Lemma rejected_not_starts : forall s v rest m body m', verb_then s v rest -> ~ accepted_verb v -> ~ starts s m body m'.
Proof.
  intros s v rest m body m' V Na H. destruct H as [s m Nv|s m r V'|s m v' r V' Ev].
  - apply (Nv _ _ V).
  - destruct (verb_unique _ _ _ _ _ V V') as [-> _]. apply Na. left. reflexivity.
  - destruct (verb_unique _ _ _ _ _ V V') as [-> _]. apply Na. right. exact Ev.
Qed.
Lemma unsupported_dec : forall v, unsupported_verb v \/ ~ unsupported_verb v.
Proof.
  intro v. unfold unsupported_verb.
  destruct (in_dec (list_eq_dec N.eq_dec) v unsupported_verbs) as [I|I]; [left; left; exact I|].
  destruct (starts_with (lit "LIMIT_MATCH=") v) eqn:E1; [left; right; left; apply starts_with_ok; exact E1|].
  destruct (starts_with (lit "LIMIT_RECURSION=") v) eqn:E2; [left; right; right; apply starts_with_ok; exact E2|].
  right. intros [J|[J|J]]; [contradiction| |]; apply starts_with_ok in J; congruence.
Qed.
Lemma parse_start : forall p s m body m', starts s m body m' ->
  parse p s m = let? root := cx_parse p (context_new s body m') in Ret (ROk (CSequence root, m')).
Proof.
  intros p s m body m' H. assert (Z : 0 + 2 < 2 ^ usize_bits p) by (pose proof (usize_at_least p); lia). unfold parse. rewrite (proj1 (read_verbs_ok p s 0 m Z) _ _ H). reflexivity.
Qed.
Lemma parse_bad_verb : forall p s m v rest, verb_then s v rest -> ~ accepted_verb v ->
  exists what, parse p s m = Ret (RErr (verb_error what v 0)) /\
    ((unsupported_verb v /\ what = lit "Unsupported control verb ") \/ (~ unsupported_verb v /\ what = lit "Unknown control verb ")).
Proof.
  intros p s m v rest V Na. assert (Z : 0 + 2 < 2 ^ usize_bits p) by (pose proof (usize_at_least p); lia). destruct (read_verbs_ok p s 0 m Z) as (_ & R1 & R2).
  unfold parse. destruct (unsupported_dec v) as [U|U].
  - exists (lit "Unsupported control verb "). rewrite (R1 _ _ V U Na). auto.
  - exists (lit "Unknown control verb "). rewrite (R2 _ _ V U Na). auto.
Qed.

(** ** All outcomes of parsing *)
Inductive parse_outcome (p : profile) (s : str) (m : parse_mode) : outcome (result compile_error (component * parse_mode)) -> Prop :=
| po_verb : forall v rest what, verb_then s v rest -> ~ accepted_verb v ->
    (unsupported_verb v /\ what = lit "Unsupported control verb ") \/ (~ unsupported_verb v /\ what = lit "Unknown control verb ") ->
    parse_outcome p s m (Ret (RErr (verb_error what v 0)))
| po_ok : forall body m' e, starts s m body m' -> ascii_text body -> groups_ok p s body body -> wf_expr e -> text e = body ->
    parse_outcome p s m (Ret (ROk (tree (caseless m) e, m')))
| po_missing : forall body m' a b, starts s m body m' -> ascii_text body -> groups_ok p s body body -> never_negative body ->
    (closes body < opens body)%nat -> body = a ++ 40 :: b -> balanced b ->
    parse_outcome p s m (Ret (RErr (missing_error (sub_wrapped p (str_len (40 :: b)) (str_len s)))))
| po_unmatched : forall body m' a b, starts s m body m' -> body = a ++ 41 :: b -> good_prefix p s body a -> closes a = opens a ->
    parse_outcome p s m (Ret (RErr unmatched_error))
| po_assert : forall body m' a c b, starts s m body m' -> body = a ++ c :: b -> good_prefix p s body a -> 128 <= c ->
    parse_outcome p s m (Panic PAssert)
| po_overflow : forall body m' a b, starts s m body m' -> overflow_checks p = true -> body = a ++ 40 :: b -> good_prefix p s body a ->
    ~ (a = [] /\ body = s) -> parse_outcome p s m (Panic POverflow).
Lemma parse_cases : forall p s m, parse_outcome p s m (parse p s m).
Proof.
  intros p s m. destruct (starts_total s m) as [(body & m' & St)|(v & rest & V & Na)].
  2:{ destruct (parse_bad_verb p s m v rest V Na) as (what & -> & W). econstructor; eassumption. }
  destruct (starts_suffix _ _ _ _ St) as [pre Hs]. rewrite (parse_start _ _ _ _ _ St).
  destruct (exhaustive p s body) as [A G B|A G N L|a b E G C|a c b E G C|a b Oc E G C].
  - pose proof B as B'. apply balanced_derivation in B'. destruct B' as (e & W & T).
    rewrite (parse_ok p s body m' e W (eq_sym T) A G). cbn [bindr].
    change (CSequence (seq_of (Some 0) (fst (tree_branches (caseless m') 1 e)))) with (tree (caseless m') e).
    rewrite (starts_caseless _ _ _ _ St). econstructor; eassumption.
  - destruct (innermost body N L) as (a & b & E & B). rewrite (parse_missing p s body m' a b E B A N G). cbn [bindr]. eapply po_missing; eassumption.
  - rewrite (parse_unmatched p s body m' a b E G C). cbn [bindr]. eapply po_unmatched; eassumption.
  - rewrite (parse_assert p s body m' a c b E G C). cbn [bindr]. eapply po_assert; eassumption.
  - rewrite (parse_overflow p s body pre m' Hs a b Oc E G C). cbn [bindr]. eapply po_overflow; eassumption.
Qed.
(** and conversely each condition gives its outcome *)
Lemma parse_outcome_fun : forall p s m o, parse_outcome p s m o -> parse p s m = o.
Proof.
  intros p s m o H. destruct H as [v rest what V Na W|body m' e St A G We T|body m' a b St A G N L E B|body m' a b St E G C|body m' a c b St E G C|body m' a b St Oc E G C].
  - destruct (parse_bad_verb p s m v rest V Na) as (what' & -> & W'). do 3 f_equal.
    destruct W as [[W1 ->]|[W1 ->]], W' as [[W2 ->]|[W2 ->]]; try contradiction; reflexivity.
  - rewrite (parse_start _ _ _ _ _ St). rewrite (parse_ok p s body m' e We (eq_sym T) A G). cbn [bindr]. rewrite (starts_caseless _ _ _ _ St). reflexivity.
  - rewrite (parse_start _ _ _ _ _ St). rewrite (parse_missing p s body m' a b E B A N G). reflexivity.
  - rewrite (parse_start _ _ _ _ _ St). rewrite (parse_unmatched p s body m' a b E G C). reflexivity.
  - rewrite (parse_start _ _ _ _ _ St). rewrite (parse_assert p s body m' a c b E G C). reflexivity.
  - destruct (starts_suffix _ _ _ _ St) as [pre Hs]. rewrite (parse_start _ _ _ _ _ St). rewrite (parse_overflow p s body pre m' Hs a b Oc E G C). reflexivity.
Qed.
