(** Lemmas that compare two calls: texts that differ in case only, texts and their
    continuations, calls with the same items. *)
From Coq Require Import Permutation.
From Verif Require Import Base ModelUtil ModelBitField ModelCharReach ModelLiteral ModelReport ModelPetgraph ModelParser ModelSmallWrite ModelCompiler
  SpecSet SpecGrammar SpecReport SpecTrie SpecTree SpecCompile SpecLang SpecOrder
  ProofBase ProofBitField ProofCharReach ProofGrammar ProofParser ProofVerb ProofCompile.
Local Open Scope N_scope.
Local Open Scope list_scope.

(** ** Case of letters *)
Lemma field_of_ext : forall f g, (forall c, byte c -> f c = g c) -> field_of f = field_of g.
Proof. intros f g H. apply field_of_unique; [apply field_of_wf|]. intros c Hc. rewrite field_of_mem by exact Hc. apply H. exact Hc. Qed.
Lemma class_of_case : forall c c', c' = c \/ c' = other_case c -> class_of true c = class_of true c'.
Proof.
  intros c c' [->| ->]; [reflexivity|]. unfold class_of. f_equal. apply field_of_ext. intros x _. unfold char_matches, other_case. cbn [andb]. ifs; lia.
Qed.
Lemma other_case_big : forall c, 128 <= c -> other_case c = c.
Proof. intros c H. unfold other_case. ifs; lia. Qed.
Lemma case_char_len : forall c c', c' = c \/ c' = other_case c -> char_len c' = char_len c.
Proof. 
  intros c c' [->| ->]; [reflexivity|]. destruct (N.ltb_spec c 128) as [L|L]; [|rewrite other_case_big by exact L; reflexivity].
  assert (other_case c < 128) by (unfold other_case; ifs; lia). unfold char_len. replace (c <? 128) with true by lia. replace (other_case c <? 128) with true by lia. reflexivity.
Qed.
Lemma case_str_len : forall s s', case_variant s s' -> str_len s' = str_len s.
Proof.
  intros s s' H. induction H as [|x y s s' E H IH]; [reflexivity|]. change (char_len y + str_len s' = char_len x + str_len s). rewrite IH, (case_char_len _ _ E). reflexivity.
Qed.
Lemma case_special : forall c c' k, c' = c \/ c' = other_case c -> k = 40 \/ k = 41 \/ k = 124 -> (c = k <-> c' = k).
Proof. intros c c' k [->| ->] K; [tauto|]. unfold other_case. ifs; lia. Qed.

(** Outcomes of the reading loop that agree in all but the whole text, which is only
    kept for the offsets. *)
Definition ctx_agree (o o' : outcome (result compile_error context)) : Prop :=
  match o, o' with
  | Ret (ROk c), Ret (ROk c') => cx_sequences c = cx_sequences c' /\ cx_current c = cx_current c'
  | Ret (ROk _), _ | _, Ret (ROk _) => False
  | _, _ => o = o'
  end.
Lemma case_run : forall p s s', case_variant s s' -> forall ptr ptr' m K n cur, str_len ptr = str_len ptr' -> caseless m = true -> Forall (fun e => caseless (es_mode e) = true) K ->
  ctx_agree (ProofParser.run p (Context ptr s m K n cur)) (ProofParser.run p (Context ptr' s' m K n cur)).
Proof.
  intros p s s' H. induction H as [|x y s s' E H IH]; intros ptr ptr' m K n cur Lp Cm Fk; [cbn; auto|].
  assert (Ls : str_len (y :: s') = str_len (x :: s)) by (apply case_str_len; constructor; assumption).
  destruct (N.eq_dec x 40) as [->|N0].
  { assert (y = 40) by (apply (case_special _ _ 40 E); auto). subst y. rewrite !run_open. rewrite Ls, <- Lp.
    destruct (chk_add p 32 n 1) as [gi|w|]; cbn [bind ctx_agree]; try reflexivity.
    destruct (chk_sub p (usize_bits p) (str_len (40 :: s)) (str_len ptr)) as [off|w|]; cbn [bind ctx_agree]; try reflexivity. apply IH; auto. }
  destruct (N.eq_dec x 41) as [->|N1].
  { assert (y = 41) by (apply (case_special _ _ 41 E); auto). subst y. rewrite !run_close. destruct K as [|v K]; [reflexivity|]. inversion Fk as [|? ? Fv Fk']; subst.
    destruct (finalize p cur) as [q|w|]; cbn [bind ctx_agree]; try reflexivity. apply IH; auto. }
  destruct (N.eq_dec x 124) as [->|N2].
  { assert (y = 124) by (apply (case_special _ _ 124 E); auto). subst y. rewrite !run_bar. apply IH; auto. }
  assert (Px : plain x) by (unfold plain; auto).
  assert (Py : plain y). { unfold plain. conjs; intro Z; [apply N0|apply N1|apply N2]; eapply (case_special x y); eauto. }
  destruct (N.ltb_spec x 128) as [L|L].
  - assert (Ly : y < 128) by (destruct E as [->| ->]; [exact L|unfold other_case; ifs; lia]).
    rewrite !run_char by assumption. rewrite Cm, (class_of_case _ _ E). apply IH; auto.
  - assert (Ly : 128 <= y) by (destruct E as [->| ->]; [exact L|rewrite other_case_big; exact L]). rewrite !run_nonascii by assumption. reflexivity.
Qed.
Lemma case_parse_body : forall p s s' body body' m, case_variant body body' -> str_len s = str_len s' -> caseless m = true ->
  cx_parse p (context_new s body m) = cx_parse p (context_new s' body' m).
Proof.
  intros p s s' body body' m V L C. rewrite !parse_run, !start_eq. pose proof (case_run p body body' V s s' m [] 1 root_seq L C (Forall_nil _)) as A.
  destruct (ProofParser.run p (Context s body m [] 1 root_seq)) as [[c|e]|w|], (ProofParser.run p (Context s' body' m [] 1 root_seq)) as [[c'|e']|w'|]; cbn [ctx_agree] in A; try contradiction; try discriminate A;
    try (injection A as <-; reflexivity); try reflexivity.
  destruct A as [A1 A2]. cbn [bindr]. rewrite <- A1, <- A2. reflexivity.
Qed.
Lemma same_but_case_len : forall s s', same_but_case s s' -> str_len s = str_len s'.
Proof.
  intros s s' [(_ & _ & V)|(v & r & r' & (-> & _) & (-> & _) & V)]; [symmetry; apply case_str_len; exact V|].
  change (40 :: 42 :: v ++ 41 :: r) with ([40; 42] ++ v ++ [41] ++ r). change (40 :: 42 :: v ++ 41 :: r') with ([40; 42] ++ v ++ [41] ++ r').
  rewrite !str_len_app, (case_str_len _ _ V). reflexivity.
Qed.
Lemma case_parse : forall p s s' m, caseless m = true -> same_but_case s s' -> parse p s m = parse p s' m.
Proof.
  intros p s s' m C S. pose proof (same_but_case_len _ _ S) as L. destruct S as [(Nv & Nv' & V)|(v & r & r' & T & T' & V)].
  - rewrite (parse_start p s m s m) by (constructor; exact Nv). rewrite (parse_start p s' m s' m) by (constructor; exact Nv').
    rewrite (case_parse_body p s s' s s' m V L C). reflexivity.
  - destruct (starts_total s m) as [(body & m' & St)|(v0 & rest & V0 & Na)].
    + assert (St' : starts s' m r' m' /\ body = r).
      { inversion St as [s0 m0 Nv|s0 m0 rest X|s0 m0 v0 rest X Y]; subst.
        - destruct (Nv _ _ T).
        - destruct (verb_unique _ _ _ _ _ T X) as [-> ->]. split; [apply starts_ucp; exact T'|reflexivity].
        - destruct (verb_unique _ _ _ _ _ T X) as [-> ->]. split; [eapply starts_utf; [exact T'|exact Y]|reflexivity]. }
      destruct St' as [St' ->]. rewrite (parse_start _ _ _ _ _ St), (parse_start _ _ _ _ _ St').
      rewrite (case_parse_body p s s' r r' m' V L); [reflexivity|]. rewrite (starts_caseless _ _ _ _ St). exact C.
    + destruct (verb_unique _ _ _ _ _ T V0) as [-> ->]. destruct (unsupported_dec v0) as [U|U].
      * rewrite (parse_outcome_fun p s m _ (po_verb p s m v0 rest (lit "Unsupported control verb ") V0 Na (or_introl (conj U eq_refl)))).
        rewrite (parse_outcome_fun p s' m _ (po_verb p s' m v0 r' (lit "Unsupported control verb ") T' Na (or_introl (conj U eq_refl)))). reflexivity.
      * rewrite (parse_outcome_fun p s m _ (po_verb p s m v0 rest (lit "Unknown control verb ") V0 Na (or_intror (conj U eq_refl)))).
        rewrite (parse_outcome_fun p s' m _ (po_verb p s' m v0 r' (lit "Unknown control verb ") T' Na (or_intror (conj U eq_refl)))). reflexivity.
Qed.
Lemma case_add_expression : forall p n i e e' f id, (if N.testbit f 0 then same_but_case e e' else e = e') ->
  add_expression p n i e f id = add_expression p n i e' f id.
Proof.
  intros p n i e e' f id H. destruct (N.testbit f 0) eqn:B; [|rewrite H; reflexivity].
  unfold add_expression, parsed_expression_new. rewrite (same_but_case_len _ _ H).
  pose proof (flags_mode (Item e f id)) as M. cbn [it_flags] in M. rewrite M.
  rewrite (case_parse p e e' (item_mode (Item e f id))); [reflexivity|exact B|exact H].
Qed.

(** ** Continuing a text *)
Lemma no_verb_app : forall s t, no_verb s -> (forall v, ~ unfinished s v) -> s <> [] -> s <> [40] -> s <> [40; 42] -> no_verb (s ++ t).
Proof.
  intros s t Nv Nu N0 N1 N2 v rest (E & Ne & Ni). destruct s as [|a [|b s]]; [contradiction| |].
  - injection E as -> _. contradiction.
  - cbn in E. injection E as -> -> E. destruct s as [|c s]; [contradiction|].
    destruct (in_dec N.eq_dec 41 (c :: s)) as [I|I]; [|apply (Nu (c :: s)); repeat split; [discriminate|exact I]].
    destruct (in_split _ _ I) as (x & y & E').
    assert (Sp : exists x y, c :: s = x ++ 41 :: y /\ ~ In 41 x).
    { clear -I. remember (c :: s) as l. clear Heql. induction l as [|z l IH]; [contradiction|]. destruct (N.eq_dec z 41) as [->|N]; [exists [], l; auto|].
      destruct I as [->|I]; [contradiction|]. destruct (IH I) as (x & y & -> & Nx). exists (z :: x), y. split; [reflexivity|]. intros [Z|Z]; [congruence|contradiction]. }
    clear x y E'. destruct Sp as (x & y & E' & Nx). rewrite E' in E. rewrite <- app_assoc in E. cbn [app] in E.
    assert (v = x). { pose proof (span_not_stop 41 x (y ++ t) Nx) as S1. pose proof (span_not_stop 41 v rest Ni) as S2. rewrite E in S1. congruence. }
    subst v. apply (Nv x y). split; [rewrite E'; reflexivity|auto].
Qed.
Lemma verb_then_app : forall s t v rest, verb_then s v rest -> verb_then (s ++ t) v (rest ++ t).
Proof. intros s t v rest (-> & Ne & Ni). split; [cbn; rewrite <- app_assoc; reflexivity|auto]. Qed.
Lemma starts_app : forall s t m body m', starts s m body m' -> (forall v, ~ unfinished s v) -> s <> [] -> s <> [40] -> s <> [40; 42] -> starts (s ++ t) m (body ++ t) m'.
Proof.
  intros s t m body m' St Nu N0 N1 N2. inversion St as [s0 m0 Nv|s0 m0 rest X|s0 m0 v0 rest X Y]; subst.
  - constructor. apply no_verb_app; assumption.
  - apply starts_ucp. apply verb_then_app. exact X.
  - eapply starts_utf; [apply verb_then_app; exact X|exact Y].
Qed.
Lemma groups_ok_longer : forall p s body a t, groups_ok p s body a -> groups_ok p (s ++ t) (body ++ t) a.
Proof. intros p s body a t G O x y E. destruct (G O x y E) as [-> ->]. auto. Qed.
Lemma good_prefix_longer : forall p s body a t, good_prefix p s body a -> good_prefix p (s ++ t) (body ++ t) a.
Proof. intros p s body a t (A & N & G). split; [exact A|]. split; [exact N|]. apply groups_ok_longer. exact G. Qed.
Lemma no_close_unfinished : forall s body m m', starts s m body m' -> In 41 body -> (forall v, ~ unfinished s v) /\ s <> [] /\ s <> [40] /\ s <> [40; 42].
Proof.
  intros s body m m' St I. assert (Is : In 41 s) by (destruct (starts_suffix _ _ _ _ St) as [pre ->]; apply in_or_app; auto).
  conjs; try (intro Z; rewrite Z in Is; cbn in Is; intuition discriminate).
  intros v (-> & _ & Ni). apply Ni. cbn in Is. intuition discriminate.
Qed.

Lemma verb_error_not_unmatched : forall v what i, what = lit "Unsupported control verb " \/ what = lit "Unknown control verb " -> verb_error what v i <> unmatched_error.
Proof.
  intros v what i W E. apply (f_equal err_reason) in E. cbn [verb_error unmatched_error err_reason] in E. apply (f_equal (fun l => nth 2 l 0)) in E.
  destruct W as [->| ->]; cbn in E; discriminate E.
Qed.
Lemma missing_not_located : forall i e, err_kind e = ELocatedParse -> missing_error i <> e.
Proof. intros i e K <-. discriminate K. Qed.
(** What parsing a text says about its continuations. *)
Lemma located_app : forall p s t m e, parse p s m = Ret (RErr e) -> err_kind e = ELocatedParse -> parse p (s ++ t) m = Ret (RErr e).
Proof.
  intros p s t m e E K. pose proof (parse_cases p s m) as C. remember (parse p s m) as o eqn:Eo. clear Eo.
  destruct C as [v rest what V Na W|body m' e' St A G We T|body m' a b St A G N L E' B|body m' a b St E' G Cl|body m' a c b St E' G Cl|body m' a b St Oc E' G Cl]; try discriminate E.
  - rewrite <- E. apply parse_outcome_fun. eapply po_verb; [apply verb_then_app; exact V|exact Na|exact W].
  - exfalso. injection E as E. subst e. discriminate K.
  - rewrite <- E. destruct (no_close_unfinished _ _ _ _ St) as (U & N0 & N1 & N2); [rewrite E'; apply in_or_app; right; left; reflexivity|].
    apply parse_outcome_fun. eapply (po_unmatched _ _ _ (body ++ t) m' a (b ++ t)); [apply starts_app; assumption|rewrite E', <- app_assoc; reflexivity|apply good_prefix_longer; exact G|exact Cl].
Qed.
Lemma panic_app : forall p s t m w, parse p s m = Panic w -> (forall v, ~ unfinished s v) -> parse p (s ++ t) m = Panic w.
Proof.
  intros p s t m w E U. pose proof (parse_cases p s m) as C. remember (parse p s m) as o eqn:Eo. clear Eo.
  assert (Short : forall body m' a c b, starts s m body m' -> body = a ++ c :: b -> 128 <= c \/ (c = 40 /\ ~ (a = [] /\ body = s)) -> s <> [] /\ s <> [40] /\ s <> [40; 42]).
  { intros body m' a c b St Eb Cc.
    assert (Body : s = [] \/ s = [40] \/ s = [40; 42] -> body = s).
    { intro Hs. inversion St as [s0 m0 Nv|s0 m0 rest X|s0 m0 v0 rest X Y]; subst; [reflexivity| |]; exfalso; destruct X as (X & Ne & _).
      - destruct Hs as [Z|[Z|Z]]; rewrite Z in X; try discriminate X.
      - destruct Hs as [Z|[Z|Z]]; rewrite Z in X; try discriminate X. injection X as X. destruct v0; discriminate X. }
    assert (Hc : forall l, body = l -> (forall x, In x l -> x < 128 /\ x <> 40) \/ (exists l', l = 40 :: l' /\ ~ In 40 l' /\ forall x, In x l' -> x < 128) -> body = s -> False).
    { intros l El [H|(l' & -> & N4 & H)] Es.
      - rewrite El in Eb. assert (I : In c l) by (rewrite Eb; apply in_or_app; right; left; reflexivity). specialize (H c I). lia.
      - rewrite El in Eb. destruct a as [|a0 a]; cbn in Eb; injection Eb as E0 E1.
        + destruct Cc as [Cc|[Cc X]]; [lia|apply X; auto].
        + assert (I : In c l') by (rewrite E1; apply in_or_app; right; left; reflexivity). destruct Cc as [Cc|[-> _]]; [specialize (H c I); lia|contradiction]. }
    conjs; intro Z; (eapply (Hc s); [apply Body; auto| |apply Body; auto]); rewrite Z; [left; intros x []|right; exists []; cbn; intuition congruence|right; exists [42]; cbn; intuition (try congruence; subst; reflexivity)]. }
  destruct C as [v rest what V Na W|body m' e' St A G We T|body m' a b St A G N L E' B|body m' a b St E' G Cl|body m' a c b St E' G Cl|body m' a b St Oc E' G Cl]; try discriminate E; rewrite <- E; apply parse_outcome_fun.
  - destruct (Short _ _ _ _ _ St E' (or_introl Cl)) as (N0 & N1 & N2).
    eapply (po_assert _ _ _ (body ++ t) m' a c (b ++ t)); [apply starts_app; assumption|rewrite E', <- app_assoc; reflexivity|apply good_prefix_longer; exact G|exact Cl].
  - destruct (Short _ _ _ _ _ St E' (or_intror (conj eq_refl Cl))) as (N0 & N1 & N2).
    eapply (po_overflow _ _ _ (body ++ t) m' a (b ++ t)); [apply starts_app; assumption|exact Oc|rewrite E', <- app_assoc; reflexivity|apply good_prefix_longer; exact G|].
    intros [Z1 Z2]. apply Cl. split; [exact Z1|]. apply app_inv_tail in Z2. exact Z2.
Qed.

Lemma opens_repeat : forall k, opens (repeat 41 k) = 0%nat.
Proof. induction k as [|k IH]; [reflexivity|]. cbn [repeat]. rewrite opens_cons, IH. reflexivity. Qed.
Lemma closes_repeat : forall k, closes (repeat 41 k) = k.
Proof. induction k as [|k IH]; [reflexivity|]. cbn [repeat]. rewrite closes_cons, IH. reflexivity. Qed.
Lemma close_all : forall s, never_negative s -> balanced (s ++ repeat 41 (opens s - closes s)).
Proof.
  intros s N. pose proof (nn_count _ N) as L. split.
  - apply nn_app; [exact N|]. intros x y E. pose proof (f_equal closes E) as Ec. rewrite closes_repeat, closes_app in Ec. lia.
  - rewrite closes_app, opens_app, closes_repeat, opens_repeat. lia.
Qed.
Lemma groups_ok_closed : forall p s body k, groups_ok p s body body -> groups_ok p (s ++ repeat 41 k) (body ++ repeat 41 k) (body ++ repeat 41 k).
Proof.
  intros p s body k G O a b E.
  assert (exists b', body = a ++ 40 :: b').
  { assert (Ne : ~ In 40 (repeat 41 k)) by (intro I; apply repeat_spec in I; discriminate I).
    revert body G E. induction a as [|x a IH]; intros [|y body] G E; cbn in E.
    - exfalso. apply Ne. rewrite E. left. reflexivity.
    - injection E as -> E. exists body. reflexivity.
    - exfalso. apply Ne. rewrite E. right. apply in_or_app. right. left. reflexivity.
    - injection E as -> E. destruct (IH body) as (b' & ->); [|exact E|exists b'; reflexivity].
      intros O' a' b' E'. exfalso. destruct (G O (x :: a') b') as [Z _]; [cbn; rewrite E'; reflexivity|discriminate Z]. }
  destruct H as (b' & Eb). destruct (G O a b' Eb) as [-> ->]. auto.
Qed.
Lemma no_verb_close : forall s k, no_verb s -> (forall v, ~ unfinished s v) -> no_verb (s ++ repeat 41 k).
Proof.
  intros s k Nv Nu. destruct (list_eq_dec N.eq_dec s []) as [->|N0]; [|destruct (list_eq_dec N.eq_dec s [40]) as [->|N1]; [|destruct (list_eq_dec N.eq_dec s [40; 42]) as [->|N2]; [|apply no_verb_app; assumption]]].
  - intros v r (E & _). destruct k; discriminate E.
  - intros v r (E & _). destruct k; discriminate E.
  - intros v r (E & Ne & Ni). cbn in E. injection E as E. destruct v as [|c v]; [contradiction|]. destruct k as [|k]; [discriminate E|]. cbn in E. injection E as <- _. apply Ni. left. reflexivity.
Qed.
Lemma repairable : forall p s m i, parse p s m = Ret (RErr (missing_error i)) -> (forall v, ~ unfinished s v) ->
  exists k r, parse p (s ++ repeat 41 k) m = Ret (ROk r).
Proof.
  intros p s m i E U. pose proof (parse_cases p s m) as C. remember (parse p s m) as o eqn:Eo. clear Eo.
  destruct C as [v rest what V Na W|body m' e' St A G We T|body m' a b St A G N L E' B|body m' a b St E' G Cl|body m' a c b St E' G Cl|body m' a b St Oc E' G Cl]; try discriminate E.
  assert (St' : forall k, starts (s ++ repeat 41 k) m (body ++ repeat 41 k) m').
  { intro k. inversion St as [s0 m0 Nv|s0 m0 rest X|s0 m0 v0 rest X Y]; subst.
    - constructor. apply no_verb_close; assumption.
    - apply starts_ucp. apply verb_then_app. exact X.
    - eapply starts_utf; [apply verb_then_app; exact X|exact Y]. }
  exists (opens body - closes body)%nat. pose proof (close_all _ N) as Bc. apply balanced_derivation in Bc. destruct Bc as (e & We & Te).
  exists (tree (caseless m) e, m'). apply parse_outcome_fun. eapply po_ok; [apply St'| |apply groups_ok_closed; exact G|exact We|exact Te].
  apply ascii_app. split; [exact A|]. intros c I. apply repeat_spec in I. subst c. reflexivity.
Qed.
Lemma unfinished_no_verb : forall s v, unfinished s v -> no_verb s.
Proof.
  intros s v (-> & Ne & Ni) v' r (E & _). injection E as E. apply Ni. rewrite E. apply in_or_app. right. left. reflexivity.
Qed.
Lemma first_close : forall l, In 41 l -> exists x y, l = x ++ 41 :: y /\ ~ In 41 x.
Proof.
  induction l as [|z l IH]; intro I; [contradiction|]. destruct (N.eq_dec z 41) as [->|N]; [exists [], l; auto|].
  destruct I as [->|I]; [contradiction|]. destruct (IH I) as (x & y & -> & Nx). exists (z :: x), y. split; [reflexivity|]. intros [Z|Z]; [congruence|contradiction].
Qed.
Lemma unfinished_repair : forall p s v m, unfinished s v -> ((exists t r, parse p (s ++ t) m = Ret (ROk r)) <-> exists w, accepted_verb (v ++ w)).
Proof.
  intros p s v m (-> & Ne & Ni). split.
  - intros (t & r & E). pose proof (parse_cases p ((40 :: 42 :: v) ++ t) m) as C. rewrite E in C. remember (Ret (ROk r)) as o eqn:Eo. clear E.
    destruct C as [v' rest what V Na W|body m' e' St A G We T|body m' a b St A G N L E' B|body m' a b St E' G Cl|body m' a c b St E' G Cl|body m' a b St Oc E' G Cl]; try discriminate Eo.
    destruct (in_dec N.eq_dec 41 t) as [I|I].
    + destruct (first_close _ I) as (x & y & -> & Nx). exists x.
      assert (V : verb_then ((40 :: 42 :: v) ++ x ++ 41 :: y) (v ++ x) y).
      { split; [cbn; rewrite <- app_assoc; reflexivity|]. split; [destruct v; [contradiction|discriminate]|]. intro Z. apply in_app_or in Z. tauto. }
      destruct (accepted_dec (v ++ x)) as [Y|Y]; [exact Y|]. destruct (rejected_not_starts _ _ _ _ _ _ V Y St).
    + exfalso. assert (U : unfinished ((40 :: 42 :: v) ++ t) (v ++ t)).
      { split; [reflexivity|]. split; [destruct v; [contradiction|discriminate]|]. intro Z. apply in_app_or in Z. tauto. }
      assert (Eb : body = (40 :: 42 :: v) ++ t).
      { apply unfinished_no_verb in U. inversion St as [s0 m0 Nv|s0 m0 rest X|s0 m0 v0 rest X Y]; [reflexivity| |]; destruct (U _ _ X). }
      pose proof (text_balanced _ We) as [_ Bc]. rewrite T, Eb in Bc. cbn [app] in Bc. rewrite opens_cons, !closes_cons in Bc. cbn in Bc.
      assert (Z : closes (v ++ t) = 0%nat) by (unfold closes; apply count_occ_not_In; intro Z; apply in_app_or in Z; tauto). rewrite Z in Bc. discriminate Bc.
  - intros (w & Ac). exists (w ++ [41]).
    assert (Nw : ~ In 41 (v ++ w)) by (destruct Ac as [->|[->| ->]]; vm_compute; intuition discriminate).
    assert (V : verb_then ((40 :: 42 :: v) ++ w ++ [41]) (v ++ w) []) by (split; [cbn; rewrite <- app_assoc; reflexivity|]; split; [destruct v; [contradiction|discriminate]|exact Nw]).
    assert (St : exists m', starts ((40 :: 42 :: v) ++ w ++ [41]) m [] m').
    { destruct Ac as [Ac|Ac]; [rewrite Ac in V; eexists; apply starts_ucp; exact V|eexists; eapply starts_utf; [exact V|exact Ac]]. }
    destruct St as (m' & St). exists (tree (caseless m) [[]], m'). apply parse_outcome_fun. eapply po_ok; [exact St| | | |reflexivity].
    + intros c [].
    + intros _ a b X. destruct a; discriminate X.
    + split; [discriminate|]. intros b a [<-|[]] [].
Qed.
Lemma ok_then_close : forall p s m r, parse p s m = Ret (ROk r) -> parse p (s ++ [41]) m = Ret (RErr unmatched_error).
Proof.
  intros p s m r E. pose proof (parse_cases p s m) as C. rewrite E in C. remember (Ret (ROk r)) as o eqn:Eo. clear E.
  destruct C as [v' rest what V Na W|body m' e' St A G We T|body m' a b St A G N L E' B|body m' a b St E' G Cl|body m' a c b St E' G Cl|body m' a b St Oc E' G Cl]; try discriminate Eo.
  pose proof (text_balanced _ We) as [Bn Bc]. rewrite T in Bn, Bc.
  assert (St' : starts (s ++ [41]) m (body ++ [41]) m').
  { inversion St as [s0 m0 Nv|s0 m0 rest X|s0 m0 v0 rest X Y]; subst.
    - constructor. apply (no_verb_close _ 1 Nv). intros v (Es & Ne & Ni). rewrite Es in Bc. rewrite opens_cons, !closes_cons in Bc. cbn in Bc.
      assert (Z : closes v = 0%nat) by (unfold closes; apply count_occ_not_In; exact Ni). rewrite Z in Bc. discriminate Bc.
    - apply starts_ucp. apply verb_then_app. exact X.
    - eapply starts_utf; [apply verb_then_app; exact X|exact Y]. }
  apply parse_outcome_fun. eapply (po_unmatched _ _ _ _ _ body []); [exact St'|reflexivity| |exact Bc].
  apply good_prefix_longer. split; [exact A|]. split; [exact Bn|exact G].
Qed.
Lemma unfinished_dec : forall s, (exists v, unfinished s v) \/ forall v, ~ unfinished s v.
Proof.
  intros [|a [|b [|c v]]]; try (right; intros v0 (E & Ne & _); try discriminate E; injection E; intros; subst; contradiction).
  destruct (N.eq_dec a 40) as [->|Na]; [|right; intros v0 (E & _); congruence]. destruct (N.eq_dec b 42) as [->|Nb]; [|right; intros v0 (E & _); congruence].
  destruct (in_dec N.eq_dec 41 (c :: v)) as [I|I]; [right; intros v0 (E & _ & Ni); injection E as <-; contradiction|left; exists (c :: v); split; [reflexivity|split; [discriminate|exact I]]].
Qed.
Lemma In_items : forall es fs ids it, In it (items_of es fs ids) <-> exists i, item_at es fs ids i it.
Proof.
  intros es fs ids it. split.
  - intro I. apply In_nth_error in I. destruct I as (i & I). exists i. apply items_of_nth. exact I.
  - intros (i & I). apply items_of_nth in I. eapply nth_error_In. exact I.
Qed.
