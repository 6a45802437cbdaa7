(** Properties C07 and C12-C20: the parser. *)
From Coq Require FinFun.
From Verif Require Import Base ModelUtil ModelBitField ModelCharReach ModelParser SpecSet SpecGrammar
  ProofBase ProofBitField ProofCharReach ProofGrammar ProofParser ProofTree ProofVerb.
Local Open Scope N_scope.
Local Open Scope list_scope.

Ltac same_start :=
  match goal with
  | A : starts ?s ?m ?b ?m1, B : starts ?s ?m ?b' ?m2 |- _ =>
    let E := fresh in destruct (starts_fun _ _ _ _ _ _ A B) as [E ?]; subst; clear B
  end.
Lemma starts_not_rejected : forall s m body m' v rest, starts s m body m' -> verb_then s v rest -> accepted_verb v.
Proof.
  intros s m body m' v rest St V. destruct (accepted_dec v) as [A|A]; [exact A|]. destruct (rejected_not_starts _ _ _ _ _ _ V A St).
Qed.

(** ** C12 *)
Theorem C12_accepts_balanced : forall p s m body m', starts s m body m' ->
  ((exists t, parse p s m = Ret (ROk (t, m'))) <-> ascii_text body /\ balanced body /\ groups_ok p s body body).
Proof.
  intros p s m body m' St. split.
  - intros (t & E). pose proof (parse_cases p s m) as C. rewrite E in C. inversion C; subst. same_start.
    conjs; try assumption. apply text_balanced. assumption.
  - intros (A & B & G). apply balanced_derivation in B. destruct B as (e & W & T). eexists. apply parse_outcome_fun. eapply po_ok; eassumption.
Qed.
Theorem C12_release_no_verb : forall p s m, overflow_checks p = false -> no_verb s -> ascii_text s ->
  ((exists r, parse p s m = Ret (ROk r)) <-> balanced s).
Proof.
  intros p s m Oc Nv A. pose proof (C12_accepts_balanced p s m s m (starts_plain _ _ Nv)) as H. split.
  - intros ([t m'] & E). pose proof (parse_cases p s m) as C. rewrite E in C. inversion C; subst. 
    match goal with S : starts s m _ m' |- _ => destruct (starts_fun _ _ _ _ _ _ S (starts_plain _ _ Nv)) as [Q _] end.
    rewrite <- Q. apply text_balanced. assumption.
  - intro B. apply proj2 in H. destruct H as (t & E); [|eauto]. conjs; [exact A|exact B|]. intros Z. congruence.
Qed.
(** With overflow checks on: no group, or one group that starts the expression. *)
Theorem C12_checked : forall p s body, overflow_checks p = true -> (groups_ok p s body body <->
  ~ In 40 body \/ (body = s /\ exists b, body = 40 :: b /\ ~ In 40 b)).
Proof.
  intros p s body Oc. split.
  - intro G. destruct (in_dec N.eq_dec 40 body) as [I|I]; [right|left; exact I].
    apply in_split in I. destruct I as (x & y & E). destruct (G Oc x y E) as [-> Eb]. split; [exact Eb|]. exists y. split; [exact E|].
    intro J. apply in_split in J. destruct J as (x' & y' & Ey). destruct (G Oc (40 :: x') y') as [Z _]; [rewrite E, Ey; reflexivity|discriminate].
  - intros H _ x y E. destruct H as [H|(Eb & b & E' & N)].
    + exfalso. apply H. rewrite E. apply in_or_app. right. left. reflexivity.
    + destruct x as [|x0 x]; [auto|]. exfalso. rewrite E' in E. injection E as _ ->. apply N. apply in_or_app. right. left. reflexivity.
Qed.
Definition sample_expr : expr := [[Ch 97; Grp [[Ch 98]; [Grp [[]]; Ch 99]]]; [Ch 100]].
Lemma sample_wf : wf_expr sample_expr.
Proof.
  assert (P : forall c, In c [97; 98; 99; 100] -> wf_atom (Ch c)).
  { intros c I. constructor. unfold plain. cbn in I. intuition; subst; discriminate. }
  assert (E : wf_atom (Grp [[]])) by (constructor; [discriminate|intros b a [<-|[]] []]).
  split; [discriminate|]. intros b a [<-|[<-|[]]] I; cbn in I.
  - destruct I as [<-|[<-|[]]]; [apply P; cbn; auto|]. constructor; [discriminate|].
    intros b a [<-|[<-|[]]] I; cbn in I; intuition; subst; try exact E; apply P; cbn; auto.
  - intuition; subst. apply P; cbn; auto.
Qed.
Lemma ascii_check : forall s, forallb is_ascii_char s = true -> ascii_text s.
Proof. intros s H c I. rewrite forallb_forall in H. specialize (H c I). unfold is_ascii_char in H. lia. Qed.
Lemma sample_ascii : ascii_text (lit "a(b|()c)|d").
Proof. apply ascii_check. reflexivity. Qed.
Example C12_case : text sample_expr = lit "a(b|()c)|d" /\ balanced (lit "a(b|()c)|d") /\ ascii_text (lit "a(b|()c)|d") /\
  no_verb (lit "a(b|()c)|d") /\
  parse release (lit "a(b|()c)|d") mode_default = Ret (ROk (tree false sample_expr, mode_default)) /\
  parse dev (lit "a(b|()c)|d") mode_default = Panic POverflow /\
  parse dev (lit "(b|c)|d") mode_default = Ret (ROk (tree false [[Grp [[Ch 98]; [Ch 99]]]; [Ch 100]], mode_default)).
Proof.
  conjs; try (vm_compute; reflexivity); try exact sample_ascii.
  - apply balanced_derivation. exists sample_expr. split; [exact sample_wf|reflexivity].
  - apply no_verb_ok. reflexivity.
Qed.

(** ** C13 *)
Theorem C13_tree_iff : forall p s m t m', parse p s m = Ret (ROk (t, m')) <->
  exists body e, starts s m body m' /\ ascii_text body /\ groups_ok p s body body /\ wf_expr e /\ text e = body /\ t = tree (caseless m) e.
Proof.
  intros p s m t m'. split.
  - intro E. pose proof (parse_cases p s m) as C. rewrite E in C. inversion C; subst. do 2 eexists. conjs; try eassumption; reflexivity.
  - intros (body & e & St & A & G & W & T & ->). apply parse_outcome_fun. eapply po_ok; eassumption.
Qed.
Theorem C13_unambiguous : forall e e', wf_expr e -> wf_expr e' -> ascii_text (text e) -> text e = text e' -> e = e'.
Proof.
  intros e e' W W' A T. pose proof (parse_ok release (text e) (text e) mode_default e W eq_refl A) as P.
  assert (G : groups_ok release (text e) (text e) (text e)) by (intro Z; discriminate). specialize (P G).
  rewrite (parse_ok release (text e) (text e) mode_default e' W' T A G) in P. injection P as P.
  symmetry. apply tree_inj; try assumption; [rewrite <- T; exact A|]. unfold tree. change (caseless mode_default) with false in P. f_equal. exact P.
Qed.
Theorem C13_injective : forall p p' s s' m m' t n n', caseless m = false -> caseless m' = false ->
  parse p s m = Ret (ROk (t, n)) -> parse p' s' m' = Ret (ROk (t, n')) -> exists body, starts s m body n /\ starts s' m' body n'.
Proof.
  intros p p' s s' m m' t n n' C C' E E'. apply C13_tree_iff in E, E'.
  destruct E as (body & e & St & A & G & W & T & ->). destruct E' as (body' & e' & St' & A' & G' & W' & T' & X).
  rewrite C, C' in X. apply tree_inj in X; try assumption; [|rewrite T; exact A|rewrite T'; exact A'].
  subst. eauto.
Qed.
(** Case-insensitively, different texts can give the same tree. *)
Theorem C13_caseless_not_injective : exists s s' m t, s <> s' /\ caseless m = true /\
  parse release s m = Ret (ROk (t, m)) /\ parse release s' m = Ret (ROk (t, m)).
Proof.
  exists (lit "a"), (lit "A"), (mode_new CASELESS), (tree true [[Ch 97]]). conjs; try (vm_compute; reflexivity). discriminate.
Qed.
Example C13_case : wf_expr sample_expr /\ ascii_text (text sample_expr) /\
  parse release (lit "(*UCP)" ++ text sample_expr) mode_default =
    Ret (ROk (tree false sample_expr, ParseMode false false false false true false)).
Proof. conjs; [exact sample_wf|exact sample_ascii|vm_compute; reflexivity]. Qed.

(** ** C14 *)
Theorem C14_language : forall p s m t m', parse p s m = Ret (ROk (t, m')) ->
  forall body e, starts s m body m' -> wf_expr e -> text e = body -> forall w, tree_matches t w <-> lang (caseless m) e w.
Proof.
  intros p s m t m' E body e St W T w. apply C13_tree_iff in E. destruct E as (body' & e' & St' & A' & G' & W' & T' & ->).
  destruct (starts_fun _ _ _ _ _ _ St St') as [<- _]. assert (e' = e).
  { apply C13_unambiguous; try assumption; [rewrite T'; exact A'|congruence]. }
  subst e'. apply tree_lang; [exact W|rewrite T; exact A'].
Qed.
Theorem C14_characters : forall nocase c x, c < 128 -> (lang_atom nocase (Ch c) [x] <->
  x = c \/ (nocase = true /\ ((65 <= c <= 90 /\ x = c + 32) \/ (97 <= c <= 122 /\ x + 32 = c)))).
Proof.
  intros nocase c x Hc. split.
  - intro H. inversion H as [? ? M E|? ? ? I L E]; subst. revert M. unfold char_matches. destruct nocase; unfold other_case; ifs; intro M; lia.
  - intro H. constructor. unfold char_matches. destruct nocase; unfold other_case; ifs; lia.
Qed.
Theorem C14_groups : forall nocase e w, lang nocase [[Grp e]] w <-> lang nocase e w.
Proof.
  intros nocase e w. split.
  - intros (b & [<-|[]] & L). inversion L as [|? ? u v La Lb]; subst. inversion Lb; subst. rewrite app_nil_r.
    inversion La; subst. exists b. auto.
  - intros (b & I & L). exists [Grp e]. split; [left; reflexivity|]. rewrite <- (app_nil_r w). constructor; [|constructor].
    econstructor; eassumption.
Qed.
Example C14_case : exists t m', parse release (lit "a(b|()c)|d") (mode_new CASELESS) = Ret (ROk (t, m')) /\
  tree_matches t (lit "aC") /\ tree_matches t (lit "D") /\ ~ tree_matches t (lit "cd").
Proof.
  exists (tree true sample_expr), (mode_new CASELESS). split; [vm_compute; reflexivity|].
  assert (A : ascii_text (text sample_expr)) by exact sample_ascii. pose proof (tree_lang true sample_expr sample_wf A) as L.
  assert (Two : forall c x b v, char_matches true c x = true -> lang_seq true b v -> lang_seq true (Ch c :: b) (x :: v)).
  { intros c x b v M Lv. change (x :: v) with ([x] ++ v). constructor; [constructor; exact M|exact Lv]. }
  conjs.
  - apply L. exists [Ch 97; Grp [[Ch 98]; [Grp [[]]; Ch 99]]]. split; [left; reflexivity|]. change (lit "aC") with [97; 67]. apply Two; [reflexivity|].
    change [67] with ([67] ++ []). constructor; [|constructor]. apply lang_grp with (b := [Grp [[]]; Ch 99]); [right; left; reflexivity|].
    change [67] with ([] ++ [67]). constructor; [apply lang_grp with (b := []); [left; reflexivity|constructor]|]. apply Two; [reflexivity|constructor].
  - apply L. exists [Ch 100]. split; [right; left; reflexivity|]. apply Two; [reflexivity|constructor].
  - rewrite L. intros (b & I & Lb). remember (lit "cd") as w eqn:Ew. destruct Lb as [|a b u v La Lv]; [discriminate|].
    destruct La as [c x M|]; cbn in I; destruct I as [I|[I|[]]]; try discriminate I; injection I; injection Ew; intros; subst; discriminate M.
Qed.

(** ** C15 *)
Theorem C15_numbering : forall p s m t m', parse p s m = Ret (ROk (t, m')) ->
  forall body, starts s m body m' -> 1 + N.of_nat (opens body) <= 2 ^ 32 ->
  group_indices t = map Some (seqN 0 (1 + opens body)) /\ NoDup (group_indices t) /\ forall i, In i (branch_indices t) -> i = None.
Proof.
  intros p s m t m' E body St L. apply C13_tree_iff in E. destruct E as (body' & e & St' & A & G & W & T & ->).
  destruct (starts_fun _ _ _ _ _ _ St St') as [<- _].
  assert (X : group_indices (tree (caseless m) e) = map Some (seqN 0 (1 + opens body))).
  { rewrite tree_numbering by exact W. rewrite T, numbers_small by exact L. reflexivity. }
  conjs; [exact X| |intros i; apply tree_branch_indices].
  rewrite X. apply FinFun.Injective_map_NoDup; [intros a b Z; congruence|]. generalize 0 (1 + opens body)%nat. intros a k. revert a.
  assert (Y : forall k a x, In x (seqN a k) -> a <= x).
  { induction k0 as [|k0 IH]; intros a x []; [lia|]. apply IH in H. lia. }
  induction k as [|k IH]; intro a; constructor; [|apply IH]. intro I. apply Y in I. lia.
Qed.
(** However many groups there are: past 2^32 the numbers start again from 0, so that then
    some index repeats.  With overflow checks no text gets there. *)
Theorem C15_wraps : forall p s m t m', parse p s m = Ret (ROk (t, m')) ->
  forall body, starts s m body m' ->
  group_indices t = map (fun i => Some (i mod 2 ^ 32)) (seqN 0 (1 + opens body)) /\ (forall i, In i (branch_indices t) -> i = None) /\
  (2 ^ 32 < 1 + N.of_nat (opens body) -> ~ NoDup (group_indices t)) /\ (overflow_checks p = true -> 1 + N.of_nat (opens body) <= 2).
Proof.
  intros p s m t m' E body St. apply C13_tree_iff in E. destruct E as (body' & e & St' & A & G & W & T & ->).
  destruct (starts_fun _ _ _ _ _ _ St St') as [<- _].
  assert (X : group_indices (tree (caseless m) e) = map (fun i => Some (i mod 2 ^ 32)) (seqN 0 (1 + opens body))).
  { rewrite tree_numbering by exact W. rewrite T. reflexivity. }
  conjs; [exact X|intros i; apply tree_branch_indices| |].
  - intros L Nd. rewrite X in Nd. revert L Nd. assert (M0 : 2 ^ 32 <> 0) by discriminate. revert M0. generalize (2 ^ 32). intros M M0 L Nd.
    assert (Inc : incl (map (fun i => Some (i mod M)) (seqN 0 (1 + opens body))) (map (fun i => Some (N.of_nat i)) (List.seq 0 (N.to_nat M)))).
    { intros x I. apply in_map_iff in I. destruct I as (i & <- & _). apply in_map_iff. exists (N.to_nat (i mod M)). rewrite N2Nat.id. split; [reflexivity|].
      apply in_seq. pose proof (N.mod_lt i M M0). lia. }
    pose proof (NoDup_incl_length Nd Inc) as Le. rewrite !map_length, seq_length, seqN_length in Le. lia.
  - intro Oc. assert (Le : (opens body <= 1)%nat).
    { destruct (in_dec N.eq_dec 40 body) as [I|I].
      - apply in_split in I. destruct I as (x & y & Ea). destruct (G Oc x y Ea) as [-> _]. rewrite Ea. cbn [app].
        destruct (in_dec N.eq_dec 40 y) as [J|J].
        + apply in_split in J. destruct J as (x' & y' & Ey). destruct (G Oc (40 :: x') y') as [Z _]; [rewrite Ea, Ey; reflexivity|discriminate].
        + apply (count_occ_not_In N.eq_dec) in J. unfold opens. rewrite count_occ_cons_eq by reflexivity. lia.
      - apply (count_occ_not_In N.eq_dec) in I. unfold opens. lia. }
    lia.
Qed.
Example C15_case : parse release (lit "a(b|()c)|d") mode_default = Ret (ROk (tree false sample_expr, mode_default)) /\
  opens (lit "a(b|()c)|d") = 2%nat /\ group_indices (tree false sample_expr) = [Some 0; Some 1; Some 2] /\
  branch_indices (tree false sample_expr) = [None; None; None; None].
Proof. conjs; vm_compute; reflexivity. Qed.

Definition empty_groups (k : nat) : expr := [repeat (Grp [[]]) k].
Lemma empty_groups_ok : forall k, wf_expr (empty_groups k) /\ ascii_text (text (empty_groups k)) /\ opens (text (empty_groups k)) = k /\ no_verb (text (empty_groups k)).
Proof.
  intro k. assert (T : text (empty_groups k) = text_seq (repeat (Grp [[]]) k)) by reflexivity. conjs.
  - split; [discriminate|]. intros b a [<-|[]] I. apply repeat_spec in I. subst a. constructor; [discriminate|]. intros b a [<-|[]] [].
  - rewrite T. intros c I. unfold text_seq in I. apply in_flat_map in I. destruct I as (x & I & J). apply repeat_spec in I. subst x.
    cbn in J. destruct J as [<-|[<-|[]]]; reflexivity.
  - rewrite T. unfold opens. induction k as [|k IH]; [reflexivity|]. cbn [repeat text_seq flat_map text_atom map join app]. unfold text_seq in IH.
    rewrite count_occ_cons_eq, count_occ_cons_neq by (reflexivity || discriminate). rewrite IH; reflexivity.
  - rewrite T. apply no_verb_ok. destruct k as [|k]; reflexivity.
Qed.
Example C15_wraps_case : exists (s : str) (t : component), parse release s mode_default = Ret (ROk (t, mode_default)) /\ starts s mode_default s mode_default /\
  2 ^ 32 < 1 + N.of_nat (opens s).
Proof.
  assert (Z : exists k, N.of_nat k = 2 ^ 32) by (exists (N.to_nat (2 ^ 32)); apply N2Nat.id). destruct Z as (k & Hk).
  destruct (empty_groups_ok k) as (W & A & O & V). exists (text (empty_groups k)), (tree false (empty_groups k)).
  assert (St : starts (text (empty_groups k)) mode_default (text (empty_groups k)) mode_default) by (constructor; exact V).
  conjs; [|exact St|rewrite O, Hk; reflexivity].
  apply C13_tree_iff. do 2 eexists. conjs; [exact St|exact A|discriminate|exact W|reflexivity|reflexivity].
Qed.

(** ** C16 *)
Theorem C16_unmatched_iff : forall p s m, parse p s m = Ret (RErr unmatched_error) <->
  exists body m' a b, starts s m body m' /\ body = a ++ 41 :: b /\ ascii_text a /\ balanced a /\ groups_ok p s body a.
Proof.
  intros p s m. split.
  - intro E. pose proof (parse_cases p s m) as C. rewrite E in C. inversion C as [v rest what V Na W Ev| | |body m' a b St Eb Gp Cl| |]; subst.
    + exfalso. destruct W as [[_ ->]|[_ ->]]; discriminate Ev.
    + destruct Gp as (A & N & G). do 4 eexists. conjs; try eassumption; [reflexivity|]. split; assumption.
  - intros (body & m' & a & b & St & E & A & (N & Cl) & G). apply parse_outcome_fun. eapply po_unmatched; try eassumption. unfold good_prefix. conjs; assumption.
Qed.
Theorem C16_missing_iff : forall p s m, (exists i, parse p s m = Ret (RErr (missing_error i))) <->
  exists body m', starts s m body m' /\ ascii_text body /\ groups_ok p s body body /\ never_negative body /\ (closes body < opens body)%nat.
Proof.
  intros p s m. split.
  - intros (i & E). pose proof (parse_cases p s m) as C. rewrite E in C. inversion C; subst. do 2 eexists. conjs; eassumption.
  - intros (body & m' & St & A & G & N & L). destruct (innermost body N L) as (a & b & E & B). eexists. apply parse_outcome_fun. eapply po_missing; eassumption.
Qed.
Theorem C16_no_other_error : forall p s m e, parse p s m = Ret (RErr e) ->
  (exists v rest, verb_then s v rest /\ ~ accepted_verb v) \/ e = unmatched_error \/ exists i, e = missing_error i.
Proof.
  intros p s m e E. pose proof (parse_cases p s m) as C. rewrite E in C. inversion C; subst; eauto 6.
Qed.
(** No ')' after a balanced prefix means no prefix has more ')' than '('. *)
Theorem C16_never_negative_iff : forall s, never_negative s <-> ~ exists a b, s = a ++ 41 :: b /\ balanced a.
Proof.
  intro s. split.
  - intros N (a & b & -> & (Na & Ca)). specialize (N (a ++ [41]) b). rewrite closes_app, opens_app, <- app_assoc in N.
    specialize (N eq_refl). change (closes [41]) with 1%nat in N. change (opens [41]) with 0%nat in N. lia.
  - intro H. assert (X : forall rest a, s = a ++ rest -> never_negative a -> never_negative s).
    { induction rest as [|c rest IH]; intros a E N; [rewrite app_nil_r in E; subst; exact N|].
      apply (IH (a ++ [c])); [rewrite <- app_assoc; exact E|]. apply nn_snoc; [exact N|]. intros ->. pose proof (nn_count _ N).
      destruct (Nat.eq_dec (closes a) (opens a)) as [Q|Q]; [|lia]. exfalso. apply H. exists a, rest. split; [exact E|]. split; assumption. }
    apply (X s []); [reflexivity|apply nn_nil].
Qed.
Example C16_case : parse release (lit "a(b))") mode_default = Ret (RErr unmatched_error) /\
  parse dev (lit "a|b)(") mode_default = Ret (RErr unmatched_error) /\
  parse release (lit "a(b(c)") mode_default = Ret (RErr (missing_error (2 ^ 64 - 1))) /\
  parse dev (lit "(a|b") mode_default = Ret (RErr (missing_error 0)).
Proof. conjs; vm_compute; reflexivity. Qed.

(** ** C07 and the parser's part of C06 *)
Theorem C07_assert_iff : forall p s m, parse p s m = Panic PAssert <->
  exists body m' a c b, starts s m body m' /\ body = a ++ c :: b /\ 128 <= c /\
    ascii_text a /\ never_negative a /\ groups_ok p s body a.
Proof.
  intros p s m. split.
  - intro E. pose proof (parse_cases p s m) as C. rewrite E in C. inversion C as [| | | |body m' a c b St Eb (A & N & G) Hc|]; subst.
    do 5 eexists. conjs; try eassumption. reflexivity.
  - intros (body & m' & a & c & b & St & E & Hc & A & N & G). apply parse_outcome_fun. eapply po_assert; try eassumption. unfold good_prefix. conjs; assumption.
Qed.
Theorem C07_verb_never_asserts : forall p s m v rest, verb_then s v rest -> ascii_text rest -> parse p s m <> Panic PAssert.
Proof.
  intros p s m v rest V A E. apply C07_assert_iff in E. destruct E as (body & m' & a & c & b & St & Eb & Hc & _).
  assert (body = rest).
  { destruct St as [s m Nv|s m r V'|s m v' r V' Ev]; [destruct (Nv _ _ V)| |]; destruct (verb_unique _ _ _ _ _ V V') as [_ ->]; reflexivity. }
  subst. apply ascii_app in A. destruct A as [_ A]. apply ascii_cons in A. lia.
Qed.
Theorem C07_other_panics : forall p s m why, parse p s m = Panic why -> why = PAssert \/ (why = POverflow /\ overflow_checks p = true).
Proof. intros p s m why E. pose proof (parse_cases p s m) as C. rewrite E in C. inversion C; subst; auto. Qed.
Theorem C07_terminates : forall p s m, parse p s m <> Diverge.
Proof. intros p s m E. pose proof (parse_cases p s m) as C. rewrite E in C. inversion C. Qed.
Example C07_case : parse release [97; 40; 233; 41] mode_default = Panic PAssert /\
  parse release [97; 41; 233] mode_default = Ret (RErr unmatched_error) /\
  parse dev [233; 40; 41] mode_default = Panic PAssert /\
  (exists e, parse release (lit "(*" ++ [233] ++ lit ")a") mode_default = Ret (RErr e)).
Proof. conjs; [vm_compute; reflexivity..|]. exists (verb_error (lit "Unknown control verb ") [233] 0). vm_compute. reflexivity. Qed.
Theorem C06_overflow_iff : forall p s m, parse p s m = Panic POverflow <->
  overflow_checks p = true /\ exists body m' a b, starts s m body m' /\ body = a ++ 40 :: b /\
    ascii_text a /\ never_negative a /\ groups_ok p s body a /\ ~ (a = [] /\ body = s).
Proof.
  intros p s m. split.
  - intro E. pose proof (parse_cases p s m) as C. rewrite E in C. inversion C as [| | | | |body m' a b St Oc Eb (A & N & G) X]; subst.
    split; [exact Oc|]. do 4 eexists. conjs; try eassumption. reflexivity.
  - intros (Oc & body & m' & a & b & St & E & A & N & G & X). apply parse_outcome_fun. eapply po_overflow; try eassumption. unfold good_prefix. conjs; assumption.
Qed.
Example C06_overflow_case : parse dev (lit "ab(c)") mode_default = Panic POverflow /\ parse dev (lit "(a)b(c)") mode_default = Panic POverflow /\
  parse dev (lit "(*UTF)(a)") mode_default = Panic POverflow /\ parse dev (lit "a)(c)") mode_default = Ret (RErr unmatched_error).
Proof. conjs; vm_compute; reflexivity. Qed.

(** ** C17 *)
(** The '(' whose group is the innermost one left open. *)
Definition innermost_open (s : str) (a : str) : Prop := exists b, s = a ++ 40 :: b /\ balanced b.
Theorem C17_printed_index_partial : forall p s m i, str_len s < 2 ^ usize_bits p -> parse p s m = Ret (RErr (missing_error i)) ->
  exists a, innermost_open s a /\ i = (2 ^ usize_bits p - str_len a) mod 2 ^ usize_bits p.
Proof.
  intros p s m i Hl E. pose proof (parse_cases p s m) as C. rewrite E in C.
  inversion C as [| |body m' a b St A G N L Eb B Es| | |]; subst. change (missing_error (sub_wrapped p (str_len (40 :: b)) (str_len s)) = missing_error i) in Es || idtac.
  destruct (starts_suffix _ _ _ _ St) as [pre Hs].
  exists (pre ++ a). split.
  - exists b. split; [rewrite Hs, <- app_assoc; reflexivity|exact B].
  - apply app_inv_tail in Es. apply show_inj in Es. rewrite <- Es. change (char_len 40 + str_len b) with (str_len (40 :: b)).
    rewrite Hs in *. clear - Hl. unfold sub_wrapped. rewrite !str_len_app in *. generalize dependent (str_len (40 :: b)). intros k Hl.
    unfold usize_bits in *. destruct (target p); [change (2 ^ 32) with 4294967296 in *|change (2 ^ 64) with 18446744073709551616 in *]; ifs; lia.
Qed.
Theorem C17_innermost_unique : forall s a a', innermost_open s a -> innermost_open s a' -> a = a'.
Proof.
  assert (X : forall a a' b b', (List.length a < List.length a')%nat -> a ++ 40 :: b = a' ++ 40 :: b' -> balanced b -> balanced b' -> False).
  { intros a a' b b' L E [N C] [N' C']. revert a' L E. induction a as [|x a IH]; intros [|x' a'] L E; cbn in L; try lia.
    - cbn in E. injection E as _ ->. rewrite closes_app, opens_app, closes_cons, opens_cons in C. change (40 =? 41) with false in C. change (40 =? 40) with true in C.
      cbv iota in C. pose proof (N a' (40 :: b') eq_refl). lia.
    - injection E as _ E. apply (IH a'); [lia|exact E]. }
  intros s a a' (b & E & B) (b' & E' & B'). destruct (Nat.lt_trichotomy (List.length a) (List.length a')) as [H|[H|H]].
  - exfalso. apply (X a a' b b' H); [congruence|assumption..].
  - assert (Q : a ++ 40 :: b = a' ++ 40 :: b') by congruence. clear - H Q. revert a' H Q. induction a as [|x a IH]; intros [|y a'] H Q; cbn in H; try lia; [reflexivity|].
    injection Q as -> Q. f_equal. apply IH; [lia|exact Q].
  - exfalso. apply (X a' a b' b H); [congruence|assumption..].
Qed.
Theorem C17_refuted : exists s a i, parse release s mode_default = Ret (RErr (missing_error i)) /\ innermost_open s a /\ i <> str_len a.
Proof.
  exists (lit "ab(c"), (lit "ab"), (2 ^ 64 - 2). conjs; [vm_compute; reflexivity| |discriminate].
  exists (lit "c"). split; [reflexivity|]. apply balanced_one; discriminate.
Qed.
Example C17_case : str_len (lit "(ab") < 2 ^ 64 /\ parse release (lit "(ab") mode_default = Ret (RErr (missing_error 0)) /\
  parse release (lit "(*UCP)a(b(c)") mode_default = Ret (RErr (missing_error (2 ^ 64 - 7))).
Proof. conjs; vm_compute; reflexivity. Qed.

(** ** C18 *)
Theorem C18_verbs : forall p s start m, start + 2 < 2 ^ usize_bits p ->
  (no_verb s -> read_control_verbs p s start m = Ret (ROk (s, m))) /\
  (forall v rest, verb_then s v rest ->
    (v = lit "UCP" -> read_control_verbs p s start m =
       Ret (ROk (rest, ParseMode (caseless m) (dotall m) (ignore_space m) (multiline m) true (utf8 m)))) /\
    (v = lit "UTF" \/ v = lit "UTF8" -> read_control_verbs p s start m =
       Ret (ROk (rest, ParseMode (caseless m) (dotall m) (ignore_space m) (multiline m) (ucp m) true))) /\
    (unsupported_verb v -> read_control_verbs p s start m = Ret (RErr (verb_error (lit "Unsupported control verb ") v start))) /\
    (~ accepted_verb v -> ~ unsupported_verb v ->
       read_control_verbs p s start m = Ret (RErr (verb_error (lit "Unknown control verb ") v start)))).
Proof.
  intros p s start m Hs. destruct (read_verbs_ok p s start m Hs) as (R0 & R1 & R2).
  assert (Dis : forall v, unsupported_verb v -> ~ accepted_verb v).
  { intros v U A. unfold accepted_verb in A. destruct U as [I|[(t & ->)|(t & ->)]].
    - assert (X : existsb (str_eqb v) unsupported_verbs = true) by (apply existsb_str; exact I).
      destruct A as [->|[->| ->]]; discriminate X.
    - destruct A as [A|[A|A]]; discriminate A.
    - destruct A as [A|[A|A]]; discriminate A. }
  split; [intro Nv; apply R0; apply starts_plain; exact Nv|]. intros v rest V. conjs.
  - intros ->. apply R0. apply starts_ucp. exact V.
  - intro Ev. apply R0. eapply starts_utf; eassumption.
  - intro U. eapply R1; [exact V|exact U|apply Dis; exact U].
  - intros Na U. eapply R2; eassumption.
Qed.
Theorem C18_parse_uses_verb : forall p s m,
  (forall v rest, verb_then s v rest -> unsupported_verb v -> parse p s m = Ret (RErr (verb_error (lit "Unsupported control verb ") v 0))) /\
  (forall v rest, verb_then s v rest -> ~ accepted_verb v -> ~ unsupported_verb v -> parse p s m = Ret (RErr (verb_error (lit "Unknown control verb ") v 0))) /\
  (forall t m', parse p s m = Ret (ROk (t, m')) -> exists body, starts s m body m').
Proof.
  intros p s m. assert (Z : 0 + 2 < 2 ^ usize_bits p) by (pose proof (usize_at_least p); lia). destruct (C18_verbs p s 0 m Z) as (_ & H). conjs.
  - intros v rest V U. unfold parse. destruct (H v rest V) as (_ & _ & X & _). rewrite (X U). reflexivity.
  - intros v rest V Na U. unfold parse. destruct (H v rest V) as (_ & _ & _ & X). rewrite (X Na U). reflexivity.
  - intros t m' E. apply C13_tree_iff in E. destruct E as (body & e & St & _). eauto.
Qed.
Theorem C18_verb_unique : forall s v rest v' rest', verb_then s v rest -> verb_then s v' rest' -> v = v' /\ rest = rest'.
Proof. exact verb_unique. Qed.
Example C18_case : verb_then (lit "(*UTF8)x)") (lit "UTF8") (lit "x)") /\
  unsupported_verb (lit "LIMIT_MATCH=12") /\ unsupported_verb (lit "CRLF") /\ ~ unsupported_verb (lit "FOO") /\ ~ accepted_verb (lit "FOO") /\
  parse release (lit "(*CRLF)a") mode_default = Ret (RErr (verb_error (lit "Unsupported control verb ") (lit "CRLF") 0)) /\
  read_control_verbs dev (lit "(*FOO)a") 5 mode_default = Ret (RErr (verb_error (lit "Unknown control verb ") (lit "FOO") 5)) /\
  no_verb (lit "(*)a") /\ no_verb (lit "(*UCP").
Proof.
  conjs.
  - split; [reflexivity|]. split; [discriminate|]. vm_compute. intuition discriminate.
  - right. left. exists (lit "12"). reflexivity.
  - left. apply existsb_str. reflexivity.
  - intros [I|[(t & I)|(t & I)]]; [apply existsb_str in I| |]; discriminate.
  - intros [I|[I|I]]; discriminate.
  - vm_compute; reflexivity.
  - vm_compute; reflexivity.
  - apply no_verb_ok. reflexivity.
  - apply no_verb_ok. reflexivity.
Qed.

(** ** C19 *)
Theorem C19_second_verb_is_a_group : forall p s m body m1 v2 rest2, overflow_checks p = false -> starts s m body m1 -> body <> s ->
  verb_then body v2 rest2 -> ascii_text body -> ~ In 40 v2 -> balanced rest2 ->
  exists bs b e, text bs = 42 :: v2 /\ text (b :: e) = rest2 /\ wf_expr bs /\ wf_expr (b :: e) /\
    parse p s m = Ret (ROk (tree (caseless m) ((Grp bs :: b) :: e), m1)).
Proof.
  intros p s m body m1 v2 rest2 Oc St Ne (E & Nv & N41) A N40 B.
  assert (Bv : balanced (42 :: v2)).
  { apply (count_occ_not_In N.eq_dec) in N40, N41. split.
    - intros x y Exy. assert (closes (x ++ y) = 0)%nat; [|rewrite closes_app in *; lia].
      rewrite <- Exy, closes_cons. change (42 =? 41) with false. exact N41.
    - rewrite closes_cons, opens_cons. change (42 =? 41) with false. change (42 =? 40) with false. unfold closes, opens. rewrite N40, N41. reflexivity. }
  apply balanced_derivation in Bv, B. destruct Bv as (bs & Wbs & Tbs). destruct B as (e0 & We & Te). destruct e0 as [|b e]; [destruct We; contradiction|].
  exists bs, b, e. conjs; try assumption. apply C13_tree_iff. exists body, ((Grp bs :: b) :: e). conjs; try assumption; try reflexivity.
  - intro Z. congruence.
  - split; [discriminate|]. intros b' a' [<-|I] J.
    + destruct J as [<-|J]; [constructor; [apply Wbs|apply Wbs]|]. apply (proj2 We b); [left; reflexivity|exact J].
    + apply (proj2 We b'); [right; exact I|exact J].
  - rewrite E. transitivity (40 :: (42 :: v2) ++ 41 :: rest2); [|reflexivity]. rewrite <- Tbs, <- Te.
    destruct e as [|b2 e]; [rewrite !text_one|rewrite !text_cons]; rewrite text_seq_cons, text_grp; cbn [app]; rewrite <- !app_assoc; reflexivity.
Qed.
(** More generally, whatever the second verb holds: a balanced ASCII text is read as
    a group that begins with a star, followed by the rest. *)
Theorem C19_second_verb_is_read : forall p s m body m1 v2 rest2, overflow_checks p = false -> starts s m body m1 -> body <> s ->
  verb_then body v2 rest2 -> ascii_text body -> balanced body ->
  exists bs b e r, wf_expr ((Grp bs :: b) :: e) /\ text ((Grp bs :: b) :: e) = body /\ text bs = 42 :: r /\
    parse p s m = Ret (ROk (tree (caseless m) ((Grp bs :: b) :: e), m1)).
Proof.
  intros p s m body m1 v2 rest2 Oc St Ne (E & Nv & N41) A B. apply balanced_derivation in B. destruct B as (e0 & W & T).
  destruct e0 as [|b0 e]; [destruct W as [W _]; contradiction|]. assert (F : exists q, text (b0 :: e) = text_seq b0 ++ q).
  { destruct e as [|b1 e]; [exists []; rewrite text_one, app_nil_r; reflexivity|rewrite text_cons; eauto]. }
  destruct F as (q & F). destruct b0 as [|[c|bs] b].
  - exfalso. destruct e as [|b1 e]; [rewrite text_one in T|rewrite text_cons in T]; cbn in T; rewrite E in T; discriminate T.
  - exfalso. rewrite T, text_seq_cons, E in F. cbn in F. injection F as F _. pose proof (proj2 W _ (Ch c) (or_introl eq_refl) (or_introl eq_refl)) as X. inversion X as [? P|]; subst. destruct P as (P & _). apply P. reflexivity.
  - rewrite T, text_seq_cons, text_grp, E in F. cbn [app] in F. injection F as F. destruct (text bs) as [|c0 r] eqn:Tb; [discriminate F|]. injection F as <- _.
    exists bs, b, e, r. conjs; [exact W|exact T|exact Tb|]. apply C13_tree_iff. exists body, ((Grp bs :: b) :: e). conjs; try assumption; [|reflexivity]. intro Z. congruence.
Qed.
Theorem C19_second_verb_checked : forall p s m body m1 v2 rest2, overflow_checks p = true -> starts s m body m1 -> body <> s ->
  verb_then body v2 rest2 -> parse p s m = Panic POverflow.
Proof.
  intros p s m body m1 v2 rest2 Oc St Ne (E & _). apply C06_overflow_iff. split; [exact Oc|]. exists body, m1, [], (42 :: v2 ++ 41 :: rest2). conjs; try assumption.
  - intros c [].
  - apply nn_nil.
  - intros _ x y Z. destruct x; discriminate.
  - intros [_ Z]. contradiction.
Qed.
Example C19_case : starts (lit "(*UCP)(*UTF8)ab") mode_default (lit "(*UTF8)ab") (ParseMode false false false false true false) /\
  verb_then (lit "(*UTF8)ab") (lit "UTF8") (lit "ab") /\
  parse release (lit "(*UCP)(*UTF8)ab") mode_default =
    Ret (ROk (tree false [[Grp [[Ch 42; Ch 85; Ch 84; Ch 70; Ch 56]]; Ch 97; Ch 98]], ParseMode false false false false true false)).
Proof.
  conjs.
  - apply (starts_ucp _ mode_default). apply control_verb_ok. reflexivity.
  - apply control_verb_ok. reflexivity.
  - vm_compute. reflexivity.
Qed.

Example C19_case_nested : starts (lit "(*UCP)(*(a)b)c") mode_default (lit "(*(a)b)c") (ParseMode false false false false true false) /\
  verb_then (lit "(*(a)b)c") (lit "(a") (lit "b)c") /\ balanced (lit "(*(a)b)c") /\
  parse release (lit "(*UCP)(*(a)b)c") mode_default =
    Ret (ROk (tree false [[Grp [[Ch 42; Grp [[Ch 97]]; Ch 98]]; Ch 99]], ParseMode false false false false true false)).
Proof.
  conjs.
  - apply (starts_ucp _ mode_default). apply control_verb_ok. reflexivity.
  - apply control_verb_ok. reflexivity.
  - assert (St : starts (lit "(*UCP)(*(a)b)c") mode_default (lit "(*(a)b)c") (ParseMode false false false false true false)) by (apply (starts_ucp _ mode_default), control_verb_ok; reflexivity).
    apply (proj1 (C12_accepts_balanced release _ _ _ _ St)). eexists. vm_compute. reflexivity.
  - vm_compute. reflexivity.
Qed.

(** ** C20 *)
Lemma unmatched_not_located : ~ located unmatched_error.
Proof.
  intros (u & i & v & E). assert (I : In 120 (err_reason unmatched_error)).
  { rewrite E. apply in_or_app. right. apply in_or_app. left. vm_compute. tauto. }
  vm_compute in I. intuition discriminate.
Qed.
Theorem C20_refuted : exists s e, parse release s mode_default = Ret (RErr e) /\ err_kind e = ELocatedParse /\ ~ located e.
Proof. exists (lit "a)"), unmatched_error. conjs; [vm_compute; reflexivity|reflexivity|exact unmatched_not_located]. Qed.
Theorem C20_located_iff_partial : forall p s m e, parse p s m = Ret (RErr e) -> err_kind e = ELocatedParse ->
  (located e <-> exists v rest, verb_then s v rest /\ ~ accepted_verb v).
Proof.
  intros p s m e E K. pose proof (parse_cases p s m) as C. rewrite E in C. split.
  - intro Lo. inversion C; subst; [eauto|discriminate K|destruct (unmatched_not_located Lo)].
  - intros (v & rest & V & Na). inversion C as [v' rest' what V' Na' W| |?|? ? ? ? St| |]; subst.
    + exists (what ++ v'), 2, []. cbn [err_reason]. rewrite app_nil_r, <- app_assoc. reflexivity.
    + discriminate K.
    + destruct (rejected_not_starts _ _ _ _ _ _ V Na St).
Qed.
Example C20_case : exists e, parse dev (lit "(*CR)a") mode_default = Ret (RErr e) /\ err_kind e = ELocatedParse /\
  err_reason e = lit "Unsupported control verb CR at index 2".
Proof. exists (verb_error (lit "Unsupported control verb ") (lit "CR") 0). conjs; vm_compute; reflexivity. Qed.

Print Assumptions C12_accepts_balanced.
Print Assumptions C12_release_no_verb.
Print Assumptions C12_checked.
Print Assumptions C13_tree_iff.
Print Assumptions C13_unambiguous.
Print Assumptions C13_injective.
Print Assumptions C13_caseless_not_injective.
Print Assumptions C14_language.
Print Assumptions C14_characters.
Print Assumptions C14_groups.
Print Assumptions C15_numbering.
Print Assumptions C15_wraps.
Print Assumptions C16_unmatched_iff.
Print Assumptions C16_missing_iff.
Print Assumptions C16_no_other_error.
Print Assumptions C16_never_negative_iff.
Print Assumptions C07_assert_iff.
Print Assumptions C07_verb_never_asserts.
Print Assumptions C07_other_panics.
Print Assumptions C07_terminates.
Print Assumptions C06_overflow_iff.
Print Assumptions C17_printed_index_partial.
Print Assumptions C17_innermost_unique.
Print Assumptions C17_refuted.
Print Assumptions C18_verbs.
Print Assumptions C18_parse_uses_verb.
Print Assumptions C18_verb_unique.
Print Assumptions C19_second_verb_is_a_group.
Print Assumptions C19_second_verb_is_read.
Print Assumptions C19_second_verb_checked.
Print Assumptions C20_refuted.
Print Assumptions C20_located_iff_partial.
