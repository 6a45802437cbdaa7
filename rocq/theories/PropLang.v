(** Properties C58-C60: what the expressions of the pattern language denote, and how
    they combine. *)
From Verif Require Import Base ModelUtil ModelBitField ModelCharReach ModelParser SpecSet SpecGrammar SpecLang
  ProofBase ProofBitField ProofCharReach ProofGrammar ProofParser ProofTree ProofVerb ProofLang PropParser.
Local Open Scope N_scope.
Local Open Scope list_scope.

(** ** C58 *)
Lemma first_split : forall (c : N) a b a' b', ~ In c a -> ~ In c a' -> a ++ c :: b = a' ++ c :: b' -> a = a' /\ b = b'.
Proof.
  intros c. induction a as [|x a IH]; intros b [|x' a'] b' H H' E; cbn in E.
  - injection E as E. auto.
  - injection E as <- _. exfalso. apply H'. left. reflexivity.
  - injection E as -> _. exfalso. apply H. left. reflexivity.
  - injection E as <- E. destruct (IH b a' b') as [-> ->]; [intro; apply H; right; assumption|intro; apply H'; right; assumption|exact E|auto].
Qed.
Lemma has_first : forall (c : N) s, In c s -> exists a b, s = a ++ c :: b /\ ~ In c a.
Proof.
  intros c s. induction s as [|x s IH]; intro I; [contradiction|]. destruct (N.eq_dec x c) as [->|N].
  - exists [], s. split; [reflexivity|intros []].
  - destruct I as [->|I]; [contradiction|]. destruct (IH I) as (a & b & -> & H). exists (x :: a), b. split; [reflexivity|]. intros [->|J]; auto.
Qed.
Lemma no_verb_bar : forall s x, no_verb s -> balanced s -> no_verb (s ++ 124 :: x).
Proof.
  intros s x Nv B v rest (E & Nn & N41). destruct s as [|c0 s]; [discriminate E|]. destruct s as [|c1 s].
  - injection E as -> E. destruct B as [_ B]. discriminate B.
  - injection E as -> -> E. assert (I : In 41 s).
    { destruct B as [_ B]. unfold closes, opens in B. cbn in B.
      assert (X : (0 < count_occ N.eq_dec s 41%N)%nat) by lia. apply count_occ_In in X. exact X. }
    destruct (has_first _ _ I) as (a & b & -> & Na). rewrite <- app_assoc in E. cbn [app] in E.
    destruct (first_split _ _ _ _ _ Na N41 E) as [-> _]. apply (Nv v b). repeat split; assumption.
Qed.
Lemma starts_bar : forall s m body m' x, starts s m body m' -> balanced body -> starts (s ++ 124 :: x) m (body ++ 124 :: x) m'.
Proof.
  assert (V : forall s v rest x, verb_then s v rest -> verb_then (s ++ 124 :: x) v (rest ++ 124 :: x)).
  { intros s v rest x (-> & A & B). repeat split; try assumption. cbn [app]. rewrite <- app_assoc. reflexivity. }
  intros s m body m' x St B. destruct St as [s m Nv|s m rest H|s m v rest H O].
  - apply starts_plain. apply no_verb_bar; assumption.
  - apply starts_ucp. apply V. exact H.
  - eapply starts_utf; [apply V; exact H|exact O].
Qed.
(** The part of the text that a group would turn into a control verb: a star and
    something else. *)
Definition starlike (s : str) : Prop := exists c r, s = 42 :: c :: r.
Lemma no_verb_group : forall s x, ~ starlike s -> no_verb (40 :: s ++ 41 :: x).
Proof.
  intros s x H v rest (E & Nn & N41). injection E as E. destruct s as [|c0 [|c1 s]].
  - discriminate E.
  - injection E as -> E. destruct v as [|v0 v]; [contradiction|]. injection E as <- _. apply N41. left. reflexivity.
  - injection E as -> _. apply H. exists c1, s. reflexivity.
Qed.
Lemma ascii_app : forall a b, ascii_text (a ++ b) <-> ascii_text a /\ ascii_text b.
Proof.
  intros a b. unfold ascii_text. split; [intro H; split; intros c I; apply H, in_or_app; auto|].
  intros [A B] c I. apply in_app_or in I. destruct I; auto.
Qed.
Lemma ascii_cons : forall c b, ascii_text (c :: b) <-> c < 128 /\ ascii_text b.
Proof. intros c b. change (c :: b) with ([c] ++ b). rewrite ascii_app. unfold ascii_text at 1. cbn. firstorder (subst; auto). Qed.
Lemma unchecked_groups : forall p s body a, overflow_checks p = false -> groups_ok p s body a.
Proof. intros p s body a Oc Z. congruence. Qed.

Theorem C58_alternation : forall p p1 p2 s1 s2 m t t1 t2 n n1 n2,
  parse p1 s1 m = Ret (ROk (t1, n1)) -> parse p2 s2 m = Ret (ROk (t2, n2)) -> no_verb s2 ->
  parse p (s1 ++ 124 :: s2) m = Ret (ROk (t, n)) -> n = n1 /\ forall w, tree_matches t w <-> tree_matches t1 w \/ tree_matches t2 w.
Proof.
  intros p p1 p2 s1 s2 m t t1 t2 n n1 n2 E1 E2 Nv E. apply C13_tree_iff in E1, E2.
  destruct E1 as (b1 & e1 & St1 & A1 & _ & W1 & T1 & ->). destruct E2 as (b2 & e2 & St2 & A2 & _ & W2 & T2 & ->).
  destruct (starts_fun _ _ _ _ _ _ St2 (starts_plain _ _ Nv)) as [Q1 Q2]. rewrite Q1 in *. clear Q1 Q2 St2.
  assert (B1 : balanced b1) by (rewrite <- T1; apply text_balanced; exact W1).
  pose proof (starts_bar _ _ _ _ s2 St1 B1) as St.
  assert (Tx : text (e1 ++ e2) = b1 ++ 124 :: s2) by (rewrite text_alt by (apply W1 || apply W2); congruence).
  split.
  - apply C13_tree_iff in E. destruct E as (b & e & St' & _). destruct (starts_fun _ _ _ _ _ _ St St') as [_ Q]. auto.
  - intro w. rewrite (C14_language _ _ _ _ _ E (b1 ++ 124 :: s2) (e1 ++ e2)); [|destruct (proj1 (C13_tree_iff _ _ _ _ _) E) as (b & e & St' & _); destruct (starts_fun _ _ _ _ _ _ St St') as [_ <-]; exact St|apply wf_alt; assumption|exact Tx].
    rewrite lang_alt. rewrite <- (tree_lang _ e1 W1), <- (tree_lang _ e2 W2); [tauto|rewrite T2; exact A2|rewrite T1; exact A1].
Qed.
Theorem C58_alternation_accepted : forall p p1 p2 s1 s2 m t1 t2 n1 n2, overflow_checks p = false ->
  parse p1 s1 m = Ret (ROk (t1, n1)) -> parse p2 s2 m = Ret (ROk (t2, n2)) -> no_verb s2 ->
  exists t, parse p (s1 ++ 124 :: s2) m = Ret (ROk (t, n1)).
Proof.
  intros p p1 p2 s1 s2 m t1 t2 n1 n2 Oc E1 E2 Nv. apply C13_tree_iff in E1, E2.
  destruct E1 as (b1 & e1 & St1 & A1 & _ & W1 & T1 & ->). destruct E2 as (b2 & e2 & St2 & A2 & _ & W2 & T2 & ->).
  destruct (starts_fun _ _ _ _ _ _ St2 (starts_plain _ _ Nv)) as [Q1 Q2]. rewrite Q1 in *. clear Q1 Q2 St2.
  assert (B1 : balanced b1) by (rewrite <- T1; apply text_balanced; exact W1).
  exists (tree (caseless m) (e1 ++ e2)). apply C13_tree_iff. exists (b1 ++ 124 :: s2), (e1 ++ e2). conjs.
  - apply starts_bar; assumption.
  - apply ascii_app. split; [exact A1|]. apply ascii_cons. split; [lia|exact A2].
  - apply unchecked_groups. exact Oc.
  - apply wf_alt; assumption.
  - rewrite text_alt by (apply W1 || apply W2). congruence.
  - reflexivity.
Qed.
(** A group around an expression changes nothing, unless it makes it a control verb. *)
Theorem C58_group_partial : forall p p' s m t n, overflow_checks p = false -> no_verb s -> parse p' s m = Ret (ROk (t, n)) -> ~ starlike s ->
  exists t', parse p (40 :: s ++ [41]) m = Ret (ROk (t', m)) /\ forall w, tree_matches t' w <-> tree_matches t w.
Proof.
  intros p p' s m t n Oc Nv E Ns. apply C13_tree_iff in E. destruct E as (b & e & St & A & _ & W & T & ->).
  destruct (starts_fun _ _ _ _ _ _ St (starts_plain _ _ Nv)) as [Q1 Q2]. rewrite Q1 in *. clear Q1 Q2 St.
  assert (W' : wf_expr [[Grp e]]) by (apply (wf_groups [e]); constructor; [exact W|constructor]).
  assert (A' : ascii_text (40 :: s ++ [41])) by (apply ascii_cons; split; [lia|]; apply ascii_app; split; [exact A|]; intros c [<-|[]]; lia).
  exists (tree (caseless m) [[Grp e]]). split.
  - apply C13_tree_iff. exists (40 :: s ++ [41]), [[Grp e]]. conjs; [apply starts_plain, no_verb_group; exact Ns|exact A'|apply unchecked_groups; exact Oc|exact W'|rewrite text_group; congruence|reflexivity].
  - intro w. rewrite (tree_lang _ _ W') by (rewrite text_group, T; exact A'). rewrite C14_groups. rewrite (tree_lang _ e W) by (rewrite T; exact A). reflexivity.
Qed.
(** The excluded case really is one: the group is read as a verb. *)
Theorem C58_group_is_verb : forall p s m t n, parse p s m = Ret (ROk (t, n)) -> starlike s -> exists v rest, verb_then (40 :: s ++ [41]) v rest.
Proof.
  intros p s m t n E (c & r & ->). apply C13_tree_iff in E. destruct E as (b & e & St & A & _ & W & T & _).
  assert (Nv : no_verb (42 :: c :: r)) by (intros v rest (V & _); discriminate V).
  destruct (starts_fun _ _ _ _ _ _ St (starts_plain _ _ Nv)) as [Q1 _]. rewrite Q1 in *.
  assert (Nc : c <> 41).
  { intros ->. pose proof (text_balanced e W) as [B _]. rewrite T in B. specialize (B [42; 41] r eq_refl). cbv in B. lia. }
  destruct (has_first 41 (c :: r ++ [41])) as (v & rest & Ev & Nv'); [right; apply in_or_app; right; left; reflexivity|].
  exists v, rest. repeat split; [cbn [app]; rewrite Ev; reflexivity|intros ->; injection Ev as -> _; contradiction|exact Nv'].
Qed.
Theorem C58_refuted : (exists s t e, parse release s mode_default = Ret (ROk (t, mode_default)) /\ parse release (40 :: s ++ [41]) mode_default = Ret (RErr e)) /\
  (exists s t t' n, parse release s mode_default = Ret (ROk (t, mode_default)) /\ parse release (40 :: s ++ [41]) mode_default = Ret (ROk (t', n)) /\
     exists w, tree_matches t' w /\ ~ tree_matches t w).
Proof.
  split.
  - exists (lit "*a"). eexists. eexists. split; [vm_compute; reflexivity|]. vm_compute. reflexivity.
  - exists (lit "*UCP"), (tree false [[Ch 42; Ch 85; Ch 67; Ch 80]]), (tree false [[]]), (ParseMode false false false false true false).
    split; [vm_compute; reflexivity|]. split; [vm_compute; reflexivity|]. exists []. split.
    + apply tree_lang; [split; [discriminate|intros b a [<-|[]] []]|intros c []|]. exists []. split; [left; reflexivity|constructor].
    + intro H. apply tree_lang in H; [|split; [discriminate|]; intros b a [<-|[]] I; repeat (destruct I as [<-|I]; [constructor; repeat split; discriminate|]); contradiction|apply (ascii_check (lit "*UCP")); reflexivity].
      destruct H as (b & [<-|[]] & L). inversion L as [|? ? u v La Lb]; subst. inversion La; subst. discriminate.
Qed.
(** Two groups in a row: the words of the first followed by those of the second. *)
Theorem C58_sequence : forall p p1 p2 s1 s2 m t1 t2 n1 n2, overflow_checks p = false -> no_verb s1 -> no_verb s2 ->
  parse p1 s1 m = Ret (ROk (t1, n1)) -> parse p2 s2 m = Ret (ROk (t2, n2)) -> ~ starlike s1 ->
  exists t, parse p (40 :: s1 ++ 41 :: 40 :: s2 ++ [41]) m = Ret (ROk (t, m)) /\
    forall w, tree_matches t w <-> exists u v, w = u ++ v /\ tree_matches t1 u /\ tree_matches t2 v.
Proof.
  intros p p1 p2 s1 s2 m t1 t2 n1 n2 Oc Nv1 Nv2 E1 E2 Ns. apply C13_tree_iff in E1, E2.
  destruct E1 as (b1 & e1 & St1 & A1 & _ & W1 & T1 & ->). destruct E2 as (b2 & e2 & St2 & A2 & _ & W2 & T2 & ->).
  destruct (starts_fun _ _ _ _ _ _ St2 (starts_plain _ _ Nv2)) as [Q1 Q2]. rewrite Q1 in *. clear Q1 Q2 St2.
  destruct (starts_fun _ _ _ _ _ _ St1 (starts_plain _ _ Nv1)) as [Q1 Q2]. rewrite Q1 in *. clear Q1 Q2 St1.
  assert (W' : wf_expr [[Grp e1; Grp e2]]) by (apply (wf_groups [e1; e2]); repeat constructor; apply W1 || apply W2).
  assert (A' : ascii_text (40 :: s1 ++ 41 :: 40 :: s2 ++ [41])).
  { rewrite ascii_cons, ascii_app, !ascii_cons, ascii_app. conjs; try lia; try assumption. intros c [<-|[]]. lia. }
  assert (Tx : text [[Grp e1; Grp e2]] = 40 :: s1 ++ 41 :: 40 :: s2 ++ [41]) by (rewrite text_group2; congruence).
  exists (tree (caseless m) [[Grp e1; Grp e2]]). split.
  - apply C13_tree_iff. exists (40 :: s1 ++ 41 :: 40 :: s2 ++ [41]), [[Grp e1; Grp e2]]. conjs; [apply starts_plain, no_verb_group; exact Ns|exact A'|apply unchecked_groups; exact Oc|exact W'|exact Tx|reflexivity].
  - intro w. rewrite (tree_lang _ _ W') by (rewrite Tx; exact A'). rewrite lang_group2.
    assert (L1 : forall w, tree_matches (tree (caseless m) e1) w <-> lang (caseless m) e1 w) by (apply tree_lang; [exact W1|rewrite T1; exact A1]).
    assert (L2 : forall w, tree_matches (tree (caseless m) e2) w <-> lang (caseless m) e2 w) by (apply tree_lang; [exact W2|rewrite T2; exact A2]).
    split; intros (u & v & Ew & U & V); exists u, v; (split; [exact Ew|split; [apply L1; exact U|apply L2; exact V]]).
Qed.
(** So do two texts in a row, unless a bar outside groups splits one of them. *)
Definition unsplit (s : str) : Prop := forall a b, s = a ++ 124 :: b -> ~ balanced a.
Lemma lang_seq_app : forall nc b1 b2 w, lang_seq nc (b1 ++ b2) w <-> exists u v, w = u ++ v /\ lang_seq nc b1 u /\ lang_seq nc b2 v.
Proof.
  intros nc. induction b1 as [|a b1 IH]; intros b2 w; cbn [app].
  - split; [intro H; exists [], w; repeat split; [constructor|exact H]|]. intros (u & v & -> & U & V). inversion U; subst. exact V.
  - split.
    + intro H. inversion H as [|? ? x y X Y]; subst. apply IH in Y. destruct Y as (u & v & -> & U & V). exists (x ++ u), v. split; [apply app_assoc|]. split; [constructor; assumption|exact V].
    + intros (u & v & -> & U & V). inversion U as [|? ? x y X Y]; subst. rewrite <- app_assoc. constructor; [exact X|]. apply IH. eauto.
Qed.
Lemma unsplit_one : forall e, wf_expr e -> unsplit (text e) -> exists b, e = [b].
Proof.
  intros [|b [|b1 e]] W U; [destruct W as [W _]; contradiction|eauto|]. exfalso. rewrite text_cons in U. apply (U _ _ eq_refl).
  rewrite <- text_one. apply text_balanced. split; [discriminate|]. intros b' a [<-|[]] I. apply (proj2 W b a); [left; reflexivity|exact I].
Qed.
Lemma no_verb_app : forall s x, no_verb s -> balanced s -> s <> [] -> no_verb (s ++ x).
Proof.
  intros s x Nv B Ne v rest (E & Nn & N41). destruct s as [|c0 s]; [contradiction|]. destruct s as [|c1 s].
  - injection E as -> E. destruct B as [_ B]. discriminate B.
  - injection E as -> -> E. assert (I : In 41 s).
    { destruct B as [_ B]. unfold closes, opens in B. cbn in B.
      assert (X : (0 < count_occ N.eq_dec s 41%N)%nat) by lia. apply count_occ_In in X. exact X. }
    destruct (has_first _ _ I) as (a & b & -> & Na). rewrite <- app_assoc in E. cbn [app] in E.
    destruct (first_split _ _ _ _ _ Na N41 E) as [-> _]. apply (Nv v b). repeat split; assumption.
Qed.
Lemma starts_app : forall s m body m' x, starts s m body m' -> balanced body -> no_verb x -> starts (s ++ x) m (body ++ x) m'.
Proof.
  assert (V : forall s v rest x, verb_then s v rest -> verb_then (s ++ x) v (rest ++ x)).
  { intros s v rest x (-> & A & B). repeat split; try assumption. cbn [app]. rewrite <- app_assoc. reflexivity. }
  intros s m body m' x St B Nx. destruct St as [s m Nv|s m rest H|s m v rest H O].
  - apply starts_plain. destruct s as [|c s]; [exact Nx|]. apply no_verb_app; [assumption..|discriminate].
  - apply starts_ucp. apply V. exact H.
  - eapply starts_utf; [apply V; exact H|exact O].
Qed.
Theorem C58_concatenation : forall p p1 p2 s1 s2 m t1 t2 n1 n2 body, overflow_checks p = false -> no_verb s2 ->
  parse p1 s1 m = Ret (ROk (t1, n1)) -> parse p2 s2 m = Ret (ROk (t2, n2)) -> starts s1 m body n1 -> unsplit body -> unsplit s2 ->
  exists t, parse p (s1 ++ s2) m = Ret (ROk (t, n1)) /\
    forall w, tree_matches t w <-> exists u v, w = u ++ v /\ tree_matches t1 u /\ tree_matches t2 v.
Proof.
  intros p p1 p2 s1 s2 m t1 t2 n1 n2 body Oc Nv2 E1 E2 St U1 U2. apply C13_tree_iff in E1, E2.
  destruct E1 as (b1 & e1 & St1 & A1 & _ & W1 & T1 & ->). destruct E2 as (b2 & e2 & St2 & A2 & _ & W2 & T2 & ->).
  destruct (starts_fun _ _ _ _ _ _ St2 (starts_plain _ _ Nv2)) as [Q1 Q2]. rewrite Q1 in *. clear Q1 Q2 St2.
  destruct (starts_fun _ _ _ _ _ _ St1 St) as [Q1 _]. rewrite Q1 in *. clear Q1 St1.
  assert (B1 : balanced body) by (rewrite <- T1; apply text_balanced; exact W1).
  destruct (unsplit_one e1 W1) as (c1 & ->); [rewrite T1; exact U1|]. destruct (unsplit_one e2 W2) as (c2 & ->); [rewrite T2; exact U2|].
  assert (W' : wf_expr [c1 ++ c2]).
  { split; [discriminate|]. intros b a [<-|[]] I. apply in_app_or in I. destruct I as [I|I]; [apply (proj2 W1 c1)|apply (proj2 W2 c2)]; (left; reflexivity) || exact I. }
  assert (Tx : text [c1 ++ c2] = body ++ s2) by (rewrite text_one in *; unfold text_seq in *; rewrite flat_map_app; congruence).
  assert (A' : ascii_text (body ++ s2)) by (apply ascii_app; auto).
  exists (tree (caseless m) [c1 ++ c2]). split.
  - apply C13_tree_iff. exists (body ++ s2), [c1 ++ c2]. conjs; [apply starts_app; assumption|exact A'|apply unchecked_groups; exact Oc|exact W'|exact Tx|reflexivity].
  - intro w. rewrite (tree_lang _ _ W') by (rewrite Tx; exact A').
    assert (L1 : forall w, tree_matches (tree (caseless m) [c1]) w <-> lang (caseless m) [c1] w) by (apply tree_lang; [exact W1|rewrite T1; exact A1]).
    assert (L2 : forall w, tree_matches (tree (caseless m) [c2]) w <-> lang (caseless m) [c2] w) by (apply tree_lang; [exact W2|rewrite T2; exact A2]).
    assert (One : forall b w, lang (caseless m) [b] w <-> lang_seq (caseless m) b w) by (intros b v; split; [intros (x & [<-|[]] & X); exact X|intro X; exists b; split; [left; reflexivity|exact X]]).
    rewrite One, lang_seq_app. split; intros (u & v & Ew & U & V); exists u, v; (split; [exact Ew|]).
    + split; [apply L1, One|apply L2, One]; assumption.
    + split; [apply One, L1|apply One, L2]; assumption.
Qed.
Example C58_case_concatenation : unsplit (lit "a(b|c)") /\ unsplit (lit "*d") /\ no_verb (lit "*d") /\ exists t, parse release (lit "a(b|c)*d") mode_default = Ret (ROk (t, mode_default)).
Proof.
  split; [|split; [|split; [intros v rest (V & _); discriminate V|eexists; vm_compute; reflexivity]]].
  - intros a b E [_ B]. do 3 (destruct a as [|x a]; [discriminate E|injection E as <- E]). destruct a as [|x a]; [|injection E as <- E].
    + discriminate B.
    + do 2 (destruct a as [|x a]; [discriminate E|injection E as <- E]). destruct a; discriminate E.
  - intros a b E _. do 2 (destruct a as [|x a]; [discriminate E|injection E as <- E]). destruct a; discriminate E.
Qed.
Theorem C58_empty : forall p m, exists t, parse p [] m = Ret (ROk (t, m)) /\ forall w, tree_matches t w <-> w = [].
Proof.
  intros p m. assert (W : wf_expr [[]]) by (split; [discriminate|intros b a [<-|[]] []]). exists (tree (caseless m) [[]]). split.
  - apply C13_tree_iff. exists [], [[]]. conjs; [apply starts_plain; intros v rest (V & _); discriminate V|intros c []|intros _ a b E; destruct a; discriminate E|exact W|reflexivity|reflexivity].
  - intro w. rewrite (tree_lang _ _ W) by (intros c []). split.
    + intros (b & [<-|[]] & L). inversion L. reflexivity.
    + intros ->. exists []. split; [left; reflexivity|constructor].
Qed.
Example C58_case : exists t1 t2, parse dev (lit "a|b") mode_default = Ret (ROk (t1, mode_default)) /\ parse dev (lit "*c") mode_default = Ret (ROk (t2, mode_default)) /\
  no_verb (lit "a|b") /\ no_verb (lit "*c") /\ ~ starlike (lit "a|b") /\ starlike (lit "*c") /\
  exists t3, parse dev (lit "a|b|*c") mode_default = Ret (ROk (t3, mode_default)).
Proof.
  do 2 eexists. split; [vm_compute; reflexivity|]. split; [vm_compute; reflexivity|]. split; [intros v rest (V & _); discriminate V|].
  split; [intros v rest (V & _); discriminate V|]. split; [intros (c & r & E); discriminate E|]. split; [exists 99, []; reflexivity|].
  eexists. vm_compute. reflexivity.
Qed.

(** ** C59 *)
Theorem C59_case_closure : forall p p' s m m' t t' n n', caseless m = true -> caseless m' = false ->
  parse p s m = Ret (ROk (t, n)) -> parse p' s m' = Ret (ROk (t', n')) ->
  forall w, tree_matches t w <-> exists w0, tree_matches t' w0 /\ case_variant w0 w.
Proof.
  intros p p' s m m' t t' n n' C C' E E' w. apply C13_tree_iff in E, E'.
  destruct E as (b & e & St & A & _ & W & T & ->). destruct E' as (b' & e' & St' & A' & _ & W' & T' & ->). rewrite C, C'.
  assert (Eb : b' = b).
  { clear - St St'. destruct St as [s m Nv|s m rest V|s m v rest V O]; inversion St' as [s0 m0 Nv'|s0 m0 rest' V'|s0 m0 v' rest' V' O']; subst; try reflexivity;
      try (exfalso; first [apply (Nv _ _ V')|apply (Nv' _ _ V)]); destruct V as (E1 & _ & N1), V' as (E2 & _ & N2); rewrite E1 in E2; apply (f_equal (fun l : str => tl (tl l))) in E2; cbn [tl] in E2;
      destruct (first_split _ _ _ _ _ N1 N2 E2) as [_ ->]; reflexivity. }
  assert (e' = e) by (apply C13_unambiguous; [exact W'|exact W|rewrite T'; exact A'|congruence]). subst e'.
  rewrite (tree_lang _ e W) by (rewrite T; exact A). rewrite lang_case. split; intros (w0 & L & V); exists w0; (split; [|exact V]); apply tree_lang; try assumption; rewrite T; exact A.
Qed.
(** Hence the language does not change under change of case. *)
Theorem C59_closed : forall p s m t n w w', caseless m = true -> parse p s m = Ret (ROk (t, n)) ->
  tree_matches t w -> case_variant w w' -> tree_matches t w'.
Proof.
  intros p s m t n w w' C E M V. apply C13_tree_iff in E. destruct E as (b & e & St & A & _ & W & T & ->). rewrite C in *.
  rewrite tree_lang in M |- * by (assumption || (rewrite T; exact A)). apply lang_case in M. destruct M as (w0 & L & V0). apply lang_case. exists w0. split; [exact L|].
  assert (Tr : forall x y z, case_variant x y -> case_variant y z -> case_variant x z).
  { clear. intros x y z H. revert z. induction H as [|a c x y Ha H IH]; intros z Hz; inversion Hz as [|? d ? z' Hd Hz']; subst; constructor; [|apply IH; exact Hz'].
    unfold other_case in *. revert Ha Hd. ifs; intros; lia. }
  eapply Tr; eassumption.
Qed.
Theorem C59_same_acceptance : forall p s m m', (exists r, parse p s m = Ret (ROk r)) <-> (exists r, parse p s m' = Ret (ROk r)).
Proof.
  assert (G : forall p s m m', (exists r, parse p s m = Ret (ROk r)) -> exists r, parse p s m' = Ret (ROk r)).
  { intros p s m m' ([t n] & E). apply C13_tree_iff in E. destruct E as (b & e & St & A & G & W & T & ->).
    assert (exists n', starts s m' b n') as (n' & St').
    { destruct St as [s m Nv|s m rest V|s m v rest V O]; eexists; [apply starts_plain; exact Nv|apply starts_ucp; exact V|eapply starts_utf; eassumption]. }
    eexists. apply C13_tree_iff. exists b, e. conjs; eauto. }
  intros p s m m'. split; apply G.
Qed.
Example C59_case : exists t t', parse release (lit "(*UTF8)a(B|1)") (mode_new CASELESS) = Ret (ROk (t, mode_set_utf8 (mode_new CASELESS))) /\
  parse release (lit "(*UTF8)a(B|1)") mode_default = Ret (ROk (t', mode_set_utf8 mode_default)) /\
  caseless (mode_new CASELESS) = true /\ case_variant (lit "aB1") (lit "Ab1").
Proof.
  do 2 eexists. split; [vm_compute; reflexivity|]. split; [vm_compute; reflexivity|]. split; [reflexivity|].
  unfold case_variant. repeat (apply Forall2_cons; [vm_compute; auto|]). apply Forall2_nil.
Qed.

(** ** C60 *)
Theorem C60_finite : forall p s m t n body, parse p s m = Ret (ROk (t, n)) -> starts s m body n ->
  exists ws, ws <> [] /\ (forall w, tree_matches t w <-> In w ws) /\
    (List.length ws <= 2 ^ (bars body + if caseless m then letters body else 0))%nat.
Proof.
  intros p s m t n body E St. apply C13_tree_iff in E. destruct E as (b & e & St' & A & _ & W & T & ->).
  destruct (starts_fun _ _ _ _ _ _ St St') as [-> _]. destruct (words_expr (caseless m) e W) as (ws & [L1 L2] & H). exists ws. conjs.
  - intros ->. cbn in L1. lia.
  - intro w. rewrite <- H. apply tree_lang; [exact W|rewrite T; exact A].
  - rewrite <- T. exact L2.
Qed.
Theorem C60_word_length : forall p s m t n body w, parse p s m = Ret (ROk (t, n)) -> starts s m body n -> tree_matches t w ->
  (List.length w <= plain_chars body)%nat /\ forall x, In x w -> x < 128.
Proof.
  intros p s m t n body w E St M. apply C13_tree_iff in E. destruct E as (b & e & St' & A & _ & W & T & ->).
  destruct (starts_fun _ _ _ _ _ _ St St') as [-> _]. apply tree_lang in M; [|exact W|rewrite T; exact A]. split.
  - rewrite <- T. eapply lang_length; eassumption.
  - assert (K : forall nc q w, lang_seq nc q w -> ascii_text (text_seq q) -> (forall a, In a q -> wf_atom a) -> forall x, In x w -> x < 128).
    { clear. intros nc q w L. induction L as [c x M|bs q w I L IH| |a q u v La IHa Lb IHb] using lang_seq_mut with
        (P := fun a w _ => ascii_text (text_atom a) -> wf_atom a -> forall x, In x w -> x < 128).
      - intros A _ y [<-|[]]. apply (char_matches_byte nc c); [|exact M]. apply A. left. reflexivity.
      - intros A W. inversion W as [|? _ Wb]; subst. apply IH; [|intros; eapply Wb; eassumption]. apply (ascii_branch_in bs); [exact I|].
        rewrite text_grp in A. apply ascii_cons in A. destruct A as [_ A]. apply ascii_app in A. apply A.
      - intros _ _ x [].
      - intros A W x Ix. rewrite text_seq_cons in A. apply ascii_app in A. destruct A as [A1 A2]. apply in_app_or in Ix. destruct Ix.
        + apply IHa; try assumption. apply W. left. reflexivity.
        + apply IHb; try assumption. intros. apply W. right. assumption. }
    destruct M as (q & I & L). apply (K _ _ _ L); [apply (ascii_branch_in e); [exact I|rewrite T; exact A]|]. intros a Ia. apply W with (b := q); assumption.
Qed.
Example C60_case : exists t, parse release (lit "a(b|cd)|(e|)") mode_default = Ret (ROk (t, mode_default)) /\
  starts (lit "a(b|cd)|(e|)") mode_default (lit "a(b|cd)|(e|)") mode_default /\ bars (lit "a(b|cd)|(e|)") = 3%nat /\
  plain_chars (lit "a(b|cd)|(e|)") = 5%nat.
Proof.
  eexists. split; [vm_compute; reflexivity|]. split; [apply starts_plain; intros v rest (V & _); discriminate V|]. split; reflexivity.
Qed.

Print Assumptions C58_concatenation.
Print Assumptions C58_alternation.
Print Assumptions C58_alternation_accepted.
Print Assumptions C58_group_partial.
Print Assumptions C58_group_is_verb.
Print Assumptions C58_refuted.
Print Assumptions C58_sequence.
Print Assumptions C58_empty.
Print Assumptions C59_case_closure.
Print Assumptions C59_closed.
Print Assumptions C59_same_acceptance.
Print Assumptions C60_finite.
Print Assumptions C60_word_length.
