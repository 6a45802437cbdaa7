(** Lemmas about the languages of derivations. *)
From Verif Require Import Base ModelUtil ModelBitField ModelCharReach ModelParser SpecSet SpecGrammar SpecLang
  ProofBase ProofBitField ProofCharReach ProofGrammar.
Local Open Scope N_scope.
Local Open Scope list_scope.

Scheme lang_atom_mut := Induction for lang_atom Sort Prop
with lang_seq_mut := Induction for lang_seq Sort Prop.

(** ** Case *)
Lemma case_variant_app : forall a b a' b', case_variant a a' -> case_variant b b' -> case_variant (a ++ b) (a' ++ b').
Proof. intros. apply Forall2_app; assumption. Qed.
Lemma case_seq : forall b w, lang_seq true b w -> exists w0, lang_seq false b w0 /\ case_variant w0 w.
Proof.
  intros b w L. induction L as [c x M|bs b w I L IH| |a b u v La IHa Lb IHb] using lang_seq_mut with
    (P := fun a w _ => exists w0, lang_atom false a w0 /\ case_variant w0 w).
  - exists [c]. split; [constructor; unfold char_matches; cbn; rewrite N.eqb_refl; reflexivity|].
    constructor; [|constructor]. unfold char_matches in M. cbn [andb] in M. lia.
  - destruct IH as (w0 & L0 & V). exists w0. split; [econstructor; eassumption|exact V].
  - exists []. split; constructor.
  - destruct IHa as (u0 & Lu & Vu), IHb as (v0 & Lv & Vv). exists (u0 ++ v0). split; [constructor; assumption|apply case_variant_app; assumption].
Qed.
Lemma seq_case : forall b w0, lang_seq false b w0 -> forall w, case_variant w0 w -> lang_seq true b w.
Proof.
  intros b w0 L. induction L as [c x M|bs b w I L IH| |a b u v La IHa Lb IHb] using lang_seq_mut with
    (P := fun a w0 _ => forall w, case_variant w0 w -> lang_atom true a w).
  - intros w V. unfold char_matches in M. cbn [andb] in M. assert (x = c) by lia. subst x.
    inversion V as [|? y ? t E T]; subst. inversion T; subst. constructor. unfold char_matches. cbn [andb]. lia.
  - intros w' V. econstructor; [eassumption|]. apply IH. exact V.
  - intros w V. inversion V. constructor.
  - intros w V. apply Forall2_app_inv_l in V. destruct V as (u' & v' & Vu & Vv & ->). constructor; auto.
Qed.
Lemma lang_case : forall e w, lang true e w <-> exists w0, lang false e w0 /\ case_variant w0 w.
Proof.
  intros e w. split.
  - intros (b & I & L). destruct (case_seq _ _ L) as (w0 & L0 & V). exists w0. split; [exists b; auto|exact V].
  - intros (w0 & (b & I & L) & V). exists b. split; [exact I|]. eapply seq_case; eassumption.
Qed.

(** ** Quantities of a text *)
Lemma bars_app : forall a b, bars (a ++ b) = (bars a + bars b)%nat.
Proof. intros. apply count_occ_app. Qed.
Lemma letters_app : forall a b, letters (a ++ b) = (letters a + letters b)%nat.
Proof. intros. unfold letters. rewrite filter_app, app_length. reflexivity. Qed.
Lemma plain_app : forall a b, plain_chars (a ++ b) = (plain_chars a + plain_chars b)%nat.
Proof. intros. unfold plain_chars. rewrite filter_app, app_length. reflexivity. Qed.
Lemma plain_one : forall c, plain c -> plain_chars [c] = 1%nat.
Proof. intros c (A & B & C). unfold plain_chars. cbn [filter]. replace ((c =? 40) || (c =? 41) || (c =? 124)) with false by lia. reflexivity. Qed.
Lemma bars_one : forall c, plain c -> bars [c] = 0%nat.
Proof. intros c (A & B & C). unfold bars. cbn. destruct (N.eq_dec c 124); [contradiction|reflexivity]. Qed.
Lemma group_bars : forall bs, bars (text_atom (Grp bs)) = bars (text bs).
Proof. intros bs. rewrite text_grp. change (40 :: text bs ++ [41]) with ([40] ++ text bs ++ [41]). rewrite !bars_app. change (bars [40]) with 0%nat. change (bars [41]) with 0%nat. lia. Qed.
Lemma group_letters : forall bs, letters (text_atom (Grp bs)) = letters (text bs).
Proof. intros bs. rewrite text_grp. change (40 :: text bs ++ [41]) with ([40] ++ text bs ++ [41]). rewrite !letters_app. change (letters [40]) with 0%nat. change (letters [41]) with 0%nat. lia. Qed.
Lemma group_plain : forall bs, plain_chars (text_atom (Grp bs)) = plain_chars (text bs).
Proof. intros bs. rewrite text_grp. change (40 :: text bs ++ [41]) with ([40] ++ text bs ++ [41]). rewrite !plain_app. change (plain_chars [40]) with 0%nat. change (plain_chars [41]) with 0%nat. lia. Qed.
Lemma branch_plain : forall e b, In b e -> (plain_chars (text_seq b) <= plain_chars (text e))%nat.
Proof.
  induction e as [|b0 e IH]; intros b I; [contradiction|]. destruct e as [|b1 e].
  - destruct I as [<-|[]]. rewrite text_one. lia.
  - rewrite text_cons. change (124 :: text (b1 :: e)) with ([124] ++ text (b1 :: e)). rewrite !plain_app. 
    destruct I as [<-|I]; [lia|]. specialize (IH b I). lia.
Qed.

(** ** Words are no longer than the text has characters that stand for themselves *)
Lemma seq_length : forall nc b w, lang_seq nc b w -> (forall a, In a b -> wf_atom a) -> (List.length w <= plain_chars (text_seq b))%nat.
Proof.
  intros nc b w L. induction L as [c x M|bs b w I L IH| |a b u v La IHa Lb IHb] using lang_seq_mut with
    (P := fun a w _ => wf_atom a -> (List.length w <= plain_chars (text_atom a))%nat).
  - intro W. inversion W; subst. cbn [text_atom]. rewrite plain_one by assumption. cbn. lia.
  - intro W. inversion W as [|? N Wb]; subst. rewrite group_plain. pose proof (branch_plain bs b I).
    assert (List.length w <= plain_chars (text_seq b))%nat by (apply IH; intros; eapply Wb; eassumption). lia.
  - intros _. cbn. lia.
  - intro W. rewrite text_seq_cons, plain_app, app_length.
    assert (List.length u <= plain_chars (text_atom a))%nat by (apply IHa, W; left; reflexivity).
    assert (List.length v <= plain_chars (text_seq b))%nat by (apply IHb; intros; apply W; right; assumption). lia.
Qed.
Lemma lang_length : forall nc e w, wf_expr e -> lang nc e w -> (List.length w <= plain_chars (text e))%nat.
Proof.
  intros nc e w [_ W] (b & I & L). pose proof (branch_plain e b I). assert (List.length w <= plain_chars (text_seq b))%nat; [|lia].
  eapply seq_length; [eassumption|]. intros. eapply W; eassumption.
Qed.

(** ** Languages are finite *)
Definition cost (nc : bool) (s : str) : nat := (bars s + if nc then letters s else 0)%nat.
Lemma cost_app : forall nc a b, cost nc (a ++ b) = (cost nc a + cost nc b)%nat.
Proof. intros. unfold cost. rewrite bars_app, letters_app. destruct nc; lia. Qed.
Lemma pow_add_le : forall a b, (2 ^ a + 2 ^ b <= 2 ^ (a + S b))%nat.
Proof.
  intros a b. rewrite Nat.pow_add_r. cbn [Nat.pow]. assert (1 <= 2 ^ a)%nat by (apply Nat.neq_0_lt_0, Nat.pow_nonzero; lia).
  assert (1 <= 2 ^ b)%nat by (apply Nat.neq_0_lt_0, Nat.pow_nonzero; lia). nia.
Qed.
Definition words_for (L : list N -> Prop) (k : nat) : Prop :=
  exists ws, (1 <= List.length ws <= 2 ^ k)%nat /\ forall w, L w <-> In w ws.
Lemma words_one : forall (L : list N -> Prop) w0, (forall w, L w <-> w = w0) -> words_for L 0.
Proof. intros L w0 H. exists [w0]. split; [cbn; lia|]. intro w. rewrite H. cbn. split; [intros ->; auto|intros [->|[]]; reflexivity]. Qed.
Lemma words_char : forall nc c, plain c -> words_for (lang_atom nc (Ch c)) (cost nc [c]).
Proof.
  intros nc c Pc. assert (X : forall w, lang_atom nc (Ch c) w <-> exists x, w = [x] /\ char_matches nc c x = true).
  { intro w. split; [intro H; inversion H; subst; eauto|]. intros (x & -> & M). constructor. exact M. }
  unfold cost. rewrite (bars_one c Pc). destruct nc.
  - unfold letters. cbn [filter]. unfold char_matches in X. destruct (is_letter_char c) eqn:Lc.
    + exists [[c]; [other_case c]]. split; [cbn; lia|]. intro w. rewrite X. cbn [In andb]. split.
      * intros (x & -> & M). apply orb_prop in M. destruct M as [M|M]; apply N.eqb_eq in M; subst; auto.
      * intros [<-|[<-|[]]]; eexists; (split; [reflexivity|]); rewrite N.eqb_refl, ?orb_true_r; reflexivity.
    + apply words_one with (w0 := [c]). intro w. rewrite X. split.
      * intros (x & -> & M). f_equal. revert M Lc. unfold other_case, is_letter_char. cbn [andb]. ifs; intros; lia.
      * intros ->. exists c. split; [reflexivity|]. rewrite N.eqb_refl. reflexivity.
  - apply words_one with (w0 := [c]). intro w. rewrite X. unfold char_matches. cbn [andb]. split.
    + intros (x & -> & M). f_equal. lia.
    + intros ->. exists c. split; [reflexivity|]. rewrite N.eqb_refl. reflexivity.
Qed.
Lemma words_seq : forall nc b, Forall (fun a => words_for (lang_atom nc a) (cost nc (text_atom a))) b ->
  words_for (lang_seq nc b) (cost nc (text_seq b)).
Proof.
  intros nc b H. induction H as [|a b (wa & La & Ha) _ (wb & Lb & Hb)].
  - unfold cost. cbn. destruct nc; (apply words_one with (w0 := []); intro w; split; [intro L; inversion L; reflexivity|intros ->; constructor]).
  - exists (flat_map (fun u => map (app u) wb) wa). split.
    + rewrite text_seq_cons, cost_app, Nat.pow_add_r.
      replace (List.length (flat_map (fun u => map (app u) wb) wa)) with (List.length wa * List.length wb)%nat; [nia|].
      clear. induction wa as [|u wa IH]; [reflexivity|]. cbn [flat_map List.length]. rewrite app_length, map_length, <- IH. reflexivity.
    + intro w. rewrite in_flat_map. split.
      * intro L. inversion L as [|? ? u v Lu Lv]; subst. exists u. split; [apply Ha; exact Lu|]. apply in_map, Hb. exact Lv.
      * intros (u & Iu & Iv). apply in_map_iff in Iv. destruct Iv as (v & <- & Iv). constructor; [apply Ha; exact Iu|apply Hb; exact Iv].
Qed.
Lemma words_branches : forall nc e, e <> [] -> Forall (fun b => words_for (lang_seq nc b) (cost nc (text_seq b))) e ->
  words_for (lang nc e) (cost nc (text e)).
Proof.
  intros nc e. induction e as [|b e IH]; intros Ne H; [contradiction|]. inversion H as [|? ? (wb & Lb & Hb) He]; subst. destruct e as [|b1 e].
  - rewrite text_one. exists wb. split; [exact Lb|]. intro w. rewrite <- Hb. unfold lang. split; [intros (x & [<-|[]] & L); exact L|].
    intro L. exists b. split; [left; reflexivity|exact L].
  - destruct (IH ltac:(discriminate) He) as (we & Le & Hw). exists (wb ++ we). split.
    + rewrite text_cons. change (124 :: text (b1 :: e)) with ([124] ++ text (b1 :: e)). rewrite !cost_app.
      replace (cost nc [124]) with 1%nat by (destruct nc; reflexivity). cbn [plus].
      pose proof (pow_add_le (cost nc (text_seq b)) (cost nc (text (b1 :: e)))). rewrite app_length. lia.
    + intro w. rewrite in_app_iff, <- Hb, <- Hw. unfold lang. split.
      * intros (x & [<-|I] & L); [left; exact L|right; exists x; auto].
      * intros [L|(x & I & L)]; [exists b; split; [left; reflexivity|exact L]|exists x; split; [right; exact I|exact L]].
Qed.
Lemma words_atom : forall nc a, wf_atom a -> words_for (lang_atom nc a) (cost nc (text_atom a)).
Proof.
  intros nc a. induction a as [c|bs IH] using atom_ind'; intro W; inversion W as [? Pc|? Ne Wb]; subst.
  - apply words_char. exact Pc.
  - assert (H : words_for (lang nc bs) (cost nc (text bs))).
    { apply words_branches; [exact Ne|]. rewrite Forall_forall in IH |- *. intros b Ib. apply words_seq. specialize (IH b Ib).
      rewrite Forall_forall in IH |- *. intros a Ia. apply IH; [exact Ia|]. eapply Wb; eassumption. }
    assert (Q : cost nc (text_atom (Grp bs)) = cost nc (text bs)) by (unfold cost; rewrite group_bars, group_letters; reflexivity).
    rewrite Q. destruct H as (ws & Lw & Hw). exists ws. split; [exact Lw|]. intro w. rewrite <- Hw. split.
    + intro L. inversion L; subst. exists b. auto.
    + intros (b & I & L). econstructor; eassumption.
Qed.
Lemma words_expr : forall nc e, wf_expr e -> words_for (lang nc e) (cost nc (text e)).
Proof.
  intros nc e [Ne W]. apply words_branches; [exact Ne|]. apply Forall_forall. intros b Ib. apply words_seq. apply Forall_forall. intros a Ia.
  apply words_atom. eapply W; eassumption.
Qed.

(** ** Putting expressions together *)
Lemma lang_alt : forall nc e e' w, lang nc (e ++ e') w <-> lang nc e w \/ lang nc e' w.
Proof.
  intros nc e e' w. unfold lang. split.
  - intros (b & I & L). apply in_app_or in I. destruct I; [left|right]; eauto.
  - intros [(b & I & L)|(b & I & L)]; exists b; (split; [apply in_or_app; auto|exact L]).
Qed.
Lemma text_alt : forall e e', e <> [] -> e' <> [] -> text (e ++ e') = text e ++ 124 :: text e'.
Proof.
  induction e as [|b e IH]; intros e' N N'; [contradiction|]. destruct e as [|b1 e].
  - destruct e' as [|b' e']; [contradiction|]. cbn [app]. rewrite text_cons, text_one. reflexivity.
  - change ((b :: b1 :: e) ++ e') with (b :: b1 :: (e ++ e')). rewrite text_cons. change (b1 :: e ++ e') with ((b1 :: e) ++ e').
    rewrite IH by (discriminate || assumption). rewrite text_cons, <- app_assoc. reflexivity.
Qed.
Lemma wf_alt : forall e e', wf_expr e -> wf_expr e' -> wf_expr (e ++ e').
Proof.
  intros e e' [N W] [N' W']. split; [destruct e; [contradiction|discriminate]|].
  intros b a I Ia. apply in_app_or in I. destruct I; [eapply W|eapply W']; eassumption.
Qed.
Lemma lang_group2 : forall nc e e' w, lang nc [[Grp e; Grp e']] w <-> exists u v, w = u ++ v /\ lang nc e u /\ lang nc e' v.
Proof.
  intros nc e e' w. split.
  - intros (b & [<-|[]] & L). inversion L as [|? ? u v Lu Lv]; subst. inversion Lv as [|? ? u' v' Lu' Lv']; subst. inversion Lv'; subst.
    inversion Lu; subst. inversion Lu'; subst. exists u, u'. rewrite app_nil_r. unfold lang. conjs; eauto.
  - intros (u & v & -> & (b & I & L) & (b' & I' & L')). exists [Grp e; Grp e']. split; [left; reflexivity|].
    constructor; [econstructor; eassumption|]. rewrite <- (app_nil_r v). constructor; [econstructor; eassumption|constructor].
Qed.
Lemma text_group : forall e, text [[Grp e]] = 40 :: text e ++ [41].
Proof. intros e. rewrite text_one, text_seq_cons, text_grp. cbn [text_seq flat_map]. apply app_nil_r. Qed.
Lemma text_group2 : forall e e', text [[Grp e; Grp e']] = 40 :: text e ++ 41 :: 40 :: text e' ++ [41].
Proof. intros e e'. rewrite text_one, !text_seq_cons, !text_grp. cbn [text_seq flat_map app]. rewrite <- !app_assoc. reflexivity. Qed.
Lemma wf_groups : forall l, Forall wf_expr l -> wf_expr [map Grp l].
Proof.
  intros l H. split; [discriminate|]. intros b a [<-|[]] Ia. apply in_map_iff in Ia. destruct Ia as (e & <- & Ie).
  rewrite Forall_forall in H. destruct (H e Ie) as [N W]. constructor; assumption.
Qed.
