(** Lemmas about the construction of literals from trees. *)
From Coq Require Import Sorting.Sorted.
From Verif Require Import Base ModelUtil ModelBitField ModelCharReach ModelLiteral ModelParser ModelCompiler SpecSet SpecGrammar SpecTrie SpecTree
  ProofBase ProofBitField ProofBitField2 ProofCharReach ProofLiteral ProofGrammar ProofParser ProofTree.
Local Open Scope N_scope.
Local Open Scope list_scope.

Section ComponentInd.
  Context (P : component -> Prop) (Q : seqn -> Prop)
    (Ha : forall bs, Forall Q bs -> P (CAlternation bs)) (Hc : forall k, P (CClass k)) (Hs : forall s, Q s -> P (CSequence s))
    (Hq : forall ch alt ci cn, Forall P ch -> Q (Seqn ch alt ci cn)).
  Fixpoint component_ind' (c : component) : P c :=
    match c with
    | CAlternation bs => Ha bs ((fix go (l : list seqn) : Forall Q l :=
        match l with [] => Forall_nil _ | s :: t => Forall_cons _ (seqn_ind' s) (go t) end) bs)
    | CClass k => Hc k
    | CSequence s => Hs s (seqn_ind' s)
    end
  with seqn_ind' (s : seqn) : Q s :=
    match s with
    | Seqn ch alt ci cn => Hq ch alt ci cn ((fix go (l : list component) : Forall P l :=
        match l with [] => Forall_nil _ | c :: t => Forall_cons _ (component_ind' c) (go t) end) ch)
    end.
End ComponentInd.

(** ** One class *)
Definition class_elem (cr : charreach) : option (N * bool) :=
  match elements cr with
  | [c] => Some (c, false)
  | [a; b] => if a =? upper_case b then Some (a, true) else None
  | _ => None
  end.
Lemma lit_pre_class_ok : forall p l k, wf (ac_cr k) ->
  lit_pre_class p l k = Ret (match class_elem (ac_cr k) with Some (c, n) => ROk (lit_push l c n) | None => RErr tt end).
Proof.
  intros p l k W. unfold lit_pre_class, class_elem, cr_count, cr_find_first. rewrite bf_count_ok, bf_find_first_ok, is_caseless_char_ok by exact W.
  destruct (elements (ac_cr k)) as [|a [|b [|c t]]]; try reflexivity.
  - cbn [List.length hd_error]. change (N.of_nat 2 =? 1) with false. change (N.of_nat 2 =? 2) with true. cbv iota. cbn [bind].
    destruct (a =? upper_case b); reflexivity.
  - cbn [List.length]. replace (N.of_nat (S (S (S (List.length t)))) =? 1) with false by lia.
    replace (N.of_nat (S (S (S (List.length t)))) =? 2) with false by lia. reflexivity.
Qed.
Lemma sorted_pair : forall b a c, wf b -> elements b = [a; c] -> a < c.
Proof. intros b a c W E. pose proof (elements_sorted b) as S. rewrite E in S. inversion S as [|? ? _ F]; subst. inversion F; assumption. Qed.
Lemma class_elem_byte : forall cr c, wf cr -> (class_elem cr = Some (c, false) <-> forall x, mem cr x = true <-> x = c).
Proof.
  intros cr c W. split.
  - intro E. unfold class_elem in E. destruct (elements cr) as [|a [|b [|d t]]] eqn:El; try discriminate E.
    + injection E as ->. intro x. rewrite <- in_elements by exact W. rewrite El. cbn. intuition.
    + destruct (a =? upper_case b); discriminate.
  - intro H. unfold class_elem. assert (I : forall x, In x (elements cr) <-> x = c) by (intro x; rewrite in_elements by exact W; apply H).
    pose proof (elements_sorted cr) as S. destruct (elements cr) as [|a l].
    + specialize (proj2 (I c) eq_refl) as Z. destruct Z.
    + assert (a = c) by (apply I; left; reflexivity). subst a. destruct l as [|b l]; [reflexivity|exfalso].
      assert (b = c) by (apply I; right; left; reflexivity). subst b. inversion S as [|? ? _ F]; subst. inversion F; lia.
Qed.
Lemma class_elem_letter : forall cr u, wf cr ->
  (class_elem cr = Some (u, true) <-> is_upper u /\ forall x, mem cr x = true <-> x = u \/ x = u + 32).
Proof.
  intros cr u W. split.
  - intro E. unfold class_elem in E. destruct (elements cr) as [|a [|b [|d t]]] eqn:El; try discriminate E.
    destruct (N.eqb_spec a (upper_case b)) as [Ea|]; [|discriminate]. injection E as ->. pose proof (sorted_pair cr u b W El) as Lt.
    assert (is_upper u /\ b = u + 32) as [Hu ->] by (unfold upper_case in Ea; unfold is_upper; destruct ((97 <=? b) && (b <=? 122)) eqn:T; lia).
    split; [exact Hu|]. intro x. rewrite <- in_elements by exact W. rewrite El. cbn. intuition.
  - intros [Hu H]. unfold class_elem. assert (I : forall x, In x (elements cr) <-> x = u \/ x = u + 32) by (intro x; rewrite in_elements by exact W; apply H).
    pose proof (elements_sorted cr) as S. destruct (elements cr) as [|a l].
    { specialize (proj2 (I u) (or_introl eq_refl)) as Z. destruct Z. }
    inversion S as [|? ? S' F]; subst. rewrite Forall_forall in F.
    assert (Ea : a = u).
    { destruct (proj1 (I a) (or_introl eq_refl)) as [E|E]; [exact E|]. destruct (proj2 (I u) (or_introl eq_refl)) as [J|J]; [lia|]. apply F in J. lia. }
    subst a. destruct (proj2 (I (u + 32)) (or_intror eq_refl)) as [J|J]; [lia|]. destruct l as [|b l]; [destruct J|].
    assert (Eb : b = u + 32).
    { destruct (proj1 (I b) (or_intror (or_introl eq_refl))) as [E|E]; [|exact E]. specialize (F b (or_introl eq_refl)). lia. }
    subst b. destruct l as [|d l].
    + unfold upper_case, is_upper in *. replace ((97 <=? u + 32) && (u + 32 <=? 122)) with true by lia. replace (u =? u + 32 - 32) with true by lia. reflexivity.
    + exfalso. inversion S' as [|? ? _ F']; subst. rewrite Forall_forall in F'. specialize (F' d (or_introl eq_refl)).
      destruct (proj1 (I d) (or_intror (or_intror (or_introl eq_refl)))) as [E|E]; lia.
Qed.
Lemma class_elem_flag : forall cr c n, wf cr -> class_elem cr = Some (c, n) ->
  forall x, mem cr x = true <-> byte_matches c n x.
Proof.
  intros cr c n W E x. destruct n.
  - apply (class_elem_letter _ _ W) in E. destruct E as [Hu H]. rewrite H. unfold byte_matches, upper_case, is_upper in *.
    split.
    + intros [->| ->]; [auto|]. right. split; [reflexivity|]. replace ((97 <=? c + 32) && (c + 32 <=? 122)) with true by lia. lia.
    + intros [->|[_ Z]]; [auto|]. destruct ((97 <=? x) && (x <=? 122)) eqn:T; lia.
  - pose proof (proj1 (class_elem_byte cr c W) E) as M. rewrite M. unfold byte_matches. intuition discriminate.
Qed.
Lemma class_elem_upper : forall cr c, wf cr -> class_elem cr = Some (c, true) -> mytoupper c = c.
Proof.
  intros cr c W E. apply (class_elem_letter _ _ W) in E. destruct E as [Hu _]. unfold mytoupper, myislower, is_upper in *.
  replace ((97 <=? c) && (c <=? 122)) with false by lia. reflexivity.
Qed.

(** ** The walk *)
Definition option_app {A} (a b : option (list A)) : option (list A) :=
  match a, b with Some x, Some y => Some (x ++ y) | _, _ => None end.
Fixpoint elems (c : component) : option (list (N * bool)) :=
  match c with
  | CAlternation _ => None
  | CClass k => match class_elem (ac_cr k) with Some e => Some [e] | None => None end
  | CSequence (Seqn ch _ _ _) => (fix go l := match l with [] => Some [] | x :: t => option_app (elems x) (go t) end) ch
  end.
Fixpoint elems_list (l : list component) : option (list (N * bool)) :=
  match l with [] => Some [] | x :: t => option_app (elems x) (elems_list t) end.
Lemma elems_sequence : forall ch alt ci cn, elems (CSequence (Seqn ch alt ci cn)) = elems_list ch.
Proof. intros ch alt ci cn. cbn [elems]. induction ch as [|x ch IH]; [reflexivity|]. cbn [elems_list]. rewrite IH. reflexivity. Qed.
Definition lit_add (l : literal) (es : list (N * bool)) : literal :=
  Literal (lit_s l ++ map fst es) (lit_nocase l ++ map snd es).
Lemma lit_add_app : forall l a b, lit_add (lit_add l a) b = lit_add l (a ++ b).
Proof. intros l a b. unfold lit_add. cbn [lit_s lit_nocase]. rewrite !map_app, !app_assoc. reflexivity. Qed.
Lemma lit_add_nil : forall l, lit_add l [] = l.
Proof. intros [s n]. unfold lit_add. cbn. rewrite !app_nil_r. reflexivity. Qed.
Lemma lit_push_add : forall cr c n l, wf cr -> class_elem cr = Some (c, n) -> lit_push l c n = lit_add l [(c, n)].
Proof.
  intros cr c n l W E. unfold lit_push, lit_add. cbn [map fst snd]. destruct n; [|reflexivity].
  rewrite (class_elem_upper cr c W E). reflexivity.
Qed.
Definition walk_result (l : literal) (o : option (list (N * bool))) : outcome (result unit literal) :=
  Ret (match o with Some es => ROk (lit_add l es) | None => RErr tt end).
Lemma walk_list_ok : forall p ch l, Forall (fun c => forall l, walk_component p (construct_literal_visitor p) l c = walk_result l (elems c)) ch ->
  walk_list (fun v c => walk_component p (construct_literal_visitor p) v c) (fun v => v) l ch = walk_result l (elems_list ch).
Proof.
  intros p ch; induction ch as [|c ch IH]; intros l F; cbn [walk_list elems_list].
  - unfold walk_result. rewrite lit_add_nil. reflexivity.
  - inversion F as [|? ? Hc Hch]; subst. rewrite Hc. unfold walk_result at 1. destruct (elems c) as [a|]; cbn [bindr option_app]; [|reflexivity].
    replace (match ch with [] => lit_add l a | _ :: _ => lit_add l a end) with (lit_add l a) by (destruct ch; reflexivity).
    rewrite (IH (lit_add l a) Hch). unfold walk_result. destruct (elems_list ch) as [b|]; [rewrite lit_add_app|]; reflexivity.
Qed.
Lemma walk_ok : forall p c, finalized c -> forall l, walk_component p (construct_literal_visitor p) l c = walk_result l (elems c).
Proof.
  intro p. apply (component_ind' (fun c => finalized c -> forall l, walk_component p (construct_literal_visitor p) l c = walk_result l (elems c))
    (fun s => finalized_seqn s -> forall l, walk_seqn p (construct_literal_visitor p) l s = walk_result l (elems (CSequence s)))).
  - intros bs _ _ l. reflexivity.
  - intros k F l. inversion F as [? W| |]; subst. cbn [walk_component]. unfold walk_class. cbn [pre_class construct_literal_visitor].
    rewrite lit_pre_class_ok by exact W. cbn [elems]. destruct (class_elem (ac_cr k)) as [[c n]|] eqn:E; cbn [bindr]; [|reflexivity].
    cbn [post_class during_class bind]. rewrite (lit_push_add _ _ _ _ W E). reflexivity.
  - intros s H F l. inversion F; subst. apply H. assumption.
  - intros ch alt ci cn H F l. inversion F as [? ? ? Fc]; subst. rewrite elems_sequence. cbn [walk_seqn].
    unfold rs_debug_assert. rewrite andb_false_r. cbn [bind pre_sequence construct_literal_visitor bindr].
    rewrite walk_list_ok.
    + unfold walk_result. destruct (elems_list ch); reflexivity.
    + rewrite Forall_forall in *. intros c I. apply H; [exact I|apply Fc; exact I].
Qed.

(** ** Language of the literal *)
Definition elems_match (es : list (N * bool)) (w : list N) : Prop := lit_matches (map fst es) (map snd es) w.
Lemma elems_match_app : forall a b w, elems_match (a ++ b) w <-> exists u v, w = u ++ v /\ elems_match a u /\ elems_match b v.
Proof.
  unfold elems_match. induction a as [|[c n] a IH]; intros b w; cbn [app map fst snd lit_matches].
  - split; [intro H; exists [], w; auto|]. intros (u & v & -> & Hu & Hv). destruct u; [exact Hv|destruct Hu].
  - destruct w as [|x w].
    + split; [intros []|]. intros (u & v & E & Hu & _). destruct u; [destruct Hu|discriminate E].
    + rewrite IH. split.
      * intros (Hx & u & v & -> & Hu & Hv). exists (x :: u), v. auto.
      * intros (u & v & E & Hu & Hv). destruct u as [|y u]; [destruct Hu|]. injection E as -> ->. destruct Hu as [Hy Hu]. eauto 6.
Qed.
Lemma elems_lang : forall c, finalized c -> forall es, elems c = Some es -> forall w, tree_matches c w <-> elems_match es w.
Proof.
  apply (component_ind' (fun c => finalized c -> forall es, elems c = Some es -> forall w, tree_matches c w <-> elems_match es w)
    (fun s => finalized_seqn s -> forall es, elems (CSequence s) = Some es -> forall w, seqn_matches s w <-> elems_match es w)).
  - intros bs _ _ es E. discriminate E.
  - intros k F es E w. inversion F as [? W| |]; subst. cbn [elems] in E. destruct (class_elem (ac_cr k)) as [[c n]|] eqn:Ec; [|discriminate]. injection E as <-.
    pose proof (class_elem_flag _ _ _ W Ec) as M. unfold elems_match. cbn [map fst snd]. split.
    + intro H. inversion H as [? x Hx| |]; subst. cbn. split; [apply M; exact Hx|exact I].
    + destruct w as [|x [|y w]]; cbn [lit_matches]; [intros []| |intros [_ []]]. intros [Hx _]. constructor. apply M. exact Hx.
  - intros s H F es E w. inversion F; subst. rewrite <- (H H1 es E). split; [intro X; inversion X; assumption|intro X; constructor; exact X].
  - intros ch alt ci cn H F es E w. inversion F as [? ? ? Fc]; subst. rewrite elems_sequence in E.
    assert (G : forall w, list_matches ch w <-> elems_match es w).
    { clear w F. revert es E. induction ch as [|c ch IH]; intros es E w.
      - injection E as <-. split; [intro X; inversion X; exact I|]. destruct w; [constructor|intros []].
      - cbn [elems_list] in E. destruct (elems c) as [a|] eqn:Ea; [|discriminate]. destruct (elems_list ch) as [b|] eqn:Eb; [|discriminate].
        injection E as <-. inversion H as [|? ? Hc Hch]; subst. inversion Fc as [|? ? Fc1 Fc2]; subst. rewrite elems_match_app. split.
        + intro X. inversion X as [|? ? u v Hu Hv]; subst. exists u, v. split; [reflexivity|]. split; [apply (Hc Fc1 a Ea); exact Hu|apply (IH Hch Fc2 b eq_refl); exact Hv].
        + intros (u & v & -> & Hu & Hv). constructor; [apply (Hc Fc1 a Ea); exact Hu|apply (IH Hch Fc2 b eq_refl); exact Hv]. }
    rewrite <- G. split; [intro X; inversion X; assumption|intro X; constructor; exact X].
Qed.
Lemma elems_literal_tree : forall c, finalized c -> ((exists es, elems c = Some es) <-> literal_tree c).
Proof.
  apply (component_ind' (fun c => finalized c -> ((exists es, elems c = Some es) <-> literal_tree c))
    (fun s => finalized_seqn s -> ((exists es, elems (CSequence s) = Some es) <-> literal_tree (CSequence s)))).
  - intros bs _ _. split; [intros (es & E); discriminate E|intro X; inversion X].
  - intros k F. inversion F as [? W| |]; subst. cbn [elems]. split.
    + intros (es & E). destruct (class_elem (ac_cr k)) as [[c []]|] eqn:Ec; [| |discriminate].
      * apply (class_elem_letter _ _ W) in Ec. destruct Ec as [Hu Hm]. eapply lt_letter; eassumption.
      * eapply lt_byte. apply (class_elem_byte _ _ W). exact Ec.
    + intro X. inversion X as [? c Hm|? u Hu Hm|]; subst.
      * apply (class_elem_byte _ _ W) in Hm. rewrite Hm. eauto.
      * assert (Y : class_elem (ac_cr k) = Some (u, true)) by (apply class_elem_letter; [exact W|split; assumption]). rewrite Y. eauto.
  - intros s H F. inversion F; subst. apply H. assumption.
  - intros ch alt ci cn H F. inversion F as [? ? ? Fc]; subst. rewrite elems_sequence.
    assert (G : (exists es, elems_list ch = Some es) <-> Forall literal_tree ch).
    { clear F. induction ch as [|c ch IH]; [split; [constructor|exists []; reflexivity]|].
      inversion H as [|? ? Hc Hch]; subst. inversion Fc as [|? ? Fc1 Fc2]; subst. cbn [elems_list]. split.
      - intros (es & E). destruct (elems c) as [a|] eqn:Ea; [|discriminate]. destruct (elems_list ch) as [b|] eqn:Eb; [|discriminate].
        constructor; [apply Hc; eauto|apply IH; eauto].
      - intro X. inversion X as [|? ? X1 X2]; subst. apply Hc in X1; [|exact Fc1]. destruct X1 as (a & ->). apply IH in X2; try assumption. destruct X2 as (b & ->). cbn. eauto. }
    rewrite G. split; [intro X; constructor; exact X|intro X; inversion X; assumption].
Qed.

(** ** Trees of derivations *)
Lemma class_of_wf : forall nc c, wf (ac_cr (class_of nc c)).
Proof. intros nc c. apply field_of_wf. Qed.
Lemma seq_of_finalized : forall ci l, (forall b c, In b l -> In c b -> finalized c) -> finalized_seqn (seq_of ci l).
Proof.
  intros ci l H. assert (X : finalized_seqn (Seqn [CAlternation (map branch l)] None ci None)).
  { constructor. constructor; [|constructor]. constructor. apply Forall_forall. intros s I. apply in_map_iff in I. destruct I as (b & <- & I).
    constructor. apply Forall_forall. intros c J. eapply H; eassumption. }
  destruct l as [|b [|b' l]]; try exact X. constructor. apply Forall_forall. intros c J. eapply H; [left; reflexivity|exact J].
Qed.
Lemma tree_seq_forall : forall nc (P : component -> Prop) b, (forall a, In a b -> forall n, P (fst (tree_atom nc n a))) ->
  forall n c, In c (fst (tree_seq nc n b)) -> P c.
Proof.
  intros nc P b; induction b as [|a b IH]; intros H n c I; [destruct I|]. unfold tree_seq in I. cbn [mapacc] in I.
  pose proof (H a (or_introl eq_refl) n) as Ha. destruct (tree_atom nc n a) as [x n1]. specialize (IH (fun y J => H y (or_intror J)) n1 c).
  unfold tree_seq in IH. destruct (mapacc (tree_atom nc) n1 b) as [l n2]. destruct I as [<-|I]; [exact Ha|apply IH; exact I].
Qed.
Lemma tree_branches_forall : forall nc (P : component -> Prop) e, (forall b a, In b e -> In a b -> forall n, P (fst (tree_atom nc n a))) ->
  forall n b c, In b (fst (tree_branches nc n e)) -> In c b -> P c.
Proof.
  intros nc P e; induction e as [|b e IH]; intros H n b' c I J; [destruct I|]. unfold tree_branches in I. cbn [mapacc] in I.
  pose proof (tree_seq_forall nc P b (fun a K => H b a (or_introl eq_refl) K) n c) as Hb. destruct (tree_seq nc n b) as [x n1].
  specialize (IH (fun b0 a K L => H b0 a (or_intror K) L) n1 b' c). unfold tree_branches in IH. destruct (mapacc (tree_seq nc) n1 e) as [l n2].
  destruct I as [<-|I]; [apply Hb; exact J|apply IH; [exact I|exact J]].
Qed.
Lemma tree_atom_finalized : forall nc a n, finalized (fst (tree_atom nc n a)).
Proof.
  intro nc. induction a as [c|bs IH] using atom_ind'; intro n.
  - constructor. apply class_of_wf.
  - rewrite tree_atom_grp. cbn [fst]. constructor. apply seq_of_finalized. intros b c. apply tree_branches_forall. intros b' a Ib Ia k.
    rewrite Forall_forall in IH. specialize (IH b' Ib). rewrite Forall_forall in IH. apply IH. exact Ia.
Qed.
Lemma tree_finalized : forall nc e, finalized (tree nc e).
Proof.
  intros nc e. constructor. apply seq_of_finalized. intros b c. apply tree_branches_forall. intros b' a _ _ k. apply tree_atom_finalized.
Qed.
(** the element of one character *)
Definition char_elem (nc : bool) (c : N) : N * bool := (stored nc c, flagged nc c).
Lemma class_of_elem : forall nc c, c < 128 -> class_elem (ac_cr (class_of nc c)) = Some (char_elem nc c).
Proof.
  intros nc c Hc. pose proof (class_of_wf nc c) as W. unfold char_elem, stored, flagged. destruct nc; cbn [andb].
  - destruct (is_letter_b c) eqn:L; unfold is_letter_b in L.
    + apply class_elem_letter; [exact W|]. unfold is_upper, upper_case. split; [ifs; lia|]. intro x. rewrite class_of_mem by exact Hc.
      unfold char_matches, other_case. ifs; lia.
    + replace (upper_case c) with c by (unfold upper_case; ifs; lia). apply class_elem_byte; [exact W|]. intro x. rewrite class_of_mem by exact Hc.
      unfold char_matches, other_case. ifs; lia.
  - apply class_elem_byte; [exact W|]. intro x. rewrite class_of_mem by exact Hc. unfold char_matches. cbn. lia.
Qed.
Definition text_elems (nc : bool) (s : str) : option (list (N * bool)) :=
  if existsb (N.eqb 124) s then None else Some (map (char_elem nc) (lit_text s)).
Lemma lit_text_app : forall a b, lit_text (a ++ b) = lit_text a ++ lit_text b.
Proof. intros. apply filter_app. Qed.
Lemma text_elems_app : forall nc a b, text_elems nc (a ++ b) = option_app (text_elems nc a) (text_elems nc b).
Proof.
  intros nc a b. unfold text_elems. rewrite existsb_app, lit_text_app, map_app.
  destruct (existsb (N.eqb 124) a); [reflexivity|]. cbn [orb option_app]. destruct (existsb (N.eqb 124) b); reflexivity.
Qed.
Lemma tree_seq_elems : forall nc b, (forall a, In a b -> forall n, elems (fst (tree_atom nc n a)) = text_elems nc (text_atom a)) ->
  forall n, elems_list (fst (tree_seq nc n b)) = text_elems nc (text_seq b).
Proof.
  intros nc b; induction b as [|a b IH]; intros H n; [reflexivity|]. rewrite text_seq_cons, text_elems_app.
  unfold tree_seq. cbn [mapacc]. pose proof (H a (or_introl eq_refl) n) as Ha. destruct (tree_atom nc n a) as [x n1].
  specialize (IH (fun y J => H y (or_intror J)) n1). unfold tree_seq in IH. destruct (mapacc (tree_atom nc) n1 b) as [l n2]. cbn [fst elems_list] in *.
  rewrite Ha, IH. reflexivity.
Qed.
Lemma seq_of_elems : forall nc ci n e, e <> [] ->
  (forall b a, In b e -> In a b -> forall n, elems (fst (tree_atom nc n a)) = text_elems nc (text_atom a)) ->
  elems (CSequence (seq_of ci (fst (tree_branches nc n e)))) = text_elems nc (text e).
Proof.
  intros nc ci n e Ne H. destruct e as [|b [|b' e]]; [contradiction| |].
  - unfold tree_branches. cbn [mapacc]. pose proof (tree_seq_elems nc b (fun a I => H b a (or_introl eq_refl) I) n) as Hb.
    destruct (tree_seq nc n b) as [l n1]. cbn [fst seq_of] in *. rewrite elems_sequence, text_one. exact Hb.
  - rewrite text_cons. unfold text_elems. rewrite existsb_app. cbn [existsb]. change (124 =? 124) with true. cbn [orb]. rewrite orb_true_r.
    unfold tree_branches. cbn [mapacc]. destruct (tree_seq nc n b) as [l n1]. destruct (tree_seq nc n1 b') as [l' n2]. destruct (mapacc (tree_seq nc) n2 e) as [ls n3].
    cbn [fst seq_of]. reflexivity.
Qed.
Lemma tree_atom_elems : forall nc a, wf_atom a -> ascii_text (text_atom a) -> forall n, elems (fst (tree_atom nc n a)) = text_elems nc (text_atom a).
Proof.
  intro nc. induction a as [c|bs IH] using atom_ind'; intros W A n; inversion W as [? (P0 & P1 & P2)|? Ne Wb]; subst.
  - cbn [tree_atom fst elems]. rewrite class_of_elem by (apply A; left; reflexivity). unfold text_elems. cbn [text_atom existsb lit_text filter].
    replace (124 =? c) with false by lia. replace (c =? 40) with false by lia. replace (c =? 41) with false by lia. reflexivity.
  - rewrite tree_atom_grp. cbn [fst]. rewrite seq_of_elems; [|exact Ne|].
    + rewrite text_grp. unfold text_elems. cbn [existsb]. rewrite existsb_app. cbn [existsb]. change (124 =? 40) with false. change (124 =? 41) with false.
      cbn [orb]. rewrite orb_false_r. unfold lit_text. cbn [filter]. change (negb ((40 =? 40) || (40 =? 41))) with false. cbv iota. rewrite filter_app. cbn [filter].
      change (negb ((41 =? 40) || (41 =? 41))) with false. cbv iota. rewrite app_nil_r. reflexivity.
    + intros b a Ib Ia. rewrite Forall_forall in IH. specialize (IH b Ib). rewrite Forall_forall in IH.
      apply IH; [exact Ia|eapply Wb; eassumption|]. rewrite text_grp in A. apply ascii_cons in A. destruct A as [_ A]. apply ascii_app in A.
      eapply ascii_atom_in; [exact Ia|]. eapply ascii_branch_in; [exact Ib|]. apply A.
Qed.
Lemma tree_elems : forall nc e, wf_expr e -> ascii_text (text e) -> elems (tree nc e) = text_elems nc (text e).
Proof.
  intros nc e [Ne W] A. unfold tree. apply seq_of_elems; [exact Ne|]. intros b a Ib Ia. apply tree_atom_elems; [eapply W; eassumption|].
  eapply ascii_atom_in; [exact Ia|]. eapply ascii_branch_in; eassumption.
Qed.
Lemma walk_tree : forall p nc e, wf_expr e -> ascii_text (text e) ->
  walk_component p (construct_literal_visitor p) lit_default (tree nc e) =
  Ret (if existsb (N.eqb 124) (text e) then RErr tt else ROk (text_literal nc (text e))).
Proof.
  intros p nc e W A. rewrite walk_ok by apply tree_finalized. rewrite tree_elems by assumption. unfold walk_result, text_elems.
  destruct (existsb (N.eqb 124) (text e)); [reflexivity|]. unfold lit_add, text_literal, lit_default. cbn [lit_s lit_nocase app]. rewrite !map_map. reflexivity.
Qed.
Lemma text_literal_empty : forall nc body, lit_is_empty (text_literal nc body) = match lit_text body with [] => true | _ => false end.
Proof. intros nc body. unfold lit_is_empty, text_literal. cbn [lit_s]. destruct (lit_text body); reflexivity. Qed.
Lemma literal_text_iff : forall body, literal_text body <-> existsb (N.eqb 124) body = false /\ lit_text body <> [].
Proof.
  intro body. unfold literal_text. split.
  - intros (N & c & I & H0 & H1). split.
    + apply not_true_is_false. intro E. apply existsb_exists in E. destruct E as (x & J & E). apply N.eqb_eq in E. subst x. contradiction.
    + intro Z. assert (J : In c (lit_text body)) by (apply filter_In; split; [exact I|lia]). rewrite Z in J. destruct J.
  - intros (E & Ne). split.
    + intro I. assert (existsb (N.eqb 124) body = true) by (apply existsb_exists; exists 124; split; [exact I|reflexivity]). congruence.
    + destruct (lit_text body) as [|c t] eqn:T; [contradiction|]. exists c. assert (J : In c (lit_text body)) by (rewrite T; left; reflexivity).
      apply filter_In in J. destruct J as [J1 J2]. split; [exact J1|]. lia.
Qed.
Lemma text_literal_wf : forall nc body, lit_wf (text_literal nc body).
Proof. intros. unfold lit_wf, text_literal. cbn. rewrite !map_length. reflexivity. Qed.
Lemma text_literal_not_mixed : forall nc body, mixed_sensitivity (lit_iter (text_literal nc body)) = false.
Proof.
  intros nc body. apply not_true_is_false. intro H. apply mixed_ok in H. rewrite lit_iter_ok in H. destruct H as ((e & I & L & F) & (e' & I' & L' & F')).
  apply pairs_nth in I, I'. destruct I as (i & I1 & I2). destruct I' as (j & J1 & J2). cbn [text_literal lit_s lit_nocase] in *.
  rewrite nth_error_map in *. destruct (nth_error (lit_text body) i) as [c|]; [|discriminate]. destruct (nth_error (lit_text body) j) as [d|]; [|discriminate].
  cbn [option_map] in *. injection I1 as I1. injection I2 as I2. injection J1 as J1. injection J2 as J2.
  rewrite <- I1 in L. rewrite <- J1 in L'. rewrite <- I2 in F. rewrite <- J2 in F'. unfold flagged, stored in *. destruct nc; [|discriminate].
  cbn [andb] in *. unfold is_letter, is_upper, is_lower, upper_case, is_letter_b in *. destruct ((97 <=? c) && (c <=? 122)) eqn:T; lia.
Qed.
