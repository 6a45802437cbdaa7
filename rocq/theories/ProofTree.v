(** Lemmas about the tree of a derivation: it determines the derivation, numbers
    the groups in order and has the same language. *)
From Verif Require Import Base ModelUtil ModelBitField ModelCharReach ModelParser SpecSet SpecGrammar
  ProofBase ProofBitField ProofCharReach ProofGrammar ProofParser.
Local Open Scope N_scope.
Local Open Scope list_scope.

Lemma mapacc_forall2 : forall {A B} (f : N -> A -> B * N) (R : A -> B -> Prop) l n,
  (forall a n, In a l -> R a (fst (f n a))) -> Forall2 R l (fst (mapacc f n l)).
Proof.
  intros A B f R l; induction l as [|x l IH]; intros n H; [constructor|]. cbn [mapacc].
  pose proof (H x n (or_introl eq_refl)) as Hx. destruct (f n x) as [y n1] eqn:E.
  pose proof (IH n1 (fun a n I => H a n (or_intror I))) as IH1. destruct (mapacc f n1 l) as [ys n2]. constructor; assumption.
Qed.
Lemma Forall2_map_eq : forall {A B} (f : A -> B) l l', Forall2 (fun b a => f a = b) l l' -> map f l' = l.
Proof. intros A B f l l' H; induction H; simpl; congruence. Qed.

(** ** The tree determines the derivation *)
Fixpoint untree (c : component) : atom :=
  match c with
  | CClass k => Ch (match find (mem (ac_cr k)) (seqN 0 128) with Some c => c | None => 0 end)
  | CAlternation _ => Ch 0
  | CSequence (Seqn [CAlternation bs] _ _ _) => Grp (map (fun s => match s with Seqn ch _ _ _ => map untree ch end) bs)
  | CSequence (Seqn ch _ _ _) => Grp [map untree ch]
  end.
Lemma untree_char : forall c, c < 128 -> untree (CClass (class_of false c)) = Ch c.
Proof.
  intros c Hc. cbn [untree]. destruct (find (mem (ac_cr (class_of false c))) (seqN 0 128)) as [d|] eqn:F.
  - apply find_some in F. destruct F as [_ F]. rewrite class_of_mem in F by exact Hc. unfold char_matches in F. cbn in F. f_equal. lia.
  - exfalso. eapply find_none in F; [|apply in_seqN; split; [|]; [|exact Hc]; lia]. rewrite class_of_mem in F by exact Hc.
    unfold char_matches in F. lia.
Qed.
Definition is_alternation (c : component) : bool := match c with CAlternation _ => true | _ => false end.
Lemma untree_seq_of : forall ci l, l <> [] -> (forall b c, In b l -> In c b -> is_alternation c = false) ->
  untree (CSequence (seq_of ci l)) = Grp (map (map untree) l).
Proof.
  intros ci l Ne Na. destruct l as [|b [|b' l]]; [contradiction| |].
  - cbn [seq_of map]. destruct b as [|c [|c' b]]; [reflexivity| |destruct c; reflexivity].
    specialize (Na [c] c (or_introl eq_refl) (or_introl eq_refl)). destruct c; [discriminate|reflexivity|reflexivity].
  - cbn [seq_of untree]. rewrite map_map. reflexivity.
Qed.
Lemma tree_atom_not_alternation : forall nc n a, is_alternation (fst (tree_atom nc n a)) = false.
Proof.
  intros nc n [c|bs]; [reflexivity|]. cbn [tree_atom]. destruct (mapacc _ (next_index n) bs) as [l n']. reflexivity.
Qed.
Lemma tree_seq_not_alternation : forall nc n b c, In c (fst (tree_seq nc n b)) -> is_alternation c = false.
Proof.
  intros nc n b c I. pose proof (mapacc_forall2 (tree_atom nc) (fun _ c => is_alternation c = false) b n (fun a k _ => tree_atom_not_alternation nc k a)) as F.
  apply In_nth_error in I. destruct I as [i I]. clear -F I. unfold tree_seq in I. revert i I. induction F as [|? ? ? ? H _ IH]; intros [|i] I; try discriminate.
  - injection I as <-. exact H.
  - eapply IH. exact I.
Qed.
Lemma branches_not_alternation : forall nc n e b c, In b (fst (tree_branches nc n e)) -> In c b -> is_alternation c = false.
Proof.
  intros nc n e b c I J. pose proof (mapacc_forall2 (tree_seq nc) (fun _ l => forall c, In c l -> is_alternation c = false) e n
    (fun a k _ => tree_seq_not_alternation nc k a)) as F.
  apply In_nth_error in I. destruct I as [i I]. unfold tree_branches in I. clear -F I J. revert i I. induction F as [|? ? ? ? H _ IH]; intros [|i] I; try discriminate.
  - injection I as <-. apply H; exact J.
  - eapply IH. exact I.
Qed.
Lemma tree_atom_grp : forall nc n bs, tree_atom nc n (Grp bs) =
  (CSequence (seq_of (Some n) (fst (tree_branches nc (next_index n) bs))), snd (tree_branches nc (next_index n) bs)).
Proof.
  intros nc n bs. cbn [tree_atom]. change (mapacc (fun i b => mapacc (fun j a => tree_atom nc j a) i b) (next_index n) bs) with (tree_branches nc (next_index n) bs).
  destruct (tree_branches nc (next_index n) bs). reflexivity.
Qed.
Lemma untree_branches : forall n e, (forall b a k, In b e -> In a b -> untree (fst (tree_atom false k a)) = a) ->
  map (map untree) (fst (tree_branches false n e)) = e.
Proof.
  intros n e H. apply Forall2_map_eq. apply mapacc_forall2. intros b k Ib. apply Forall2_map_eq. apply mapacc_forall2.
  intros a j Ia. eapply H; eassumption.
Qed.
Lemma nonempty_branches : forall nc n e, e <> [] -> fst (tree_branches nc n e) <> [].
Proof. intros nc n e Ne. destruct (tree_branches nc n e) as [l n'] eqn:E. eapply tree_branches_nonempty; eassumption. Qed.
Lemma ascii_atom_in : forall b a, In a b -> ascii_text (text_seq b) -> ascii_text (text_atom a).
Proof. intros b a I A c J. apply A. unfold text_seq. apply in_flat_map. eauto. Qed.
Lemma join_in : forall sep l x c, In x l -> In c x -> In c (join sep l).
Proof.
  intros sep l x c. induction l as [|y l IH]; intros I J; [contradiction|]. destruct l as [|z l].
  - destruct I as [->|[]]. exact J.
  - rewrite join_cons. apply in_or_app. destruct I as [->|I]; [left; exact J|right; right; apply IH; assumption].
Qed.
Lemma ascii_branch_in : forall e b, In b e -> ascii_text (text e) -> ascii_text (text_seq b).
Proof. intros e b I A c J. apply A. unfold text. eapply join_in; [apply in_map; exact I|exact J]. Qed.
Lemma untree_atom : forall a, wf_atom a -> ascii_text (text_atom a) -> forall n, untree (fst (tree_atom false n a)) = a.
Proof.
  induction a as [c|bs IH] using atom_ind'; intros W A n; inversion W as [? Pl|? Ne Wb]; subst.
  - apply untree_char. apply A. left. reflexivity.
  - rewrite tree_atom_grp. cbn [fst]. rewrite untree_seq_of; [|apply nonempty_branches; exact Ne|apply branches_not_alternation].
    f_equal. apply untree_branches. intros b a k Ib Ia. rewrite Forall_forall in IH. specialize (IH b Ib). rewrite Forall_forall in IH.
    apply IH; [exact Ia|eapply Wb; eassumption|]. rewrite text_grp in A. apply ascii_cons in A. destruct A as [_ A]. apply ascii_app in A.
    eapply ascii_atom_in; [exact Ia|]. eapply ascii_branch_in; [exact Ib|]. apply A.
Qed.
Lemma untree_tree : forall e, wf_expr e -> ascii_text (text e) -> untree (tree false e) = Grp e.
Proof.
  intros e [Ne W] A. unfold tree. rewrite untree_seq_of; [|apply nonempty_branches; exact Ne|apply branches_not_alternation].
  f_equal. apply untree_branches. intros b a k Ib Ia. apply untree_atom; [eapply W; eassumption|].
  eapply ascii_atom_in; [exact Ia|]. eapply ascii_branch_in; eassumption.
Qed.
Lemma tree_inj : forall e e', wf_expr e -> wf_expr e' -> ascii_text (text e) -> ascii_text (text e') ->
  tree false e = tree false e' -> e = e'.
Proof.
  intros e e' W W' A A' E. pose proof (untree_tree e W A) as U. rewrite E, (untree_tree e' W' A') in U. injection U as ->. reflexivity.
Qed.

(** ** Numbering: indices are u32 and wrap around when overflow is not checked *)
Definition numbers (n : N) (k : nat) : list (option N) := map (fun i => Some (i mod 2 ^ 32)) (seqN n k).
Lemma numbers_app : forall n a b, numbers n (a + b) = numbers n a ++ numbers (n + N.of_nat a) b.
Proof. intros. unfold numbers. rewrite seqN_app, map_app. reflexivity. Qed.
Lemma numbers_same : forall k a b, a mod 2 ^ 32 = b mod 2 ^ 32 -> numbers a k = numbers b k.
Proof.
  unfold numbers. induction k as [|k IH]; intros a b E; [reflexivity|]. cbn [seqN map]. rewrite E. f_equal. apply IH.
  rewrite (N.add_mod a), (N.add_mod b), E by discriminate. reflexivity.
Qed.
Lemma numbers_small : forall k n, n + N.of_nat k <= 2 ^ 32 -> numbers n k = map Some (seqN n k).
Proof.
  unfold numbers. induction k as [|k IH]; intros n H; [reflexivity|]. cbn [seqN map]. rewrite IH by lia. rewrite N.mod_small by lia. reflexivity.
Qed.
Definition counts (f : N -> list (option N) * N) (k : nat) : Prop :=
  forall n, n < 2 ^ 32 -> f n = (numbers n k, (n + N.of_nat k) mod 2 ^ 32).
Lemma mapacc_counts : forall {A B} (f : N -> A -> B * N) (g : B -> list (option N)) (k : A -> nat) l,
  (forall a, In a l -> counts (fun n => (g (fst (f n a)), snd (f n a))) (k a)) ->
  counts (fun n => (flat_map g (fst (mapacc f n l)), snd (mapacc f n l))) (list_sum (map k l)).
Proof.
  intros A B f g k l; induction l as [|x l IH]; intros H n Hn.
  - cbn [mapacc map fst snd flat_map list_sum fold_right]. rewrite N.add_0_r, N.mod_small by exact Hn. reflexivity.
  - cbn [mapacc map] in *. change (list_sum (k x :: map k l)) with (k x + list_sum (map k l))%nat in *.
    pose proof (H x (or_introl eq_refl) n Hn) as Hx. cbv beta in Hx. destruct (f n x) as [y n1] eqn:E. cbn [fst snd] in Hx. injection Hx as Hx1 Hx2.
    assert (Hn1 : n1 < 2 ^ 32) by (rewrite Hx2; apply N.mod_lt; discriminate).
    specialize (IH (fun a I => H a (or_intror I)) n1 Hn1). cbv beta in IH. destruct (mapacc f n1 l) as [ys n2]. cbn [fst snd] in *.
    injection IH as IH1 IH2. cbn [flat_map]. rewrite Hx1, IH1, IH2, numbers_app, Hx2. f_equal.
    + f_equal. apply numbers_same. apply N.mod_mod. discriminate.
    + rewrite N.add_mod_idemp_l by discriminate. f_equal. lia.
Qed.
Definition seqn_children_indices (s : seqn) : list (option N) := flat_map group_indices (sq_children s).
Lemma group_indices_alt : forall bs, group_indices (CAlternation bs) = flat_map seqn_children_indices bs.
Proof. intro bs. cbn [group_indices]. apply flat_map_ext. intros [ch al ci cn]. reflexivity. Qed.
Lemma flat_map_map : forall {A B C} (f : A -> B) (g : B -> list C) l, flat_map g (map f l) = flat_map (fun x => g (f x)) l.
Proof. intros A B C f g l; induction l; simpl; congruence. Qed.
Lemma group_indices_seq_of : forall ci l, l <> [] -> group_indices (CSequence (seq_of ci l)) = ci :: flat_map (flat_map group_indices) l.
Proof.
  intros ci l Ne. destruct l as [|b [|b' l]]; [contradiction|cbn; rewrite app_nil_r; reflexivity|].
  unfold seq_of. change (group_indices (CSequence (Seqn [CAlternation (map branch (b :: b' :: l))] None ci None)))
    with (ci :: group_indices (CAlternation (map branch (b :: b' :: l))) ++ []).
  rewrite group_indices_alt, flat_map_map, app_nil_r. reflexivity.
Qed.
Lemma opens_join : forall l, opens (join 124 l) = list_sum (map opens l).
Proof.
  induction l as [|x l IH]; [reflexivity|]. destruct l as [|y l]; [cbn [join map list_sum fold_right]; symmetry; apply Nat.add_0_r|]. rewrite join_cons, opens_app, opens_cons, IH.
  change (124 =? 40) with false. reflexivity.
Qed.
Lemma opens_flat : forall b, opens (text_seq b) = list_sum (map (fun a => opens (text_atom a)) b).
Proof. induction b as [|a b IH]; [reflexivity|]. rewrite text_seq_cons, opens_app, IH. reflexivity. Qed.
Lemma opens_text : forall e, opens (text e) = list_sum (map (fun b => opens (text_seq b)) e).
Proof. intro e. unfold text. rewrite opens_join, map_map. reflexivity. Qed.
Lemma counts_branches : forall nc e, (forall b a, In b e -> In a b -> counts (fun n => (group_indices (fst (tree_atom nc n a)), snd (tree_atom nc n a))) (opens (text_atom a))) ->
  counts (fun n => (flat_map (flat_map group_indices) (fst (tree_branches nc n e)), snd (tree_branches nc n e))) (opens (text e)).
Proof.
  intros nc e H. rewrite opens_text. apply mapacc_counts. intros b Ib. rewrite opens_flat. apply mapacc_counts. intros a Ia. apply (H b a Ib Ia).
Qed.
Lemma counts_atom : forall nc a, wf_atom a -> counts (fun n => (group_indices (fst (tree_atom nc n a)), snd (tree_atom nc n a))) (opens (text_atom a)).
Proof.
  intro nc. induction a as [c|bs IH] using atom_ind'; intro W; inversion W as [? (P0 & P1 & P2)|? Ne Wb]; subst; intros n Hn.
  - cbn [tree_atom fst snd group_indices text_atom]. rewrite opens_cons in *. replace (c =? 40) with false by lia. change (opens []) with 0%nat. rewrite N.add_0_r, N.mod_small by exact Hn. reflexivity.
  - rewrite tree_atom_grp. cbn [fst snd]. rewrite group_indices_seq_of by (apply nonempty_branches; exact Ne).
    rewrite text_grp, opens_cons, opens_app in *. change (opens [41]) with 0%nat in *. change (40 =? 40) with true in *. cbv iota in *.
    assert (C : counts (fun n => (flat_map (flat_map group_indices) (fst (tree_branches nc n bs)), snd (tree_branches nc n bs))) (opens (text bs))).
    { apply counts_branches. intros b a Ib Ia. rewrite Forall_forall in IH. specialize (IH b Ib). rewrite Forall_forall in IH.
      apply IH; [exact Ia|]. eapply Wb; eassumption. }
    specialize (C (next_index n) ltac:(unfold next_index; apply N.mod_lt; discriminate)). cbv beta in C. injection C as C1 C2. rewrite C1, C2. f_equal.
    + rewrite Nat.add_0_r, numbers_app. change (numbers n 1) with [Some (n mod 2 ^ 32)]. rewrite N.mod_small by exact Hn. cbn [app]. f_equal.
      apply numbers_same. unfold next_index. apply N.mod_mod. discriminate.
    + unfold next_index. rewrite N.add_mod_idemp_l by discriminate. f_equal. lia.
Qed.
Lemma tree_numbering : forall nc e, wf_expr e ->
  group_indices (tree nc e) = Some 0 :: numbers 1 (opens (text e)).
Proof.
  intros nc e [Ne W]. unfold tree. rewrite group_indices_seq_of by (apply nonempty_branches; exact Ne). f_equal.
  pose proof (counts_branches nc e) as C. specialize (C ltac:(intros b a Ib Ia; apply counts_atom; eapply W; eassumption) 1 ltac:(reflexivity)).
  cbv beta in C. injection C as C1 _. exact C1.
Qed.
Lemma tree_branch_indices : forall nc e i, In i (branch_indices (tree nc e)) -> i = None.
Proof.
  intros nc e. assert (At : forall a n i, In i (branch_indices (fst (tree_atom nc n a))) -> i = None).
  { induction a as [c|bs IH] using atom_ind'; intros n i I; [contradiction|]. rewrite tree_atom_grp in I. cbn [fst] in I.
    assert (Br : forall l, In l (fst (tree_branches nc (next_index n) bs)) -> forall c, In c l -> forall i, In i (branch_indices c) -> i = None).
    { pose proof (mapacc_forall2 (tree_seq nc) (fun _ l => forall c, In c l -> forall i, In i (branch_indices c) -> i = None) bs (next_index n)) as F.
      assert (F' := F ltac:(intros b k Ib; pose proof (mapacc_forall2 (tree_atom nc) (fun _ c => forall i, In i (branch_indices c) -> i = None) b k
         ltac:(intros a j Ia; rewrite Forall_forall in IH; specialize (IH b Ib); rewrite Forall_forall in IH; apply IH; exact Ia)) as G;
         clear -G; unfold tree_seq; induction G as [|? ? ? ? Hx _ IHG]; [intros c []|]; intros c [<-|Ic]; [exact Hx|apply IHG; exact Ic])).
      clear -F'. unfold tree_branches. induction F' as [|? ? ? ? Hx _ IHF]; [intros l []|]. intros l0 [<-|Il]; [exact Hx|apply IHF; exact Il]. }
    remember (fst (tree_branches nc (next_index n) bs)) as l eqn:El. clear El.
    destruct l as [|b [|b' l]].
    - destruct I.
    - cbn in I. apply in_flat_map in I. destruct I as (c & Ic & I). eapply Br; [left; reflexivity|exact Ic|exact I].
    - unfold seq_of in I. cbn [branch_indices flat_map] in I. rewrite app_nil_r in I. rewrite flat_map_map in I. apply in_flat_map in I.
      destruct I as (x & Ix & I). cbn [branch] in I. destruct I as [<-|I]; [reflexivity|]. apply in_flat_map in I. destruct I as (c & Ic & I).
      eapply Br; [exact Ix|exact Ic|exact I]. }
  intros i I. specialize (At (Grp e) 0 i). rewrite tree_atom_grp in At. cbn [fst] in At. apply At. exact I.
Qed.

(** ** Language *)
Lemma list_matches_one : forall c w, list_matches [c] w <-> tree_matches c w.
Proof.
  intros c w. split.
  - intro H. inversion H as [|? ? u v Hc Hl]; subst. inversion Hl; subst. rewrite app_nil_r. exact Hc.
  - intro H. rewrite <- (app_nil_r w). constructor; [exact H|constructor].
Qed.
Lemma seq_of_matches : forall ci l w, l <> [] -> (seqn_matches (seq_of ci l) w <-> exists b, In b l /\ list_matches b w).
Proof.
  intros ci l w Ne. destruct l as [|b [|b' l]]; [contradiction| |].
  - cbn [seq_of]. split.
    + intro H. inversion H; subst. exists b. split; [left; reflexivity|assumption].
    + intros (x & [<-|[]] & H). constructor. exact H.
  - unfold seq_of. remember (b :: b' :: l) as L. split.
    + intro H. inversion H as [? ? ? ? Hl]; subst ch ci0 cn w0. apply list_matches_one in Hl. inversion Hl as [|? s ? I Hs|]; subst bs w0.
      apply in_map_iff in I. destruct I as (x & <- & I). exists x. split; [exact I|]. inversion Hs; subst. assumption.
    + intros (x & I & H). constructor. apply list_matches_one. apply tm_alternation with (branch x); [apply in_map; exact I|]. constructor. exact H.
Qed.
Lemma seq_lang : forall nc b, (forall a, In a b -> forall n w, tree_matches (fst (tree_atom nc n a)) w <-> lang_atom nc a w) ->
  forall n w, list_matches (fst (tree_seq nc n b)) w <-> lang_seq nc b w.
Proof.
  intros nc b; induction b as [|a b IH]; intros H n w.
  - cbn. split; intro X; inversion X; constructor.
  - unfold tree_seq. cbn [mapacc]. pose proof (H a (or_introl eq_refl) n) as Ha. destruct (tree_atom nc n a) as [c n1]. cbn [fst] in Ha.
    specialize (IH (fun x I => H x (or_intror I)) n1). unfold tree_seq in IH. destruct (mapacc (tree_atom nc) n1 b) as [l n2]. cbn [fst] in *. split.
    + intro X. inversion X; subst. constructor; [apply Ha; assumption|apply IH; assumption].
    + intro X. inversion X; subst. constructor; [apply Ha; assumption|apply IH; assumption].
Qed.
Lemma branches_lang : forall nc e, (forall b a, In b e -> In a b -> forall n w, tree_matches (fst (tree_atom nc n a)) w <-> lang_atom nc a w) ->
  forall n w, (exists l, In l (fst (tree_branches nc n e)) /\ list_matches l w) <-> lang nc e w.
Proof.
  intros nc e; induction e as [|b e IH]; intros H n w.
  - cbn. unfold lang. split; intros (l & [] & _).
  - unfold tree_branches. cbn [mapacc]. pose proof (seq_lang nc b (fun a I => H b a (or_introl eq_refl) I) n w) as Hb.
    destruct (tree_seq nc n b) as [l n1]. cbn [fst] in Hb.
    specialize (IH (fun b' a I J => H b' a (or_intror I) J) n1 w). unfold tree_branches in IH. destruct (mapacc (tree_seq nc) n1 e) as [ls n2]. cbn [fst] in *.
    unfold lang in *. split.
    + intros (x & [<-|I] & M).
      * exists b. split; [left; reflexivity|apply Hb; exact M].
      * destruct IH as [IH _]. destruct IH as (b' & Ib & Mb); [eauto|]. exists b'. split; [right; exact Ib|exact Mb].
    + intros (x & [<-|I] & M).
      * exists l. split; [left; reflexivity|apply Hb; exact M].
      * destruct IH as [_ IH]. destruct IH as (l' & Il & Ml); [eauto|]. exists l'. split; [right; exact Il|exact Ml].
Qed.
Lemma atom_lang : forall nc a, wf_atom a -> ascii_text (text_atom a) -> forall n w, tree_matches (fst (tree_atom nc n a)) w <-> lang_atom nc a w.
Proof.
  intro nc. induction a as [c|bs IH] using atom_ind'; intros W A n w; inversion W as [? Pl|? Ne Wb]; subst.
  - assert (Hc : c < 128) by (apply A; left; reflexivity). cbn [tree_atom fst]. split.
    + intro X. inversion X as [? ? M| |]; subst. rewrite class_of_mem in M by exact Hc. constructor. exact M.
    + intro X. inversion X as [? ? M|]; subst. constructor. rewrite class_of_mem by exact Hc. exact M.
  - rewrite tree_atom_grp. cbn [fst].
    assert (Br : forall b a, In b bs -> In a b -> forall n w, tree_matches (fst (tree_atom nc n a)) w <-> lang_atom nc a w).
    { intros b a Ib Ia. rewrite Forall_forall in IH. specialize (IH b Ib). rewrite Forall_forall in IH.
      apply IH; [exact Ia|eapply Wb; eassumption|]. rewrite text_grp in A. apply ascii_cons in A. destruct A as [_ A]. apply ascii_app in A.
      eapply ascii_atom_in; [exact Ia|]. eapply ascii_branch_in; [exact Ib|]. apply A. }
    pose proof (branches_lang nc bs Br (next_index n) w) as BL.
    pose proof (seq_of_matches (Some n) _ w (nonempty_branches nc (next_index n) bs Ne)) as SM. split.
    + intro X. inversion X as [| |? ? Hs]; subst. apply SM, BL in Hs. destruct Hs as (b & Ib & Hb). econstructor; eassumption.
    + intro X. inversion X as [|? b ? Ib Hb]; subst. constructor. apply SM, BL. exists b. split; assumption.
Qed.
Lemma tree_lang : forall nc e, wf_expr e -> ascii_text (text e) -> forall w, tree_matches (tree nc e) w <-> lang nc e w.
Proof.
  intros nc e [Ne W] A w. unfold tree.
  pose proof (seq_of_matches (Some 0) _ w (nonempty_branches nc 1 e Ne)) as SM.
  rewrite <- (branches_lang nc e) with (n := 1).
  - rewrite <- SM. split; [intro X; inversion X; assumption|intro X; constructor; exact X].
  - intros b a Ib Ia. apply atom_lang; [eapply W; eassumption|]. eapply ascii_atom_in; [exact Ia|]. eapply ascii_branch_in; eassumption.
Qed.
