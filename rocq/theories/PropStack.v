(** C84: how deep the recursion over a parse tree goes. *)
From Verif Require Import Base ModelUtil ModelParser ModelNfa ModelStack SpecSet SpecGrammar SpecText SpecTree SpecStack ProofBase ProofGrammar SpecCompile ProofTree ProofShortcut ProofParser ProofVerb ProofText PropParser ModelLiteral ModelCompiler ProofCompile ProofGraph PropCompile.
Local Open Scope list_scope.

(** ** The functions with a stack and those without *)
Definition seq_calls (s : seqn) : nat := match s with Seqn ch _ _ _ => 1 + list_max (map calls ch) end.
Lemma in_list_max : forall {A} (f : A -> nat) l x, In x l -> (f x <= list_max (map f l))%nat.
Proof. intros A f l x I. induction l as [|y l IH]; [destruct I|]. cbn [map]. rewrite list_max_cons. destruct I as [<-|I]; [lia|]. specialize (IH I). lia. Qed.
Lemma walk_list_fits : forall {V E A} (w1 : V -> A -> outcome (result E V)) (w2 : V -> A -> option (outcome (result E V))) during l v,
  (forall x v, In x l -> w2 v x = Some (w1 v x)) -> walk_list_in w2 during v l = Some (walk_list w1 during v l).
Proof.
  intros V E A w1 w2 during l. induction l as [|x l IH]; intros v H; [reflexivity|]. cbn [walk_list_in walk_list]. rewrite H by (left; reflexivity).
  destruct (w1 v x) as [[v1|e]|w|]; cbn [bindr bind]; try reflexivity. apply IH. intros y u I. apply H. right. exact I.
Qed.
Lemma walk_fits : forall {V E} (p : profile) (vis : visitor V E) c,
  forall room v, (calls c <= room)%nat -> walk_component_in p vis room v c = Some (walk_component p vis v c).
Proof.
  intros V E p vis. apply (component_ind' (fun c => forall room v, (calls c <= room)%nat -> walk_component_in p vis room v c = Some (walk_component p vis v c))
    (fun s => forall room v, (seq_calls s <= room)%nat -> walk_seqn_in p vis room v s = Some (walk_seqn p vis v s))).
  - intros bs F room v L. cbn [calls] in L. change (fun s : seqn => match s with Seqn ch _ _ _ => 1 + list_max (map calls ch) end)%nat with seq_calls in L.
    destruct room as [|[|room]]; [lia|lia|]. cbn [walk_component_in walk_alternation_in walk_component]. destruct (pre_alternation vis v bs) as [[v1|e]|w|]; cbn [bindr bind]; try reflexivity.
    rewrite (walk_list_fits (fun v s => walk_seqn p vis v s)).
    + destruct (walk_list _ _ _ _) as [[v2|e]|w|]; reflexivity.
    + intros s u I. rewrite Forall_forall in F. apply F; [exact I|]. pose proof (in_list_max seq_calls bs s I). lia.
  - intros k room v L. cbn [calls] in L. destruct room as [|[|[|room]]]; try lia. reflexivity.
  - intros [ch alt ci cn] H room v L. cbn [calls] in L. destruct room as [|room]; [lia|]. cbn [walk_component_in walk_component]. apply H. cbn [seq_calls]. lia.
  - intros ch alt ci cn F room v L. cbn [seq_calls] in L. destruct room as [|room]; [lia|]. cbn [walk_seqn_in walk_seqn sq_alternation sq_children].
    destruct (rs_debug_assert p _) as [u|w|]; cbn [bind]; try reflexivity. destruct (pre_sequence vis v _) as [[v1|e]|w|]; cbn [bindr bind]; try reflexivity.
    rewrite (walk_list_fits (fun v c => walk_component p vis v c)).
    + destruct (walk_list _ _ _ _) as [[v2|e]|w|]; reflexivity.
    + intros c u0 I. rewrite Forall_forall in F. apply F; [exact I|]. pose proof (in_list_max calls ch c I). lia.
Qed.
(** Conversely a walk that came to the end of the tree had room for all of it. *)
Lemma walk_list_needs : forall {V E A} (w2 : V -> A -> option (outcome (result E V))) during (f : A -> nat) n l v v',
  (forall x v v', In x l -> w2 v x = Some (Ret (ROk v')) -> (f x <= n)%nat) -> walk_list_in w2 during v l = Some (Ret (ROk v')) -> (list_max (map f l) <= n)%nat.
Proof.
  intros V E A w2 during f n l. induction l as [|x l IH]; intros v v' H W; [cbn; lia|]. cbn [walk_list_in] in W. cbn [map]. rewrite list_max_cons.
  destruct (w2 v x) as [[[v1|e]|w|]|] eqn:X; try discriminate W. specialize (H x v v1 (or_introl eq_refl) X) as Hx.
  assert (list_max (map f l) <= n)%nat; [|lia]. eapply IH; [|exact W]. intros y u u' I. apply H. right. exact I.
Qed.
Lemma walk_needs : forall {V E} (p : profile) (vis : visitor V E) c,
  forall room v v', walk_component_in p vis room v c = Some (Ret (ROk v')) -> (calls c <= room)%nat.
Proof.
  intros V E p vis. apply (component_ind' (fun c => forall room v v', walk_component_in p vis room v c = Some (Ret (ROk v')) -> (calls c <= room)%nat)
    (fun s => forall room v v', walk_seqn_in p vis room v s = Some (Ret (ROk v')) -> (seq_calls s <= room)%nat)).
  - intros bs F room v v' W. cbn [calls]. change (fun s : seqn => match s with Seqn ch _ _ _ => 1 + list_max (map calls ch) end)%nat with seq_calls.
    destruct room as [|[|room]]; [discriminate W|discriminate W|]. cbn [walk_component_in walk_alternation_in] in W. destruct (pre_alternation vis v bs) as [[v1|e]|w|]; try discriminate W.
    destruct (walk_list_in _ _ _ _) as [[[v2|e]|w|]|] eqn:L; try discriminate W. assert (list_max (map seq_calls bs) <= room)%nat; [|lia].
    eapply walk_list_needs; [|exact L]. intros s u u' I. rewrite Forall_forall in F. apply F. exact I.
  - intros k room v v' W. cbn [calls]. destruct room as [|[|[|room]]]; try discriminate W. lia.
  - intros [ch alt ci cn] H room v v' W. cbn [calls]. destruct room as [|room]; [discriminate W|]. cbn [walk_component_in] in W. apply H in W. cbn [seq_calls] in W. lia.
  - intros ch alt ci cn F room v v' W. cbn [seq_calls]. destruct room as [|room]; [discriminate W|]. cbn [walk_seqn_in sq_alternation sq_children] in W.
    destruct (rs_debug_assert p _) as [u|w|]; try discriminate W. destruct (pre_sequence vis v _) as [[v1|e]|w|]; try discriminate W.
    destruct (walk_list_in _ _ _ _) as [[[v2|e]|w|]|] eqn:L; try discriminate W. assert (list_max (map calls ch) <= room)%nat; [|lia].
    eapply walk_list_needs; [|exact L]. intros c u' u'' I. rewrite Forall_forall in F. apply F. exact I.
Qed.
Lemma note_list_fits : forall {A} (w1 : build_state -> A -> outcome build_state) (w2 : build_state -> A -> option (outcome build_state)) l v,
  (forall x v, In x l -> w2 v x = Some (w1 v x)) -> note_list_in w2 v l = Some (note_list w1 v l).
Proof.
  intros A w1 w2 l. induction l as [|x l IH]; intros v H; [reflexivity|]. cbn [note_list_in note_list]. rewrite H by (left; reflexivity).
  destruct (w1 v x) as [v1|w|]; cbn [bind]; try reflexivity. apply IH. intros y u I. apply H. right. exact I.
Qed.
Lemma note_fits : forall c room bs, (calls c <= room)%nat -> note_positions_in room bs c = Some (note_positions bs c).
Proof.
  apply (component_ind' (fun c => forall room bs, (calls c <= room)%nat -> note_positions_in room bs c = Some (note_positions bs c))
    (fun s => forall room bs, (seq_calls s <= room)%nat -> seqn_note_positions_in room bs s = Some (seqn_note_positions bs s))).
  - intros bs F room v L. cbn [calls] in L. change (fun s : seqn => match s with Seqn ch _ _ _ => 1 + list_max (map calls ch) end)%nat with seq_calls in L.
    destruct room as [|[|room]]; [lia|lia|]. cbn [note_positions_in note_positions]. apply note_list_fits. intros s u I. rewrite Forall_forall in F. apply F; [exact I|]. pose proof (in_list_max seq_calls bs s I). lia.
  - intros k room v L. cbn [calls] in L. destruct room as [|[|[|room]]]; try lia. reflexivity.
  - intros [ch alt ci cn] H room v L. cbn [calls] in L. destruct room as [|room]; [lia|]. cbn [note_positions_in note_positions]. apply H. cbn [seq_calls]. lia.
  - intros ch alt ci cn F room v L. cbn [seq_calls] in L. destruct room as [|room]; [lia|]. cbn [seqn_note_positions_in seqn_note_positions sq_children].
    apply note_list_fits. intros c u I. rewrite Forall_forall in F. apply F; [exact I|]. pose proof (in_list_max calls ch c I). lia.
Qed.
Lemma note_list_needs : forall {A} (w2 : build_state -> A -> option (outcome build_state)) (f : A -> nat) n l v v',
  (forall x v v', In x l -> w2 v x = Some (Ret v') -> (f x <= n)%nat) -> note_list_in w2 v l = Some (Ret v') -> (list_max (map f l) <= n)%nat.
Proof.
  intros A w2 f n l. induction l as [|x l IH]; intros v v' H W; [cbn; lia|]. cbn [note_list_in] in W. cbn [map]. rewrite list_max_cons.
  destruct (w2 v x) as [[v1|w|]|] eqn:X; try discriminate W. specialize (H x v v1 (or_introl eq_refl) X) as Hx.
  assert (list_max (map f l) <= n)%nat; [|lia]. eapply IH; [|exact W]. intros y u u' I. apply H. right. exact I.
Qed.
Lemma note_needs : forall c room bs bs', note_positions_in room bs c = Some (Ret bs') -> (calls c <= room)%nat.
Proof.
  apply (component_ind' (fun c => forall room bs bs', note_positions_in room bs c = Some (Ret bs') -> (calls c <= room)%nat)
    (fun s => forall room bs bs', seqn_note_positions_in room bs s = Some (Ret bs') -> (seq_calls s <= room)%nat)).
  - intros bs F room v v' W. cbn [calls]. change (fun s : seqn => match s with Seqn ch _ _ _ => 1 + list_max (map calls ch) end)%nat with seq_calls.
    destruct room as [|[|room]]; [discriminate W|discriminate W|]. cbn [note_positions_in] in W. assert (list_max (map seq_calls bs) <= room)%nat; [|lia].
    eapply note_list_needs; [|exact W]. intros s u u' I. rewrite Forall_forall in F. apply F. exact I.
  - intros k room v v' W. cbn [calls]. destruct room as [|[|[|room]]]; try discriminate W. lia.
  - intros [ch alt ci cn] H room v v' W. cbn [calls]. destruct room as [|room]; [discriminate W|]. cbn [note_positions_in] in W. apply H in W. cbn [seq_calls] in W. lia.
  - intros ch alt ci cn F room v v' W. cbn [seq_calls]. destruct room as [|room]; [discriminate W|]. cbn [seqn_note_positions_in sq_children] in W.
    assert (list_max (map calls ch) <= room)%nat; [|lia]. eapply note_list_needs; [|exact W]. intros c u u' I. rewrite Forall_forall in F. apply F. exact I.
Qed.

(** The stack never changes an answer. *)
Lemma walk_list_same : forall {V E A} (w1 : V -> A -> outcome (result E V)) (w2 : V -> A -> option (outcome (result E V))) during l v o,
  (forall x v o, In x l -> w2 v x = Some o -> o = w1 v x) -> walk_list_in w2 during v l = Some o -> o = walk_list w1 during v l.
Proof.
  intros V E A w1 w2 during l. induction l as [|x l IH]; intros v o H W; [injection W as <-; reflexivity|]. cbn [walk_list_in walk_list] in *.
  destruct (w2 v x) as [o1|] eqn:X; [|discriminate W]. rewrite <- (H x v o1 (or_introl eq_refl) X). destruct o1 as [[v1|e]|w|]; cbn [bindr bind]; [|injection W as <-; reflexivity..].
  apply IH; [|exact W]. intros y u u' I. apply H. right. exact I.
Qed.
Lemma walk_same : forall {V E} (p : profile) (vis : visitor V E) c room v o, walk_component_in p vis room v c = Some o -> o = walk_component p vis v c.
Proof.
  intros V E p vis. apply (component_ind' (fun c => forall room v o, walk_component_in p vis room v c = Some o -> o = walk_component p vis v c)
    (fun s => forall room v o, walk_seqn_in p vis room v s = Some o -> o = walk_seqn p vis v s)).
  - intros bs F room v o W. destruct room as [|[|room]]; [discriminate W|discriminate W|]. cbn [walk_component_in walk_alternation_in walk_component] in *.
    destruct (pre_alternation vis v bs) as [[v1|e]|w|]; cbn [bindr bind]; [|injection W as <-; reflexivity..].
    destruct (walk_list_in _ _ _ _) as [o1|] eqn:L; [|discriminate W]. apply (walk_list_same (fun v s => walk_seqn p vis v s)) in L.
    + rewrite <- L. destruct o1 as [[v2|e]|w|]; injection W as <-; reflexivity.
    + intros s u u' I. rewrite Forall_forall in F. apply F. exact I.
  - intros k room v o W. destruct room as [|[|[|room]]]; try discriminate W. injection W as <-. reflexivity.
  - intros s H room v o W. destruct room as [|room]; [discriminate W|]. apply H in W. exact W.
  - intros ch alt ci cn F room v o W. destruct room as [|room]; [discriminate W|]. cbn [walk_seqn_in walk_seqn sq_alternation sq_children] in *.
    destruct (rs_debug_assert p _) as [u|w|]; cbn [bind]; [|injection W as <-; reflexivity..]. destruct (pre_sequence vis v _) as [[v1|e]|w|]; cbn [bindr bind]; [|injection W as <-; reflexivity..].
    destruct (walk_list_in _ _ _ _) as [o1|] eqn:L; [|discriminate W]. apply (walk_list_same (fun v c => walk_component p vis v c)) in L.
    + rewrite <- L. destruct o1 as [[v2|e]|w|]; injection W as <-; reflexivity.
    + intros c u0 u' I. rewrite Forall_forall in F. apply F. exact I.
Qed.
Lemma note_list_same : forall {A} (w1 : build_state -> A -> outcome build_state) (w2 : build_state -> A -> option (outcome build_state)) l v o,
  (forall x v o, In x l -> w2 v x = Some o -> o = w1 v x) -> note_list_in w2 v l = Some o -> o = note_list w1 v l.
Proof.
  intros A w1 w2 l. induction l as [|x l IH]; intros v o H W; [injection W as <-; reflexivity|]. cbn [note_list_in note_list] in *.
  destruct (w2 v x) as [o1|] eqn:X; [|discriminate W]. rewrite <- (H x v o1 (or_introl eq_refl) X). destruct o1 as [v1|w|]; cbn [bind]; [|injection W as <-; reflexivity..].
  apply IH; [|exact W]. intros y u u' I. apply H. right. exact I.
Qed.
Lemma note_same : forall c room bs o, note_positions_in room bs c = Some o -> o = note_positions bs c.
Proof.
  apply (component_ind' (fun c => forall room bs o, note_positions_in room bs c = Some o -> o = note_positions bs c)
    (fun s => forall room bs o, seqn_note_positions_in room bs s = Some o -> o = seqn_note_positions bs s)).
  - intros bs F room v o W. destruct room as [|[|room]]; [discriminate W|discriminate W|]. cbn [note_positions_in note_positions] in *.
    apply (note_list_same (fun v s => seqn_note_positions v s)) in W; [exact W|]. intros s u u' I. rewrite Forall_forall in F. apply F. exact I.
  - intros k room v o W. destruct room as [|[|[|room]]]; try discriminate W. injection W as <-. reflexivity.
  - intros s H room v o W. destruct room as [|room]; [discriminate W|]. apply H in W. exact W.
  - intros ch alt ci cn F room v o W. destruct room as [|room]; [discriminate W|]. cbn [seqn_note_positions_in seqn_note_positions sq_children] in *.
    apply (note_list_same (fun v c => note_positions v c)) in W; [exact W|]. intros c u u' I. rewrite Forall_forall in F. apply F. exact I.
Qed.

(** ** How many calls a text takes *)
Lemma seq_of_calls : forall ci l, l <> [] ->
  (2 + list_max (map (fun b => list_max (map calls b)) l) <= calls (CSequence (seq_of ci l)))%nat /\ (calls (CSequence (seq_of ci l)) <= 5 + list_max (map (fun b => list_max (map calls b)) l))%nat.
Proof.
  intros ci l Ne. assert (X : forall k, k <> [] -> list_max (map (fun s : seqn => match s with Seqn ch _ _ _ => 1 + list_max (map calls ch) end) (map branch k)) = S (list_max (map (fun b => list_max (map calls b)) k))).
  { induction k as [|x k IH]; intro N; [contradiction|]. cbn [map branch]. rewrite !list_max_cons. destruct k as [|y k]; [cbn; lia|]. rewrite IH by discriminate. cbn [map]. rewrite !list_max_cons. lia. }
  destruct l as [|b [|b1 l]]; [contradiction| |].
  - cbn [seq_of calls map]. rewrite list_max_cons. cbn [list_max fold_right]. change (list_max []) with 0%nat. lia.
  - unfold seq_of. cbn [calls]. specialize (X (b :: b1 :: l) ltac:(discriminate)). set (k := b :: b1 :: l) in *. rewrite (map_cons calls), list_max_cons. cbn [calls map]. change (list_max []) with 0%nat. lia.
Qed.
Lemma mapacc_max : forall {A B} (f : N -> A -> B * N) (g : B -> nat) (lo hi : A -> nat) l n,
  (forall x n, In x l -> (lo x <= g (fst (f n x)) <= hi x)%nat) ->
  (list_max (map lo l) <= list_max (map g (fst (mapacc f n l))) <= list_max (map hi l))%nat.
Proof.
  intros A B f g lo hi l. induction l as [|x l IH]; intros n H; [cbn; lia|]. cbn [mapacc]. pose proof (H x n (or_introl eq_refl)) as Hx. destruct (f n x) as [y n1].
  specialize (IH n1 (fun z k I => H z k (or_intror I))). destruct (mapacc f n1 l) as [ys n2]. cbn [fst map] in *. rewrite !list_max_cons. lia.
Qed.
Lemma list_max_scale : forall {A} (f : A -> nat) k m l, (list_max (map (fun x => k + m * f x) l) <= k + m * list_max (map f l))%nat.
Proof. intros A f k m l. induction l as [|x l IH]; [cbn; lia|]. cbn [map]. rewrite !list_max_cons. nia. Qed.
Lemma list_max_twice : forall {A} (f : A -> nat) l, list_max (map (fun x => 2 * f x)%nat l) = (2 * list_max (map f l))%nat.
Proof. intros A f l. induction l as [|x l IH]; [reflexivity|]. cbn [map]. rewrite !list_max_cons, IH. lia. Qed.
Lemma branches_calls : forall nc e n, (forall b a, In b e -> In a b -> forall n, (2 * nest a <= calls (fst (tree_atom nc n a)) <= 3 + 5 * nest a)%nat) ->
  (2 * nest_expr e <= list_max (map (fun b => list_max (map calls b)) (fst (tree_branches nc n e))) <= 3 + 5 * nest_expr e)%nat.
Proof.
  intros nc e n H. unfold tree_branches.
  pose proof (mapacc_max (tree_seq nc) (fun b => list_max (map calls b)) (fun b => 2 * list_max (map nest b))%nat (fun b => 3 + 5 * list_max (map nest b))%nat e n) as X.
  unfold nest_expr. rewrite list_max_twice in X. pose proof (list_max_scale (fun b => list_max (map nest b)) 3 5 e) as Y. cut (forall b k, In b e -> (2 * list_max (map nest b) <= list_max (map calls (fst (tree_seq nc k b))) <= 3 + 5 * list_max (map nest b))%nat).
  { intro Q. specialize (X Q). lia. }
  intros b k I. unfold tree_seq. pose proof (mapacc_max (tree_atom nc) calls (fun a => 2 * nest a)%nat (fun a => 3 + 5 * nest a)%nat b k (fun a j J => H b a I J j)) as Z.
  rewrite list_max_twice in Z. pose proof (list_max_scale nest 3 5 b). lia.
Qed.
Lemma atom_calls : forall nc a, wf_atom a -> forall n, (2 * nest a <= calls (fst (tree_atom nc n a)) <= 3 + 5 * nest a)%nat.
Proof.
  intros nc a. induction a as [c|bs IH] using atom_ind'; intros W n; inversion W as [? Pc|? Ne Wb]; subst.
  - cbn. lia.
  - rewrite tree_atom_grp. cbv zeta. match goal with |- (_ <= calls (fst ?x) <= _)%nat => assert (Q : fst x = CSequence (seq_of (Some n) (fst (tree_branches nc (next_index n) bs)))) by (destruct (tree_branches nc (next_index n) bs); reflexivity) end.
    rewrite Q. clear Q. pose proof (seq_of_calls (Some n) _ (nonempty_branches nc (next_index n) bs Ne)) as [L U].
    assert (B := branches_calls nc bs (next_index n)). change (nest (Grp bs)) with (S (nest_expr bs)).
    rewrite Forall_forall in IH. cut (forall b a, In b bs -> In a b -> forall n, (2 * nest a <= calls (fst (tree_atom nc n a)) <= 3 + 5 * nest a)%nat); [intro Q; specialize (B Q); lia|].
    intros b a Ib Ia. specialize (IH b Ib). rewrite Forall_forall in IH. apply IH; [exact Ia|]. eapply Wb; eassumption.
Qed.
Lemma tree_calls : forall nc e, wf_expr e -> (2 * (deepest 0 (text e) + 1) <= calls (tree nc e) <= 5 * (deepest 0 (text e) + 1) + 3)%nat.
Proof.
  intros nc e W. rewrite deepest_expr by exact W. destruct W as [Ne W]. unfold tree. pose proof (seq_of_calls (Some 0%N) _ (nonempty_branches nc 1 e Ne)) as [L U].
  pose proof (branches_calls nc e 1 (fun b a Ib Ia => atom_calls nc a (W b a Ib Ia))). lia.
Qed.
(** Groups each in the one before. *)
Lemma nested_deepest : forall k d, deepest d (repeat 40%N k ++ repeat 41%N k) = (d + k)%nat.
Proof.
  assert (C : forall k d, deepest d (repeat 41%N k) = d) by (induction k as [|k IH]; intro d; [reflexivity|]; cbn [repeat deepest]; change (41 =? 40)%N with false; change (41 =? 41)%N with true; cbv iota; rewrite IH; lia).
  assert (O : forall j k d, deepest d (repeat 40%N j ++ repeat 41%N k) = (d + j)%nat).
  { induction j as [|j IH]; intros k d; [cbn [repeat app]; rewrite C; lia|]. cbn [repeat app deepest]. change (40 =? 40)%N with true. cbv iota. rewrite IH. lia. }
  intros k d. apply O.
Qed.
Fixpoint nested_expr (k : nat) : expr := match k with O => [[]] | S k' => [[Grp (nested_expr k')]] end.
Lemma nested_text : forall k, text (nested_expr k) = nested k.
Proof.
  induction k as [|k IH]; [reflexivity|]. cbn [nested_expr]. rewrite text_one. unfold text_seq. cbn [flat_map]. rewrite app_nil_r, text_grp, IH. unfold nested. cbn [repeat app]. f_equal. rewrite <- app_assoc. f_equal. symmetry. apply repeat_cons.
Qed.
Lemma nested_wf : forall k, wf_expr (nested_expr k).
Proof.
  induction k as [|k IH]; [split; [discriminate|]; intros b a [<-|[]] []|]. cbn [nested_expr]. split; [discriminate|]. intros b a [<-|[]] [<-|[]]. destruct IH as [Ne W]. constructor; assumption.
Qed.
Lemma nested_notes : forall nc k n bs, note_positions bs (fst (tree_atom nc n (Grp (nested_expr k)))) = Ret bs.
Proof.
  intros nc k. induction k as [|k IH]; intros n bs; [reflexivity|]. cbn [nested_expr tree_atom mapacc].
  specialize (IH (next_index n) bs). destruct (tree_atom nc (next_index n) (Grp (nested_expr k))) as [c n1] eqn:Q. cbn [tree_atom] in Q. rewrite Q. cbn [fst] in *. cbn [seq_of note_positions seqn_note_positions note_list]. rewrite IH. reflexivity.
Qed.
Lemma nested_tree_notes : forall nc k bs, note_positions bs (tree nc (nested_expr k)) = Ret bs.
Proof.
  intros nc [|k] bs; [reflexivity|]. unfold tree, tree_branches. cbn [nested_expr]. unfold tree_seq. cbn [mapacc]. pose proof (nested_notes nc k 1 bs) as H.
  destruct (tree_atom nc 1 (Grp (nested_expr k))) as [c n1]. cbn [fst seq_of note_positions seqn_note_positions note_list] in *. rewrite H. reflexivity.
Qed.
Lemma nested_ascii : forall k, ascii_text (nested k).
Proof. intros k c I. apply in_app_or in I. destruct I as [I|I]; apply repeat_spec in I; subst c; reflexivity. Qed.
Lemma nested_no_verb : forall k, no_verb (nested k).
Proof.
  intros k v rest (V & _). unfold nested in V. destruct k as [|[|k]]; [discriminate V|discriminate V|]. discriminate V.
Qed.
Lemma nested_len : forall k, str_len (nested k) = N.of_nat (2 * k).
Proof.
  intro k. rewrite str_len_ascii by apply nested_ascii. unfold nested. rewrite app_length, !repeat_length. f_equal. lia.
Qed.

(** ** C84 *)
(** With room for [calls c] calls the stack makes no difference, for any visitor and any
    tree; a walk that reaches the end needs them all. *)
Theorem C84_walk : forall V E (p : profile) (vis : visitor V E) c v room,
  ((calls c <= room)%nat -> walk_component_in p vis room v c = Some (walk_component p vis v c)) /\
  (walk_component_in p vis room v c = None \/ walk_component_in p vis room v c = Some (walk_component p vis v c)) /\
  (forall v', walk_component p vis v c = Ret (ROk v') -> (walk_component_in p vis room v c = None <-> (room < calls c)%nat)).
Proof.
  intros V E p vis c v room. split; [apply walk_fits|]. pose proof (walk_same p vis c room v) as S. pose proof (walk_needs p vis c room v) as Q.
  destruct (walk_component_in p vis room v c) as [o|] eqn:W; [specialize (S o eq_refl); subst o|].
  - split; [right; reflexivity|]. intros v' R. split; [discriminate|]. intro L. rewrite R in Q. specialize (Q v' eq_refl). lia.
  - split; [left; reflexivity|]. intros v' R. split; [|reflexivity]. intros _. destruct (Nat.lt_ge_cases room (calls c)) as [L|L]; [exact L|]. rewrite walk_fits in W by exact L. discriminate W.
Qed.
Theorem C84_note : forall c bs room,
  ((calls c <= room)%nat -> note_positions_in room bs c = Some (note_positions bs c)) /\
  (note_positions_in room bs c = None \/ note_positions_in room bs c = Some (note_positions bs c)) /\
  (forall bs', note_positions bs c = Ret bs' -> (note_positions_in room bs c = None <-> (room < calls c)%nat)).
Proof.
  intros c bs room. split; [apply note_fits|]. pose proof (note_same c room bs) as S. pose proof (note_needs c room bs) as Q.
  destruct (note_positions_in room bs c) as [o|] eqn:W; [specialize (S o eq_refl); subst o|].
  - split; [right; reflexivity|]. intros v' R. split; [discriminate|]. intro L. rewrite R in Q. specialize (Q v' eq_refl). lia.
  - split; [left; reflexivity|]. intros v' R. split; [|reflexivity]. intros _. destruct (Nat.lt_ge_cases room (calls c)) as [L|L]; [exact L|]. rewrite note_fits in W by exact L. discriminate W.
Qed.
(** How many calls an accepted expression takes, by how deep its groups are nested. *)
Theorem C84_text : forall p s m t n body, parse p s m = Ret (ROk (t, n)) -> starts s m body n ->
  (2 * (deepest 0 body + 1) <= calls t <= 5 * (deepest 0 body + 1) + 3)%nat.
Proof.
  intros p s m t n body E St. apply C13_tree_iff in E. destruct E as (b & e & St' & A & _ & W & T & ->).
  destruct (starts_fun _ _ _ _ _ _ St St') as [-> _]. rewrite <- T. apply tree_calls. exact W.
Qed.
(** With overflow checks thirteen are enough, as groups cannot be nested. *)
Theorem C84_checked : forall p s m t n, overflow_checks p = true -> parse p s m = Ret (ROk (t, n)) -> (calls t <= 13)%nat.
Proof.
  intros p s m t n Oc E. pose proof E as E'. apply C13_tree_iff in E'. destruct E' as (b & e & St & A & G & W & T & _). pose proof (C84_text _ _ _ _ _ _ E St) as B.
  assert (D : (deepest 0 b <= 1)%nat); [|lia]. specialize (G Oc). clear -G.
  assert (X : forall t d, (forall x y, t = x ++ 40%N :: y -> False) -> (deepest d t <= d)%nat).
  { induction t as [|c t IH]; intros d H; [cbn; lia|]. cbn [deepest]. destruct (N.eqb_spec c 40) as [->|Nc]; [destruct (H [] t eq_refl)|]. assert (Y : forall x y, t = x ++ 40%N :: y -> False) by (intros x y ->; apply (H (c :: x) y); reflexivity).
    destruct (c =? 41)%N; [specialize (IH (Nat.pred d) Y)|specialize (IH d Y)]; lia. }
  destruct b as [|c b]; [cbn; lia|]. assert (Y : forall x y, b = x ++ 40%N :: y -> False).
  { intros x y ->. destruct (G (c :: x) y eq_refl) as [Z _]. discriminate Z. }
  cbn [deepest]. destruct (c =? 40)%N; [pose proof (X b 1%nat Y); lia|]. destruct (c =? 41)%N; [cbn [Nat.pred]|]; pose proof (X b 0%nat Y); lia.
Qed.
(** The limit on the length of an expression is a limit on the calls. *)
Theorem C84_limit : forall p s m t n, (str_len s <= 16000)%N -> parse p s m = Ret (ROk (t, n)) -> (N.of_nat (calls t) <= 40008)%N.
Proof.
  intros p s m t n L E. pose proof E as E'. apply C13_tree_iff in E'. destruct E' as (b & e & St & A & _ & W & T & _). pose proof (C84_text _ _ _ _ _ _ E St) as B.
  assert (D : (deepest 0 b <= opens b)%nat).
  { clear. assert (X : forall s d, (deepest d s <= d + opens s)%nat); [|apply (X b 0%nat)]. induction s as [|c s IH]; intro d; [cbn; lia|]. cbn [deepest]. rewrite opens_cons. destruct (c =? 40)%N; [specialize (IH (S d)); lia|]. destruct (c =? 41)%N; [specialize (IH (Nat.pred d))|specialize (IH d)]; lia. }
  assert (Y : (opens b + closes b <= List.length b)%nat).
  { clear. unfold opens, closes. induction b as [|c b IH]; [cbn; lia|]. cbn [count_occ List.length]. destruct (N.eq_dec c 40), (N.eq_dec c 41); subst; try lia; discriminate. }
  assert (Z : closes b = opens b) by (rewrite <- T; apply text_balanced; exact W).
  assert (Q : (List.length b <= List.length s)%nat).
  { destruct St as [s m Nv|s m rest (V & _)|s m v rest (V & _) O]; [lia| |]; rewrite V; cbn [app List.length]; rewrite ?app_length; cbn [List.length]; lia. }
  pose proof (str_len_length s). lia.
Qed.
(** Without overflow checks no stack is enough: each has an expression that is parsed and
    is too deep for it.  Up to 8000 groups in one another compile. *)
Theorem C84_unbounded : forall p m room, overflow_checks p = false -> exists t, parse p (nested room) m = Ret (ROk (t, m)) /\
  (forall bs, note_positions_in room bs t = None /\ note_positions bs t = Ret bs) /\
  ((N.of_nat room <= 8000)%N -> exists db, compile p (nested room) 0%N Block = Ret (ROk db)).
Proof.
  intros p m room Oc. assert (G : forall s b a, groups_ok p s b a) by (intros s b a X; rewrite Oc in X; discriminate X).
  exists (tree (caseless m) (nested_expr room)). split; [|split].
  - apply C13_tree_iff. exists (nested room), (nested_expr room). conjs; auto using nested_ascii, nested_wf, nested_text. apply starts_plain. apply nested_no_verb.
  - intro bs. pose proof (nested_tree_notes (caseless m) room bs) as R. split; [|exact R]. apply (C84_note _ bs room) with (bs' := bs); [exact R|].
    pose proof (tree_calls (caseless m) (nested_expr room) (nested_wf room)) as B. rewrite nested_text in B. unfold nested in B. rewrite nested_deepest in B. lia.
  - intro L. apply (C01_accepts_iff p [nested room] [0%N] [0%N] Block). split; [discriminate|]. split; [cbn; lia|]. split.
    + intros i it (A & B & C). destruct i as [|i]; [|destruct i; discriminate A]. injection A as A. injection B as B. constructor.
      * rewrite <- A, nested_len. lia.
      * unfold quiet, som_leftmost. rewrite <- B. intros [X _]. discriminate X.
      * exists (nested room). rewrite <- A. conjs; auto using nested_ascii. 2:{ rewrite <- nested_text. apply text_balanced. apply nested_wf. }
        apply (body_starts _ _ mode_default). exists mode_default. apply starts_plain. apply nested_no_verb.
    + intros i j a b (A1 & A2 & A3) (B1 & B2 & B3) (_ & _ & _ & X). apply X. destruct i as [|i]; [|destruct i; discriminate A1]. destruct j as [|j]; [|destruct j; discriminate B1]. injection A2 as A2. injection B2 as B2. unfold single_match. congruence.
Qed.
Example C84_case : (exists t m, parse dev (lit "(a|b)|c") mode_default = Ret (ROk (t, m)) /\ calls t = 13%nat /\ note_positions_in 12 (initial (ExpressionInfo 0%N 0%N false false false false SomNone false)) t = None) /\
  (exists t m bs, parse release (lit "((a)b)") mode_default = Ret (ROk (t, m)) /\ calls t = 9%nat /\ note_positions_in 9 (initial (ExpressionInfo 0%N 0%N false false false false SomNone false)) t = Some (Ret bs) /\
    walk_component_in release (construct_literal_visitor release) 8 lit_default t = None).
Proof. split; [do 2 eexists; split; [vm_compute; reflexivity|split; vm_compute; reflexivity]|]. do 3 eexists. split; [vm_compute; reflexivity|]. split; [reflexivity|]. split; vm_compute; reflexivity. Qed.
Print Assumptions C84_walk. Print Assumptions C84_note. Print Assumptions C84_text. Print Assumptions C84_checked. Print Assumptions C84_limit. Print Assumptions C84_unbounded.
