(** The trace of a walk. *)
From Verif Require Import Base ModelUtil ModelBitField ModelCharReach ModelParser SpecSet SpecGrammar SpecTree SpecVisit ProofBase ProofShortcut.
Local Open Scope N_scope.
Local Open Scope list_scope.

(** ** Traces *)
Section Weave.
  Context {A : Type} (tr : nat -> A -> list event) (pos : list nat).
  (** the traces of the children from number [i] on, with the in-between calls *)
  Fixpoint weave (i : nat) (l : list A) : list event :=
    match l with
    | [] => []
    | x :: t => tr i x ++ match t with [] => [] | _ :: _ => Event (During i) pos :: weave (S i) t end
    end.
End Weave.
Fixpoint trace (pos : list nat) (c : component) : list event :=
  match c with
  | CClass _ => [Event Pre pos; Event (During 0) pos; Event Post pos]
  | CAlternation bs => Event Pre pos :: weave (fun i s => trace_seqn (pos ++ [i]) s) pos 0 bs ++ [Event Post pos]
  | CSequence s => trace_seqn pos s
  end
with trace_seqn (pos : list nat) (s : seqn) : list event :=
  match s with Seqn ch _ _ _ => Event Pre pos :: weave (fun i c => trace (pos ++ [i]) c) pos 0 ch ++ [Event Post pos] end.

Lemma node_at_app : forall a n b, node_at n (a ++ b) = match node_at n a with Some m => node_at m b | None => None end.
Proof.
  induction a as [|i a IH]; intros n b; [reflexivity|]. cbn [app node_at]. destruct (nth_error (children n) i); [apply IH|reflexivity].
Qed.

(** *** Performing the trace is walking *)
Lemma perform_app : forall {V E} (vis : visitor V E) root a b v,
  perform vis root (a ++ b) v = bindr (perform vis root a v) (fun v' => perform vis root b v').
Proof.
  intros V E vis root a; induction a as [|e a IH]; intros b v; [reflexivity|]. cbn [app perform]. destruct (node_at root (ev_pos e)) as [n|]; [|reflexivity].
  destruct (call vis (ev_hook e) n v) as [[v'|?]|?|]; cbn [bindr]; [apply IH|reflexivity..].
Qed.
Lemma bindr_assoc : forall {E A B C} (m : outcome (result E A)) (f : A -> outcome (result E B)) (g : B -> outcome (result E C)),
  bindr (bindr m f) g = bindr m (fun x => bindr (f x) g).
Proof. intros E A B C [[a|e]|w|] f g; reflexivity. Qed.
Lemma weave_perform : forall {V E A} (vis : visitor V E) root pos n (walk1 : V -> A -> outcome (result E V)) (during : V -> V) (tr : nat -> A -> list event),
  node_at root pos = Some n -> (forall k v, call vis (During k) n v = Ret (ROk (during v))) ->
  forall l i, (forall j x, nth_error l j = Some x -> forall v, walk1 v x = perform vis root (tr (i + j)%nat x) v) ->
  forall v, walk_list walk1 during v l = perform vis root (weave tr pos i l) v.
Proof.
  intros V E A vis root pos n walk1 during tr Hn Hd. induction l as [|x l IH]; intros i H v; [reflexivity|]. cbn [walk_list weave]. rewrite perform_app.
  pose proof (H 0%nat x eq_refl v) as H0. rewrite Nat.add_0_r in H0. rewrite H0. destruct (perform vis root (tr i x) v) as [[v1|?]|?|]; cbn [bindr]; try reflexivity.
  destruct l as [|y l]; [reflexivity|]. cbn [perform ev_pos ev_hook]. rewrite Hn, Hd. cbn [bindr]. apply IH. intros j z Hz v'. rewrite (H (S j) z Hz). replace (i + S j)%nat with (S i + j)%nat by lia. reflexivity.
Qed.
Lemma walk_trace : forall {V E} p (vis : visitor V E) root c, finalized c -> forall pos, node_at root pos = Some (node_of c) -> forall v,
  walk_component p vis v c = perform vis root (trace pos c) v.
Proof.
  intros V E p vis root.
  apply (component_ind' (fun c => finalized c -> forall pos, node_at root pos = Some (node_of c) -> forall v, walk_component p vis v c = perform vis root (trace pos c) v)
    (fun s => finalized_seqn s -> forall pos, node_at root pos = Some (NSequence s) -> forall v, walk_seqn p vis v s = perform vis root (trace_seqn pos s) v)).
  - intros bs H F pos Hn v. inversion F as [|? Fb|]; subst. cbn [walk_component trace perform ev_pos ev_hook]. rewrite Hn. cbn [node_of call].
    destruct (pre_alternation vis v bs) as [[v1|?]|?|]; cbn [bindr]; try reflexivity. rewrite perform_app.
    rewrite <- (weave_perform vis root pos _ (fun v s => walk_seqn p vis v s) (fun v => during_alternation vis v bs) (fun i s => trace_seqn (pos ++ [i]) s) Hn).
    + destruct (walk_list _ _ v1 bs) as [[v2|?]|?|]; cbn [bindr]; try reflexivity. cbn [perform ev_pos ev_hook]. rewrite Hn. cbn [node_of call].
      destruct (post_alternation vis v2 bs); reflexivity.
    + reflexivity.
    + intros j s Es v'. rewrite Forall_forall in H, Fb. pose proof (nth_error_In _ _ Es) as Is. apply (H s Is (Fb s Is)).
      rewrite node_at_app, Hn. cbn [node_at node_of children]. rewrite nth_error_map, Nat.add_0_l, Es. reflexivity.
  - intros k F pos Hn v. cbn [walk_component trace perform ev_pos ev_hook]. rewrite Hn. cbn [node_of call]. unfold walk_class.
    destruct (pre_class vis v k) as [[v1|?]|?|]; cbn [bindr]; try reflexivity. destruct (post_class vis _ k); reflexivity.
  - intros s H F pos Hn v. inversion F; subst. cbn [walk_component trace]. apply H; assumption.
  - intros ch alt ci cn H F pos Hn v. inversion F as [? ? ? Fc]; subst. cbn [walk_seqn trace_seqn]. unfold rs_debug_assert. cbn [negb]. rewrite andb_false_r. cbn [bind perform ev_pos ev_hook].
    rewrite Hn. cbn [call]. destruct (pre_sequence vis v _) as [[v1|?]|?|]; cbn [bindr]; try reflexivity. rewrite perform_app.
    rewrite <- (weave_perform vis root pos _ (fun v c => walk_component p vis v c) (fun v => during_sequence vis v (Seqn ch None ci cn)) (fun i c => trace (pos ++ [i]) c) Hn).
    + destruct (walk_list _ _ v1 ch) as [[v2|?]|?|]; cbn [bindr]; try reflexivity. cbn [perform ev_pos ev_hook]. rewrite Hn. cbn [call].
      destruct (post_sequence vis v2 _); reflexivity.
    + reflexivity.
    + intros j c Ec v'. rewrite Forall_forall in H, Fc. pose proof (nth_error_In _ _ Ec) as Ic. apply (H c Ic (Fc c Ic)).
      rewrite node_at_app, Hn. cbn [node_at children sq_children]. rewrite nth_error_map, Nat.add_0_l, Ec. reflexivity.
Qed.

(** *** What is in the trace *)
Definition below (pos : list nat) (n : node) (e : event) : Prop := exists a, ev_pos e = pos ++ a /\ due n (Event (ev_hook e) a).
Lemma weave_in : forall {A} (tr : nat -> A -> list event) pos l i e, In e (weave tr pos i l) <->
  (exists j x, nth_error l j = Some x /\ In e (tr (i + j)%nat x)) \/ (exists j, (S j < List.length l)%nat /\ e = Event (During (i + j)) pos).
Proof.
  intros A tr pos; induction l as [|x l IH]; intros i e; cbn [weave].
  - split; [intros []|]. intros [(j & x & H & _)|(j & H & _)]; [destruct j; discriminate H|cbn in H; lia].
  - rewrite in_app_iff. split.
    + intros [H|H]; [left; exists 0%nat, x; rewrite Nat.add_0_r; auto|]. destruct l as [|y l]; [contradiction|]. destruct H as [<-|H].
      * right. exists 0%nat. rewrite Nat.add_0_r. cbn. split; [lia|reflexivity].
      * apply IH in H. destruct H as [(j & z & Hz & H)|(j & Hj & ->)].
        -- left. exists (S j), z. split; [exact Hz|]. replace (i + S j)%nat with (S i + j)%nat by lia. exact H.
        -- right. exists (S j). split; [cbn in *; lia|]. do 2 f_equal. lia.
    + intros [(j & z & Hz & H)|(j & Hj & ->)].
      * destruct j as [|j]; [injection Hz as ->; rewrite Nat.add_0_r in H; left; exact H|]. right. cbn in Hz. destruct l as [|y l]; [destruct j; discriminate Hz|].
        right. apply IH. left. exists j, z. split; [exact Hz|]. replace (S i + j)%nat with (i + S j)%nat by lia. exact H.
      * right. destruct l as [|y l]; [cbn in Hj; lia|]. destruct j as [|j]; [left; rewrite Nat.add_0_r; reflexivity|]. right. apply IH. right. exists j. split; [cbn in *; lia|]. do 2 f_equal. lia.
Qed.
Lemma due_inner : forall n e, (match n with NClass _ => False | _ => True end) -> (due n e <->
  e = Event Pre [] \/ e = Event Post [] \/ (exists k, (S k < List.length (children n))%nat /\ e = Event (During k) []) \/
  exists i c a, nth_error (children n) i = Some c /\ ev_pos e = i :: a /\ due c (Event (ev_hook e) a)).
Proof.
  intros n [h pos] Hn. unfold due. cbn [ev_hook ev_pos]. split.
  - intros (m & Hm & D). destruct pos as [|i a].
    + cbn in Hm. injection Hm as <-. destruct h as [|k|]; [auto| |auto]. right; right; left. exists k. destruct n; [contradiction| |]; auto.
    + right; right; right. cbn in Hm. destruct (nth_error (children n) i) as [c|] eqn:Ec; [|discriminate]. exists i, c, a. conjs; auto. exists m. auto.
  - intros [[= -> ->]|[[= -> ->]|[(k & Hk & [= -> ->])|(i & c & a & Ec & -> & (m & Hm & D))]]].
    + exists n. split; [reflexivity|exact I].
    + exists n. split; [reflexivity|exact I].
    + exists n. split; [reflexivity|]. destruct n; [contradiction| |]; exact Hk.
    + exists m. split; [|exact D]. cbn. rewrite Ec. exact Hm.
Qed.
Lemma inner_in : forall {A} (tr : nat -> A -> list event) (nd : A -> node) pos n l,
  (match n with NClass _ => False | _ => True end) -> children n = map nd l ->
  (forall i x, In x l -> forall e, In e (tr i x) <-> below (pos ++ [i]) (nd x) e) ->
  forall e, In e (Event Pre pos :: weave tr pos 0 l ++ [Event Post pos]) <-> below pos n e.
Proof.
  intros A tr nd pos n l Hn Hc H e. unfold below. split.
  - intros [<-|I].
    + exists []. rewrite app_nil_r. split; [reflexivity|]. apply due_inner; [exact Hn|]. auto.
    + apply in_app_or in I. destruct I as [I|[<-|[]]].
      * apply weave_in in I. destruct I as [(j & x & Ex & I)|(j & Hj & ->)].
        -- apply H in I; [|eapply nth_error_In; exact Ex]. destruct I as (a & Ea & D). exists (j :: a). split; [rewrite Ea, <- app_assoc; reflexivity|].
           apply due_inner; [exact Hn|]. right; right; right. exists j, (nd x), a. cbn [ev_pos ev_hook]. conjs; auto. rewrite Hc, nth_error_map, Ex. reflexivity.
        -- exists []. rewrite app_nil_r. split; [reflexivity|]. apply due_inner; [exact Hn|]. right; right; left. exists j. rewrite Hc, map_length. auto.
      * exists []. rewrite app_nil_r. split; [reflexivity|]. apply due_inner; [exact Hn|]. auto.
  - intros (a & Ea & D). destruct e as [h ps]. cbn [ev_pos ev_hook] in *. subst ps. apply due_inner in D; [|exact Hn]. destruct D as [[= -> ->]|[[= -> ->]|[(k & Hk & [= -> ->])|(i & c & a' & Ec & Ep & D)]]].
    + rewrite app_nil_r. left. reflexivity.
    + rewrite app_nil_r. right. apply in_or_app. right. left. reflexivity.
    + rewrite app_nil_r. right. apply in_or_app. left. apply weave_in. right. exists k. rewrite Hc, map_length in Hk. auto.
    + cbn [ev_pos ev_hook] in *. subst a. right. apply in_or_app. left. apply weave_in. left. rewrite Hc, nth_error_map in Ec. destruct (nth_error l i) as [x|] eqn:Ex; [|discriminate]. injection Ec as <-.
      exists i, x. split; [exact Ex|]. apply H; [eapply nth_error_In; exact Ex|]. exists a'. split; [cbn; rewrite <- app_assoc; reflexivity|exact D].
Qed.
Lemma trace_in : forall c pos e, In e (trace pos c) <-> below pos (node_of c) e.
Proof.
  apply (component_ind' (fun c => forall pos e, In e (trace pos c) <-> below pos (node_of c) e) (fun s => forall pos e, In e (trace_seqn pos s) <-> below pos (NSequence s) e)).
  - intros bs H pos. cbn [trace node_of]. rewrite Forall_forall in H. apply (inner_in _ NSequence); [exact I|reflexivity|]. intros i x Ix e. apply H. exact Ix.
  - intros k pos e. cbn [trace node_of]. unfold below, due. split.
    + intros [<-|[<-|[<-|[]]]]; exists []; (split; [symmetry; apply app_nil_r|]); exists (NClass k); split; cbn; auto.
    + intros (a & Ea & (n & Hn & D)). destruct e as [h ps]. cbn [ev_pos ev_hook] in *. subst ps. destruct a as [|i a]; [|destruct i; discriminate Hn]. rewrite app_nil_r. injection Hn as <-.
      destruct h as [|j|]; [left; reflexivity|subst j; right; left; reflexivity|right; right; left; reflexivity].
  - intros s H pos e. apply H.
  - intros ch alt ci cn H pos. cbn [trace_seqn]. rewrite Forall_forall in H. apply (inner_in _ node_of); [exact I|reflexivity|]. intros i x Ix e. apply H. exact Ix.
Qed.

(** *** Its order *)
Lemma sorted_app : forall {A} (R : A -> A -> Prop) a b, StronglySorted R a -> StronglySorted R b -> (forall x y, In x a -> In y b -> R x y) -> StronglySorted R (a ++ b).
Proof.
  intros A R a b Ha Hb H. induction Ha as [|x a Ha IH F]; [exact Hb|]. cbn. constructor; [apply IH; intros; apply H; [right|]; assumption|].
  apply Forall_app. split; [exact F|]. apply Forall_forall. intros y I. apply H; [left; reflexivity|exact I].
Qed.
Lemma weave_sorted : forall {A} (tr : nat -> A -> list event) pos l i, (forall j x, In x l -> StronglySorted before (tr j x) /\ forall e, In e (tr j x) -> exists a, ev_pos e = pos ++ j :: a) ->
  StronglySorted before (weave tr pos i l).
Proof.
  intros A tr pos; induction l as [|x l IH]; intros i H; cbn [weave]; [constructor|]. destruct (H i x (or_introl eq_refl)) as [S1 P1].
  destruct l as [|y l]; [rewrite app_nil_r; exact S1|]. specialize (IH (S i) (fun j z I => H j z (or_intror I))).
  assert (W : forall e, In e (weave tr pos (S i) (y :: l)) -> (exists j a, (i < j)%nat /\ ev_pos e = pos ++ j :: a) \/ exists j, (i < j)%nat /\ e = Event (During j) pos).
  { intros e I. apply weave_in in I. destruct I as [(j & z & Ez & I)|(j & Hj & ->)]; [|right; exists (S i + j)%nat; split; [lia|reflexivity]].
    left. destruct (H (S i + j)%nat z (or_intror (nth_error_In _ _ Ez))) as [_ P]. destruct (P e I) as (a & Ea). exists (S i + j)%nat, a. split; [lia|exact Ea]. }
  apply sorted_app; [exact S1| |].
  - constructor; [exact IH|]. apply Forall_forall. intros e I. destruct (W e I) as [(j & a & L & Ea)|(j & L & ->)].
    + destruct e as [h ps]. cbn in Ea. subst ps. apply b_before. exact L.
    + apply b_during. exact L.
  - intros e f Ie If. destruct (P1 e Ie) as (a & Ea). destruct e as [h ps]. cbn in Ea. subst ps. destruct If as [<-|If]; [apply b_after; lia|].
    destruct (W f If) as [(j & b & L & Eb)|(j & L & ->)].
    + destruct f as [h' ps]. cbn in Eb. subst ps. apply b_left. exact L.
    + apply b_after. lia.
Qed.
Lemma inner_sorted : forall {A} (tr : nat -> A -> list event) pos l, (forall j x, In x l -> StronglySorted before (tr j x) /\ forall e, In e (tr j x) -> exists a, ev_pos e = pos ++ j :: a) ->
  StronglySorted before (Event Pre pos :: weave tr pos 0 l ++ [Event Post pos]).
Proof.
  intros A tr pos l H.
  assert (W : forall e, In e (weave tr pos 0 l) -> (exists a, ev_pos e = pos ++ a) /\ e <> Event Pre pos /\ e <> Event Post pos).
  { intros e I. apply weave_in in I. destruct I as [(j & z & Ez & I)|(j & Hj & ->)].
    - destruct (H (0 + j)%nat z (nth_error_In _ _ Ez)) as [_ P]. destruct (P e I) as (a & Ea). split; [eauto|].
      assert (N : ev_pos e <> pos) by (rewrite Ea; intro X; apply (f_equal (@List.length nat)) in X; rewrite app_length in X; cbn in X; lia). split; intros ->; apply N; reflexivity.
    - split; [exists []; rewrite app_nil_r; reflexivity|]. split; discriminate. }
  constructor.
  - apply sorted_app; [apply weave_sorted; exact H|repeat constructor|]. intros e f Ie [<-|[]]. destruct (W e Ie) as ((a & Ea) & _ & N). destruct e as [h ps]. cbn in Ea. subst ps. apply b_post.
    intros [= -> ->]. apply N. rewrite app_nil_r. reflexivity.
  - apply Forall_app. split.
    + apply Forall_forall. intros e Ie. destruct (W e Ie) as ((a & Ea) & N & _). destruct e as [h ps]. cbn in Ea. subst ps. apply b_pre. intros [= -> ->]. apply N. rewrite app_nil_r. reflexivity.
    + constructor; [|constructor]. replace (Event Post pos) with (Event Post (pos ++ [])) by (rewrite app_nil_r; reflexivity). apply b_pre. discriminate.
Qed.
Lemma trace_sorted : forall c pos, StronglySorted before (trace pos c).
Proof.
  apply (component_ind' (fun c => forall pos, StronglySorted before (trace pos c)) (fun s => forall pos, StronglySorted before (trace_seqn pos s))).
  - intros bs H pos. cbn [trace]. rewrite Forall_forall in H. apply inner_sorted. intros j s Is. split; [apply H; exact Is|]. intros e I. apply (trace_in (CSequence s)) in I. destruct I as (a & Ea & _).
    exists a. rewrite Ea, <- app_assoc. reflexivity.
  - intros k pos. cbn [trace]. assert (P : pos = pos ++ []) by (symmetry; apply app_nil_r). repeat constructor.
    + rewrite P at 1. apply b_post. discriminate.
    + rewrite P at 2. apply b_pre. discriminate.
    + rewrite P at 2. apply b_pre. discriminate.
  - intros s H pos. apply H.
  - intros ch alt ci cn H pos. cbn [trace_seqn]. rewrite Forall_forall in H. apply inner_sorted. intros j c Ic. split; [apply H; exact Ic|]. intros e I. apply trace_in in I. destruct I as (a & Ea & _).
    exists a. rewrite Ea, <- app_assoc. reflexivity.
Qed.
Lemma trace_complete : forall c, complete (node_of c) (trace [] c).
Proof.
  intro c. split; [apply trace_sorted|]. intros [h ps]. rewrite trace_in. unfold below. cbn [ev_pos ev_hook app]. split; [intros (a & -> & D); exact D|eauto].
Qed.

(** *** The order is strict, so there is no other *)
Definition below_pair (x y : nat * nat) : Prop := (fst x < fst y)%nat \/ (fst x = fst y /\ (snd x < snd y)%nat).
Fixpoint lex (a b : list (nat * nat)) : Prop :=
  match a, b with
  | [], [] => False
  | [], _ :: _ => True
  | _ :: _, [] => False
  | x :: a', y :: b' => below_pair x y \/ (x = y /\ lex a' b')
  end.
Lemma lex_irrefl : forall a, ~ lex a a.
Proof. induction a as [|x a IH]; cbn; [auto|]. unfold below_pair. intros [H|[_ H]]; [lia|auto]. Qed.
Lemma lex_trans : forall a b c, lex a b -> lex b c -> lex a c.
Proof.
  induction a as [|x a IH]; intros [|y b] [|z c]; cbn; try tauto. unfold below_pair. intros [H|[-> H]] [H'|[-> H']]; [left; lia|left; lia|left; lia|right; eauto].
Qed.
Lemma lex_app : forall c a b, lex a b -> lex (c ++ a) (c ++ b).
Proof. induction c as [|x c IH]; intros a b H; cbn; [exact H|]. right. auto. Qed.
Definition step (i : nat) : nat * nat := (0%nat, S (2 * i)).
Definition stop (h : hook) : nat * nat := match h with Pre => (0, 0)%nat | During k => (0%nat, S (S (2 * k))) | Post => (1, 0)%nat end.
Definition key (e : event) : list (nat * nat) := map step (ev_pos e) ++ [stop (ev_hook e)].
Lemma before_key : forall e f, before e f -> lex (key e) (key f).
Proof.
  intros e f B. destruct B as [h h' pos i j a b L|h pos a N|h pos a N|h pos i k a L|h pos i k a L|pos k l L]; unfold key; cbn [ev_pos ev_hook]; rewrite ?map_app, <- ?app_assoc; apply lex_app; cbn [map app lex].
  - left. unfold below_pair, step. cbn [fst snd]. lia.
  - destruct a as [|x a]; cbn [map app lex]; left; unfold below_pair, step.
    + destruct h; [contradiction| |]; cbn [stop fst snd]; lia.
    + cbn [fst snd stop]. lia.
  - destruct a as [|x a]; cbn [map app lex]; left; unfold below_pair, step.
    + destruct h; [| |contradiction]; cbn [stop fst snd]; lia.
    + cbn [fst snd stop]. lia.
  - left. unfold below_pair, step, stop. cbn [fst snd]. lia.
  - left. unfold below_pair, step, stop. cbn [fst snd]. lia.
  - left. unfold below_pair, step, stop. cbn [fst snd]. lia.
Qed.
Lemma before_asym : forall e f, before e f -> before f e -> False.
Proof. intros e f A B. apply before_key in A, B. exact (lex_irrefl _ (lex_trans _ _ _ A B)). Qed.
Lemma before_irrefl : forall e, ~ before e e.
Proof. intros e A. exact (before_asym _ _ A A). Qed.
Lemma sorted_unique : forall {A} (R : A -> A -> Prop), (forall x y, R x y -> R y x -> False) -> forall a b, StronglySorted R a -> StronglySorted R b -> (forall x, In x a <-> In x b) -> a = b.
Proof.
  intros A R As. induction a as [|x a IH]; intros [|y b] Ha Hb H; [reflexivity|destruct (proj2 (H y) (or_introl eq_refl))|destruct (proj1 (H x) (or_introl eq_refl))|].
  inversion Ha as [|? ? Sa Fa]; inversion Hb as [|? ? Sb Fb]; subst. rewrite Forall_forall in Fa, Fb.
  assert (x = y).
  { destruct (proj1 (H x) (or_introl eq_refl)) as [<-|I]; [reflexivity|]. destruct (proj2 (H y) (or_introl eq_refl)) as [<-|J]; [reflexivity|]. destruct (As x y (Fa _ J) (Fb _ I)). }
  subst y. f_equal. apply IH; [assumption..|]. intro z. split; intro I.
  - destruct (proj1 (H z) (or_intror I)) as [<-|J]; [|exact J]. destruct (As x x (Fa _ I) (Fa _ I)).
  - destruct (proj2 (H z) (or_intror I)) as [<-|J]; [|exact J]. destruct (As x x (Fb _ I) (Fb _ I)).
Qed.
Lemma sorted_NoDup : forall {A} (R : A -> A -> Prop), (forall x, ~ R x x) -> forall a, StronglySorted R a -> NoDup a.
Proof.
  intros A R Ir a H. induction H as [|x a H IH F]; constructor; [|exact IH]. intro I. rewrite Forall_forall in F. exact (Ir _ (F _ I)).
Qed.
