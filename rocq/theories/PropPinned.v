(** Property C77: the raw pointer inside the pinned [Ng]. *)
From Verif Require Import Base ModelUtil ModelBitField ModelCharReach ModelLiteral ModelReport ModelPetgraph ModelParser ModelNfa ModelSmallWrite ModelCompiler ModelPinned
  SpecPinned ProofBase.
Local Open Scope list_scope.

Lemma upd_len {A} : forall (l : list A) i f, List.length (list_upd l i f) = List.length l.
Proof. induction l as [|x l IH]; intros [|i] f; cbn; auto. Qed.
Lemma upd_at {A} : forall (l : list A) i f, nth_error (list_upd l i f) i = option_map f (nth_error l i).
Proof. induction l as [|x l IH]; intros [|i] f; cbn; auto. Qed.
Lemma upd_other {A} : forall (l : list A) i j f, i <> j -> nth_error (list_upd l i f) j = nth_error l j.
Proof. induction l as [|x l IH]; intros [|i] [|j] f H; cbn; auto; try contradiction. Qed.
Lemma upd_end {A} : forall (l : list A) x f, list_upd (l ++ [x]) (List.length l) f = l ++ [f x].
Proof. induction l as [|y l IH]; intros x f; cbn; auto. rewrite IH. reflexivity. Qed.

Lemma forget_len : forall h, List.length (forget h) = List.length h.
Proof. intro h. apply map_length. Qed.
Lemma forget_at : forall h l, nth_error (forget h) l = option_map (fun c => match c with Freed => None | Live n _ => Some n end) (nth_error h l).
Proof. intros h l. apply nth_error_map. Qed.
Lemma forget_live : forall h l n, nth_error (forget h) l = Some (Some n) <-> exists rm, nth_error h l = Some (Live n rm).
Proof.
  intros h l n. rewrite forget_at. destruct (nth_error h l) as [[|m rm]|]; cbn; split; try discriminate; try (intros (? & ?); discriminate).
  - intros [= ->]. eauto.
  - intros (r & [= -> _]). reflexivity.
Qed.

Lemma store_live : forall h l n rm n', nth_error h l = Some (Live n rm) -> nth_error (store h l n') l = Some (Live n' rm).
Proof. intros h l n rm n' E. unfold store. rewrite upd_at, E. reflexivity. Qed.
Lemma store_other : forall h l n' k, l <> k -> nth_error (store h l n') k = nth_error h k.
Proof. intros. apply upd_other. assumption. Qed.
Lemma store_self : forall h l n', self_pointing h -> self_pointing (store h l n').
Proof.
  intros h l n' S k m rm E. destruct (Nat.eq_dec l k) as [->|D]; [|rewrite store_other in E by exact D; exact (S _ _ _ E)].
  unfold store in E. rewrite upd_at in E. destruct (nth_error h k) as [[|m0 r0]|] eqn:X; try discriminate. injection E as _ <-. exact (S _ _ _ X).
Qed.
Lemma store_load : forall h l n rm n', nth_error h l = Some (Live n rm) -> load (store h l n') l = Defined (Ret n').
Proof. intros h l n rm n' E. unfold load. rewrite (store_live _ _ _ _ _ E). reflexivity. Qed.
Lemma store_same : forall h l n rm, nth_error h l = Some (Live n rm) -> store h l n = h.
Proof.
  unfold store. induction h as [|c h IH]; intros [|l] n rm E; cbn in *; try discriminate.
  - injection E as ->. reflexivity.
  - f_equal. eauto.
Qed.
Lemma store_store : forall h l a b, store (store h l a) l b = store h l b.
Proof. unfold store. induction h as [|c h IH]; intros [|l] a b; cbn; auto; [destruct c; reflexivity|]. f_equal. apply IH. Qed.

(** An operation written on the heap does in place what the pure one does to the value. *)
Definition in_place {A} (h : heap) (l : nat) (m : memory (heap * A)) (o : outcome (ng * A)) : Prop :=
  m = Defined (let! (n, a) := o in Ret (store h l n, a)).

Lemma literal_in_place : forall p h l n rm q i x hl s b, nth_error h l = Some (Live n rm) ->
  in_place h l (add_literal_at p h l q i x hl s b) (ng_add_literal p n q i x hl s b).
Proof.
  intros p h l n rm q i x hl s b E. unfold in_place, add_literal_at, load. rewrite E. cbn [mbind].
  destruct (ng_add_literal p n q i x hl s b) as [[n' r]|w|]; reflexivity.
Qed.
Lemma shortcut_in_place : forall p h l n rm pe, nth_error h l = Some (Live n rm) ->
  in_place h l (shortcut_literal_at p h l pe) (shortcut_literal p n pe).
Proof.
  intros p h l n rm pe E. unfold in_place, shortcut_literal_at, shortcut_literal. unfold load at 1. rewrite E. cbn [mbind].
  destruct (negb _); cbn [bind]; [rewrite (store_same _ _ _ _ E); reflexivity|].
  destruct (walk_component _ _ _ _) as [[q|e]|w|]; cbn [bind mbind]; try reflexivity; [|rewrite (store_same _ _ _ _ E); reflexivity].
  destruct (lit_is_empty q); cbn [bind]; [rewrite (store_same _ _ _ _ E); reflexivity|].
  destruct (to_u32 _) as [i|w|]; cbn [bind mbind]; try reflexivity. apply (literal_in_place _ _ _ _ _ _ _ _ _ _ _ E).
Qed.
Lemma expression_in_place : forall p h l n rm i e f id, nth_error h l = Some (Live n rm) ->
  in_place h l (add_expression_at p h l i e f id) (add_expression p n i e f id).
Proof.
  intros p h l n rm i e f id E. unfold in_place, add_expression_at, add_expression. unfold load at 1. rewrite E. cbn [mbind].
  destruct (_ <? _)%N; cbn [bind]; [rewrite (store_same _ _ _ _ E); reflexivity|].
  destruct (parsed_expression_new _ _ _ _ _) as [[pe|er]|w|]; cbn [bind mbind]; try reflexivity; [|rewrite (store_same _ _ _ _ E); reflexivity].
  cbv zeta. rewrite (shortcut_in_place p h l n rm pe E). destruct (shortcut_literal p n pe) as [[n1 [[|]|er]]|w|]; cbn [bind mbind]; try reflexivity.
  destruct (build_graph p pe) as [[ei g]|w|]; cbn [bind mbind]; try reflexivity.
  unfold add_graph_at. rewrite (store_load _ _ _ _ n1 E). cbn [mbind]. rewrite store_store. reflexivity.
Qed.
Lemma all_in_place : forall p ts h l n rm i, nth_error h l = Some (Live n rm) ->
  match add_all p n i ts with
  | Ret (ROk n') => add_all_at p h l i ts = Defined (Ret (store h l n', ROk tt))
  | Ret (RErr e) => exists n', add_all_at p h l i ts = Defined (Ret (store h l n', RErr e))
  | Panic w => add_all_at p h l i ts = Defined (Panic w)
  | Diverge => add_all_at p h l i ts = Defined Diverge
  end.
Proof.
  intros p ts. induction ts as [|((e & f) & id) ts IH]; intros h l n rm i E; cbn [add_all add_all_at].
  - rewrite (store_same _ _ _ _ E). reflexivity.
  - rewrite (expression_in_place p h l n rm i e f id E). destruct (add_expression p n i e f id) as [[n1 [u|er]]|w|]; cbn [bind mbind]; try reflexivity.
    + specialize (IH (store h l n1) l n1 rm (i + 1)%N (store_live _ _ _ _ _ E)). destruct (add_all p n1 (i + 1)%N ts) as [[n'|er]|w|]; try exact IH.
      * rewrite IH, store_store. reflexivity.
      * destruct IH as (n' & IH). exists n'. rewrite IH, store_store. reflexivity.
    + destruct (to_u32 i) as [i32|w|]; cbn [bind mbind]; try reflexivity. destruct (set_expression_index p er i32) as [e'|w|]; cbn [bind mbind]; try reflexivity.
      exists n1. reflexivity.
Qed.

Lemma min_length_at : forall h l n ids, load h l = Defined (Ret n) ->
  any_min_length_at h (Some l) ids = Defined (any_min_length (ng_rm n) ids).
Proof.
  intros h l n ids E. induction ids as [|id t IH]; cbn [any_min_length_at any_min_length]; [reflexivity|].
  unfold deref_rm. rewrite E. cbn [mbind]. destruct (get_report (ng_rm n) id) as [r|w|]; cbn [bind mbind]; try reflexivity.
  destruct (0 <? min_length r)%N; [reflexivity|exact IH].
Qed.
Lemma small_write_in_place : forall h l n rm g ei, self_pointing h -> nth_error h l = Some (Live n rm) ->
  smwr_add_expression_at h l g ei = Defined (let! s := smwr_add_expression (ng_rm n) (ng_smwr n) g ei in
    Ret (store h l (Ng (ng_min_width n) (ng_rm n) (ng_boundary n) (ng_cc n) s (ng_rose n)))).
Proof.
  intros h l n rm g ei S E. unfold smwr_add_expression_at, smwr_add_expression. rewrite E. cbv zeta.
  destruct (sw_poisoned (ng_smwr n)); cbn [bind].
  { f_equal. f_equal. symmetry. destruct n. apply (store_same _ _ _ _ E). }
  destruct (ex_som ei); cbn [bind]; [|reflexivity]. destruct (is_vacuous g); cbn [bind]; [reflexivity|].
  destruct (all_reports g) as [ids|w|]; cbn [bind mbind]; try reflexivity.
  assert (rm = Some l) by (eapply S; eauto). subst rm.
  rewrite (min_length_at h l n ids) by (unfold load; rewrite E; reflexivity).
  destruct (any_min_length (ng_rm n) ids) as [[|]|w|]; reflexivity.
Qed.

Lemma changed_store : forall p h c l n rm n' a, handle c = Some l -> nth_error h l = Some (Live n rm) -> effect p c n = Ret (Some n', a) ->
  called p (forget h) c (Ret (forget (store h l n'), a)).
Proof.
  intros p h c l n rm n' a Hc E Ef. eapply Changed; [exact Hc| |exact Ef| | |].
  - apply forget_live. eauto.
  - rewrite !forget_len. apply upd_len.
  - rewrite forget_at, (store_live _ _ _ _ _ E). reflexivity.
  - intros k D. rewrite !forget_at, store_other by congruence. reflexivity.
Qed.

(** One call: undefined only on a box that is not there; otherwise what happens is
    what the pointer-free description says, and every box still points to itself. *)
Theorem C77_call : forall p h c, self_pointing h ->
  match call_at p h c with
  | Undefined => bad_handle (forget h) c
  | Defined (Ret (h', a)) => called p (forget h) c (Ret (forget h', a)) /\ self_pointing h'
  | Defined (Panic w) => called p (forget h) c (Panic w)
  | Defined Diverge => called p (forget h) c Diverge
  end.
Proof.
  intros p h c S.
  assert (Bad : forall l, handle c = Some l -> (forall n rm, nth_error h l <> Some (Live n rm)) -> bad_handle (forget h) c).
  { intros l Hc X. exists l. split; [exact Hc|]. intros n E. apply forget_live in E. destruct E as (rm & E). exact (X _ _ E). }
  destruct c as [cc k s|at_ i e f id|at_ q i x hl s b|at_ ei g|at_ g ei|at_|at_]; cbn [call_at].
  - unfold box_new. cbv zeta. unfold store_pointer. rewrite upd_end. split.
    + unfold forget. rewrite map_app. cbn. rewrite <- (forget_len h). eapply Made. reflexivity.
    + intros l n rm E. destruct (Nat.lt_trichotomy l (List.length h)) as [L|[->|L]].
      * rewrite nth_error_app1 in E by exact L. exact (S _ _ _ E).
      * rewrite nth_error_app2, Nat.sub_diag in E by lia. cbn in E. congruence.
      * assert (nth_error (h ++ [Live (ng_new cc k s) (Some (List.length h))]) l = None) by (apply nth_error_None; rewrite app_length; cbn; lia). congruence.
  - destruct (nth_error h at_) as [[|n rm]|] eqn:E.
    1,3: unfold add_expression_at, load; rewrite E; cbn [mbind]; apply (Bad at_ eq_refl); congruence.
    rewrite (expression_in_place p h at_ n rm i e f id E). destruct (add_expression p n i e f id) as [[n' r]|w|] eqn:F; cbn [bind mbind].
    + split; [|apply store_self; exact S]. eapply changed_store; [reflexivity|exact E|]. cbn [effect]. rewrite F. reflexivity.
    + eapply Panicked; [reflexivity|apply forget_live; eauto|]. cbn [effect]. rewrite F. reflexivity.
    + eapply Looped; [reflexivity|apply forget_live; eauto|]. cbn [effect]. rewrite F. reflexivity.
  - destruct (nth_error h at_) as [[|n rm]|] eqn:E.
    1,3: unfold add_literal_at, load; rewrite E; cbn [mbind]; apply (Bad at_ eq_refl); congruence.
    rewrite (literal_in_place p h at_ n rm q i x hl s b E). destruct (ng_add_literal p n q i x hl s b) as [[n' r]|w|] eqn:F; cbn [bind mbind].
    + split; [|apply store_self; exact S]. eapply changed_store; [reflexivity|exact E|]. cbn [effect]. rewrite F. reflexivity.
    + eapply Panicked; [reflexivity|apply forget_live; eauto|]. cbn [effect]. rewrite F. reflexivity.
    + eapply Looped; [reflexivity|apply forget_live; eauto|]. cbn [effect]. rewrite F. reflexivity.
  - unfold add_graph_at, load. destruct (nth_error h at_) as [[|n rm]|] eqn:E; cbn [mbind].
    1,3: apply (Bad at_ eq_refl); congruence.
    split; [|apply store_self; exact S]. eapply changed_store; [reflexivity|exact E|reflexivity].
  - destruct (nth_error h at_) as [[|n rm]|] eqn:E.
    1,3: unfold smwr_add_expression_at; rewrite E; cbn [mbind]; apply (Bad at_ eq_refl); congruence.
    rewrite (small_write_in_place h at_ n rm g ei S E). destruct (smwr_add_expression (ng_rm n) (ng_smwr n) g ei) as [s|w|] eqn:F; cbn [bind mbind].
    + split; [|apply store_self; exact S]. eapply changed_store; [reflexivity|exact E|]. cbn [effect]. rewrite F. reflexivity.
    + eapply Panicked; [reflexivity|apply forget_live; eauto|]. cbn [effect]. rewrite F. reflexivity.
    + eapply Looped; [reflexivity|apply forget_live; eauto|]. cbn [effect]. rewrite F. reflexivity.
  - unfold build_at, load. destruct (nth_error h at_) as [[|n rm]|] eqn:E; cbn [mbind].
    1,3: apply (Bad at_ eq_refl); congruence.
    split; [|exact S]. eapply Changed; [reflexivity|apply forget_live; eauto|reflexivity|reflexivity| |reflexivity]. apply forget_live. eauto.
  - unfold box_drop. destruct (nth_error h at_) as [[|n rm]|] eqn:E; cbn [mbind].
    1,3: apply (Bad at_ eq_refl); congruence.
    split.
    + eapply Changed; [reflexivity|apply forget_live; eauto|reflexivity| | |].
      * rewrite !forget_len. apply upd_len.
      * rewrite forget_at, upd_at, E. reflexivity.
      * intros k D. rewrite !forget_at, upd_other by congruence. reflexivity.
    + intros k m r Ek. destruct (Nat.eq_dec at_ k) as [->|D]; [rewrite upd_at, E in Ek; discriminate|].
      rewrite upd_other in Ek by exact D. exact (S _ _ _ Ek).
Qed.

(** Any number of boxes, any sequence of calls. *)
Theorem C77_calls : forall p cs h, self_pointing h ->
  match calls_at p h cs with
  | Undefined => misused p (forget h) cs
  | Defined (Ret (h', l)) => calls p (forget h) cs (Ret (forget h', l)) /\ self_pointing h'
  | Defined (Panic w) => calls p (forget h) cs (Panic w)
  | Defined Diverge => calls p (forget h) cs Diverge
  end.
Proof.
  intros p cs. induction cs as [|c t IH]; intros h S; cbn [calls_at].
  - split; [constructor|exact S].
  - pose proof (C77_call p h c S) as C. destruct (call_at p h c) as [|[[h1 a]|w|]]; cbn [mbind].
    + apply MisusedHere. exact C.
    + destruct C as [C S1]. specialize (IH h1 S1). destruct (calls_at p h1 t) as [|[[h2 l]|w|]]; cbn [mbind].
      * eapply MisusedLater; eauto.
      * destruct IH as [IH S2]. split; [|exact S2]. eapply CallsCons; eauto.
      * eapply CallsPanicTail; eauto.
      * eapply CallsLoopTail; eauto.
    + apply CallsPanicHead. exact C.
    + apply CallsLoopHead. exact C.
Qed.

Lemma called_once : forall p w c o1 o2, called p w c o1 -> called p w c o2 -> o1 = o2.
Proof.
  intros p w c o1 o2 A B. inversion A as [cc k s Ec|l n v a w' Hc E Ef L At Ot|l n y Hc E Ef|l n Hc E Ef]; subst o1; inversion B as [cc2 k2 s2 Ec2|l2 n2 v2 a2 w2 Hc2 E2 Ef2 L2 At2 Ot2|l2 n2 y2 Hc2 E2 Ef2|l2 n2 Hc2 E2 Ef2]; subst o2;
    try (rewrite Ec in Hc2; discriminate Hc2); try (rewrite Ec2 in Hc; discriminate Hc);
    try (rewrite Hc in Hc2; injection Hc2 as <-; rewrite E in E2; injection E2 as <-; rewrite Ef in Ef2; try discriminate Ef2).
  - rewrite Ec in Ec2. injection Ec2 as <- <- <-. reflexivity.
  - injection Ef2 as <- <-. do 2 f_equal. assert (X : forall k, nth_error w' k = nth_error w2 k).
    { intro k. destruct (Nat.eq_dec k l) as [->|D]; [congruence|]. rewrite Ot, Ot2 by exact D. reflexivity. }
    clear - X. revert w2 X. induction w' as [|x w' IH]; intros [|y w2] X; try reflexivity; try (specialize (X 0%nat); discriminate).
    f_equal; [specialize (X 0%nat); cbn in X; congruence|]. apply IH. intro k. exact (X (S k)).
  - congruence.
  - reflexivity.
Qed.
Lemma bad_not_called : forall p w c o, bad_handle w c -> ~ called p w c o.
Proof.
  intros p w c o (l & Hc & B) C. inversion C as [cc k s Ec|l' n v a w' Hc' E Ef L At Ot|l' n y Hc' E Ef|l' n Hc' E Ef]; subst o;
    [rewrite Ec in Hc; discriminate| | |]; rewrite Hc in Hc'; injection Hc' as <-; exact (B _ E).
Qed.
(** Undefined behaviour happens in no other sequences, and in all of these. *)
Theorem C77_misuse : forall p cs h, self_pointing h -> (calls_at p h cs = Undefined <-> misused p (forget h) cs).
Proof.
  intros p cs h S. split.
  - intro E. pose proof (C77_calls p cs h S) as C. rewrite E in C. exact C.
  - revert h S. induction cs as [|c t IH]; intros h S M; [inversion M|]. pose proof (C77_call p h c S) as C. cbn [calls_at].
    destruct (call_at p h c) as [|[[h1 a]|w|]]; cbn [mbind]; [reflexivity| | |].
    + destruct C as [C S1]. inversion M as [? ? ? B|? ? ? w1 a1 C1 M1]; subst; [destruct (bad_not_called _ _ _ _ B C)|].
      pose proof (called_once _ _ _ _ _ C C1) as [= <- <-]. rewrite (IH h1 S1 M1). reflexivity.
    + exfalso. inversion M as [? ? ? B|? ? ? w1 a1 C1 M1]; subst; [exact (bad_not_called _ _ _ _ B C)|]. pose proof (called_once _ _ _ _ _ C C1). discriminate.
    + exfalso. inversion M as [? ? ? B|? ? ? w1 a1 C1 M1]; subst; [exact (bad_not_called _ _ _ _ B C)|]. pose proof (called_once _ _ _ _ _ C C1). discriminate.
Qed.

(** From an empty heap, sequences that use boxes only between their creation and their
    drop are never undefined, and the pointer of every box then alive leads to the
    report manager inside that same box. *)
Theorem C77_pointer : forall p cs, ~ misused p [] cs ->
  exists o, calls_at p [] cs = Defined o /\
  forall h a l n rm, o = Ret (h, a) -> nth_error h l = Some (Live n rm) -> rm = Some l /\ deref_rm h rm = Defined (Ret (ng_rm n)).
Proof.
  intros p cs M. assert (S0 : self_pointing []) by (intros [|l] n rm E; discriminate).
  pose proof (C77_calls p cs [] S0) as C. change (forget []) with (@nil (option ng)) in C.
  destruct (calls_at p [] cs) as [|o]; [contradiction|]. exists o. split; [reflexivity|].
  intros h a l n rm -> E. destruct C as [_ S]. assert (rm = Some l) by (eapply S; eauto). subst rm. split; [reflexivity|].
  unfold deref_rm, load. rewrite E. reflexivity.
Qed.

(** Compiling with the box is compiling without it, whatever else is on the heap; the
    rest of the heap is left alone, and the one box made is dropped again. *)
Theorem C77_compile : forall p h es fs ids m g,
  compile_multi_int_at p h es fs ids m g =
  Defined (let! r := compile_multi_int p es fs ids m g in
    Ret (if (match es with [] => true | _ => false end) || (limit_pattern_count g <? N.of_nat (List.length es))%N then h else h ++ [Freed], r)).
Proof.
  intros p h es fs ids m g. unfold compile_multi_int_at, compile_multi_int. destruct es as [|e es]; [reflexivity|]. cbv zeta. cbn [orb].
  destruct (_ <? _)%N; [reflexivity|]. unfold box_new. cbv zeta. unfold store_pointer. rewrite upd_end.
  set (n0 := ng_new _ _ _). set (l := List.length h). set (h1 := h ++ [_]).
  assert (E : nth_error h1 l = Some (Live n0 (Some l))) by (unfold h1, l; rewrite nth_error_app2, Nat.sub_diag by lia; reflexivity).
  assert (D : forall n', box_drop (store h1 l n') l = Defined (Ret (h ++ [Freed]))).
  { intro n'. unfold box_drop. rewrite (store_live _ _ _ _ _ E). do 2 f_equal. unfold store, h1, l. rewrite upd_end, upd_end. reflexivity. }
  pose proof (all_in_place p (zip3 (e :: es) fs ids) h1 l n0 (Some l) 0%N E) as A.
  destruct (add_all p n0 0%N (zip3 (e :: es) fs ids)) as [[n'|er]|w|]; cbn [bindr bind].
  - rewrite A. cbn [mbind]. unfold build_at. rewrite (store_load _ _ _ _ n' E). cbn [mbind]. rewrite D. reflexivity.
  - destruct A as (n' & A). rewrite A. cbn [mbind]. rewrite D. reflexivity.
  - rewrite A. reflexivity.
  - rewrite A. reflexivity.
Qed.

(** Why the value has to stay where it is: moved to another place, with the pointer
    copied along, the pointer would lead to freed memory, and the next look at a report
    would be undefined. *)
Definition move_box (h : heap) (l : nat) : heap :=
  match nth_error h l with
  | Some c => list_upd h l (fun _ => Freed) ++ [c]
  | None => h
  end.
Theorem C77_move : forall p h l n rm g ei id t, self_pointing h -> nth_error h l = Some (Live n rm) ->
  sw_poisoned (ng_smwr n) = false -> ex_som ei = SomNone -> is_vacuous g = false -> all_reports g = Ret (id :: t) ->
  call_at p h (CSmallWrite l g ei) <> Undefined /\
  call_at p (move_box h l) (CSmallWrite (List.length h) g ei) = Undefined.
Proof.
  intros p h l n rm g ei id t S E Po So Va Al. assert (rm = Some l) by (eapply S; eauto). subst rm. split.
  - cbn [call_at]. rewrite (small_write_in_place h l n _ g ei S E).
    destruct (smwr_add_expression (ng_rm n) (ng_smwr n) g ei); cbn [bind mbind]; discriminate.
  - unfold move_box. rewrite E. cbn [call_at]. unfold smwr_add_expression_at. rewrite nth_error_app2, upd_len, Nat.sub_diag by (rewrite upd_len; lia). cbn [nth_error]. cbv zeta.
    rewrite Po, So, Va, Al. cbn [mbind any_min_length_at]. unfold deref_rm, load. rewrite nth_error_app1 by (rewrite upd_len; apply nth_error_Some; congruence).
    rewrite upd_at, E. reflexivity.
Qed.

(** Two boxes at once; a literal goes into the second, the first is dropped, and the
    small-write builder of the second is given a graph that reports that literal.  It
    looks the report up and stops at [unimplemented!]; had the second box moved, the
    look-up would have been undefined, as it is after the drop. *)
Definition reporting_holder : ng_holder :=
  NgHolder (Graph [vertex_default; vertex_default; vertex_default; vertex_default; VertexProps cr_default [0%N] 0%N] [(0, 1); (4, 2)]%N) 0 1 2 3.
Definition plain_info : expression_info := ExpressionInfo 0 9 false false false false SomNone false.
Definition sample_context : compile_context := CompileContext false false grey_default.
Definition sample_calls : list box_call :=
  [CNew sample_context 1 0; CNew sample_context 2 0; CExpression 1 0 (lit "ab") 0%N 9; CDrop 0].
Example C77_case : exists n, calls_at release [] sample_calls = Defined (Ret ([Freed; Live n (Some 1%nat)], [ABox 0; ABox 1; AExpression (ROk tt); ANothing])) /\
  num_reports (ng_rm n) = 1%N /\ sw_poisoned (ng_smwr n) = false /\ is_vacuous reporting_holder = false /\ all_reports reporting_holder = Ret [0%N] /\
  calls_at release [] (sample_calls ++ [CSmallWrite 1 reporting_holder plain_info]) = Defined (Panic PUnimplemented) /\
  call_at release (move_box [Freed; Live n (Some 1%nat)] 1) (CSmallWrite 2 reporting_holder plain_info) = Undefined /\
  ~ misused release [] sample_calls /\
  misused release [] (sample_calls ++ [CSmallWrite 0 reporting_holder plain_info]).
Proof.
  eexists. split; [vm_compute; reflexivity|]. do 6 (split; [vm_compute; reflexivity|]).
  assert (S0 : self_pointing []) by (intros [|l] n rm E; discriminate). split.
  - intro M. apply (C77_misuse release sample_calls [] S0) in M. vm_compute in M. discriminate M.
  - apply (C77_misuse release (sample_calls ++ [CSmallWrite 0 reporting_holder plain_info]) [] S0). vm_compute. reflexivity.
Qed.
Print Assumptions C77_call. Print Assumptions C77_calls. Print Assumptions C77_misuse. Print Assumptions C77_pointer. Print Assumptions C77_compile. Print Assumptions C77_move.
