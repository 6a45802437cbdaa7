(** Properties C33 and C34: literals. *)
From Verif Require Import Base ModelUtil ModelLiteral SpecSet ModelBitField ProofBase ProofLiteral.
Local Open Scope N_scope.

(** ** C33 *)
Theorem C33_mixed_sensitivity : forall l, mixed_sensitivity (lit_iter l) = true <->
  (exists i c, nth_error (lit_s l) i = Some c /\ nth_error (lit_nocase l) i = Some true /\ is_letter c) /\
  (exists j c, nth_error (lit_s l) j = Some c /\ nth_error (lit_nocase l) j = Some false /\ is_letter c).
Proof.
  intro l. rewrite lit_iter_ok, mixed_ok. split; intros [A B]; split.
  - destruct B as (e & I & L & N). apply pairs_nth in I. destruct I as (i & I1 & I2). rewrite N in I2. eauto.
  - destruct A as (e & I & L & N). apply pairs_nth in I. destruct I as (i & I1 & I2). rewrite N in I2. eauto.
  - destruct B as (i & c & I1 & I2 & L). exists (LitElem c false). split; [apply pairs_nth; eauto|auto].
  - destruct A as (i & c & I1 & I2 & L). exists (LitElem c true). split; [apply pairs_nth; eauto|auto].
Qed.
(** Building a literal by pushes keeps bytes and flags together and upper-cases
    exactly the flagged letters; the length, emptiness and any-nocase queries
    agree with what was pushed. *)
Fixpoint push_all (l : literal) (es : list (N * bool)) : literal :=
  match es with [] => l | (c, n) :: t => push_all (lit_push l c n) t end.
Theorem C33_pushed : forall es,
  let l := push_all lit_default es in
  lit_iter l = map (fun x : N * bool => LitElem (if snd x then upper_case (fst x) else fst x) (snd x)) es /\
  lit_len l = N.of_nat (List.length es) /\ (lit_is_empty l = true <-> es = []) /\
  (lit_any_nocase l = true <-> exists c, In (c, true) es).
Proof.
  intro es. assert (G : forall l, push_all l es =
    Literal (lit_s l ++ map (fun x : N * bool => if snd x then upper_case (fst x) else fst x) es) (lit_nocase l ++ map snd es)).
  { induction es as [|[c n] es IH]; intro l; cbn [push_all map fst snd].
    - rewrite !app_nil_r. destruct l; reflexivity.
    - rewrite IH. unfold lit_push. cbn [lit_s lit_nocase]. rewrite <- !app_assoc. reflexivity. }
  cbv zeta. rewrite G. cbn [lit_s lit_nocase lit_default app]. conjs.
  - rewrite lit_iter_ok. unfold pairs_of. cbn [lit_s lit_nocase]. clear G.
    induction es as [|[c n] es IH]; cbn [map combine fst snd]; [reflexivity|]. f_equal. exact IH.
  - unfold lit_len. cbn [lit_s]. rewrite map_length. reflexivity.
  - unfold lit_is_empty. cbn [lit_s]. destruct es; simpl; split; congruence.
  - unfold lit_any_nocase. cbn [lit_nocase]. rewrite existsb_exists. split.
    + intros (x & I & ->). apply in_map_iff in I. destruct I as ([c n] & E & I). simpl in E. subst. eauto.
    + intros (c & I). exists true. split; [|reflexivity]. apply in_map_iff. exists (c, true). auto.
Qed.
Example C33_case : mixed_sensitivity (lit_iter (push_all lit_default [(97, true); (46, false); (98, false)])) = true
  /\ mixed_sensitivity (lit_iter (push_all lit_default [(97, true); (46, false); (98, true)])) = false
  /\ lit_s (push_all lit_default [(97, true); (46, false); (98, false)]) = [65; 46; 98].
Proof. vm_compute. auto. Qed.

(** ** C34 *)
Theorem C34_order : forall a b c,
  (lit_cmp a b = Eq <-> a = b) /\ lit_cmp b a = CompOpp (lit_cmp a b) /\
  (lit_cmp a b = Lt -> lit_cmp b c = Lt -> lit_cmp a c = Lt).
Proof. intros a b c. conjs; [apply lit_cmp_eq|apply lit_cmp_sym|apply lit_cmp_trans]. Qed.
(** Which order it is: the bytes decide, lexicographically, and between equal bytes
    the case flags, a case-sensitive byte coming before a caseless one. *)
Definition lex_before {A} (before : A -> A -> Prop) (a b : list A) : Prop :=
  (exists x t, b = a ++ x :: t) \/ exists q x y u v, a = q ++ x :: u /\ b = q ++ y :: v /\ before x y.
Lemma lex_lt_iff : forall {A} (cmp : A -> A -> comparison) (before : A -> A -> Prop),
  (forall a b, cmp a b = Eq <-> a = b) -> (forall a b, cmp a b = Lt <-> before a b) -> forall a b, lex_cmp cmp a b = Lt <-> lex_before before a b.
Proof.
  intros A cmp before Ce Cl. assert (Nb : forall x, ~ before x x) by (intros x Z; apply Cl in Z; rewrite (proj2 (Ce x x) eq_refl) in Z; discriminate Z).
  assert (Nil : forall b, ~ lex_before before b []) by (intros b [(x & t & Z)|(q & x & y & u & v & _ & Z & _)]; [destruct b|destruct q]; discriminate Z).
  assert (Step : forall x a b, lex_before before (x :: a) (x :: b) <-> lex_before before a b).
  { intros x a b. split.
    - intros [(y & t & Z)|(q & y & z & u & v & Ea & Eb & Z)]; [injection Z as ->; left; eauto|]. destruct q as [|q0 q]; cbn in Ea, Eb.
      + injection Ea as <- <-. injection Eb as <- <-. destruct (Nb _ Z).
      + injection Ea as <- ->. injection Eb as ->. right. exists q, y, z, u, v. auto.
    - intros [(y & t & ->)|(q & y & z & u & v & -> & -> & Z)]; [left; exists y, t; reflexivity|]. right. exists (x :: q), y, z, u, v. auto. }
  induction a as [|x a IH]; intros [|y b]; cbn [lex_cmp].
  - split; [discriminate|]. intro Z. destruct (Nil _ Z).
  - split; [intros _; left; exists y, b; reflexivity|reflexivity].
  - split; [discriminate|]. intro Z. destruct (Nil _ Z).
  - destruct (cmp x y) eqn:C.
    + apply Ce in C. subst y. rewrite Step. apply IH.
    + split; [|reflexivity]. intros _. right. exists [], x, y, a, b. apply Cl in C. auto.
    + split; [discriminate|]. intros [(z & t & Z)|(q & z & w & u & v & Ea & Eb & Z)].
      * injection Z as <- _. rewrite (proj2 (Ce y y) eq_refl) in C. discriminate C.
      * destruct q as [|q0 q]; cbn in Ea, Eb; injection Ea as <- _; injection Eb as <- _; [apply Cl in Z; congruence|]. rewrite (proj2 (Ce _ _) eq_refl) in C. discriminate C.
Qed.
Theorem C34_which_order : forall a b, lit_cmp a b = Lt <->
  lex_before N.lt (lit_s a) (lit_s b) \/ (lit_s a = lit_s b /\ lex_before (fun x y => x = false /\ y = true) (lit_nocase a) (lit_nocase b)).
Proof.
  intros a b. assert (Hs : lex_cmp N.compare (lit_s a) (lit_s b) = Lt <-> lex_before N.lt (lit_s a) (lit_s b)) by (apply lex_lt_iff; [apply N.compare_eq_iff|intros x y; apply N.compare_lt_iff]).
  assert (Hb : lex_cmp bool_cmp (lit_nocase a) (lit_nocase b) = Lt <-> lex_before (fun x y => x = false /\ y = true) (lit_nocase a) (lit_nocase b)) by (apply lex_lt_iff; intros [] []; cbn; intuition discriminate).
  rewrite <- Hs, <- Hb. unfold lit_cmp. assert (He : lex_cmp N.compare (lit_s a) (lit_s b) = Eq <-> lit_s a = lit_s b).
  { generalize (lit_s a) (lit_s b). clear. induction l as [|x l IH]; intros [|y k]; cbn; try (split; (discriminate || reflexivity)). destruct (N.compare_spec x y) as [->|L|L].
    - rewrite IH. split; congruence.
    - split; [discriminate|]. intros [= -> _]. lia.
    - split; [discriminate|]. intros [= -> _]. lia. }
  destruct (lex_cmp N.compare (lit_s a) (lit_s b)) eqn:C.
  - intuition discriminate.
  - split; [auto|reflexivity].
  - split; [discriminate|]. intros [Z|[Z _]]; [discriminate Z|]. apply He in Z. discriminate Z.
Qed.
Theorem C34_refuted : exists a b, lit_eq a b = true /\ lit_cmp a b <> Eq.
Proof. exists (Literal [65] [false]), (Literal [65] [true]). vm_compute. split; congruence. Qed.
(** [==] compares the bytes only; it agrees with the order exactly when the case
    flags agree as well. *)
Theorem C34_equality_partial : forall a b,
  (lit_eq a b = true <-> lit_s a = lit_s b) /\
  (lit_cmp a b = Eq -> lit_eq a b = true) /\
  (lit_eq a b = true -> (lit_cmp a b = Eq <-> lit_nocase a = lit_nocase b)).
Proof.
  intros a b. unfold lit_eq. rewrite listN_eqb_ok, lit_cmp_eq. conjs; [reflexivity|congruence|].
  destruct a, b; cbn. intros ->. split; congruence.
Qed.
Example C34_case : lit_cmp (Literal [65; 66] [false; true]) (Literal [65] [true]) = Gt.
Proof. reflexivity. Qed.

Print Assumptions C33_mixed_sensitivity. Print Assumptions C33_pushed.
Print Assumptions C34_order. Print Assumptions C34_which_order. Print Assumptions C34_refuted. Print Assumptions C34_equality_partial.
