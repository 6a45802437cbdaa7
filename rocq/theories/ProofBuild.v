(** Lemmas about the outcomes of all functions in two builds. *)
From Verif Require Import Base ModelUtil ModelBitField ModelCharReach ModelLiteral ModelReport ModelPetgraph ModelParser ModelNfa ModelSmallWrite ModelCompiler ModelDump
  SpecBuild ProofBase ProofTree ProofShortcut.
Local Open Scope N_scope.
Local Open Scope list_scope.

Lemma agrees_refl : forall {A} (o : outcome A), agrees o o.
Proof. intros A o. left. reflexivity. Qed.
Lemma agrees_bind : forall {A B} (a a' : outcome A) (f f' : A -> outcome B), agrees a a' -> (forall x, agrees (f x) (f' x)) -> agrees (bind a f) (bind a' f').
Proof.
  intros A B a a' f f' [->|[->| ->]] H; [|right; left; reflexivity|right; right; reflexivity]. destruct a' as [x|w|]; cbn [bind]; [apply H|left; reflexivity|left; reflexivity].
Qed.
Lemma agrees_bindr : forall {E A B} (a a' : outcome (result E A)) (f f' : A -> outcome (result E B)), agrees a a' -> (forall x, agrees (f x) (f' x)) -> agrees (bindr a f) (bindr a' f').
Proof.
  intros E A B a a' f f' [->|[->| ->]] H; [|right; left; reflexivity|right; right; reflexivity]. destruct a' as [[x|e]|w|]; cbn [bindr]; [apply H| | |]; left; reflexivity.
Qed.
Ltac agr := repeat (intros; match goal with
  | |- agrees ?x ?x => apply agrees_refl
  | |- agrees (bind _ _) (bind _ _) => apply agrees_bind
  | |- agrees (bindr _ _) (bindr _ _) => apply agrees_bindr
  | |- agrees (match ?x with _ => _ end) (match ?x with _ => _ end) => destruct x
  | |- agrees _ _ => solve [auto with agr]
  end).

Section TwoBuilds.
  Context (q p : profile) (F : fewer_checks q p).

  Lemma agr_debug_assert : forall b, agrees (rs_debug_assert p b) (rs_debug_assert q b).
  Proof.
    intro b. destruct F as (_ & D & _). unfold rs_debug_assert, agrees. destruct b; cbn [negb]; [rewrite !andb_false_r; auto|]. rewrite !andb_true_r.
    destruct (debug_assertions p), (debug_assertions q); auto. discriminate (D eq_refl).
  Qed.
  Lemma agr_debug_assert_m : forall m m', agrees m m' -> (exists b, m = Ret b) \/ m = Panic POverflow -> agrees (rs_debug_assert_m p m) (rs_debug_assert_m q m').
  Proof.
    intros m m' A S. destruct F as (_ & D & _). unfold rs_debug_assert_m. destruct (debug_assertions p) eqn:Dp, (debug_assertions q) eqn:Dq.
    - apply agrees_bind; [exact A|]. intro b. apply agrees_refl.
    - destruct S as [(b & ->)| ->]; cbn [bind]; unfold agrees; [destruct b|]; auto.
    - discriminate (D eq_refl).
    - apply agrees_refl.
  Qed.
  Lemma chk_add_soft : forall w a b, (exists x, chk_add p w a b = Ret x) \/ chk_add p w a b = Panic POverflow.
  Proof. intros. unfold chk_add. destruct (_ <? _); eauto. destruct (overflow_checks p); eauto. Qed.
  Lemma chk_sub_soft : forall w a b, (exists x, chk_sub p w a b = Ret x) \/ chk_sub p w a b = Panic POverflow.
  Proof. intros. unfold chk_sub. destruct (_ <=? _); eauto. destruct (overflow_checks p); eauto. Qed.
  Lemma chk_add_byte : forall a b x, chk_add p 8 a b = Ret x -> x < 256.
  Proof. intros a b x. unfold chk_add. change (2 ^ 8) with 256. destruct (N.ltb_spec (a + b) 256); [intros [= <-]; lia|]. destruct (overflow_checks p); [discriminate|]. intros [= <-]. apply N.mod_lt. discriminate. Qed.
  Lemma agr_chk_add : forall w a b, agrees (chk_add p w a b) (chk_add q w a b).
  Proof. intros w a b. destruct F as [O _]. unfold chk_add, agrees. destruct (_ <? _); auto. destruct (overflow_checks p), (overflow_checks q); auto; discriminate (O eq_refl). Qed.
  Lemma agr_chk_sub : forall w a b, agrees (chk_sub p w a b) (chk_sub q w a b).
  Proof. intros w a b. destruct F as [O _]. unfold chk_sub, agrees. destruct (_ <=? _); auto. destruct (overflow_checks p), (overflow_checks q); auto; discriminate (O eq_refl). Qed.
  Lemma agr_chk_mul : forall w a b, agrees (chk_mul p w a b) (chk_mul q w a b).
  Proof. intros w a b. destruct F as [O _]. unfold chk_mul, agrees. destruct (_ <? _); auto. destruct (overflow_checks p), (overflow_checks q); auto; discriminate (O eq_refl). Qed.
  Lemma agr_chk_shl : forall w a b, agrees (chk_shl p w a b) (chk_shl q w a b).
  Proof. intros w a b. destruct F as [O _]. unfold chk_shl, agrees. destruct (_ <? _); auto. destruct (overflow_checks p), (overflow_checks q); auto; discriminate (O eq_refl). Qed.
  Lemma same_usize : usize_bits q = usize_bits p.
  Proof. destruct F as (_ & _ & T). unfold usize_bits. rewrite T. reflexivity. Qed.
  Lemma agr_usize_add : forall a b, agrees (chk_add p (usize_bits p) a b) (chk_add q (usize_bits q) a b).
  Proof. intros a b. rewrite same_usize. apply agr_chk_add. Qed.
  Lemma agr_usize_sub : forall a b, agrees (chk_sub p (usize_bits p) a b) (chk_sub q (usize_bits q) a b).
  Proof. intros a b. rewrite same_usize. apply agr_chk_sub. Qed.
  Hint Resolve agr_debug_assert agr_chk_add agr_chk_sub agr_chk_mul agr_chk_shl agr_usize_add agr_usize_sub : agr.

  (** *** Helpers and bit fields *)
  Lemma agr_round_up_16 : forall w a, agrees (round_up_16 p w a) (round_up_16 q w a).
  Proof. intros. unfold round_up_16. agr. Qed.
  Lemma agr_round_up_n : forall w a n, agrees (round_up_n p w a n) (round_up_n q w a n).
  Proof. intros. unfold round_up_n. agr. Qed.
  Lemma agr_usize_round_up_n : forall a n, agrees (round_up_n p (usize_bits p) a n) (round_up_n q (usize_bits q) a n).
  Proof. intros. rewrite same_usize. apply agr_round_up_n. Qed.
  Lemma agr_round_down_n : forall a n, agrees (round_down_n p a n) (round_down_n q a n).
  Proof. intros. unfold round_down_n. agr. Qed.
  Lemma agr_round_up_cache_line : forall w a, agrees (round_up_cache_line p w a) (round_up_cache_line q w a).
  Proof. intros. unfold round_up_cache_line. agr. Qed.
  Lemma agr_set_expression_index : forall e i, agrees (set_expression_index p e i) (set_expression_index q e i).
  Proof. intros. unfold set_expression_index. agr. Qed.
  Lemma agr_mask_bit : forall n, agrees (mask_bit p n) (mask_bit q n).
  Proof. intros. unfold mask_bit. agr. Qed.
  Hint Resolve agr_round_up_n agr_usize_round_up_n agr_set_expression_index agr_mask_bit : agr.
  Lemma agr_bf_reset : forall b n, agrees (bf_reset p b n) (bf_reset q b n).
  Proof. intros. unfold bf_reset. agr. Qed.
  Lemma agr_bf_set : forall b n, agrees (bf_set p b n) (bf_set q b n).
  Proof. intros. unfold bf_set. agr. Qed.
  Lemma agr_bf_test : forall b n, agrees (bf_test p b n) (bf_test q b n).
  Proof. intros. unfold bf_test. agr. Qed.
  Lemma agr_bf_flip : forall b n, agrees (bf_flip p b n) (bf_flip q b n).
  Proof. intros. unfold bf_flip. agr. Qed.
  Lemma agr_set_range_loop : forall fuel b i to, agrees (set_range_loop p fuel b i to) (set_range_loop q fuel b i to).
  Proof. induction fuel as [|f IH]; intros; cbn [set_range_loop]; agr. Qed.
  Hint Resolve agr_bf_reset agr_bf_set agr_bf_test agr_bf_flip agr_set_range_loop : agr.
  Lemma agr_bf_set_range : forall b from to, agrees (bf_set_range p b from to) (bf_set_range q b from to).
  Proof.
    intros. unfold bf_set_range. agr.
    apply agr_debug_assert_m; [agr|]. match goal with |- context [chk_sub p ?w ?a ?b] => destruct (chk_sub_soft w a b) as [(d & ->)| ->] end; cbn [bind]; [|auto].
    destruct (chk_add_soft (usize_bits p) d 1) as [(d1 & ->)| ->]; cbn [bind]; eauto.
  Qed.
  Lemma agr_bit_index : forall i x, agrees (bit_index p i x) (bit_index q i x).
  Proof. intros. unfold bit_index. agr. Qed.
  Hint Resolve agr_bf_set_range agr_bit_index : agr.
  Lemma agr_first_nonzero : forall l i, agrees (first_nonzero p i l) (first_nonzero q i l).
  Proof. induction l as [|x l IH]; intros; cbn [first_nonzero]; agr. Qed.
  Hint Resolve agr_first_nonzero : agr.
  Lemma agr_bf_find_first : forall b, agrees (bf_find_first p b) (bf_find_first q b).
  Proof. intros. unfold bf_find_first. agr. Qed.
  Lemma agr_last_nonzero : forall l i, agrees (last_nonzero p i l) (last_nonzero q i l).
  Proof. induction l as [|x l IH]; intros; cbn [last_nonzero]; agr. Qed.
  Hint Resolve agr_last_nonzero : agr.
  Lemma agr_bf_find_last : forall b, agrees (bf_find_last p b) (bf_find_last q b).
  Proof. intros. unfold bf_find_last. agr. Qed.
  Lemma agr_bf_find_next : forall b l, agrees (bf_find_next p b l) (bf_find_next q b l).
  Proof. intros. unfold bf_find_next. agr. Qed.
  Lemma agr_drop_low_bits : forall k b, agrees (drop_low_bits p k b) (drop_low_bits q k b).
  Proof. induction k as [|k IH]; intros; cbn [drop_low_bits]; agr. Qed.
  Hint Resolve agr_drop_low_bits : agr.
  Lemma agr_find_nth_loop : forall l whole n i sum, agrees (find_nth_loop p whole n i sum l) (find_nth_loop q whole n i sum l).
  Proof.
    induction l as [|x l IH]; intros; cbn [find_nth_loop]; [agr|]. apply agrees_bind; [agr|]. intro asum. destruct (n <? asum); [|auto]. apply agrees_bind; [agr|]. intro block.
    apply agrees_bind; [agr|]. intros _. pose proof (agr_bit_index (cast 8 i) block) as B. destruct B as [B|[B|B]]; [|rewrite B; right; left; reflexivity|rewrite B; right; right; reflexivity].
    rewrite <- B. destruct (bit_index p (cast 8 i) block) as [bit|w|] eqn:Eb; cbn [bind]; try apply agrees_refl. apply agrees_bind; [|intro; agr].
    apply agr_debug_assert_m; [agr|]. assert (bit < 256). { unfold bit_index in Eb. destruct (chk_mul p 8 (cast 8 i) BLOCK_SIZE); cbn [bind] in Eb; try discriminate Eb. eapply chk_add_byte. exact Eb. }
    unfold bf_test, get_word, mask_bit. change BLOCK_SIZE with 64. assert (Lb : bit / 64 < 4) by (apply N.div_lt_upper_bound; lia).
    assert (Gb : exists y, get_block whole (bit / 64) = Ret y).
    { unfold get_block, words. destruct (bit / 64) as [|[[|[]|]|[|[]|]|]]; cbn; eauto; lia. }
    destruct Gb as (y & ->). cbn [bind]. unfold chk_shl. replace (bit mod 64 <? 64) with true by (symmetry; apply N.ltb_lt, N.mod_lt; discriminate). cbn [bind]. eauto.
  Qed.
  Lemma agr_bf_find_nth : forall b n, agrees (bf_find_nth p b n) (bf_find_nth q b n).
  Proof. intros. apply agr_find_nth_loop. Qed.
  Hint Resolve agr_bf_find_first agr_bf_find_last agr_bf_find_next agr_bf_find_nth : agr.

  (** *** Classes *)
  Lemma agr_cr_reset : forall b n, agrees (cr_reset p b n) (cr_reset q b n).
  Proof. intros. unfold cr_reset. agr. Qed.
  Lemma agr_cr_set : forall b n, agrees (cr_set p b n) (cr_set q b n).
  Proof. intros. unfold cr_set. agr. Qed.
  Lemma agr_cr_test : forall b n, agrees (cr_test p b n) (cr_test q b n).
  Proof. intros. unfold cr_test. agr. Qed.
  Lemma agr_cr_flip : forall b n, agrees (cr_flip p b n) (cr_flip q b n).
  Proof. intros. unfold cr_flip. agr. Qed.
  Lemma agr_cr_set_range : forall b i j, agrees (cr_set_range p b i j) (cr_set_range q b i j).
  Proof. intros. unfold cr_set_range. agr. Qed.
  Lemma agr_cr_find_first : forall b, agrees (cr_find_first p b) (cr_find_first q b).
  Proof. intros. unfold cr_find_first. agr. Qed.
  Lemma agr_cr_find_last : forall b, agrees (cr_find_last p b) (cr_find_last q b).
  Proof. intros. unfold cr_find_last. agr. Qed.
  Lemma agr_cr_find_next : forall b n, agrees (cr_find_next p b n) (cr_find_next q b n).
  Proof. intros. unfold cr_find_next. agr. Qed.
  Lemma agr_cr_find_nth : forall b n, agrees (cr_find_nth p b n) (cr_find_nth q b n).
  Proof. intros. unfold cr_find_nth. agr. Qed.
  Hint Resolve agr_cr_reset agr_cr_set agr_cr_test agr_cr_flip agr_cr_set_range agr_cr_find_first agr_cr_find_last agr_cr_find_next agr_cr_find_nth : agr.
  Lemma agr_cr_set_bytes : forall l b, agrees (cr_set_bytes p b l) (cr_set_bytes q b l).
  Proof. induction l as [|x l IH]; intros; cbn [cr_set_bytes]; agr. Qed.
  Hint Resolve agr_cr_set_bytes : agr.
  Lemma agr_cr_from_char : forall c, agrees (cr_from_char p c) (cr_from_char q c).
  Proof. intros. unfold cr_from_char. agr. Qed.
  Lemma agr_cr_from_range : forall i j, agrees (cr_from_range p i j) (cr_from_range q i j).
  Proof. intros. unfold cr_from_range. agr. Qed.
  Lemma agr_cr_from_bytes : forall l, agrees (cr_from_bytes p l) (cr_from_bytes q l).
  Proof. intros. unfold cr_from_bytes. agr. Qed.
  Hint Resolve agr_cr_from_char agr_cr_from_range agr_cr_from_bytes : agr.
  Lemma agr_cr_dot : agrees (cr_dot p) (cr_dot q).
  Proof. unfold cr_dot. agr. Qed.
  Lemma agr_iter_loop : forall {A R} (fp fq : A -> N -> outcome (A + R)) cr, (forall a c, agrees (fp a c) (fq a c)) -> forall fuel next acc, agrees (iter_loop p fuel cr fp next acc) (iter_loop q fuel cr fq next acc).
  Proof.
    intros A R fp fq cr B. induction fuel as [|f IH]; intros next acc; cbn [iter_loop]; [apply agrees_refl|]. destruct next as [pos|]; [|apply agrees_refl].
    apply agrees_bind; [apply B|]. intros [a'|x]; [|apply agrees_refl]. apply agrees_bind; [apply agr_cr_find_next|]. intro n'. apply IH.
  Qed.
  Hint Extern 1 (agrees (iter_loop _ _ _ _ _ _) (iter_loop _ _ _ _ _ _)) => apply agr_iter_loop; agr : agr.
  Lemma agr_cr_is_alphabetic : forall b, agrees (cr_is_alphabetic p b) (cr_is_alphabetic q b).
  Proof. intros. unfold cr_is_alphabetic. agr. Qed.
  Lemma agr_cr_is_caseless_char : forall b, agrees (cr_is_caseless_char p b) (cr_is_caseless_char q b).
  Proof. intros. unfold cr_is_caseless_char. agr. Qed.
  Lemma agr_cr_is_bit5_insensitive : forall b, agrees (cr_is_bit5_insensitive p b) (cr_is_bit5_insensitive q b).
  Proof. intros. unfold cr_is_bit5_insensitive. agr. Qed.
  Lemma agr_cr_is_ascii : forall b, agrees (cr_is_ascii p b) (cr_is_ascii q b).
  Proof. intros. unfold cr_is_ascii. agr. Qed.
  Lemma agr_cr_is_utf8_start : forall b, agrees (cr_is_utf8_start p b) (cr_is_utf8_start q b).
  Proof. intros. unfold cr_is_utf8_start. agr. Qed.
  Lemma agr_cr_display : forall b, agrees (cr_display p b) (cr_display q b).
  Proof. intros. unfold cr_display. agr. Qed.
  Hint Resolve agr_cr_is_caseless_char : agr.
  Lemma agr_make_caseless_loop : forall l b, agrees (make_caseless_loop p l b) (make_caseless_loop q l b).
  Proof. induction l as [|x l IH]; intros; cbn [make_caseless_loop]; agr. Qed.
  Hint Resolve agr_make_caseless_loop : agr.
  Lemma agr_make_caseless : forall b, agrees (make_caseless p b) (make_caseless q b).
  Proof. intros. unfold make_caseless. agr. Qed.
  Hint Resolve agr_make_caseless : agr.
  Lemma agr_slice_upd : forall bits i fp fq, (forall x, agrees (fp x) (fq x)) -> agrees (slice_upd bits i fp) (slice_upd bits i fq).
  Proof. intros. unfold slice_upd. agr. Qed.
  Hint Extern 1 (agrees (slice_upd _ _ _) (slice_upd _ _ _)) => apply agr_slice_upd; agr : agr.
  Lemma agr_fill_bitvector : forall b bits, agrees (fill_bitvector p b bits) (fill_bitvector q b bits).
  Proof. intros. unfold fill_bitvector. agr. Qed.
  Lemma agr_make_and_cmp_mask : forall b, agrees (make_and_cmp_mask p b) (make_and_cmp_mask q b).
  Proof. intros. unfold make_and_cmp_mask. agr. Qed.

  (** *** The parser *)
  Lemma agr_ac_add : forall k c, agrees (ac_add p k c) (ac_add q k c).
  Proof. intros. unfold ac_add. agr. Qed.
  Hint Resolve agr_ac_add : agr.
  Lemma agr_class_add : forall k c, agrees (class_add p k c) (class_add q k c).
  Proof. intros. unfold class_add. agr. Qed.
  Hint Resolve agr_class_add : agr.
  Lemma agr_get_literal_component_class : forall c b, agrees (get_literal_component_class p c b) (get_literal_component_class q c b).
  Proof. intros. unfold get_literal_component_class. agr. Qed.
  Hint Resolve agr_get_literal_component_class : agr.
  Lemma agr_finalize : forall s, agrees (finalize p s) (finalize q s).
  Proof. intros. unfold finalize. agr. Qed.
  Hint Resolve agr_finalize : agr.
  Lemma agr_read_control_verbs : forall s n m, agrees (read_control_verbs p s n m) (read_control_verbs q s n m).
  Proof. intros. unfold read_control_verbs. agr. Qed.
  Hint Resolve agr_read_control_verbs : agr.
  Lemma agr_add_literal : forall s c m, agrees (add_literal p s c m) (add_literal q s c m).
  Proof. intros. unfold add_literal. agr. Qed.
  Hint Resolve agr_add_literal : agr.
  Lemma agr_push_sequence : forall cx ts, agrees (push_sequence p cx ts) (push_sequence q cx ts).
  Proof. intros. unfold push_sequence. agr. Qed.
  Hint Resolve agr_push_sequence : agr.
  Lemma agr_pop_sequence : forall cx, agrees (pop_sequence p cx) (pop_sequence q cx).
  Proof. intros. unfold pop_sequence. agr. Qed.
  Hint Resolve agr_pop_sequence : agr.
  Lemma agr_enter_capturing_group : forall cx ts, agrees (enter_capturing_group p cx ts) (enter_capturing_group q cx ts).
  Proof. intros. unfold enter_capturing_group. agr. Qed.
  Hint Resolve agr_enter_capturing_group : agr.
  Lemma agr_exit_group : forall cx, agrees (exit_group p cx) (exit_group q cx).
  Proof. intros. unfold exit_group. agr. Qed.
  Hint Resolve agr_exit_group : agr.
  Lemma agr_cx_main : forall cx ts, agrees (cx_main p cx ts) (cx_main q cx ts).
  Proof. intros. unfold cx_main. agr. Qed.
  Hint Resolve agr_cx_main : agr.
  Lemma agr_cx_loop : forall fuel cx, agrees (cx_loop p fuel cx) (cx_loop q fuel cx).
  Proof. induction fuel as [|f IH]; intros; cbn [cx_loop]; agr. Qed.
  Hint Resolve agr_cx_loop : agr.
  Lemma agr_cx_parse : forall cx, agrees (cx_parse p cx) (cx_parse q cx).
  Proof. intros. unfold cx_parse. agr. Qed.
  Hint Resolve agr_cx_parse : agr.
  Lemma agr_parse : forall t m, agrees (parse p t m) (parse q t m).
  Proof. intros. unfold parse. agr. Qed.
  Hint Resolve agr_parse : agr.

  (** *** Walks *)
  Definition same_hooks {V E} (a b : visitor V E) : Prop :=
    (forall v k, agrees (pre_class a v k) (pre_class b v k)) /\ (forall v l, agrees (pre_alternation a v l) (pre_alternation b v l)) /\ (forall v s, agrees (pre_sequence a v s) (pre_sequence b v s)) /\
    (forall v k, during_class a v k = during_class b v k) /\ (forall v l, during_alternation a v l = during_alternation b v l) /\ (forall v s, during_sequence a v s = during_sequence b v s) /\
    (forall v k, agrees (post_class a v k) (post_class b v k)) /\ (forall v l, agrees (post_alternation a v l) (post_alternation b v l)) /\ (forall v s, agrees (post_sequence a v s) (post_sequence b v s)).
  Lemma agr_walk_list : forall {V E A} (wp wq : V -> A -> outcome (result E V)) dp dq l, (forall v, dp v = dq v) -> Forall (fun x => forall v, agrees (wp v x) (wq v x)) l ->
    forall v, agrees (walk_list wp dp v l) (walk_list wq dq v l).
  Proof.
    intros V E A wp wq dp dq l D. induction l as [|x t IH]; intros H v; cbn [walk_list]; [apply agrees_refl|]. inversion H as [|? ? H1 H2]; subst. apply agrees_bindr; [apply H1|].
    intro v1. destruct t; rewrite ?D; apply IH; exact H2.
  Qed.
  Lemma agr_walk_component : forall {V E} (a b : visitor V E), same_hooks a b -> forall c v, agrees (walk_component p a v c) (walk_component q b v c).
  Proof.
    intros V E a b (P1 & P2 & P3 & D1 & D2 & D3 & Q1 & Q2 & Q3).
    apply (component_ind' (fun c => forall v, agrees (walk_component p a v c) (walk_component q b v c)) (fun s => forall v, agrees (walk_seqn p a v s) (walk_seqn q b v s))).
    - intros bs H v. cbn [walk_component]. apply agrees_bindr; [apply P2|]. intro v1. apply agrees_bindr; [|intro v2; apply agrees_bind; [apply Q2|intro; apply agrees_refl]].
      apply agr_walk_list; [intro; apply D2|]. exact H.
    - intros k v. cbn [walk_component]. unfold walk_class. apply agrees_bindr; [apply P1|]. intro v1. rewrite D1. apply agrees_bind; [apply Q1|intro; apply agrees_refl].
    - intros s H v. cbn [walk_component]. apply H.
    - intros ch alt ci cn H v. cbn [walk_seqn]. apply agrees_bind; [agr|]. intros _. apply agrees_bindr; [apply P3|]. intro v1.
      apply agrees_bindr; [|intro v2; apply agrees_bind; [apply Q3|intro; apply agrees_refl]]. apply agr_walk_list; [intro; apply D3|]. exact H.
  Qed.

  (** *** Dumps *)
  Lemma agr_describe_range_loop : forall fuel a b o out, agrees (describe_range_loop p fuel a b o out) (describe_range_loop q fuel a b o out).
  Proof. induction fuel as [|f IH]; intros; cbn [describe_range_loop]; agr. Qed.
  Hint Resolve agr_describe_range_loop : agr.
  Lemma agr_describe_range : forall a b o, agrees (describe_range p a b o) (describe_range q a b o).
  Proof. intros. unfold describe_range. agr. Qed.
  Hint Resolve agr_describe_range : agr.
  Lemma agr_extract_mnemonic : forall b o, agrees (extract_mnemonic p b o) (extract_mnemonic q b o).
  Proof. intros. unfold extract_mnemonic. agr. Qed.
  Hint Resolve agr_extract_mnemonic : agr.
  Lemma agr_contiguous_loop : forall fuel b l, agrees (contiguous_loop p fuel b l) (contiguous_loop q fuel b l).
  Proof. induction fuel as [|f IH]; intros; cbn [contiguous_loop]; agr. Qed.
  Hint Resolve agr_contiguous_loop : agr.
  Lemma agr_contiguous_range : forall b, agrees (contiguous_range p b) (contiguous_range q b).
  Proof. intros. unfold contiguous_range. agr. Qed.
  Hint Resolve agr_contiguous_range : agr.
  Lemma agr_mnemonic_loop : forall fuel b i m o out, agrees (mnemonic_loop p fuel b i m o out) (mnemonic_loop q fuel b i m o out).
  Proof. induction fuel as [|f IH]; intros; cbn [mnemonic_loop]; agr. Qed.
  Lemma agr_ranges_loop : forall fuel b x y i m o out, agrees (ranges_loop p fuel b x y i m o out) (ranges_loop q fuel b x y i m o out).
  Proof. induction fuel as [|f IH]; intros; cbn [ranges_loop]; agr. Qed.
  Hint Resolve agr_mnemonic_loop agr_ranges_loop : agr.
  Lemma agr_describe_class_int : forall b m o, agrees (describe_class_int p b m o) (describe_class_int q b m o).
  Proof. intros. unfold describe_class_int. agr. Qed.
  Hint Resolve agr_describe_class_int : agr.
  Lemma agr_describe_class : forall b m o, agrees (describe_class p b m o) (describe_class q b m o).
  Proof. intros. unfold describe_class. agr. Qed.
  Hint Resolve agr_describe_class : agr.
  Lemma agr_outdent : forall d, agrees (outdent p d) (outdent q d).
  Proof. intros. unfold outdent. agr. Qed.
  Lemma agr_dump_pre_class : forall d k, agrees (dump_pre_class p d k) (dump_pre_class q d k).
  Proof. intros. unfold dump_pre_class. agr. Qed.
  Hint Resolve agr_outdent agr_dump_pre_class : agr.
  Lemma agr_dump_tree : forall c, agrees (dump_tree p c) (dump_tree q c).
  Proof.
    intro c. unfold dump_tree. apply agrees_bindr; [|intro; apply agrees_refl]. apply agr_walk_component. repeat split; cbn [pre_class pre_alternation pre_sequence post_class post_alternation post_sequence dump_visitor]; agr.
  Qed.

  (** *** The build state *)
  Lemma agr_connect_successors : forall bs f t, agrees (connect_successors p bs f t) (connect_successors q bs f t).
  Proof. intros. unfold connect_successors. agr. Qed.
  Hint Resolve agr_connect_successors : agr.
  Lemma agr_connect_regions : forall ls bs fs, agrees (connect_regions p bs ls fs) (connect_regions q bs ls fs).
  Proof. induction ls as [|x ls IH]; intros; cbn [connect_regions]; agr. Qed.
  Hint Resolve agr_connect_regions : agr.
  Lemma agr_make_glushkov_build_state : forall b, agrees (make_glushkov_build_state p b) (make_glushkov_build_state q b).
  Proof. intros. unfold make_glushkov_build_state. apply agr_connect_regions. Qed.
  Hint Resolve agr_make_glushkov_build_state : agr.

  (** *** The compiler *)
  Lemma agr_smwr_add_literal : forall s l r, agrees (smwr_add_literal p s l r) (smwr_add_literal q s l r).
  Proof. intros. unfold smwr_add_literal. agr. Qed.
  Hint Resolve agr_smwr_add_literal : agr.
  Lemma agr_literal_report_id : forall n l e h s qu, agrees (literal_report_id p n l e h s qu) (literal_report_id q n l e h s qu).
  Proof. intros. unfold literal_report_id. agr. Qed.
  Hint Resolve agr_literal_report_id : agr.
  Lemma agr_ng_add_literal : forall n l i e h s qu, agrees (ng_add_literal p n l i e h s qu) (ng_add_literal q n l i e h s qu).
  Proof. intros. unfold ng_add_literal. agr. Qed.
  Hint Resolve agr_ng_add_literal : agr.
  Lemma agr_lit_pre_class : forall l k, agrees (lit_pre_class p l k) (lit_pre_class q l k).
  Proof. intros. unfold lit_pre_class. agr. Qed.
  Hint Resolve agr_lit_pre_class : agr.
  Lemma agr_parsed_expression_new : forall i e f d, agrees (parsed_expression_new p i e f d) (parsed_expression_new q i e f d).
  Proof. intros. unfold parsed_expression_new. agr. Qed.
  Hint Resolve agr_parsed_expression_new : agr.
  Lemma agr_literal_walk : forall c v, agrees (walk_component p (construct_literal_visitor p) v c) (walk_component q (construct_literal_visitor q) v c).
  Proof. apply agr_walk_component. repeat split; cbn [pre_class pre_alternation pre_sequence post_class post_alternation post_sequence construct_literal_visitor]; agr. Qed.
  Hint Resolve agr_literal_walk : agr.
  Lemma agr_shortcut_literal : forall n e, agrees (shortcut_literal p n e) (shortcut_literal q n e).
  Proof. intros. unfold shortcut_literal. agr. Qed.
  Hint Resolve agr_shortcut_literal : agr.
  Lemma agr_build_graph : forall e, agrees (build_graph p e) (build_graph q e).
  Proof. intros. unfold build_graph. agr. Qed.
  Hint Resolve agr_build_graph : agr.
  Lemma agr_add_expression : forall n i e f d, agrees (add_expression p n i e f d) (add_expression q n i e f d).
  Proof. intros. unfold add_expression. agr. Qed.
  Hint Resolve agr_add_expression : agr.
  Lemma agr_add_all : forall l n i, agrees (add_all p n i l) (add_all q n i l).
  Proof. induction l as [|[[e f] d] l IH]; intros; cbn [add_all]; agr. Qed.
  Hint Resolve agr_add_all : agr.
  Lemma agr_compile_multi_int : forall es fs ids m g, agrees (compile_multi_int p es fs ids m g) (compile_multi_int q es fs ids m g).
  Proof. intros. unfold compile_multi_int. agr. Qed.
End TwoBuilds.
