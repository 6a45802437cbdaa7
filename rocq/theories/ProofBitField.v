(** BitField256 operations against the set specification. *)
From Verif Require Import Base ModelUtil ModelBitField SpecSet ProofBase.
Local Open Scope N_scope.

(** ** Membership word by word *)

Definition word (b : bitfield) (k : N) : N :=
  match k with 0 => w0 b | 1 => w1 b | 2 => w2 b | 3 => w3 b | _ => 0 end.

Lemma testbit_concat : forall w a y i, a < 2 ^ w ->
  N.testbit (a + 2 ^ w * y) i = if i <? w then N.testbit a i else N.testbit y (i - w).
Proof.
  intros w a y i Ha.
  assert (E : a + 2 ^ w * y = N.lor a (N.shiftl y w)).
  { rewrite N.shiftl_mul_pow2, (N.mul_comm y).
    rewrite <- N.lxor_lor.
    - rewrite <- N.add_nocarry_lxor; [reflexivity|].
      apply N.bits_inj; intro j. rewrite N.land_spec, N.bits_0.
      rewrite N.mul_comm, <- N.shiftl_mul_pow2.
      destruct (N.lt_ge_cases j w) as [Hj|Hj].
      + rewrite N.shiftl_spec_low by exact Hj. apply andb_false_r.
      + rewrite (testbit_high w a) by assumption. reflexivity.
    - apply N.bits_inj; intro j. rewrite N.land_spec, N.bits_0.
      rewrite N.mul_comm, <- N.shiftl_mul_pow2.
      destruct (N.lt_ge_cases j w) as [Hj|Hj].
      + rewrite N.shiftl_spec_low by exact Hj. apply andb_false_r.
      + rewrite (testbit_high w a) by assumption. reflexivity. }
  rewrite E, N.lor_spec. destruct (N.ltb_spec i w) as [Hi|Hi].
  - rewrite N.shiftl_spec_low by exact Hi. apply orb_false_r.
  - rewrite (testbit_high w a) by assumption. rewrite N.shiftl_spec_high' by exact Hi. reflexivity.
Qed.

Lemma byte_cases : forall c, byte c -> c / 64 = 0 \/ c / 64 = 1 \/ c / 64 = 2 \/ c / 64 = 3.
Proof. unfold byte; intros c H. lia. Qed.

Lemma mem_word : forall b c, wf b -> byte c -> mem b c = N.testbit (word b (c / 64)) (c mod 64).
Proof.
  intros b c (H0 & H1 & H2 & H3) Hc. unfold mem, value.
  replace (w0 b + 2 ^ 64 * w1 b + 2 ^ 128 * w2 b + 2 ^ 192 * w3 b)
    with (w0 b + 2 ^ 64 * (w1 b + 2 ^ 64 * (w2 b + 2 ^ 64 * w3 b))).
  2:{ change (2 ^ 192) with (2 ^ 64 * (2 ^ 64 * 2 ^ 64)). change (2 ^ 128) with (2 ^ 64 * 2 ^ 64).
      ring. }
  rewrite testbit_concat by exact H0.
  destruct (byte_cases c Hc) as [E|[E|[E|E]]]; rewrite E; unfold word; unfold byte in Hc.
  - replace (c <? 64) with true by lia. f_equal; lia.
  - replace (c <? 64) with false by lia. rewrite testbit_concat by exact H1.
    replace (c - 64 <? 64) with true by lia. f_equal; lia.
  - replace (c <? 64) with false by lia. rewrite testbit_concat by exact H1.
    replace (c - 64 <? 64) with false by lia. rewrite testbit_concat by exact H2.
    replace (c - 64 - 64 <? 64) with true by lia. f_equal; lia.
  - replace (c <? 64) with false by lia. rewrite testbit_concat by exact H1.
    replace (c - 64 <? 64) with false by lia. rewrite testbit_concat by exact H2.
    replace (c - 64 - 64 <? 64) with false by lia. f_equal; lia.
Qed.

Lemma mem_out : forall b c, wf b -> ~ byte c -> mem b c = false.
Proof.
  intros b c (H0 & H1 & H2 & H3) Hc. unfold mem, value.
  replace (w0 b + 2 ^ 64 * w1 b + 2 ^ 128 * w2 b + 2 ^ 192 * w3 b)
    with (w0 b + 2 ^ 64 * (w1 b + 2 ^ 64 * (w2 b + 2 ^ 64 * w3 b))).
  2:{ change (2 ^ 192) with (2 ^ 64 * (2 ^ 64 * 2 ^ 64)). change (2 ^ 128) with (2 ^ 64 * 2 ^ 64).
      ring. }
  unfold byte in Hc. rewrite testbit_concat by exact H0.
  replace (c <? 64) with false by lia. rewrite testbit_concat by exact H1.
  replace (c - 64 <? 64) with false by lia. rewrite testbit_concat by exact H2.
  replace (c - 64 - 64 <? 64) with false by lia. apply (testbit_high 64); [exact H3|lia].
Qed.

Lemma wf_word : forall b k, wf b -> word b k < 2 ^ 64.
Proof.
  intros b k (H0 & H1 & H2 & H3). unfold word.
  destruct k as [|[[?|?|]|[?|?|]|]]; try exact H0; try exact H1; try exact H2; try exact H3; reflexivity.
Qed.

(** Two fields with the same members are the same words. *)
Lemma mem_index : forall b k i, wf b -> k < 4 -> i < 64 ->
  mem b (64 * k + i) = N.testbit (word b k) i.
Proof.
  intros b k i Hb Hk Hi. rewrite mem_word; [|exact Hb|unfold byte; lia].
  replace ((64 * k + i) / 64) with k by lia. replace ((64 * k + i) mod 64) with i by lia. reflexivity.
Qed.
Lemma word_ext : forall x y, x < 2 ^ 64 -> y < 2 ^ 64 ->
  (forall i, i < 64 -> N.testbit x i = N.testbit y i) -> x = y.
Proof.
  intros x y Hx Hy H. apply N.bits_inj; intro i.
  destruct (N.lt_ge_cases i 64) as [Hi|Hi]; [apply H; exact Hi|].
  rewrite !(testbit_high 64) by assumption. reflexivity.
Qed.
Lemma same_eq : forall a b, wf a -> wf b -> same a b -> a = b.
Proof.
  intros a b Ha Hb H.
  assert (W : forall k, k < 4 -> word a k = word b k).
  { intros k Hk. apply word_ext; [apply wf_word, Ha|apply wf_word, Hb|].
    intros i Hi. rewrite <- !mem_index by assumption. apply H. unfold byte; lia. }
  destruct a, b. f_equal.
  - exact (W 0 ltac:(reflexivity)).
  - exact (W 1 ltac:(reflexivity)).
  - exact (W 2 ltac:(reflexivity)).
  - exact (W 3 ltac:(reflexivity)).
Qed.

Lemma wf_default : wf bf_default.
Proof. repeat split; reflexivity. Qed.
Lemma mem_default : forall c, mem bf_default c = false.
Proof. intro c. apply N.bits_0. Qed.

(** ** Reading and writing one block *)
Lemma get_block_ok : forall b k, k < 4 -> get_block b k = Ret (word b k).
Proof.
  intros b k Hk.
  assert (E : k = 0 \/ k = 1 \/ k = 2 \/ k = 3) by lia.
  destruct E as [E|[E|[E|E]]]; subst k; reflexivity.
Qed.
Lemma put_block_ok : forall b k x, wf b -> k < 4 -> x < 2 ^ 64 ->
  exists b', put_block b k x = Ret b' /\ wf b' /\
    forall j, word b' j = if j =? k then x else word b j.
Proof.
  intros b k x (H0 & H1 & H2 & H3) Hk Hx.
  assert (E : k = 0 \/ k = 1 \/ k = 2 \/ k = 3) by lia.
  destruct E as [E|[E|[E|E]]]; subst k; simpl;
    (eexists; split; [reflexivity|]; split; [unfold wf; simpl; auto|]);
    intro j; unfold word; destruct j as [|[[?|?|]|[?|?|]|]]; reflexivity.
Qed.
Lemma upd_block_ok : forall b k f, wf b -> k < 4 -> (forall x, x < 2 ^ 64 -> f x < 2 ^ 64) ->
  exists b', upd_block b k f = Ret b' /\ wf b' /\
    forall j, word b' j = if j =? k then f (word b j) else word b j.
Proof.
  intros b k f Hb Hk Hf. unfold upd_block. rewrite get_block_ok by exact Hk. simpl.
  destruct (put_block_ok b k (f (word b k)) Hb Hk (Hf _ (wf_word b k Hb))) as (b' & E & W & M).
  exists b'; split; [exact E|split; [exact W|]]. intro j; rewrite M.
  destruct (N.eqb_spec j k) as [->|]; reflexivity.
Qed.
(** pointwise effect of a block update given by a pointwise function *)
Lemma upd_block_mem : forall b k f (g : bool -> N -> bool), wf b -> k < 4 ->
  (forall x, x < 2 ^ 64 -> f x < 2 ^ 64) ->
  (forall x i, i < 64 -> N.testbit (f x) i = g (N.testbit x i) i) ->
  exists b', upd_block b k f = Ret b' /\ wf b' /\
    forall c, byte c -> mem b' c = if c / 64 =? k then g (mem b c) (c mod 64) else mem b c.
Proof.
  intros b k f g Hb Hk Hf Hg.
  destruct (upd_block_ok b k f Hb Hk Hf) as (b' & E & W & M).
  exists b'; split; [exact E|split; [exact W|]]. intros c Hc.
  rewrite !mem_word by assumption. rewrite M.
  destruct (c / 64 =? k); [|reflexivity]. apply Hg. lia.
Qed.

Lemma mask_bit_ok : forall p n, mask_bit p n = Ret (2 ^ (n mod 64)).
Proof.
  intros p n. unfold mask_bit, BLOCK_SIZE. rewrite chk_shl_ok by lia. f_equal.
  rewrite N.shiftl_1_l. apply N.mod_small. apply pow2_lt. lia.
Qed.
Lemma pow_mod_lt : forall n, 2 ^ (n mod 64) < 2 ^ 64.
Proof. intro n; apply pow2_lt; lia. Qed.

Lemma eqb_split : forall c n, (c =? n) = (c / 64 =? n / 64) && (c mod 64 =? n mod 64).
Proof. intros; lia. Qed.

(** ** Point updates *)
Lemma bf_set_ok : forall p b n, wf b -> byte n ->
  exists b', bf_set p b n = Ret b' /\ wf b' /\ forall c, byte c -> mem b' c = (c =? n) || mem b c.
Proof.
  intros p b n Hb Hn. unfold bf_set. rewrite mask_bit_ok; cbn [bind]. unfold get_word, BLOCK_SIZE.
  destruct (upd_block_mem b (n / 64) (fun x => N.lor x (2 ^ (n mod 64)))
              (fun t i => t || (n mod 64 =? i)) Hb) as (b' & E & W & M).
  - unfold byte in Hn; lia.
  - intros x Hx. apply lor_lt; [exact Hx|apply pow_mod_lt].
  - intros x i Hi. rewrite N.lor_spec, testbit_pow2. reflexivity.
  - exists b'; split; [exact E|split; [exact W|]]. intros c Hc. rewrite M by exact Hc.
    rewrite (eqb_split c n), (N.eqb_sym (n mod 64)). destruct (c / 64 =? n / 64); simpl; [|reflexivity].
    apply orb_comm.
Qed.
Lemma bf_reset_ok : forall p b n, wf b -> byte n ->
  exists b', bf_reset p b n = Ret b' /\ wf b' /\ forall c, byte c -> mem b' c = negb (c =? n) && mem b c.
Proof.
  intros p b n Hb Hn. unfold bf_reset. rewrite mask_bit_ok; cbn [bind]. unfold get_word, BLOCK_SIZE.
  destruct (upd_block_mem b (n / 64) (fun x => N.land x (bnot 64 (2 ^ (n mod 64))))
              (fun t i => t && negb (n mod 64 =? i)) Hb) as (b' & E & W & M).
  - unfold byte in Hn; lia.
  - intros x Hx. apply land_lt; exact Hx.
  - intros x i Hi. rewrite N.land_spec, testbit_bnot, testbit_pow2 by exact Hi. reflexivity.
  - exists b'; split; [exact E|split; [exact W|]]. intros c Hc. rewrite M by exact Hc.
    rewrite (eqb_split c n), (N.eqb_sym (n mod 64)). destruct (c / 64 =? n / 64); simpl; [|reflexivity].
    apply andb_comm.
Qed.
Lemma bf_flip_ok : forall p b n, wf b -> byte n ->
  exists b', bf_flip p b n = Ret b' /\ wf b' /\ forall c, byte c -> mem b' c = xorb (c =? n) (mem b c).
Proof.
  intros p b n Hb Hn. unfold bf_flip. rewrite mask_bit_ok; cbn [bind]. unfold get_word, BLOCK_SIZE.
  destruct (upd_block_mem b (n / 64) (fun x => N.lxor x (2 ^ (n mod 64)))
              (fun t i => xorb t (n mod 64 =? i)) Hb) as (b' & E & W & M).
  - unfold byte in Hn; lia.
  - intros x Hx. apply lxor_lt; [exact Hx|apply pow_mod_lt].
  - intros x i Hi. rewrite N.lxor_spec, testbit_pow2. reflexivity.
  - exists b'; split; [exact E|split; [exact W|]]. intros c Hc. rewrite M by exact Hc.
    rewrite (eqb_split c n), (N.eqb_sym (n mod 64)). destruct (c / 64 =? n / 64); simpl.
    + apply xorb_comm.
    + destruct (mem b c); reflexivity.
Qed.
Lemma land_pow2_zero : forall x i, (N.land x (2 ^ i) =? 0) = negb (N.testbit x i).
Proof.
  intros x i. destruct (N.testbit x i) eqn:T; simpl.
  - apply N.eqb_neq. intro E. assert (B : N.testbit (N.land x (2 ^ i)) i = false) by (rewrite E; apply N.bits_0).
    rewrite N.land_spec, T, testbit_pow2, N.eqb_refl in B. discriminate.
  - apply N.eqb_eq. apply N.bits_inj; intro j. rewrite N.land_spec, testbit_pow2, N.bits_0.
    destruct (N.eqb_spec i j) as [->|]; [rewrite T; reflexivity|apply andb_false_r].
Qed.
Lemma bf_test_ok : forall p b n, wf b -> byte n -> bf_test p b n = Ret (mem b n).
Proof.
  intros p b n Hb Hn. unfold bf_test, get_word, BLOCK_SIZE.
  rewrite get_block_ok by (unfold byte in Hn; lia). rewrite mask_bit_ok. simpl.
  rewrite land_pow2_zero, negb_involutive, mem_word by assumption. reflexivity.
Qed.

Lemma mem_pointwise1 : forall (f : N -> N) (g : bool -> bool) b, wf b ->
  (forall x, x < 2 ^ 64 -> f x < 2 ^ 64) ->
  (forall x i, i < 64 -> N.testbit (f x) i = g (N.testbit x i)) ->
  wf (BF (f (w0 b)) (f (w1 b)) (f (w2 b)) (f (w3 b))) /\
  forall c, byte c -> mem (BF (f (w0 b)) (f (w1 b)) (f (w2 b)) (f (w3 b))) c = g (mem b c).
Proof.
  intros f g b Hb Hf Hg. assert (W : wf (BF (f (w0 b)) (f (w1 b)) (f (w2 b)) (f (w3 b)))).
  { destruct Hb as (H0 & H1 & H2 & H3). repeat split; apply Hf; assumption. }
  split; [exact W|]. intros c Hc. rewrite !mem_word by assumption.
  rewrite <- Hg by lia. f_equal.
  destruct (byte_cases c Hc) as [E|[E|[E|E]]]; rewrite E; reflexivity.
Qed.
Lemma mem_pointwise2 : forall (f : N -> N -> N) (g : bool -> bool -> bool) a b, wf a -> wf b ->
  (forall x y, x < 2 ^ 64 -> y < 2 ^ 64 -> f x y < 2 ^ 64) ->
  (forall x y i, i < 64 -> N.testbit (f x y) i = g (N.testbit x i) (N.testbit y i)) ->
  wf (BF (f (w0 a) (w0 b)) (f (w1 a) (w1 b)) (f (w2 a) (w2 b)) (f (w3 a) (w3 b))) /\
  forall c, byte c ->
    mem (BF (f (w0 a) (w0 b)) (f (w1 a) (w1 b)) (f (w2 a) (w2 b)) (f (w3 a) (w3 b))) c
    = g (mem a c) (mem b c).
Proof.
  intros f g a b Ha Hb Hf Hg.
  assert (W : wf (BF (f (w0 a) (w0 b)) (f (w1 a) (w1 b)) (f (w2 a) (w2 b)) (f (w3 a) (w3 b)))).
  { destruct Ha as (A0 & A1 & A2 & A3), Hb as (H0 & H1 & H2 & H3).
    repeat split; apply Hf; assumption. }
  split; [exact W|]. intros c Hc. rewrite !mem_word by assumption.
  rewrite <- Hg by lia. f_equal.
  destruct (byte_cases c Hc) as [E|[E|[E|E]]]; rewrite E; reflexivity.
Qed.

Lemma bf_not_ok : forall b, wf b -> wf (bf_not b) /\ forall c, byte c -> mem (bf_not b) c = negb (mem b c).
Proof.
  intros b Hb. apply (mem_pointwise1 (bnot 64) negb); [exact Hb|apply bnot_lt|].
  intros x i Hi; apply testbit_bnot; exact Hi.
Qed.
Lemma bf_flip_all_ok : forall b, wf b ->
  wf (bf_flip_all b) /\ forall c, byte c -> mem (bf_flip_all b) c = negb (mem b c).
Proof. exact bf_not_ok. Qed.
Lemma ALL_ONES_ones : ALL_ONES = N.ones 64.
Proof. reflexivity. Qed.
Lemma bf_set_all_ok : forall b, wf (bf_set_all b) /\ forall c, byte c -> mem (bf_set_all b) c = true.
Proof.
  intro b. assert (W : wf (bf_set_all b)) by (repeat split; reflexivity).
  split; [exact W|]. intros c Hc. rewrite mem_word by assumption.
  assert (E : word (bf_set_all b) (c / 64) = N.ones 64).
  { destruct (byte_cases c Hc) as [E|[E|[E|E]]]; rewrite E; reflexivity. }
  rewrite E, testbit_ones. lia.
Qed.
Lemma bf_reset_all_ok : forall b, wf (bf_reset_all b) /\ forall c, mem (bf_reset_all b) c = false.
Proof. intro b; split; [exact wf_default|exact mem_default]. Qed.

Lemma bf_and_ok : forall a b, wf a -> wf b ->
  wf (bf_and_assign a b) /\ forall c, byte c -> mem (bf_and_assign a b) c = mem a c && mem b c.
Proof.
  intros a b Ha Hb. apply (mem_pointwise2 N.land andb); [exact Ha|exact Hb| |].
  - intros x y Hx _; apply land_lt; exact Hx.
  - intros; apply N.land_spec.
Qed.
Lemma bf_or_ok : forall a b, wf a -> wf b ->
  wf (bf_or_assign a b) /\ forall c, byte c -> mem (bf_or_assign a b) c = mem a c || mem b c.
Proof.
  intros a b Ha Hb. apply (mem_pointwise2 N.lor orb); [exact Ha|exact Hb| |].
  - intros x y Hx Hy; apply lor_lt; assumption.
  - intros; apply N.lor_spec.
Qed.
Lemma bf_xor_ok : forall a b, wf a -> wf b ->
  wf (bf_xor_assign a b) /\ forall c, byte c -> mem (bf_xor_assign a b) c = xorb (mem a c) (mem b c).
Proof.
  intros a b Ha Hb. apply (mem_pointwise2 N.lxor xorb); [exact Ha|exact Hb| |].
  - intros x y Hx Hy; apply lxor_lt; assumption.
  - intros; apply N.lxor_spec.
Qed.

(** ** Equality and order *)
Lemma bf_eqb_spec : forall a b, bf_eqb a b = true <-> a = b.
Proof.
  intros [a0 a1 a2 a3] [b0 b1 b2 b3]; unfold bf_eqb; simpl.
  rewrite !andb_true_iff, !N.eqb_eq. split.
  - intros [[[-> ->] ->] ->]; reflexivity.
  - intro E; inversion E; auto.
Qed.
Lemma same_iff : forall a b, wf a -> wf b -> (same a b <-> a = b).
Proof.
  intros a b Ha Hb; split; [apply same_eq; assumption|]. intros ->; intros c _; reflexivity.
Qed.
Lemma bf_cmp_eq : forall a b, bf_cmp a b = Eq <-> a = b.
Proof.
  intros [a0 a1 a2 a3] [b0 b1 b2 b3]; unfold bf_cmp; simpl. split.
  - destruct (N.compare_spec a0 b0); try discriminate.
    destruct (N.compare_spec a1 b1); try discriminate.
    destruct (N.compare_spec a2 b2); try discriminate.
    destruct (N.compare_spec a3 b3); try discriminate. congruence.
  - intro E; inversion E; subst. rewrite !N.compare_refl. reflexivity.
Qed.
Lemma bf_cmp_sym : forall a b, bf_cmp b a = CompOpp (bf_cmp a b).
Proof.
  intros [a0 a1 a2 a3] [b0 b1 b2 b3]; unfold bf_cmp; simpl.
  rewrite (N.compare_antisym a0 b0). destruct (a0 ?= b0); simpl; try reflexivity.
  rewrite (N.compare_antisym a1 b1). destruct (a1 ?= b1); simpl; try reflexivity.
  rewrite (N.compare_antisym a2 b2). destruct (a2 ?= b2); simpl; try reflexivity.
  apply N.compare_antisym.
Qed.
Lemma bf_cmp_trans : forall a b c, bf_cmp a b = Lt -> bf_cmp b c = Lt -> bf_cmp a c = Lt.
Proof.
  intros [a0 a1 a2 a3] [b0 b1 b2 b3] [c0 c1 c2 c3]; unfold bf_cmp; simpl.
  destruct (N.compare_spec a0 b0) as [E0|E0|E0]; destruct (N.compare_spec b0 c0) as [F0|F0|F0];
    destruct (N.compare_spec a0 c0) as [G0|G0|G0]; try discriminate; try reflexivity; try (intros; exfalso; lia).
  destruct (N.compare_spec a1 b1) as [E1|E1|E1]; destruct (N.compare_spec b1 c1) as [F1|F1|F1];
    destruct (N.compare_spec a1 c1) as [G1|G1|G1]; try discriminate; try reflexivity; try (intros; exfalso; lia).
  destruct (N.compare_spec a2 b2) as [E2|E2|E2]; destruct (N.compare_spec b2 c2) as [F2|F2|F2];
    destruct (N.compare_spec a2 c2) as [G2|G2|G2]; try discriminate; try reflexivity; try (intros; exfalso; lia).
  destruct (N.compare_spec a3 b3) as [E3|E3|E3]; destruct (N.compare_spec b3 c3) as [F3|F3|F3];
    destruct (N.compare_spec a3 c3) as [G3|G3|G3]; try discriminate; try reflexivity; try (intros; exfalso; lia).
Qed.

(** ** The derived order in terms of members *)
Lemma above_bit : forall x y i, N.testbit x i = false -> N.testbit y i = true ->
  (forall j, i < j -> N.testbit x j = N.testbit y j) -> x < y.
Proof.
  intros x y i Hx Hy Ha.
  assert (E : N.shiftr x (N.succ i) = N.shiftr y (N.succ i)).
  { apply N.bits_inj. intro j. rewrite !N.shiftr_spec'. apply Ha. lia. }
  rewrite !N.shiftr_div_pow2, N.pow_succ_r', (N.mul_comm 2 (2 ^ i)) in E.
  rewrite <- !N.div_div in E by (try (apply N.pow_nonzero); discriminate).
  assert (P : 2 ^ i <> 0) by (apply N.pow_nonzero; discriminate).
  assert (Bx : (x / 2 ^ i) mod 2 = 0) by (rewrite <- N.testbit_spec', Hx; reflexivity).
  assert (By : (y / 2 ^ i) mod 2 = 1) by (rewrite <- N.testbit_spec', Hy; reflexivity).
  assert (F : y / 2 ^ i = x / 2 ^ i + 1).
  { pose proof (N.div_mod (x / 2 ^ i) 2 ltac:(discriminate)) as Dx. pose proof (N.div_mod (y / 2 ^ i) 2 ltac:(discriminate)) as Dy.
    rewrite Bx, E in Dx. rewrite By in Dy. clear - Dx Dy. lia. }
  pose proof (N.div_mod x (2 ^ i) P) as Ex. pose proof (N.div_mod y (2 ^ i) P) as Ey. pose proof (N.mod_lt x (2 ^ i) P) as Lx.
  rewrite F, N.mul_add_distr_l, N.mul_1_r in Ey. revert Ex Ey Lx. generalize (2 ^ i * (x / 2 ^ i)) (x mod 2 ^ i) (y mod 2 ^ i) (2 ^ i). clear. intros. lia.
Qed.
Lemma lt_bit : forall x y, x < y -> exists i, N.testbit x i = false /\ N.testbit y i = true /\
  forall j, i < j -> N.testbit x j = N.testbit y j.
Proof.
  intros x y L. exists (N.log2 (N.lxor x y)).
  assert (Z : N.lxor x y <> 0) by (intro Z; apply N.lxor_eq in Z; lia).
  assert (T : N.testbit (N.lxor x y) (N.log2 (N.lxor x y)) = true) by (apply N.bit_log2; exact Z).
  assert (A : forall j, N.log2 (N.lxor x y) < j -> N.testbit x j = N.testbit y j).
  { intros j Hj. pose proof (N.bits_above_log2 _ _ Hj) as B. rewrite N.lxor_spec in B. destruct (N.testbit x j), (N.testbit y j); (reflexivity || discriminate B). }
  rewrite N.lxor_spec in T.
  destruct (N.testbit x (N.log2 (N.lxor x y))) eqn:Ex, (N.testbit y (N.log2 (N.lxor x y))) eqn:Ey; try discriminate T.
  - exfalso. assert (y < x) by (apply (above_bit y x _ Ey Ex); intros j Hj; symmetry; apply A; exact Hj). lia.
  - auto.
Qed.
Lemma bf_cmp_lt_decides : forall a b, wf a -> wf b -> bf_cmp a b = Lt -> exists c, decides a b c.
Proof.
  intros a b Ha Hb H.
  assert (K : exists k, k < 4 /\ word a k < word b k /\ forall j, j < k -> word a j = word b j).
  { unfold bf_cmp in H.
    destruct (N.compare_spec (w0 a) (w0 b)) as [E0|E0|E0]; try discriminate H.
    2: { exists 0. repeat (match goal with |- _ /\ _ => split end); [lia|exact E0|intros j Hj; lia]. }
    destruct (N.compare_spec (w1 a) (w1 b)) as [E1|E1|E1]; try discriminate H.
    2: { exists 1. repeat (match goal with |- _ /\ _ => split end); [lia|exact E1|intros j Hj; replace j with 0 by lia; exact E0]. }
    destruct (N.compare_spec (w2 a) (w2 b)) as [E2|E2|E2]; try discriminate H.
    2: { exists 2. repeat (match goal with |- _ /\ _ => split end); [lia|exact E2|intros j Hj; assert (C : j = 0 \/ j = 1) by lia; destruct C as [->| ->]; assumption]. }
    destruct (N.compare_spec (w3 a) (w3 b)) as [E3|E3|E3]; try discriminate H.
    exists 3. repeat (match goal with |- _ /\ _ => split end); [lia|exact E3|intros j Hj; assert (C : j = 0 \/ j = 1 \/ j = 2) by lia; destruct C as [->|[->| ->]]; assumption]. }
  destruct K as (k & Hk & L & Lo). destruct (lt_bit _ _ L) as (i & Fa & Tb & Hi).
  assert (B : word b k < 2 ^ 64).
  { destruct Hb as (B0 & B1 & B2 & B3). assert (C : k = 0 \/ k = 1 \/ k = 2 \/ k = 3) by lia.
    destruct C as [->|[->|[->| ->]]]; assumption. }
  assert (I : i < 64).
  { destruct (N.lt_ge_cases i 64) as [X|X]; [exact X|]. exfalso. 
    rewrite N.bits_above_log2 in Tb; [discriminate|].
    destruct (N.eq_dec (word b k) 0) as [Z|Z]; [rewrite Z in L; lia|].
    apply N.log2_lt_pow2; [lia|]. eapply N.lt_le_trans; [exact B|]. apply N.pow_le_mono_r; lia. }
  assert (D : (64 * k + i) / 64 = k /\ (64 * k + i) mod 64 = i).
  { split; [symmetry; apply (N.div_unique _ 64 k i)|symmetry; apply (N.mod_unique _ 64 k i)]; lia. }
  destruct D as [D M]. exists (64 * k + i). unfold decides. assert (Y : byte (64 * k + i)) by (unfold byte; lia).
  repeat (match goal with |- _ /\ _ => split end); try exact Y; try (rewrite mem_word by assumption; rewrite D, M; assumption).
  intros d Hd C. rewrite D in C. rewrite !mem_word by assumption. destruct C as [C|[C G]].
  - rewrite (Lo _ C). reflexivity.
  - rewrite C. apply Hi. pose proof (N.div_mod d 64 ltac:(discriminate)). lia.
Qed.
Lemma decides_asym : forall a b c d, decides a b c -> decides b a d -> False.
Proof.
  intros a b c d (Bc & A0 & B1 & Hc) (Bd & B0 & A1 & Hd).
  pose proof (Hc d Bd) as X. pose proof (Hd c Bc) as Y. rewrite B0, A1 in X. rewrite A0, B1 in Y.
  assert (N1 : ~ (d / 64 < c / 64 \/ (d / 64 = c / 64 /\ c < d))) by (intro Z; discriminate (X Z)).
  assert (N2 : ~ (c / 64 < d / 64 \/ (c / 64 = d / 64 /\ d < c))) by (intro Z; discriminate (Y Z)).
  assert (c = d) by lia. subst d. congruence.
Qed.
Lemma bf_cmp_lt_iff : forall a b, wf a -> wf b -> (bf_cmp a b = Lt <-> exists c, decides a b c).
Proof.
  intros a b Ha Hb. split; [apply bf_cmp_lt_decides; assumption|]. intros [c Hc].
  destruct (bf_cmp a b) eqn:E; [|reflexivity|].
  - apply bf_cmp_eq in E. subst b. destruct Hc as (_ & X & Y & _). congruence.
  - assert (G : bf_cmp b a = Lt) by (rewrite bf_cmp_sym, E; reflexivity).
    destruct (bf_cmp_lt_decides _ _ Hb Ha G) as [d Hd]. destruct (decides_asym _ _ _ _ Hc Hd).
Qed.
