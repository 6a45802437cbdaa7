(** Properties C48 (rounding helpers) and C49 (depths). *)
From Verif Require Import Base ModelUtil ProofBase.
Local Open Scope N_scope.

(** ** C48.  What rounding means. *)
Definition is_round_up (n a r : N) : Prop := r mod n = 0 /\ a <= r /\ r < a + n.
Definition is_round_down (n a r : N) : Prop := r mod n = 0 /\ r <= a /\ a < r + n.

Lemma land_mask8 : forall k s, k < 8 -> N.land s (bnot 8 (2 ^ k - 1)) = (2 ^ k * (s / 2 ^ k)) mod 256.
Proof.
  intros k s Hk. change 256 with (2 ^ 8). apply N.bits_inj; intro i.
  rewrite N.land_spec. destruct (N.lt_ge_cases i 8) as [L|G].
  - rewrite testbit_bnot by exact L.
    rewrite N.mod_pow2_bits_low by exact L. rewrite (N.mul_comm (2 ^ k)).
    rewrite testbit_pow2_pred.
    destruct (N.ltb_spec i k) as [L2|G2].
    + rewrite N.mul_pow2_bits_low by exact L2. cbn [negb]. apply andb_false_r.
    + rewrite N.mul_pow2_bits_high by exact G2. rewrite N.div_pow2_bits. cbn [negb]. rewrite andb_true_r. f_equal. lia.
  - rewrite N.mod_pow2_bits_high by exact G. rewrite (testbit_high 8 (bnot 8 _)); [apply andb_false_r| |exact G].
    apply bnot_lt. transitivity (2 ^ k); [|apply N.pow_lt_mono_r; lia]. pose proof (pow2_pos k). lia.
Qed.

Lemma round_up_val : forall n a, 0 < n -> is_round_up n a (n * ((a + (n - 1)) / n)).
Proof.
  intros n a Hn. unfold is_round_up. rewrite N.mul_comm, N.mod_mul by lia.
  pose proof (N.div_mod (a + (n - 1)) n ltac:(lia)). pose proof (N.mod_lt (a + (n - 1)) n ltac:(lia)). conjs; lia.
Qed.
Lemma round_down_val : forall n a, 0 < n -> is_round_down n a (n * (a / n)).
Proof.
  intros n a Hn. unfold is_round_down. rewrite N.mul_comm, N.mod_mul by lia.
  pose proof (N.div_mod a n ltac:(lia)). pose proof (N.mod_lt a n ltac:(lia)). conjs; lia.
Qed.

Lemma round_up_gen : forall p w k a, k < 8 -> 8 <= w -> a < 2 ^ w ->
  (let! s := chk_add p w a (2 ^ k - 1) in Ret (N.land s (bnot 8 (2 ^ k - 1)))) =
  if a + (2 ^ k - 1) <? 2 ^ w then Ret ((2 ^ k * ((a + (2 ^ k - 1)) / 2 ^ k)) mod 256)
  else if overflow_checks p then Panic POverflow else Ret 0.
Proof.
  intros p w k a Hk Hw Ha. pose proof (pow2_pos k). unfold chk_add.
  destruct (N.ltb_spec (a + (2 ^ k - 1)) (2 ^ w)) as [L|G]; cbn [bind].
  - rewrite land_mask8 by exact Hk. reflexivity.
  - destruct (overflow_checks p); cbn [bind]; [reflexivity|]. rewrite land_mask8 by exact Hk.
    assert (S : (a + (2 ^ k - 1)) mod 2 ^ w < 2 ^ k).
    { assert (B : a + (2 ^ k - 1) < 2 * 2 ^ w). { pose proof (pow2_le k w ltac:(lia)). lia. }
      replace (a + (2 ^ k - 1)) with ((a + (2 ^ k - 1) - 2 ^ w) + 1 * 2 ^ w) by lia.
      rewrite N.mod_add by lia. rewrite N.mod_small; lia. }
    rewrite (N.div_small _ _ S). rewrite N.mul_0_r. reflexivity.
Qed.

(** The rounded value reduced modulo 256, for every width and every power of two
    an [u8] can hold; an overflowing addition panics or gives 0. *)
Theorem C48_round_up_n_partial : forall p w k a, k < 8 -> 8 <= w -> a < 2 ^ w ->
  exists r, is_round_up (2 ^ k) a r /\
    round_up_n p w a (2 ^ k) =
      if a + (2 ^ k - 1) <? 2 ^ w then Ret (r mod 256)
      else if overflow_checks p then Panic POverflow else Ret 0.
Proof.
  intros p w k a Hk Hw Ha. pose proof (pow2_pos k). exists (2 ^ k * ((a + (2 ^ k - 1)) / 2 ^ k)).
  split; [apply round_up_val; exact H|]. unfold round_up_n. rewrite chk_sub_ok by lia. cbn [bind].
  apply round_up_gen; assumption.
Qed.
Theorem C48_round_down_n_partial : forall p k a, k < 8 ->
  exists r, is_round_down (2 ^ k) a r /\ round_down_n p a (2 ^ k) = Ret (r mod 256).
Proof.
  intros p k a Hk. pose proof (pow2_pos k). exists (2 ^ k * (a / 2 ^ k)).
  split; [apply round_down_val; exact H|]. unfold round_down_n. rewrite chk_sub_ok by lia. cbn [bind].
  rewrite land_mask8 by exact Hk. reflexivity.
Qed.
Theorem C48_fixed_partial : forall p w a, 8 <= w -> a < 2 ^ w ->
  (exists r, is_round_up 16 a r /\ round_up_16 p w a =
     if a + 15 <? 2 ^ w then Ret (r mod 256) else if overflow_checks p then Panic POverflow else Ret 0) /\
  (exists r, is_round_down 16 a r /\ round_down_16 a = r mod 256) /\
  (exists r, is_round_up 64 a r /\ round_up_cache_line p w a =
     if a + 63 <? 2 ^ w then Ret (r mod 256) else if overflow_checks p then Panic POverflow else Ret 0).
Proof.
  intros p w a Hw Ha. conjs.
  - exists (16 * ((a + (16 - 1)) / 16)). split; [apply round_up_val; lia|].
    exact (round_up_gen p w 4 a ltac:(lia) Hw Ha).
  - exists (16 * (a / 16)). split; [apply round_down_val; lia|]. exact (land_mask8 4 a ltac:(lia)).
  - exists (64 * ((a + (64 - 1)) / 64)). split; [apply round_up_val; lia|].
    exact (round_up_gen p w 6 a ltac:(lia) Hw Ha).
Qed.
(** Rounding is unique, so on bytes, and more generally whenever the rounded value
    fits eight bits, the helpers are exact. *)
Theorem C48_exact_when_small : forall p w k a r, k < 8 -> 8 <= w -> a < 2 ^ w -> r < 256 ->
  (is_round_up (2 ^ k) a r -> round_up_n p w a (2 ^ k) = Ret r) /\
  (is_round_down (2 ^ k) a r -> round_down_n p a (2 ^ k) = Ret r).
Proof.
  intros p w k a r Hk Hw Ha Hr. pose proof (pow2_pos k) as Hp.
  assert (Huniq : forall x y, x mod 2 ^ k = 0 -> y mod 2 ^ k = 0 -> x < y + 2 ^ k -> y < x + 2 ^ k -> x = y).
  { intros x y Hx Hy H1 H2. apply N.mod_divides in Hx; [|lia]. apply N.mod_divides in Hy; [|lia].
    destruct Hx as [u ->], Hy as [v ->]. f_equal.
    assert (u < v + 1) by (apply (N.mul_lt_mono_pos_l (2 ^ k)); lia).
    assert (v < u + 1) by (apply (N.mul_lt_mono_pos_l (2 ^ k)); lia). lia. }
  split; intro H.
  - destruct (C48_round_up_n_partial p w k a Hk Hw Ha) as (r' & H' & ->).
    unfold is_round_up in *. destruct H as (M & L1 & L2), H' as (M' & L1' & L2').
    assert (r' = r) by (apply Huniq; lia || assumption). subst r'.
    assert (r + 2 ^ k <= 2 ^ w).
    { assert (E : 2 ^ w = 2 ^ k * 2 ^ (w - k)) by (rewrite <- N.pow_add_r; f_equal; lia).
      apply N.mod_divides in M; [|lia]. destruct M as [u ->]. rewrite E.
      assert (u < 2 ^ (w - k)).
      { apply (N.mul_lt_mono_pos_l (2 ^ k)); [lia|]. rewrite <- E. pose proof (pow2_le 8 w Hw). change (2 ^ 8) with 256 in *. lia. }
      pose proof (N.mul_le_mono_l (u + 1) (2 ^ (w - k)) (2 ^ k) ltac:(lia)). lia. }
    replace (a + (2 ^ k - 1) <? 2 ^ w) with true by lia. f_equal. apply N.mod_small. exact Hr.
  - destruct (C48_round_down_n_partial p k a Hk) as (r' & H' & ->).
    unfold is_round_down in *. destruct H as (M & L1 & L2), H' as (M' & L1' & L2').
    assert (r' = r) by (apply Huniq; lia || assumption). subst r'. f_equal. apply N.mod_small. exact Hr.
Qed.
(** An alignment of zero is no power of two. *)
Theorem C48_zero : forall p w a, 8 <= w -> a < 2 ^ w ->
  round_up_n p w a 0 = (if overflow_checks p then Panic POverflow else Ret 0) /\ round_down_n p a 0 = (if overflow_checks p then Panic POverflow else Ret 0).
Proof.
  intros p w a Lw La. unfold round_up_n, round_down_n, chk_sub, chk_add. change (1 <=? 0) with false. cbn [bind]. destruct (overflow_checks p); cbn [bind]; [auto|].
  change (bnot 8 ((0 + 2 ^ 8 - 1) mod 2 ^ 8)) with 0. rewrite N.land_0_r. split; [|reflexivity]. destruct (_ <? _); cbn [bind]; rewrite N.land_0_r; reflexivity.
Qed.
Theorem C48_refuted : exists a r, is_round_up 16 a r /\ r < 2 ^ 32 /\
  round_up_16 dev 32 a = Ret 48 /\ r <> 48 /\ exists r', is_round_down 16 a r' /\ round_down_16 a <> r'.
Proof.
  exists 300, 304. unfold is_round_up, is_round_down.
  repeat match goal with |- _ /\ _ => split end; try (vm_compute; congruence).
  exists 288. repeat match goal with |- _ /\ _ => split end; vm_compute; congruence.
Qed.
Example C48_case : round_up_n dev 32 100 64 = Ret 128 /\ round_down_n dev 100 64 = Ret 64 /\
  is_round_up (2 ^ 6) 100 128 /\ is_round_down (2 ^ 6) 100 64 /\ round_up_cache_line release 8 200 = Ret 0.
Proof. unfold is_round_up, is_round_down. vm_compute. repeat split; discriminate. Qed.

(** ** C49 *)
Theorem C49_try_from : forall v,
  (v < 2 ^ 32 ->
    (v <= 2 ^ 31 - 2 -> depth_try_from_u32 v = ROk (Depth v)) /\
    (2 ^ 31 - 2 < v -> depth_try_from_u32 v = RErr tt)) /\
  (v < 2 ^ 64 ->
    (v <= 2 ^ 31 - 2 -> depth_try_from_usize v = ROk (Depth v)) /\
    (2 ^ 31 - 2 < v -> depth_try_from_usize v = RErr tt)).
Proof.
  intro v. unfold depth_try_from_u32, depth_try_from_usize, MAX_VALUE, INFINITY, cast.
  change (2 ^ 31 - 1 - 1) with (2 ^ 31 - 2).
  split; intros _; (split; intro H; [replace (v <=? 2 ^ 31 - 2) with true by lia|replace (v <=? 2 ^ 31 - 2) with false by lia]);
    try reflexivity.
  rewrite N.mod_small; [reflexivity|]. change (2 ^ 32) with 4294967296. change (2 ^ 31) with 2147483648 in H. lia.
Qed.
Theorem C49_order : forall a b c,
  (depth_cmp a b = Eq <-> a = b) /\ (depth_eq a b = true <-> a = b) /\
  depth_cmp b a = CompOpp (depth_cmp a b) /\
  (depth_cmp a b = Lt -> depth_cmp b c = Lt -> depth_cmp a c = Lt) /\
  (depth_partial_cmp a b = Some (depth_cmp a b)) /\
  (depth_cmp (depth_min a b) a <> Gt /\ depth_cmp (depth_min a b) b <> Gt /\ (depth_min a b = a \/ depth_min a b = b)).
Proof.
  intros [a] [b] [c]. unfold depth_cmp, depth_eq, depth_min, depth_partial_cmp, depth_cmp. cbn [depth_val].
  conjs.
  - rewrite N.compare_eq_iff. split; congruence.
  - rewrite N.eqb_eq. split; congruence.
  - apply N.compare_antisym.
  - rewrite !N.compare_lt_iff. lia.
  - reflexivity.
  - destruct (a ?= b) eqn:E; cbn [depth_val]; rewrite ?N.compare_refl; try discriminate.
    rewrite N.compare_gt_iff in *. lia.
  - destruct (a ?= b) eqn:E; cbn [depth_val]; rewrite ?N.compare_refl; try discriminate; congruence.
  - destruct (a ?= b); auto.
Qed.
(** The order is that of the numbers, infinity being one of them. *)
Theorem C49_which_order : forall a b, (depth_cmp a b = Lt <-> depth_val a < depth_val b) /\ (depth_cmp a b = Gt <-> depth_val b < depth_val a) /\
  (depth_val (depth_min a b) = N.min (depth_val a) (depth_val b)).
Proof.
  intros a b. unfold depth_min, depth_cmp. conjs; [apply N.compare_lt_iff|apply N.compare_gt_iff|]. destruct (N.compare_spec (depth_val a) (depth_val b)); lia.
Qed.
Theorem C49_infinity : forall v d,
  depth_try_from_u32 v = ROk d \/ depth_try_from_usize v = ROk d -> depth_cmp d depth_infinity = Lt /\ d <> depth_infinity.
Proof.
  intros v d H. assert (L : depth_val d < INFINITY).
  { assert (C : forall x, x <= MAX_VALUE -> x < INFINITY) by (intros x Hx; unfold MAX_VALUE, INFINITY in *; lia).
    assert (K : forall x, cast 32 x <= x) by (intro x; unfold cast; apply N.mod_le; discriminate).
    unfold depth_try_from_u32, depth_try_from_usize in H. destruct (v <=? MAX_VALUE) eqn:E.
    - apply N.leb_le in E. destruct H as [H|H]; injection H as <-; cbn [depth_val]; apply C.
      + exact E.
      + transitivity v; [apply K|exact E].
    - destruct H; discriminate. }
  split; [apply N.compare_lt_iff; exact L|]. intros ->. exact (N.lt_irrefl INFINITY L).
Qed.
Example C49_case : depth_try_from_usize 16000 = ROk (Depth 16000) /\ depth_try_from_u32 2147483647 = RErr tt
  /\ depth_try_from_usize (2 ^ 32 + 5) = RErr tt.
Proof. vm_compute. auto. Qed.

Print Assumptions C48_round_up_n_partial. Print Assumptions C48_round_down_n_partial. Print Assumptions C48_fixed_partial.
Print Assumptions C48_exact_when_small. Print Assumptions C48_refuted. Print Assumptions C48_zero.
Print Assumptions C49_try_from. Print Assumptions C49_order. Print Assumptions C49_which_order. Print Assumptions C49_infinity.
