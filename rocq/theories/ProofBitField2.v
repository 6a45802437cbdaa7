(** BitField256: ranges, counting and searching. *)
From Verif Require Import Base ModelUtil ModelBitField SpecSet ProofBase ProofBitField.
Local Open Scope N_scope.

(** ** set_range *)
Lemma shl_ones_bit : forall s i, i < 64 -> N.testbit (N.shiftl ALL_ONES s mod 2 ^ 64) i = (s <=? i).
Proof.
  intros s i Hi. rewrite testbit_shl_mod by exact Hi. rewrite ALL_ONES_ones, testbit_ones. lia.
Qed.

Lemma round_up_64 : forall p from, from < 192 -> round_up_n p (usize_bits p) from 64 = Ret (64 * ((from + 63) / 64)).
Proof.
  intros p from Hf. unfold round_up_n. rewrite chk_sub_ok by lia. cbn [bind].
  rewrite usize_add_ok by lia. cbn [bind].
  f_equal.
  assert (S : forallb (fun f => N.land (f + (64 - 1)) (bnot 8 (64 - 1)) =? 64 * ((f + 63) / 64)) (seqN 0 192) = true)
    by (vm_compute; reflexivity).
  rewrite forallb_forall in S. apply N.eqb_eq, S, in_seqN. lia.
Qed.

Lemma set_range_loop_ok : forall p fuel b i to,
  wf b -> byte to -> i mod 64 = 0 -> i <= to + 1 -> (to + 1 - i) / 64 < N.of_nat fuel ->
  exists b' i', set_range_loop p fuel b i to = Ret (b', i') /\ wf b' /\ i' mod 64 = 0 /\
    i <= i' /\ i' <= to + 1 /\ to + 1 < i' + 64 /\
    forall c, byte c -> mem b' c = ((i <=? c) && (c <? i')) || mem b c.
Proof.
  intros p fuel; induction fuel as [|fuel IH]; intros b i to Hb Ht Hi Hle Hf; [lia|].
  cbn [set_range_loop]. unfold BLOCK_SIZE in *. unfold byte in Ht.
  rewrite usize_add_ok by lia. cbn [bind]. rewrite usize_add_ok by lia. cbn [bind].
  destruct (N.leb_spec (i + 64) (to + 1)) as [H|H].
  - destruct (put_block_ok b (i / 64) ALL_ONES Hb) as (b1 & E1 & W1 & M1); [lia|reflexivity|].
    rewrite E1. cbn [bind].
    destruct (IH b1 (i + 64) to) as (b' & i' & E & W & Hi' & L1 & L2 & L3 & M); try assumption; try lia.
    exists b', i'. split; [exact E|]. conjs; try assumption; try lia.
    intros c Hc. rewrite M by exact Hc.
    rewrite (mem_word b1), (mem_word b) by assumption. rewrite M1.
    destruct (N.eqb_spec (c / 64) (i / 64)) as [Eq|Ne].
    + rewrite ALL_ONES_ones, testbit_ones. lia.
    + destruct (N.testbit (word b (c / 64)) (c mod 64)); lia.
  - exists b, i. split; [reflexivity|]. conjs; try assumption; try lia.
    intros c Hc. replace ((i <=? c) && (c <? i)) with false by lia. reflexivity.
Qed.

Lemma bf_set_range_ok : forall p b from to, wf b -> byte from -> byte to -> from <= to ->
  exists b', bf_set_range p b from to = Ret b' /\ wf b' /\
    forall c, byte c -> mem b' c = ((from <=? c) && (c <=? to)) || mem b c.
Proof.
  intros p b from to Hb Hf Ht Hle. unfold bf_set_range, BLOCK_SIZE, rs_assert.
  pose proof Hf as Hf'; pose proof Ht as Ht'. unfold byte in Hf, Ht.
  replace (from <=? to) with true by lia. cbn [bind].
  destruct (N.eqb_spec (from / 64) (to / 64)) as [Eq|Ne].
  - rewrite chk_shl_ok by lia. cbn [bind].
    destruct (N.eqb_spec (to mod 64) (64 - 1)) as [El|Nl]; cbn [negb bind].
    + destruct (upd_block_mem b (from / 64) (fun x => N.lor x (N.shiftl ALL_ONES (from mod 64) mod 2 ^ 64))
                  (fun t i => t || (from mod 64 <=? i)) Hb) as (b' & E & W & M).
      * lia.
      * intros x Hx; apply lor_lt; [exact Hx|apply shl_mod_lt].
      * intros x i Hi. rewrite N.lor_spec, shl_ones_bit by exact Hi. reflexivity.
      * exists b'; split; [exact E|split; [exact W|]]. intros c Hc. rewrite M by exact Hc. unfold byte in Hc.
        ifs; destruct (mem b c); lia.
    + rewrite chk_add_ok by (change (2 ^ 8) with 256; lia). cbn [bind].
      rewrite mask_bit_ok. cbn [bind].
      rewrite chk_sub_ok by (pose proof (pow2_pos ((to + 1) mod 64)); lia). cbn [bind].
      destruct (upd_block_mem b (from / 64)
                  (fun x => N.lor x (N.land (N.shiftl ALL_ONES (from mod 64) mod 2 ^ 64) (2 ^ ((to + 1) mod 64) - 1)))
                  (fun t i => t || ((from mod 64 <=? i) && (i <? (to + 1) mod 64))) Hb) as (b' & E & W & M).
      * lia.
      * intros x Hx; apply lor_lt; [exact Hx|apply land_lt, shl_mod_lt].
      * intros x i Hi. rewrite N.lor_spec, N.land_spec, shl_ones_bit, testbit_pow2_pred by exact Hi. reflexivity.
      * exists b'; split; [exact E|split; [exact W|]]. intros c Hc. rewrite M by exact Hc. unfold byte in Hc.
        ifs; destruct (mem b c); lia.
  - assert (First : exists b1 i1,
       (if negb (from mod 64 =? 0) then
         let! block := chk_shl p 64 ALL_ONES (from mod 64) in
         let! b' := upd_block b (from / 64) (fun x => N.lor x block) in
         let! i' := round_up_n p (usize_bits p) from 64 in Ret (b', i')
        else Ret (b, from)) = Ret (b1, i1) /\ wf b1 /\ i1 = 64 * ((from + 63) / 64) /\
       forall c, byte c -> mem b1 c = ((from <=? c) && (c <? i1)) || mem b c).
    { destruct (N.eqb_spec (from mod 64) 0) as [Ez|Nz]; cbn [negb].
      - exists b, from. split; [reflexivity|]. split; [exact Hb|]. split; [lia|].
        intros c Hc. replace ((from <=? c) && (c <? from)) with false by lia. reflexivity.
      - rewrite chk_shl_ok by lia. cbn [bind].
        destruct (upd_block_mem b (from / 64) (fun x => N.lor x (N.shiftl ALL_ONES (from mod 64) mod 2 ^ 64))
                    (fun t i => t || (from mod 64 <=? i)) Hb) as (b' & E & W & M).
        + lia.
        + intros x Hx; apply lor_lt; [exact Hx|apply shl_mod_lt].
        + intros x i Hi. rewrite N.lor_spec, shl_ones_bit by exact Hi. reflexivity.
        + rewrite E. cbn [bind]. rewrite round_up_64 by lia. cbn [bind].
          exists b', (64 * ((from + 63) / 64)). split; [reflexivity|]. split; [exact W|]. split; [reflexivity|].
          intros c Hc. rewrite M by exact Hc. unfold byte in Hc. ifs; destruct (mem b c); lia. }
    destruct First as (b1 & i1 & E1 & W1 & I1 & M1). rewrite E1. cbn [bind]. clear E1.
    destruct (set_range_loop_ok p 6 b1 i1 to W1 Ht') as (b2 & i2 & E2 & W2 & I2 & L1 & L2 & L3 & M2); try lia.
    rewrite E2. cbn [bind]. clear E2.
    destruct (N.leb_spec i2 to) as [H|H].
    + rewrite !chk_sub_ok by lia. cbn [bind]. rewrite usize_add_ok by lia. cbn [bind].
      assert (D : rs_debug_assert_m p (Ret (to - i2 + 1 <? 64)) = Ret tt).
      { unfold rs_debug_assert_m. destruct (debug_assertions p); [|reflexivity]. simpl.
        replace (to - i2 + 1 <? 64) with true by lia. reflexivity. }
      rewrite D. cbn [bind]. rewrite mask_bit_ok. cbn [bind].
      rewrite chk_sub_ok by (pose proof (pow2_pos (wrapping_add 8 to 1 mod 64)); lia). cbn [bind].
      assert (Et : wrapping_add 8 to 1 mod 64 = (to + 1) mod 64).
      { unfold wrapping_add. change (2 ^ 8) with 256. lia. }
      rewrite Et.
      destruct (upd_block_mem b2 (i2 / 64) (fun x => N.lor x (2 ^ ((to + 1) mod 64) - 1))
                  (fun t i => t || (i <? (to + 1) mod 64)) W2) as (b' & E & W & M).
      * lia.
      * intros x Hx; apply lor_lt; [exact Hx|]. pose proof (pow2_lt ((to + 1) mod 64) 64). lia.
      * intros x i Hi. rewrite N.lor_spec, testbit_pow2_pred. reflexivity.
      * exists b'; split; [exact E|split; [exact W|]]. intros c Hc. rewrite M, M2, M1 by exact Hc. unfold byte in Hc.
        ifs; destruct (mem b c); lia.
    + exists b2. split; [reflexivity|]. split; [exact W2|].
      intros c Hc. rewrite M2, M1 by exact Hc. unfold byte in Hc. ifs; destruct (mem b c); lia.
Qed.
Lemma bf_set_range_panic : forall p b from to, to < from -> bf_set_range p b from to = Panic PAssert.
Proof. intros p b from to H. unfold bf_set_range, rs_assert. replace (from <=? to) with false by lia. reflexivity. Qed.

(** ** Members as a list *)
(* sealed, so that conversion never runs [filter] over 64 symbolic bits *)
Lemma bits_pack : { f : N -> list N | forall x, f x = filter (N.testbit x) (seqN 0 64) }.
Proof. exists (fun x => filter (N.testbit x) (seqN 0 64)). reflexivity. Qed.
Definition bits : N -> list N := proj1_sig bits_pack.
Lemma bits_eq : forall x, bits x = filter (N.testbit x) (seqN 0 64).
Proof. exact (proj2_sig bits_pack). Qed.
Arguments elements : simpl never.
Fixpoint members_from (k : N) (l : list N) : list N :=
  match l with [] => [] | x :: t => map (fun i => 64 * k + i) (bits x) ++ members_from (k + 1) t end.

Lemma all_bytes_seqN : all_bytes = seqN 0 256.
Proof.
  unfold all_bytes. rewrite seqN_seq. apply map_ext. intro k. lia.
Qed.
Global Opaque all_bytes.
Lemma in_all_bytes : forall c, In c all_bytes <-> byte c.
Proof. intro c. rewrite all_bytes_seqN, in_seqN. unfold byte. lia. Qed.
Lemma in_elements : forall b c, wf b -> (In c (elements b) <-> mem b c = true).
Proof.
  intros b c Hb. unfold elements. rewrite filter_In, in_all_bytes. split; [tauto|].
  intro H; split; [|exact H].
  destruct (N.lt_ge_cases c 256) as [L|G]; [exact L|].
  rewrite mem_out in H; [discriminate|exact Hb|unfold byte; lia].
Qed.
Lemma in_elements_byte : forall b c, In c (elements b) -> byte c.
Proof. intros b c H. unfold elements in H. apply filter_In in H. destruct H as [H _]. rewrite in_all_bytes in H. exact H. Qed.

Lemma seqN_shift : forall n a s, seqN (a + s) n = map (fun i => a + i) (seqN s n).
Proof.
  induction n as [|n IH]; intros a s; simpl; [reflexivity|]. f_equal.
  replace (a + s + 1) with (a + (s + 1)) by lia. apply IH.
Qed.
Lemma elements_words : forall b, wf b -> elements b = members_from 0 (words b).
Proof.
  intros b Hb. unfold elements. rewrite all_bytes_seqN.
  change 256%nat with (64 + (64 + (64 + 64)))%nat. rewrite !seqN_app, !filter_app.
  cbn [members_from words]. rewrite app_nil_r. rewrite !bits_eq.
  assert (B : forall k x s, k < 4 -> s = 64 * k + 0 -> x = word b k ->
    filter (mem b) (seqN s 64) = map (fun i => 64 * k + i) (filter (N.testbit x) (seqN 0 64))).
  { intros k x s Hk -> ->. rewrite seqN_shift, filter_map_comm. f_equal.
    apply filter_ext_In. intros i Hi. apply in_seqN in Hi. apply mem_index; [exact Hb|exact Hk|lia]. }
  repeat match goal with |- _ ++ _ = _ ++ _ => f_equal end; apply B; try reflexivity; lia.
Qed.

(** ** Counting *)
Lemma bf_count_ok : forall b, wf b -> bf_count b = N.of_nat (List.length (elements b)).
Proof.
  intros b Hb. rewrite elements_words by exact Hb. cbn [members_from words].
  rewrite !app_length, !map_length. unfold bf_count, count_ones64. rewrite !bits_eq. cbn [List.length]. lia.
Qed.
Lemma elements_length_le : forall b, (List.length (elements b) <= 256)%nat.
Proof.
  intro b. unfold elements.
  assert (H : forall {A} (f : A -> bool) l, (List.length (filter f l) <= List.length l)%nat).
  { intros A f l; induction l as [|x l IH]; simpl; [lia|]. destruct (f x); simpl; lia. }
  etransitivity; [apply H|]. rewrite all_bytes_seqN, seqN_length. lia.
Qed.

Lemma word_zero_iff : forall x, x < 2 ^ 64 -> (x =? 0) = match bits x with [] => true | _ => false end.
Proof.
  intros x Hx. destruct (N.eqb_spec x 0) as [->|Hne].
  - rewrite bits_eq, filter_none; [reflexivity|]. intros i _; apply N.bits_0.
  - destruct (bits x) as [|i l] eqn:E; [|reflexivity]. exfalso. apply Hne.
    apply word_ext; [exact Hx|reflexivity|]. intros i Hi. rewrite N.bits_0.
    destruct (N.testbit x i) eqn:T; [|reflexivity]. exfalso.
    assert (I : In i (bits x)). { rewrite bits_eq, filter_In, in_seqN. split; [lia|exact T]. }
    rewrite E in I. exact I.
Qed.
Lemma bf_none_ok : forall b, wf b -> bf_none b = match elements b with [] => true | _ => false end.
Proof.
  intros b Hb. rewrite elements_words by exact Hb. destruct Hb as (H0 & H1 & H2 & H3).
  unfold bf_none. rewrite !word_zero_iff by assumption. cbn [members_from words].
  destruct (bits (w0 b)); [|reflexivity]. destruct (bits (w1 b)); [|reflexivity].
  destruct (bits (w2 b)); [|reflexivity]. destruct (bits (w3 b)); reflexivity.
Qed.
Lemma bf_all_ok : forall b, wf b -> (bf_all b = true <-> forall c, byte c -> mem b c = true).
Proof.
  intros b Hb. split.
  - intros H c Hc. unfold bf_all in H. rewrite !andb_true_iff, !N.eqb_eq in H. destruct H as [[[E0 E1] E2] E3].
    rewrite mem_word by assumption.
    assert (E : word b (c / 64) = N.ones 64).
    { destruct (byte_cases c Hc) as [E|[E|[E|E]]]; rewrite E; unfold word; assumption. }
    rewrite E, testbit_ones. lia.
  - intro H. assert (E : b = bf_set_all b).
    { destruct (bf_set_all_ok b) as [W M]. apply same_eq; [exact Hb|exact W|].
      intros c Hc. rewrite M, H by exact Hc. reflexivity. }
    rewrite E. reflexivity.
Qed.

(** ** Searching *)
Lemma find_hd_filter : forall {A} (f : A -> bool) l, find f l = hd_error (filter f l).
Proof. intros A f l; induction l as [|x l IH]; simpl; [reflexivity|]. destruct (f x); [reflexivity|exact IH]. Qed.
Lemma bits_lt : forall x i, In i (bits x) -> i < 64.
Proof. intros x i H. rewrite bits_eq in H. rewrite filter_In, in_seqN in H. lia. Qed.

Lemma bit_index_ok : forall p k x i l, k < 4 -> bits x = i :: l -> bit_index p k x = Ret (64 * k + i).
Proof.
  intros p k x i l Hk E. unfold bit_index, BLOCK_SIZE.
  rewrite chk_mul_ok by (change (2 ^ 8) with 256; lia). cbn [bind].
  assert (T : trailing_zeros64 x = i).
  { unfold trailing_zeros64. rewrite find_hd_filter, <- bits_eq, E. reflexivity. }
  rewrite T. assert (Hi : i < 64) by (apply (bits_lt x); rewrite E; left; reflexivity).
  unfold cast. rewrite N.mod_small by (change (2 ^ 8) with 256; lia).
  rewrite chk_add_ok by (change (2 ^ 8) with 256; lia). f_equal; lia.
Qed.

Lemma first_nonzero_ok : forall p l k, (forall x, In x l -> x < 2 ^ 64) -> k + N.of_nat (List.length l) <= 4 ->
  first_nonzero p k l = Ret (hd_error (members_from k l)).
Proof.
  intros p l; induction l as [|x l IH]; intros k Hl Hk; [reflexivity|].
  cbn [first_nonzero members_from]. cbn [List.length] in Hk.
  rewrite word_zero_iff by (apply Hl; left; reflexivity).
  destruct (bits x) as [|i r] eqn:E; cbn [negb].
  - apply IH; [intros y Hy; apply Hl; right; exact Hy|lia].
  - unfold cast. rewrite N.mod_small by (change (2 ^ 8) with 256; lia).
    rewrite (bit_index_ok p k x i r) by (try exact E; lia). reflexivity.
Qed.
Lemma words_lt : forall b x, wf b -> In x (words b) -> x < 2 ^ 64.
Proof. intros b x (H0 & H1 & H2 & H3) H. simpl in H. intuition (subst; assumption). Qed.
Lemma bf_find_first_ok : forall p b, wf b -> bf_find_first p b = Ret (hd_error (elements b)).
Proof.
  intros p b Hb. unfold bf_find_first. rewrite elements_words by exact Hb.
  apply first_nonzero_ok; [intros x; apply words_lt; exact Hb|]. simpl; lia.
Qed.

(** last member *)
Lemma bits_rev : forall x, rev (bits x) = map (fun i => 63 - i) (filter (fun i => N.testbit x (63 - i)) (seqN 0 64)).
Proof.
  intro x. rewrite bits_eq, <- (filter_map_comm (fun i => 63 - i) (N.testbit x)).
  change (map (fun i => 63 - i) (seqN 0 64)) with (rev (seqN 0 64)). generalize (seqN 0 64) as l.
  induction l as [|y l IH]; [reflexivity|]. simpl. rewrite filter_app, <- IH. simpl.
  destruct (N.testbit x y); simpl; [reflexivity|rewrite app_nil_r; reflexivity].
Qed.
Lemma leading_zeros_ok : forall x i l, rev (bits x) = i :: l -> 63 - leading_zeros64 x = i /\ leading_zeros64 x <= 63.
Proof.
  intros x i l E. rewrite bits_rev in E. unfold leading_zeros64. rewrite find_hd_filter.
  destruct (filter (fun i0 => N.testbit x (63 - i0)) (seqN 0 64)) as [|j r] eqn:F; [discriminate|].
  simpl in E. inversion E; subst. simpl. split; [reflexivity|].
  assert (I : In j (filter (fun i0 => N.testbit x (63 - i0)) (seqN 0 64))) by (rewrite F; left; reflexivity).
  apply filter_In in I. destruct I as [I _]. apply in_seqN in I. lia.
Qed.
(** members of words given in reverse order, [k] the number of the head *)
Fixpoint members_down (k : N) (l : list N) : list N :=
  match l with [] => [] | x :: t => map (fun i => 64 * k + i) (rev (bits x)) ++ members_down (k - 1) t end.
Lemma last_nonzero_ok : forall p l k, (forall x, In x l -> x < 2 ^ 64) -> k < 4 ->
  last_nonzero p k l = Ret (hd_error (members_down k l)).
Proof.
  intros p l; induction l as [|x l IH]; intros k Hl Hk; [reflexivity|].
  cbn [last_nonzero members_down].
  rewrite word_zero_iff by (apply Hl; left; reflexivity).
  destruct (bits x) as [|i r] eqn:E.
  - simpl. apply IH; [intros y Hy; apply Hl; right; exact Hy|lia].
  - rewrite <- E. destruct (rev (bits x)) as [|j q] eqn:R.
    { apply (f_equal (@rev N)) in R. rewrite rev_involutive, E in R. discriminate. }
    destruct (leading_zeros_ok x j q R) as [L1 L2].
    cbn [negb]. unfold cast, BLOCK_SIZE. rewrite N.mod_small by (change (2 ^ 8) with 256; lia).
    rewrite chk_mul_ok by (change (2 ^ 8) with 256; lia). cbn [bind].
    rewrite chk_add_ok by (change (2 ^ 8) with 256; lia). cbn [bind].
    rewrite (N.mod_small (leading_zeros64 x)) by (change (2 ^ 8) with 256; lia).
    rewrite chk_sub_ok by lia. cbn [bind map app hd_error]. do 2 f_equal. lia.
Qed.
Lemma elements_rev : forall b, wf b -> rev (elements b) = members_down 3 (rev (words b)).
Proof.
  intros b Hb. rewrite elements_words by exact Hb. cbn [words rev app members_down members_from].
  rewrite !rev_app_distr, <- !map_rev. cbn [rev app]. rewrite app_nil_r, <- !app_assoc. reflexivity.
Qed.
Lemma bf_find_last_ok : forall p b, wf b -> bf_find_last p b = Ret (hd_error (rev (elements b))).
Proof.
  intros p b Hb. unfold bf_find_last. rewrite elements_rev by exact Hb.
  apply last_nonzero_ok; [|lia]. intros x Hx. apply in_rev in Hx. apply (words_lt b); assumption.
Qed.

(** next member *)
Lemma members_from_ge : forall l k c, In c (members_from k l) -> 64 * k <= c.
Proof.
  induction l as [|x l IH]; intros k c H; simpl in H; [contradiction|].
  apply in_app_iff in H. destruct H as [H|H].
  - apply in_map_iff in H. destruct H as (i & E & _). lia.
  - apply IH in H. lia.
Qed.
Lemma members_from_app : forall a b k, members_from k (a ++ b) =
  members_from k a ++ members_from (k + N.of_nat (List.length a)) b.
Proof.
  induction a as [|x a IH]; intros b k; simpl; [f_equal; lia|].
  rewrite IH, <- app_assoc. do 3 f_equal. lia.
Qed.
Lemma members_from_lt : forall l k c, In c (members_from k l) -> c < 64 * (k + N.of_nat (List.length l)).
Proof.
  induction l as [|x l IH]; intros k c H; simpl in H; [contradiction|].
  apply in_app_iff in H. cbn [List.length]. destruct H as [H|H].
  - apply in_map_iff in H. destruct H as (i & E & Hi). apply bits_lt in Hi. lia.
  - apply IH in H. lia.
Qed.
Lemma bits_masked : forall x s, bits (N.land x (N.shiftl ALL_ONES s mod 2 ^ 64)) = filter (fun i => s <=? i) (bits x).
Proof.
  intros x s. rewrite !bits_eq. set (l := seqN 0 64).
  assert (H : forall i, In i l -> i < 64) by (intros i Hi; apply in_seqN in Hi; lia).
  induction l as [|i l IH]; [reflexivity|]. simpl.
  rewrite N.land_spec, shl_ones_bit by (apply H; left; reflexivity).
  assert (IH' := IH (fun j Hj => H j (or_intror Hj))).
  destruct (N.testbit x i); simpl; [|exact IH']. destruct (s <=? i); rewrite IH'; reflexivity.
Qed.
Lemma words_split : forall b k, k < 4 -> exists pre post, words b = pre ++ word b k :: post /\
  N.of_nat (List.length pre) = k /\ skipn (N.to_nat (k + 1)) (words b) = post.
Proof.
  intros b k Hk. assert (E : k = 0 \/ k = 1 \/ k = 2 \/ k = 3) by lia.
  destruct E as [E|[E|[E|E]]]; subst k.
  - exists [], [w1 b; w2 b; w3 b]; repeat split.
  - exists [w0 b], [w2 b; w3 b]; repeat split.
  - exists [w0 b; w1 b], [w3 b]; repeat split.
  - exists [w0 b; w1 b; w2 b], []; repeat split.
Qed.
Lemma hd_error_app : forall {A} (a b : list A), hd_error (a ++ b) = match hd_error a with Some x => Some x | None => hd_error b end.
Proof. intros A [|x a] b; reflexivity. Qed.

Lemma bf_find_next_ok : forall p b last, wf b -> byte last ->
  bf_find_next p b last = Ret (hd_error (filter (fun c => last <? c) (elements b))).
Proof.
  intros p b last Hb Hl. unfold bf_find_next, get_word, BLOCK_SIZE. unfold byte in Hl.
  set (k := last / 64). assert (Hk : k < 4) by (unfold k; lia).
  rewrite get_block_ok by exact Hk. cbn [bind].
  destruct (words_split b k Hk) as (pre & post & Ew & Lp & Sk).
  assert (Els : filter (fun c => last <? c) (elements b) =
    map (fun i => 64 * k + i) (filter (fun i => last mod 64 + 1 <=? i) (bits (word b k))) ++ members_from (k + 1) post).
  { rewrite elements_words by exact Hb. rewrite Ew, members_from_app. rewrite Lp.
    change (0 + k) with k. cbn [members_from]. rewrite !filter_app. rewrite (filter_none _ (members_from 0 pre)).
    2:{ intros c Hc. apply members_from_lt in Hc. unfold k in *. lia. }
    rewrite (filter_all _ (members_from (k + 1) post)).
    2:{ intros c Hc. apply members_from_ge in Hc. unfold k in *. lia. }
    cbn [app]. f_equal. rewrite filter_map_comm. f_equal. apply filter_ext_In. intros i Hi.
    apply bits_lt in Hi. unfold k. lia. }
  rewrite Els. rewrite hd_error_app.
  assert (Tail : (let! last_i1 := chk_add p 8 k 1 in
    if 4 <? last_i1 then Panic PIndex
    else first_nonzero p last_i1 (skipn (N.to_nat last_i1) (words b))) = Ret (hd_error (members_from (k + 1) post))).
  { rewrite chk_add_ok by (change (2 ^ 8) with 256; lia). cbn [bind].
    replace (4 <? k + 1) with false by lia. rewrite Sk. apply first_nonzero_ok.
    - intros x Hx. apply (words_lt b); [exact Hb|]. rewrite Ew. apply in_app_iff. right; right; exact Hx.
    - assert (L : List.length (words b) = 4%nat) by reflexivity. rewrite Ew, app_length in L. cbn [List.length] in L. lia. }
  destruct (N.eqb_spec (last mod 64) (64 - 1)) as [Em|Nm]; cbn [negb bind].
  - rewrite Tail. rewrite filter_none; [reflexivity|]. intros i Hi; apply bits_lt in Hi. lia.
  - rewrite chk_add_ok by (change (2 ^ 8) with 256; lia). cbn [bind].
    rewrite chk_shl_ok by lia. cbn [bind].
    rewrite word_zero_iff by (apply land_lt, wf_word, Hb).
    rewrite <- bits_masked.
    destruct (bits (N.land (word b k) (N.shiftl ALL_ONES (last mod 64 + 1) mod 2 ^ 64))) as [|i r] eqn:E; cbn [negb bind].
    + rewrite Tail. reflexivity.
    + rewrite (bit_index_ok p k _ i r) by assumption. reflexivity.
Qed.

(** n-th member *)
Lemma lowest_bit : forall x t, N.testbit x t = true -> (forall i, i < t -> N.testbit x i = false) ->
  forall i, N.testbit (N.land x (x - 1)) i = N.testbit x i && negb (i =? t).
Proof.
  intros x t Ht Hlow i.
  pose (m := N.shiftr x (t + 1)).
  assert (E : x = 2 ^ t + 2 ^ (t + 1) * m).
  { apply N.bits_inj; intro j. rewrite testbit_concat by (apply pow2_lt; lia).
    rewrite testbit_pow2. unfold m. destruct (N.ltb_spec j (t + 1)) as [L|G].
    - destruct (N.eqb_spec t j) as [->|Ne]; [exact Ht|apply Hlow; lia].
    - rewrite N.shiftr_spec'. f_equal; lia. }
  assert (E1 : x - 1 = (2 ^ t - 1) + 2 ^ (t + 1) * m).
  { rewrite E at 1. pose proof (pow2_pos t). lia. }
  rewrite N.land_spec, E1. rewrite testbit_concat.
  2:{ pose proof (pow2_lt t (t + 1)). lia. }
  rewrite testbit_pow2_pred. destruct (N.ltb_spec i (t + 1)) as [L|G].
  - destruct (N.ltb_spec i t) as [L2|G2].
    + rewrite Hlow by exact L2. reflexivity.
    + replace (i =? t) with true by lia. reflexivity.
  - unfold m. rewrite N.shiftr_spec'. replace (i - (t + 1) + (t + 1)) with i by lia.
    replace (i =? t) with false by lia. destruct (N.testbit x i); reflexivity.
Qed.
(** elements of [bits] are increasing *)
Lemma seqN_filter_tl : forall (f : N -> bool) n s t l, filter f (seqN s n) = t :: l ->
  (forall i, s <= i -> i < t -> f i = false) /\ f t = true /\
  filter (fun i => f i && negb (i =? t)) (seqN s n) = l.
Proof.
  intros f n; induction n as [|n IH]; intros s t l E; simpl in E; [discriminate|].
  destruct (f s) eqn:F.
  - inversion E; subst. split; [intros; lia|]. split; [exact F|].
    simpl. rewrite F, N.eqb_refl. simpl. apply filter_ext_In. intros i Hi. apply in_seqN in Hi.
    replace (i =? t) with false by lia. apply andb_true_r.
  - destruct (IH (s + 1) t l E) as (H1 & H2 & H3). split.
    + intros i Hi Hlt. destruct (N.eq_dec i s) as [->|Ne]; [exact F|apply H1; lia].
    + split; [exact H2|]. simpl. rewrite F. exact H3.
Qed.
Lemma bits_drop : forall x t l, x < 2 ^ 64 -> bits x = t :: l -> bits (N.land x (x - 1)) = l.
Proof.
  intros x t l Hx E. rewrite bits_eq in E |- *. destruct (seqN_filter_tl _ _ _ _ _ E) as (H1 & H2 & H3).
  rewrite <- H3. apply filter_ext_In. intros i _. apply lowest_bit; [exact H2|].
  intros j Hj. apply H1; [lia|exact Hj].
Qed.
Lemma drop_low_bits_ok : forall p k x, x < 2 ^ 64 -> (k < List.length (bits x))%nat ->
  exists y, drop_low_bits p k x = Ret y /\ y < 2 ^ 64 /\ bits y = skipn k (bits x).
Proof.
  intros p k; induction k as [|k IH]; intros x Hx Hk; [exists x; auto|].
  cbn [drop_low_bits]. destruct (bits x) as [|t l] eqn:E; [simpl in Hk; lia|].
  assert (Z : x <> 0). { intro Z. pose proof (word_zero_iff x Hx) as H. rewrite E, Z in H. discriminate. }
  unfold rs_debug_assert. replace (0 <? x) with true by lia. rewrite andb_false_r. cbn [bind].
  rewrite chk_sub_ok by lia. cbn [bind].
  pose proof (bits_drop x t l Hx E) as D.
  destruct (IH (N.land x (x - 1))) as (y & Ey & Hy & By).
  - apply land_lt; exact Hx.
  - rewrite D. simpl in Hk. lia.
  - exists y. split; [exact Ey|]. split; [exact Hy|]. rewrite By, D. reflexivity.
Qed.

Lemma nth_error_app_lt : forall {A} (a b : list A) n, (n < List.length a)%nat -> nth_error (a ++ b) n = nth_error a n.
Proof. intros; apply nth_error_app1; assumption. Qed.
Lemma hd_error_skipn : forall {A} k (l : list A), hd_error (skipn k l) = nth_error l k.
Proof. intros A k; induction k as [|k IH]; intros [|x l]; simpl; try reflexivity. apply IH. Qed.

Lemma find_nth_loop_ok : forall p whole l n k sum, wf whole -> n < 2 ^ 32 ->
  (exists pre, words whole = pre ++ l /\ k = N.of_nat (List.length pre) /\
     sum = N.of_nat (List.length (members_from 0 pre))) -> sum <= n ->
  find_nth_loop p whole n k sum l = Ret (nth_error (elements whole) (N.to_nat n)).
Proof.
  intros p whole l; induction l as [|x l IH]; intros n k sum Hb Hn (pre & Ew & Ek & Es) Hs.
  - cbn [find_nth_loop]. rewrite app_nil_r in Ew. subst pre.
    rewrite bf_count_ok by exact Hb. rewrite elements_words by exact Hb.
    unfold rs_debug_assert.
    replace (N.of_nat (List.length (members_from 0 (words whole))) <=? n) with true by lia.
    rewrite andb_false_r. cbn [bind]. f_equal. symmetry. apply nth_error_None. lia.
  - cbn [find_nth_loop].
    assert (Lx : List.length (bits x) = N.to_nat (count_ones64 x)).
    { unfold count_ones64. rewrite bits_eq, Nnat.Nat2N.id. reflexivity. }
    assert (L4 : List.length (words whole) = 4%nat) by reflexivity.
    rewrite Ew, app_length in L4. cbn [List.length] in L4.
    assert (Tot : (List.length (elements whole) <= 256)%nat) by apply elements_length_le.
    rewrite (elements_words whole Hb), Ew, members_from_app in Tot. cbn [members_from] in Tot.
    rewrite !app_length, map_length in Tot.
    assert (Hx : x < 2 ^ 64). { apply (words_lt whole); [exact Hb|]. rewrite Ew. apply in_app_iff; right; left; reflexivity. }
    rewrite chk_add_ok by lia. cbn [bind].
    destruct (N.ltb_spec n (sum + count_ones64 x)) as [L|G].
    + destruct (drop_low_bits_ok p (N.to_nat (n - sum)) x Hx) as (y & Ey & Hy & By); [lia|].
      rewrite Ey. cbn [bind].
      destruct (skipn (N.to_nat (n - sum)) (bits x)) as [|i r] eqn:Sk.
      { apply (f_equal (@List.length N)) in Sk. rewrite skipn_length in Sk. simpl in Sk. lia. }
      assert (Z : y <> 0). { intro Z. pose proof (word_zero_iff y Hy) as H. rewrite By, Z in H. discriminate. }
      unfold rs_debug_assert. replace (0 <? y) with true by lia. rewrite andb_false_r. cbn [bind].
      unfold cast. rewrite N.mod_small by (change (2 ^ 8) with 256; lia).
      rewrite (bit_index_ok p k y i r) by (try exact By; lia). cbn [bind].
      assert (Nth : nth_error (elements whole) (N.to_nat n) = Some (64 * k + i)).
      { rewrite elements_words by exact Hb. rewrite Ew, members_from_app. cbn [members_from].
        rewrite nth_error_app2 by lia. rewrite nth_error_app_lt by (rewrite map_length; lia).
        replace (N.to_nat n - List.length (members_from 0 pre))%nat with (N.to_nat (n - sum)) by lia.
        rewrite nth_error_map, <- hd_error_skipn, Sk. simpl. do 2 f_equal. lia. }
      assert (Mb : In (64 * k + i) (elements whole)) by (eapply nth_error_In; exact Nth).
      rewrite bf_test_ok; [|exact Hb|apply (in_elements_byte whole), Mb].
      apply in_elements in Mb; [|exact Hb]. rewrite Mb.
      unfold rs_debug_assert_m. destruct (debug_assertions p); simpl; rewrite Nth; reflexivity.
    + apply IH; [exact Hb|exact Hn| |exact G].
      exists (pre ++ [x]). split; [rewrite <- app_assoc; exact Ew|]. split; [rewrite app_length; simpl; lia|].
      rewrite members_from_app, app_length. cbn [members_from]. rewrite app_nil_r, map_length. lia.
Qed.
Lemma bf_find_nth_ok : forall p b n, wf b -> n < 2 ^ 32 ->
  bf_find_nth p b n = Ret (nth_error (elements b) (N.to_nat n)).
Proof.
  intros p b n Hb Hn. unfold bf_find_nth. apply find_nth_loop_ok; [exact Hb|exact Hn| |lia].
  exists []. repeat split.
Qed.
