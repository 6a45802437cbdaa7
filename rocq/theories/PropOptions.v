(** C85: sets of compile options. *)
From Verif Require Import Base ModelUtil ModelDebug ModelFlags SpecDebug SpecOptions ProofBase PropDebug.
Local Open Scope N_scope.
Local Open Scope list_scope.

(** ** Bits *)
Lemma high_bit : forall f w i, f < 2 ^ w -> w <= i -> N.testbit f i = false.
Proof.
  intros f w i B L. destruct (N.eq_dec f 0) as [->|Nz]; [apply N.bits_0|]. apply N.bits_above_log2. apply N.lt_le_trans with w; [|exact L]. apply N.log2_lt_pow2; lia.
Qed.
Lemma low_bits : forall f w, (forall i, N.testbit f i = true -> i < w) -> f < 2 ^ w.
Proof.
  intros f w H. destruct (N.eq_dec f 0) as [->|Nz]; [apply N.neq_0_lt_0, N.pow_nonzero; discriminate|]. apply N.log2_lt_pow2; [lia|]. apply H, N.bit_log2, Nz.
Qed.
Lemma only_lt : forall f, only_options f <-> f < 2 ^ 11.
Proof.
  intro f. split; [apply low_bits|]. intros L i T. destruct (N.lt_ge_cases i 11) as [X|X]; [exact X|]. rewrite (high_bit f 11 i L X) in T. discriminate T.
Qed.
Lemma all_bit : forall i, N.testbit flags_all i = (i <? 11).
Proof.
  intro i. change flags_all with (N.ones 11). destruct (N.ltb_spec i 11) as [L|L]; [apply N.ones_spec_low; exact L|apply N.ones_spec_high; exact L].
Qed.
Lemma bnot_bit : forall f i, f < 2 ^ 16 -> N.testbit (bnot 16 f) i = negb (N.testbit f i) && (i <? 16).
Proof.
  intros f i B. unfold bnot. rewrite N.lxor_spec. destruct (N.ltb_spec i 16) as [L|L].
  - rewrite N.ones_spec_low by exact L. destruct (N.testbit f i); reflexivity.
  - rewrite N.ones_spec_high by exact L. rewrite (high_bit f 16 i B L). reflexivity.
Qed.
Lemma name_index : forall i j name, nth_error options i = Some name -> nth_error options j = Some name -> i = j.
Proof.
  assert (U : NoDup options) by (repeat constructor; cbn [In]; vm_compute; intuition discriminate).
  intros i j name A B. apply (proj1 (NoDup_nth_error options) U); [apply nth_error_Some; congruence|congruence].
Qed.
Lemma has_bit : forall f i name, nth_error options i = Some name -> (has f name <-> N.testbit f (N.of_nat i) = true).
Proof. intros f i name E. split; [|intro T; exists i; auto]. intros (j & Ej & T). rewrite (name_index _ _ _ E Ej). exact T. Qed.
Lemma option_at : forall k, k < 11 -> exists name, nth_error options (N.to_nat k) = Some name.
Proof.
  intros k L. destruct (nth_error options (N.to_nat k)) as [name|] eqn:E; [eauto|]. apply nth_error_None in E. cbn [options List.length] in E. lia.
Qed.
Lemma index_lt : forall i name, nth_error options i = Some name -> N.of_nat i < 11.
Proof. intros i name E. assert (L : (i < List.length options)%nat) by (apply nth_error_Some; congruence). cbn [options List.length] in L. lia. Qed.
Lemma bits_16 : forall f, only_options f -> f < 2 ^ 16.
Proof. intros f O. apply only_lt in O. apply N.lt_trans with (2 ^ 11); [exact O|reflexivity]. Qed.

Lemma extend_bit : forall gs f i, N.testbit (flags_extend f gs) i = true <-> N.testbit f i = true \/ exists h, In h gs /\ N.testbit h i = true.
Proof.
  induction gs as [|g gs IH]; intros f i; cbn [flags_extend fold_left].
  - split; [auto|]. intros [H|(h & [] & _)]. exact H.
  - fold (flags_extend (flags_or f g) gs). rewrite IH. unfold flags_or at 1. rewrite N.lor_spec, orb_true_iff. split.
    + intros [[H|H]|(h & H & T)]; [auto|right; exists g; split; [left; reflexivity|exact H]|right; exists h; split; [right; exact H|exact T]].
    + intros [H|(h & [->|H] & T)]; [auto|auto|]. right. eauto.
Qed.

(** ** C85 *)
(** The operators are those on sets of options. *)
Theorem C85_operators : forall f g name, f < 2 ^ 16 -> g < 2 ^ 16 -> In name options ->
  (has (flags_or f g) name <-> has f name \/ has g name) /\
  (has (flags_and f g) name <-> has f name /\ has g name) /\
  (has (flags_sub f g) name <-> has f name /\ ~ has g name) /\
  (has (flags_xor f g) name <-> (has f name /\ ~ has g name) \/ (has g name /\ ~ has f name)) /\
  (has (flags_not f) name <-> ~ has f name) /\
  (forall v : bool, has (flags_set f g v) name <-> if v then has f name \/ has g name else has f name /\ ~ has g name) /\
  (forall gs, has (flags_extend f gs) name <-> has f name \/ exists h, In h gs /\ has h name) /\
  (has (flags_from_bits_truncate f) name <-> has f name) /\ ~ has flags_empty name /\ has flags_all name.
Proof.
  intros f g name Bf Bg I. apply In_nth_error in I. destruct I as (i & E). pose proof (index_lt _ _ E) as L.
  assert (L11 : (N.of_nat i <? 11) = true) by (apply N.ltb_lt; exact L). assert (L16 : (N.of_nat i <? 16) = true) by (apply N.ltb_lt; lia).
  assert (Or : has (flags_or f g) name <-> has f name \/ has g name).
  { rewrite !(has_bit _ _ _ E). unfold flags_or. rewrite N.lor_spec. apply orb_true_iff. }
  assert (Sub : has (flags_sub f g) name <-> has f name /\ ~ has g name).
  { rewrite !(has_bit _ _ _ E). unfold flags_sub. rewrite N.land_spec, (bnot_bit _ _ Bg), L16, andb_true_r, andb_true_iff, negb_true_iff, not_true_iff_false. reflexivity. }
  split; [exact Or|]. split; [rewrite !(has_bit _ _ _ E); unfold flags_and; rewrite N.land_spec; apply andb_true_iff|]. split; [exact Sub|]. split.
  { rewrite !(has_bit _ _ _ E). unfold flags_xor. rewrite N.lxor_spec. destruct (N.testbit f _), (N.testbit g _); cbn [xorb]; intuition congruence. }
  split.
  { rewrite !(has_bit _ _ _ E). unfold flags_not. rewrite N.land_spec, (bnot_bit _ _ Bf), L16, andb_true_r. change ALL_FLAGS with flags_all. rewrite all_bit, L11, andb_true_r, negb_true_iff, not_true_iff_false. reflexivity. }
  split; [intros [|]; [exact Or|exact Sub]|]. split.
  { intro gs. rewrite !(has_bit _ _ _ E). rewrite extend_bit. split; (intros [H|(h & H & T)]; [auto|right; exists h; split; [exact H|]]); [apply (has_bit _ _ _ E); exact T|apply (has_bit _ _ _ E) in T; exact T]. }
  split; [rewrite !(has_bit _ _ _ E); unfold flags_from_bits_truncate; rewrite N.land_spec, all_bit, L11, andb_true_r; reflexivity|].
  split; [rewrite (has_bit _ _ _ E); unfold flags_empty; rewrite N.bits_0; discriminate|rewrite (has_bit _ _ _ E), all_bit; exact L11].
Qed.
(** Values with no bits but those of options stay such, and are told apart by their options. *)
Theorem C85_closed : forall f g, only_options f -> only_options g ->
  only_options (flags_or f g) /\ only_options (flags_and f g) /\ only_options (flags_sub f g) /\ only_options (flags_xor f g) /\ only_options (flags_not f) /\
  (forall v, only_options (flags_set f g v)) /\ (forall gs, Forall only_options gs -> only_options (flags_extend f gs)) /\
  (forall b, only_options (flags_from_bits_truncate b)) /\ (forall b h, b < 2 ^ 16 -> (flags_from_bits b = Some h <-> h = b /\ only_options b)) /\
  only_options flags_empty /\ only_options flags_all /\ (f = g <-> forall name, has f name <-> has g name).
Proof.
  intros f g Of Og. pose proof (bits_16 g Og) as Bg.
  assert (Or : only_options (flags_or f g)). { intros i T. unfold flags_or in T. rewrite N.lor_spec in T. apply orb_true_iff in T. destruct T; auto. }
  assert (Sub : only_options (flags_sub f g)). { intros i T. unfold flags_sub in T. rewrite N.land_spec in T. apply andb_true_iff in T. destruct T; auto. }
  split; [exact Or|]. split; [intros i T; unfold flags_and in T; rewrite N.land_spec in T; apply andb_true_iff in T; destruct T; auto|]. split; [exact Sub|].
  split; [intros i T; unfold flags_xor in T; rewrite N.lxor_spec in T; destruct (N.testbit f i) eqn:A; [auto|]; rewrite xorb_false_l in T; auto|].
  split; [intros i T; unfold flags_not in T; rewrite N.land_spec in T; apply andb_true_iff in T; destruct T as [_ T]; change ALL_FLAGS with flags_all in T; rewrite all_bit in T; apply N.ltb_lt; exact T|].
  split; [intros [|]; assumption|]. split.
  { intros gs H i T. apply extend_bit in T. destruct T as [T|(h & I & T)]; [auto|]. rewrite Forall_forall in H. exact (H h I i T). }
  split; [intros b i T; unfold flags_from_bits_truncate in T; rewrite N.land_spec in T; apply andb_true_iff in T; destruct T as [_ T]; rewrite all_bit in T; apply N.ltb_lt; exact T|].
  split.
  { intros b h B. unfold flags_from_bits. assert (A16 : flags_all < 2 ^ 16) by reflexivity. destruct (N.eqb_spec (N.land b (bnot 16 flags_all)) 0) as [Z|Nz].
    - split; [intro X; injection X as <-|intros [-> _]; reflexivity]. split; [reflexivity|]. intros i T. destruct (N.lt_ge_cases i 11) as [X|X]; [exact X|].
      apply (f_equal (fun n => N.testbit n i)) in Z. rewrite N.bits_0, N.land_spec, T, (bnot_bit _ _ A16), all_bit in Z.
      destruct (N.lt_ge_cases i 16) as [Y|Y]; [|rewrite (high_bit b 16 i B Y) in T; discriminate T].
      rewrite (proj2 (N.ltb_ge i 11) X), (proj2 (N.ltb_lt i 16) Y) in Z. discriminate Z.
    - split; [discriminate|]. intros [_ O]. destruct Nz. apply N.bits_inj_0. intro i. rewrite N.land_spec, (bnot_bit _ _ A16), all_bit.
      destruct (N.testbit b i) eqn:T; [|reflexivity]. apply O, N.ltb_lt in T. rewrite T. reflexivity. }
  split; [intros i T; unfold flags_empty in T; rewrite N.bits_0 in T; discriminate T|]. split; [intros i T; rewrite all_bit in T; apply N.ltb_lt; exact T|].
  split; [intros ->; reflexivity|]. intro H. apply N.bits_inj. intro k. destruct (N.lt_ge_cases k 11) as [L|L].
  - destruct (option_at k L) as (name & E). specialize (H name). rewrite !(has_bit _ _ _ E), N2Nat.id in H. apply eq_true_iff_eq. exact H.
  - rewrite (high_bit f 11 k), (high_bit g 11 k); try reflexivity; try exact L; apply only_lt; assumption.
Qed.
(** The tests are those of sets. *)
Theorem C85_tests : forall f g, only_options f -> only_options g ->
  (flags_is_empty f = true <-> forall name, ~ has f name) /\ (flags_is_all f = true <-> forall name, In name options -> has f name) /\
  (contains f g = true <-> forall name, has g name -> has f name) /\ (flags_intersects f g = true <-> exists name, has f name /\ has g name).
Proof.
  intros f g Of Og.
  assert (Bit : forall n i, only_options n -> N.testbit n i = true -> exists name, nth_error options (N.to_nat i) = Some name /\ has n name).
  { intros n i O T. destruct (option_at i (O i T)) as (name & E). exists name. split; [exact E|]. apply (has_bit _ _ _ E). rewrite N2Nat.id. exact T. }
  assert (None : forall n, only_options n -> (n = 0 <-> forall name, ~ has n name)).
  { intros n O. split; [intros -> name (i & _ & T); rewrite N.bits_0 in T; discriminate T|]. intro H. apply N.bits_inj_0. intro i. destruct (N.testbit n i) eqn:T; [|reflexivity].
    destruct (Bit n i O T) as (name & _ & X). destruct (H name X). }
  assert (Sup : forall a b, only_options b -> (N.land a b = b <-> forall name, has b name -> has a name)).
  { intros a b O. split.
    - intros Z name (i & E & T). exists i. split; [exact E|]. rewrite <- Z, N.land_spec in T. apply andb_true_iff in T. apply T.
    - intro H. apply N.bits_inj. intro i. rewrite N.land_spec. destruct (N.testbit b i) eqn:T; [|apply andb_false_r]. destruct (Bit b i O T) as (name & E & X).
      apply H in X. apply (has_bit _ _ _ E) in X. rewrite N2Nat.id in X. rewrite X. reflexivity. }
  split; [unfold flags_is_empty, flags_empty; rewrite N.eqb_eq; apply None; exact Of|]. split.
  { unfold flags_is_all. rewrite N.eqb_eq. assert (X : N.lor flags_all f = f <-> N.land f flags_all = flags_all).
    { split; intro Z; apply N.bits_inj; intro i; apply (f_equal (fun n => N.testbit n i)) in Z; rewrite ?N.lor_spec, ?N.land_spec in *; destruct (N.testbit f i), (N.testbit flags_all i); cbn in *; congruence. }
    rewrite X, Sup by (intros i T; rewrite all_bit in T; apply N.ltb_lt; exact T). split; intros H name.
    - intro I. apply H. apply In_nth_error in I. destruct I as (i & E). exists i. split; [exact E|]. rewrite all_bit. apply N.ltb_lt, (index_lt _ _ E).
    - intros (i & E & _). apply H. eapply nth_error_In, E. }
  split; [unfold contains; rewrite N.eqb_eq; apply Sup; exact Og|].
  unfold flags_intersects, flags_is_empty, flags_empty. rewrite negb_true_iff, N.eqb_neq. split.
  - intro Nz. destruct (N.log2_spec (N.land f g)) as [_ _]; [lia|]. pose proof (N.bit_log2 _ Nz) as T. rewrite N.land_spec in T. apply andb_true_iff in T. destruct T as [Tf Tg].
    destruct (Bit f _ Of Tf) as (name & E & X). exists name. split; [exact X|]. apply (has_bit _ _ _ E). rewrite N2Nat.id. exact Tg.
  - intros (name & (i & E & T) & (j & E' & T')) Z. rewrite <- (name_index _ _ _ E E') in T'. apply (f_equal (fun n => N.testbit n (N.of_nat i))) in Z. rewrite N.land_spec, N.bits_0, T, T' in Z. discriminate Z.
Qed.
(** Every set of options is a value, the union of constants. *)
Theorem C85_constants : (forall i name b, nth_error flag_constants i = Some (name, b) -> nth_error options i = Some name /\ only_options b /\ forall n, has b n <-> n = name) /\
  List.length flag_constants = List.length options /\
  forall f, only_options f -> exists gs, incl gs (map snd flag_constants) /\ f = flags_extend flags_empty gs.
Proof.
  assert (Pow : forall i c, nth_error flag_constants i = Some c -> nth_error options i = Some (fst c) /\ snd c = 2 ^ N.of_nat i).
  { intros i c E. do 11 (destruct i as [|i]; [injection E as <-; split; reflexivity|]). destruct i; discriminate E. }
  split.
  - intros i name b E. destruct (Pow _ _ E) as [En Eb]. cbn [fst snd] in *. subst b. split; [exact En|]. split.
    + intros k T. rewrite N.pow2_bits_eqb in T. apply N.eqb_eq in T. subst k. apply (index_lt _ _ En).
    + intro n. split; [intros (j & Ej & T)|intros ->; exists i; split; [exact En|apply N.pow2_bits_true]].
      rewrite N.pow2_bits_eqb in T. apply N.eqb_eq, Nat2N.inj in T. subst j. congruence.
  - split; [reflexivity|]. intros f O. exists (filter (contains f) (map snd flag_constants)). split; [apply incl_filter|].
    apply N.bits_inj. intro k. apply eq_true_iff_eq. rewrite extend_bit. unfold flags_empty. rewrite N.bits_0. split.
    + intro T. right. exists (2 ^ k). split; [|apply N.pow2_bits_true]. apply filter_In. split.
      * pose proof (O k T) as L. destruct (nth_error flag_constants (N.to_nat k)) as [c|] eqn:E.
        -- destruct (Pow _ _ E) as [_ X]. rewrite N2Nat.id in X. rewrite <- X. apply in_map. eapply nth_error_In, E.
        -- apply nth_error_None in E. cbn [flag_constants List.length] in E. lia.
      * unfold contains. apply N.eqb_eq. apply N.bits_inj. intro j. rewrite N.land_spec, N.pow2_bits_eqb. destruct (N.eqb_spec k j) as [<-|_]; [rewrite T; reflexivity|apply andb_false_r].
    + intros [X|(h & I & T)]; [discriminate X|]. apply filter_In in I. destruct I as [_ C]. unfold contains in C. apply N.eqb_eq in C. rewrite <- C, N.land_spec in T. apply andb_true_iff in T. apply T.
Qed.
Lemma differ_less : forall f g k, N.testbit f k = false -> N.testbit g k = true -> (forall j, k < j -> N.testbit f j = N.testbit g j) -> f < g.
Proof.
  intros f g k Tf Tg H. assert (Q : f / 2 ^ (k + 1) = g / 2 ^ (k + 1)).
  { rewrite <- !N.shiftr_div_pow2. apply N.bits_inj. intro j. rewrite !N.shiftr_spec by lia. apply H. lia. }
  assert (Nz : 2 ^ (k + 1) <> 0) by (apply N.pow_nonzero; discriminate).
  assert (Rf : f mod 2 ^ (k + 1) < 2 ^ k).
  { apply low_bits. intros i T. destruct (N.lt_ge_cases i (k + 1)) as [L|L]; [|rewrite N.mod_pow2_bits_high in T by exact L; discriminate T].
    rewrite N.mod_pow2_bits_low in T by exact L. destruct (N.eq_dec i k) as [->|]; [congruence|lia]. }
  assert (Rg : 2 ^ k <= g mod 2 ^ (k + 1)).
  { destruct (N.lt_ge_cases (g mod 2 ^ (k + 1)) (2 ^ k)) as [L|L]; [|exact L]. pose proof (high_bit _ k k L (N.le_refl k)) as X. rewrite N.mod_pow2_bits_low in X by lia. congruence. }
  rewrite (N.div_mod f _ Nz), (N.div_mod g _ Nz), Q. lia.
Qed.
Lemma less_differ : forall f g, f < g -> exists k, N.testbit f k = false /\ N.testbit g k = true /\ forall j, k < j -> N.testbit f j = N.testbit g j.
Proof.
  intros f g L. assert (Nz : N.lxor f g <> 0) by (intro Z; apply N.lxor_eq in Z; lia). exists (N.log2 (N.lxor f g)).
  assert (A : forall j, N.log2 (N.lxor f g) < j -> N.testbit f j = N.testbit g j).
  { intros j Lj. pose proof (N.bits_above_log2 _ _ Lj) as X. rewrite N.lxor_spec in X. destruct (N.testbit f j), (N.testbit g j); (reflexivity || discriminate X). }
  pose proof (N.bit_log2 _ Nz) as D. rewrite N.lxor_spec in D. destruct (N.testbit f (N.log2 (N.lxor f g))) eqn:Tf, (N.testbit g (N.log2 (N.lxor f g))) eqn:Tg; try discriminate D; [|auto].
  exfalso. assert (X : g < f) by (apply differ_less with (N.log2 (N.lxor f g)); [exact Tg|exact Tf|intros j Lj; symmetry; apply A; exact Lj]). lia.
Qed.
(** The larger of two values has the last option in which they differ. *)
Theorem C85_order : forall f g, only_options f -> only_options g ->
  (flags_cmp f g = Eq <-> f = g) /\ flags_cmp g f = CompOpp (flags_cmp f g) /\
  (flags_cmp f g = Lt <-> exists i name, nth_error options i = Some name /\ ~ has f name /\ has g name /\
     forall j n, (i < j)%nat -> nth_error options j = Some n -> (has f n <-> has g n)).
Proof.
  intros f g Of Og. unfold flags_cmp. split; [apply N.compare_eq_iff|]. split; [apply N.compare_antisym|]. rewrite N.compare_lt_iff. split.
  - intro L. apply less_differ in L. destruct L as (k & Tf & Tg & A). destruct (option_at k (Og k Tg)) as (name & E). exists (N.to_nat k), name. split; [exact E|].
    split; [rewrite (has_bit f _ _ E), N2Nat.id, Tf; discriminate|]. split; [rewrite (has_bit g _ _ E), N2Nat.id; exact Tg|]. intros j n Lj Ej. rewrite !(has_bit _ _ _ Ej), (A (N.of_nat j)) by lia. reflexivity.
  - intros (i & name & E & Nf & Hg & A). rewrite (has_bit f _ _ E) in Nf. rewrite (has_bit g _ _ E) in Hg. apply not_true_iff_false in Nf. apply differ_less with (N.of_nat i); [exact Nf|exact Hg|].
    intros j Lj. destruct (N.lt_ge_cases j 11) as [L|L]; [|rewrite (high_bit f 11 j), (high_bit g 11 j); try reflexivity; try exact L; apply only_lt; assumption].
    destruct (option_at j L) as (n & En). specialize (A (N.to_nat j) n). rewrite !(has_bit _ _ _ En), N2Nat.id in A. apply eq_true_iff_eq, A; [lia|exact En].
Qed.

(** ** The text of a set *)
Lemma mod_step : forall f i, f mod 2 ^ (i + 1) = f mod 2 ^ i + (if N.testbit f i then 2 ^ i else 0).
Proof.
  intros f i. pose proof (N.testbit_spec' f i) as T. assert (Nz : 2 ^ i <> 0) by (apply N.pow_nonzero; discriminate).
  rewrite N.add_1_r, N.pow_succ_r', (N.mul_comm 2), N.mod_mul_r by (assumption || discriminate). rewrite <- T. destruct (N.testbit f i); cbn [N.b2n]; lia.
Qed.
(** After the first [i] options have been looked at. *)
Definition looked_at (f : N) (i : nat) (s : str * bool) : Prop :=
  if snd s then fst s = [] /\ f mod 2 ^ N.of_nat i = 0 else written (fst s) (f mod 2 ^ N.of_nat i).
Lemma written_pos : forall t n, written t n -> 0 < n.
Proof.
  assert (W : forall w b, word w b -> 0 < b). { intros w b [i name _|ds n _ Nz _]; [apply N.neq_0_lt_0, N.pow_nonzero; discriminate|lia]. }
  intros t n [w b H|t' n' w b _ H _ _]; apply W in H; lia.
Qed.
Lemma add_word : forall (s : str * bool) n w b, word w b -> n < b -> n < 2048 -> (if snd s then fst s = [] /\ n = 0 else written (fst s) n) ->
  snd (debug_word w s) = false /\ written (fst (debug_word w s)) (n + b).
Proof.
  intros [out first] n w b W Lb Lm H. cbn [debug_word fst snd] in *. split; [reflexivity|]. destruct first.
  - destruct H as [-> ->]. cbn [app]. rewrite N.add_0_l. apply written_one. exact W.
  - rewrite <- app_assoc. apply written_more; assumption.
Qed.
Lemma look : forall f i name s, nth_error options i = Some name -> looked_at f i s ->
  looked_at f (S i) (if (if (2 ^ N.of_nat i =? 0) && negb (f =? 0) then false else contains f (2 ^ N.of_nat i)) then debug_word name s else s).
Proof.
  intros f i name s E H. pose proof (index_lt _ _ E) as L. assert (Nz : 2 ^ N.of_nat i <> 0) by (apply N.pow_nonzero; discriminate).
  rewrite (proj2 (N.eqb_neq _ _) Nz). cbn [andb]. unfold contains.
  assert (C : (N.land f (2 ^ N.of_nat i) =? 2 ^ N.of_nat i) = N.testbit f (N.of_nat i)).
  { apply eq_true_iff_eq. rewrite N.eqb_eq. split.
    - intro X. apply (f_equal (fun n => N.testbit n (N.of_nat i))) in X. rewrite N.land_spec, N.pow2_bits_true, andb_true_r in X. exact X.
    - intro T. apply N.bits_inj. intro j. rewrite N.land_spec, N.pow2_bits_eqb. destruct (N.eqb_spec (N.of_nat i) j) as [<-|_]; [rewrite T; reflexivity|apply andb_false_r]. }
  rewrite C. unfold looked_at in *. rewrite Nat2N.inj_succ, <- N.add_1_r, mod_step. destruct (N.testbit f (N.of_nat i)) eqn:T.
  - assert (Lm : f mod 2 ^ N.of_nat i < 2 ^ N.of_nat i) by (apply N.mod_lt; exact Nz).
    assert (Lp : 2 ^ N.of_nat i <= 2 ^ 11) by (apply N.pow_le_mono_r; [discriminate|lia]). change (2 ^ 11) with 2048 in Lp.
    destruct (add_word s (f mod 2 ^ N.of_nat i) name (2 ^ N.of_nat i)) as [-> X]; [apply word_name; exact E|exact Lm|lia|exact H|exact X].
  - rewrite N.add_0_r. exact H.
Qed.
Lemma look_all : forall f, looked_at f 11 (fold_left (fun s c => if (if (snd c =? 0) && negb (f =? 0) then false else contains f (snd c)) then debug_word (fst c) s else s) flag_constants ([], true)).
Proof.
  intro f. assert (S0 : looked_at f 0 ([], true)) by (split; [reflexivity|apply N.mod_1_r]). unfold flag_constants. cbn [fold_left fst snd].
  apply (look f 0 (lit "CASELESS")) in S0; [|reflexivity]. apply (look f 1 (lit "DOTALL")) in S0; [|reflexivity]. apply (look f 2 (lit "MULTILINE")) in S0; [|reflexivity].
  apply (look f 3 (lit "SINGLEMATCH")) in S0; [|reflexivity]. apply (look f 4 (lit "ALLOWEMPTY")) in S0; [|reflexivity]. apply (look f 5 (lit "UTF8")) in S0; [|reflexivity].
  apply (look f 6 (lit "UCP")) in S0; [|reflexivity]. apply (look f 7 (lit "PREFILTER")) in S0; [|reflexivity]. apply (look f 8 (lit "SOM_LEFTMOST")) in S0; [|reflexivity].
  apply (look f 9 (lit "COMBINATION")) in S0; [|reflexivity]. apply (look f 10 (lit "QUIET")) in S0; [|reflexivity]. exact S0.
Qed.
Lemma debug_written : forall f, f < 2 ^ 16 -> if f =? 0 then debug_flags f = lit "(empty)" else written (debug_flags f) f.
Proof.
  intros f B. unfold debug_flags. pose proof (look_all f) as S1. set (s1 := fold_left _ _ _) in *. clearbody s1. unfold looked_at in S1. change (2 ^ N.of_nat 11) with 2048 in S1.
  set (extra := N.land f (bnot 16 flags_all)). assert (X : f = f mod 2048 + extra /\ extra mod 2048 = 0).
  { assert (A16 : flags_all < 2 ^ 16) by reflexivity. assert (Xe : extra = N.shiftl (N.shiftr f 11) 11).
    { apply N.bits_inj. intro i. unfold extra. rewrite N.land_spec, (bnot_bit _ _ A16), all_bit. destruct (N.lt_ge_cases i 11) as [L|L].
      - rewrite N.shiftl_spec_low by exact L. rewrite (proj2 (N.ltb_lt i 11) L). apply andb_false_r.
      - rewrite N.shiftl_spec_high', N.shiftr_spec', N.sub_add by exact L. rewrite (proj2 (N.ltb_ge i 11) L). cbn [negb andb].
        destruct (N.ltb_spec i 16) as [L'|L']; [apply andb_true_r|]. rewrite (high_bit f 16 i B L'). reflexivity. }
    rewrite N.shiftl_mul_pow2, N.shiftr_div_pow2 in Xe. change (2 ^ 11) with 2048 in Xe. rewrite Xe. split; [rewrite (N.div_mod f 2048) at 1 by discriminate; lia|apply N.mod_mul; discriminate]. }
  destruct X as [X Xm]. assert (Lm : f mod 2048 < 2048) by (apply N.mod_lt; discriminate). destruct (N.eqb_spec extra 0) as [Z|Nz]; cbn [negb].
  - rewrite Z, N.add_0_r in X. rewrite <- X in S1. destruct s1 as [out [|]]; cbn [fst snd] in *.
    + destruct S1 as [_ ->]. reflexivity.
    + pose proof (written_pos _ _ S1). destruct (N.eqb_spec f 0); [lia|exact S1].
  - assert (Ge : 2048 <= extra) by (rewrite (N.div_mod extra 2048) in Nz |- * by discriminate; destruct (extra / 2048); lia).
    destruct (add_word s1 (f mod 2048) (lit "0x" ++ show_hex extra) extra) as [-> W]; [apply word_rest; [apply show_hex_number|exact Nz|exact Xm]|lia|exact Lm|exact S1|].
    rewrite <- X in W. destruct (N.eqb_spec f 0); [lia|exact W].
Qed.
(** Reading the text back. *)
Lemma name_plain : forall i name, nth_error options i = Some name -> ~ In 124 name /\ exists c r, name = c :: r /\ 48 <> c /\ 40 <> c.
Proof.
  intros i name E. do 11 (destruct i as [|i]; [injection E as <-; split; [vm_compute; intuition discriminate|do 2 eexists; split; [reflexivity|split; discriminate]]|]). destruct i; discriminate E.
Qed.
Lemma word_plain : forall w b, word w b -> ~ In 124 w /\ exists c r, w = c :: r /\ 40 <> c.
Proof.
  intros w b [i name E|ds n H _ _].
  - destruct (name_plain _ _ E) as [A (c & r & -> & _ & B)]. split; [exact A|eauto].
  - split; [|exists 48, (120 :: ds); split; [reflexivity|discriminate]]. intro I. change (lit "0x") with [48; 120] in I. destruct I as [I|[I|I]]; [discriminate I|discriminate I|].
    destruct (hex_number_inv _ _ H) as [_ D]. apply D in I. lia.
Qed.
Lemma word_fun : forall w b b', word w b -> word w b' -> b = b'.
Proof.
  assert (X : forall i name ds, nth_error options i = Some name -> name <> lit "0x" ++ ds).
  { intros i name ds E H. destruct (name_plain _ _ E) as [_ (c & r & -> & B & _)]. injection H as H _. auto. }
  intros w b b' H H'. destruct H as [i name E|ds n Hn _ _].
  - remember name as w eqn:Ew. destruct H' as [j name' E'|ds n H _ _]; subst; [rewrite (name_index _ _ _ E E'); reflexivity|]. destruct (X _ _ _ E eq_refl).
  - remember (lit "0x" ++ ds) as w eqn:Ew. destruct H' as [j name' E'|ds' n' H _ _]; subst; [destruct (X _ _ _ E' eq_refl)|]. apply app_inv_head in Ew. subst.
    destruct (hex_number_inv _ _ Hn) as [-> _]. destruct (hex_number_inv _ _ H) as [-> _]. reflexivity.
Qed.
Lemma last_split : forall (c : N) a b a' b', ~ In c b -> ~ In c b' -> a ++ c :: b = a' ++ c :: b' -> a = a' /\ b = b'.
Proof.
  intros c a b a' b' H H' E. apply (f_equal (@rev N)) in E. rewrite !rev_app_distr in E. cbn [rev] in E. rewrite <- !app_assoc in E. cbn [app] in E.
  apply first_split in E; [|rewrite <- in_rev; exact H|rewrite <- in_rev; exact H']. destruct E as [E1 E2].
  rewrite <- (rev_involutive a), <- (rev_involutive b), E1, E2, !rev_involutive. auto.
Qed.
Lemma bar_shape : forall t w, t ++ lit " | " ++ w = (t ++ [32]) ++ 124 :: 32 :: w.
Proof. intros t w. rewrite <- app_assoc. reflexivity. Qed.
Lemma written_fun : forall t n, written t n -> forall n', written t n' -> n = n'.
Proof.
  assert (Bar : forall t w b, ~ word (t ++ lit " | " ++ w) b).
  { intros t w b H. apply word_plain in H. destruct H as [H _]. apply H. rewrite bar_shape. apply in_or_app. right. left. reflexivity. }
  intros t n H. induction H as [w b W|t n w b H IH W L1 L2]; intros n' H'.
  - inversion H' as [w' b' W'|t' m w' b' T W' L1' L2']; subst; [exact (word_fun _ _ _ W W')|]. destruct (Bar _ _ _ W).
  - remember (t ++ lit " | " ++ w) as u eqn:Eu. destruct H' as [w' b' W'|t' m w' b' T W' L1' L2']; subst; [destruct (Bar _ _ _ W')|]. rewrite !bar_shape in Eu.
    destruct (word_plain _ _ W) as [P _]. destruct (word_plain _ _ W') as [P' _]. apply last_split in Eu; [|intros [I|I]; [discriminate I|auto]|intros [I|I]; [discriminate I|auto]].
    destruct Eu as [E1 E2]. injection E2 as ->. apply app_inj_tail in E1. destruct E1 as [-> _]. rewrite (IH m T), (word_fun _ _ _ W W'). reflexivity.
Qed.
Lemma word_low : forall w b, word w b -> b < 2048 -> exists i, nth_error options i = Some w /\ b = 2 ^ N.of_nat i.
Proof.
  intros w b [i name E|ds n H Nz M] L; [eauto|]. rewrite N.mod_small in M by exact L. destruct (Nz M).
Qed.
Lemma top_bit : forall n i, n < 2 ^ i -> N.log2 (n + 2 ^ i) = i.
Proof. intros n i L. apply N.log2_unique; [lia|]. rewrite N.pow_succ_r'. lia. Qed.
Lemma written_one_way : forall t n, written t n -> n < 2048 -> forall t', written t' n -> t = t'.
Proof.
  intros t n H. induction H as [w b W|t n w b H IH W L1 L2]; intros L t' H'.
  - destruct (word_low _ _ W L) as (i & E & ->). remember (2 ^ N.of_nat i) as b eqn:Eb. destruct H' as [w' b' W'|t' m w' b' T W' L1' L2'].
    + destruct (word_low _ _ W' L) as (j & E' & X). rewrite Eb in X. apply N.pow_inj_r in X; [|lia]. apply Nat2N.inj in X. subst j. congruence.
    + exfalso. pose proof (written_pos _ _ T). destruct (word_low _ _ W') as (j & E' & X); [lia|]. subst b'. assert (Y : N.log2 (m + 2 ^ N.of_nat j) = N.log2 (0 + 2 ^ N.of_nat i)) by (rewrite Eb, N.add_0_l; reflexivity).
      rewrite !top_bit in Y by lia. rewrite Y in Eb. lia.
  - destruct (word_low _ _ W) as (i & E & ->); [lia|]. remember (n + 2 ^ N.of_nat i) as k eqn:Ek. destruct H' as [w' b' W'|t' m w' b' T W' L1' L2'].
    + exfalso. pose proof (written_pos _ _ H). destruct (word_low _ _ W' L) as (j & E' & X). rewrite X in Ek. assert (Y : N.log2 (n + 2 ^ N.of_nat i) = N.log2 (0 + 2 ^ N.of_nat j)) by (rewrite <- Ek, N.add_0_l; reflexivity).
      rewrite !top_bit in Y by (try exact L1; apply N.neq_0_lt_0, N.pow_nonzero; discriminate). rewrite Y in Ek. lia.
    + destruct (word_low _ _ W') as (j & E' & ->); [lia|]. assert (Y : N.log2 (n + 2 ^ N.of_nat i) = N.log2 (m + 2 ^ N.of_nat j)) by (rewrite Ek; reflexivity).
      rewrite !top_bit in Y by assumption. apply Nat2N.inj in Y. subst j. assert (m = n) by lia. subst m. rewrite (IH L2 _ T). congruence.
Qed.
Lemma written_head : forall t n, written t n -> exists c r, t = c :: r /\ 40 <> c.
Proof.
  intros t n H. induction H as [w b W|t n w b H IH W L1 L2]; [apply word_plain in W; apply W|]. destruct IH as (c & r & -> & Nc). exists c. eexists. split; [reflexivity|exact Nc].
Qed.
(** The text lists the options of the value, and determines the value. *)
Theorem C85_debug : debug_flags 0 = lit "(empty)" /\ (forall f, 0 < f -> f < 2 ^ 16 -> written (debug_flags f) f) /\
  (forall t n n', written t n -> written t n' -> n = n') /\ (forall t t' n, only_options n -> written t n -> written t' n -> t = t') /\
  (forall n, ~ written (lit "(empty)") n) /\ (forall f g, f < 2 ^ 16 -> g < 2 ^ 16 -> debug_flags f = debug_flags g -> f = g).
Proof.
  assert (W : forall f, 0 < f -> f < 2 ^ 16 -> written (debug_flags f) f).
  { intros f P B. pose proof (debug_written f B) as D. destruct (N.eqb_spec f 0); [lia|exact D]. }
  assert (Ne : forall n, ~ written (lit "(empty)") n). { intros n H. apply written_head in H. destruct H as (c & r & E & Nc). injection E as E _. auto. }
  split; [reflexivity|]. split; [exact W|]. split; [intros t n n' H H'; exact (written_fun _ _ H _ H')|].
  split; [intros t t' n O H H'; apply only_lt in O; exact (written_one_way _ _ H O _ H')|]. split; [exact Ne|].
  intros f g Bf Bg E. destruct (N.eq_dec f 0) as [->|Pf], (N.eq_dec g 0) as [->|Pg]; [reflexivity| | |].
  - destruct (Ne g). change (lit "(empty)") with (debug_flags 0). rewrite E. apply W; [lia|exact Bg].
  - destruct (Ne f). change (lit "(empty)") with (debug_flags 0). rewrite <- E. apply W; [lia|exact Bf].
  - apply (written_fun (debug_flags f)); [apply W; [lia|exact Bf]|rewrite E; apply W; [lia|exact Bg]].
Qed.
Example C85_case : only_options 265 /\ debug_flags 265 = lit "CASELESS | SINGLEMATCH | SOM_LEFTMOST" /\ debug_flags 6176 = lit "UTF8 | 0x1800" /\
  (forall name, has 265 name <-> name = lit "CASELESS" \/ name = lit "SINGLEMATCH" \/ name = lit "SOM_LEFTMOST") /\
  flags_from_bits 2048 = None /\ flags_from_bits 2047 = Some flags_all /\ flags_cmp 255 256 = Lt /\ flags_extend flags_empty [CASELESS; SOM_LEFTMOST; SINGLEMATCH; CASELESS] = 265.
Proof.
  split; [apply only_lt; reflexivity|]. split; [reflexivity|]. split; [reflexivity|]. split; [|repeat split].
  intro name. split.
  - intros (i & E & T). do 11 (destruct i as [|i]; [vm_compute in T; try discriminate T; injection E as <-; auto|]). destruct i; discriminate E.
  - intros [->|[->| ->]]; [exists 0%nat|exists 3%nat|exists 8%nat]; split; reflexivity.
Qed.

Print Assumptions C85_operators. Print Assumptions C85_closed. Print Assumptions C85_tests. Print Assumptions C85_constants. Print Assumptions C85_order. Print Assumptions C85_debug.
