(** CharReach: iteration, case closure, predicates, masks. *)
From Coq Require Import Sorted.
From Verif Require Import Base ModelUtil ModelBitField ModelCharReach SpecSet ProofBase ProofBitField ProofBitField2.
Local Open Scope N_scope.

(** ** The member list is strictly increasing *)
Lemma seqN_sorted : forall n s, StronglySorted N.lt (seqN s n).
Proof.
  induction n as [|n IH]; intro s; simpl; constructor; [apply IH|].
  apply Forall_forall. intros x Hx. apply in_seqN in Hx. lia.
Qed.
Lemma filter_sorted : forall (f : N -> bool) l, StronglySorted N.lt l -> StronglySorted N.lt (filter f l).
Proof.
  intros f l H; induction H as [|x l Hs IH Hf]; simpl; [constructor|].
  destruct (f x); [|exact IH]. constructor; [exact IH|].
  rewrite Forall_forall in Hf |- *. intros y Hy. apply Hf. apply filter_In in Hy. apply Hy.
Qed.
Lemma elements_sorted : forall b, StronglySorted N.lt (elements b).
Proof. intro b. unfold elements. rewrite all_bytes_seqN. apply filter_sorted, seqN_sorted. Qed.
Lemma sorted_next : forall pre c r, StronglySorted N.lt (pre ++ c :: r) ->
  filter (fun x => c <? x) (pre ++ c :: r) = r.
Proof.
  induction pre as [|y pre IH]; intros c r H; simpl.
  - rewrite N.ltb_irrefl. inversion H; subst. apply filter_all. rewrite Forall_forall in *.
    intros x Hx. apply N.ltb_lt. auto.
  - inversion H as [|? ? Hs Hf]; subst. rewrite Forall_forall in Hf.
    assert (L : y < c) by (apply Hf, in_app_iff; right; left; reflexivity).
    replace (c <? y) with false by lia. apply IH, Hs.
Qed.

(** ** Iteration *)
Fixpoint fold_exit {A R} (body : A -> N -> outcome (A + R)) (l : list N) (acc : A) : outcome (A + R) :=
  match l with
  | [] => Ret (inl acc)
  | x :: t => let! r := body acc x in
              match r with inr z => Ret (inr z) | inl acc' => fold_exit body t acc' end
  end.
Lemma iter_loop_ok : forall {A R} p fuel cr (body : A -> N -> outcome (A + R)) l pre acc,
  wf cr -> elements cr = pre ++ l -> (List.length l < fuel)%nat ->
  iter_loop p fuel cr body (hd_error l) acc = fold_exit body l acc.
Proof.
  intros A R p fuel cr body; induction fuel as [|fuel IH]; intros l pre acc Hw He Hf; [lia|].
  destruct l as [|c r]; [reflexivity|]. cbn [iter_loop hd_error fold_exit].
  destruct (body acc c) as [[acc'|z]|w|]; cbn [bind]; try reflexivity.
  assert (Hc : byte c). { apply (in_elements_byte cr). rewrite He. apply in_app_iff; right; left; reflexivity. }
  unfold cr_find_next. rewrite bf_find_next_ok by assumption. cbn [bind].
  rewrite He, sorted_next by (rewrite <- He; apply elements_sorted).
  apply (IH r (pre ++ [c])); [exact Hw|rewrite <- app_assoc; exact He|simpl in Hf; lia].
Qed.
Lemma iterate_ok : forall {A R} p cr (body : A -> N -> outcome (A + R)) acc, wf cr ->
  (let! next := cr_find_first p cr in iter_loop p LOOP_FUEL cr body next acc) = fold_exit body (elements cr) acc.
Proof.
  intros A R p cr body acc Hw. unfold cr_find_first. rewrite bf_find_first_ok by exact Hw. cbn [bind].
  apply iter_loop_ok with (pre := []); [exact Hw|reflexivity|].
  pose proof (elements_length_le cr). unfold LOOP_FUEL. lia.
Qed.
Lemma iterate_ok' : forall {A R B} p cr (body : A -> N -> outcome (A + R)) acc (k : A + R -> outcome B), wf cr ->
  (let! next := cr_find_first p cr in let! r := iter_loop p LOOP_FUEL cr body next acc in k r)
  = let! r := fold_exit body (elements cr) acc in k r.
Proof.
  intros A R B p cr body acc k Hw. rewrite <- (iterate_ok p cr body acc Hw).
  destruct (cr_find_first p cr); reflexivity.
Qed.
(** bodies that never leave early *)
Lemma fold_exit_pure : forall {A R} (f : A -> N -> A) l acc,
  fold_exit (R := R) (fun a c => Ret (inl (f a c))) l acc = Ret (inl (fold_left f l acc)).
Proof. intros A R f l; induction l as [|x l IH]; intro acc; simpl; [reflexivity|apply IH]. Qed.
(** bodies that search for a counterexample *)
Lemma fold_exit_forall : forall (f : N -> bool) l,
  (let! r := fold_exit (fun (_ : unit) c => Ret (if negb (f c) then inr false else inl tt)) l tt in
   match r with inr b => Ret b | inl _ => Ret true end) = Ret (forallb f l).
Proof.
  intros f l; induction l as [|x l IH]; simpl; [reflexivity|].
  destruct (f x); simpl; [exact IH|reflexivity].
Qed.

Lemma cr_display_ok : forall p cr, wf cr -> cr_display p cr = Ret (elements cr).
Proof.
  intros p cr Hw. unfold cr_display.
  rewrite iterate_ok' by exact Hw.
  rewrite (fold_exit_pure (fun (a : str) c => a ++ [c])). cbn [bind]. f_equal.
  assert (H : forall (l acc : str), fold_left (fun a c => a ++ [c]) l acc = acc ++ l).
  { intro l; induction l as [|x l IH]; intro acc; simpl; [symmetry; apply app_nil_r|].
    rewrite IH, <- app_assoc. reflexivity. }
  apply H.
Qed.

(** ** Constructors *)
Lemma cr_from_char_ok : forall p c, byte c -> exists b, cr_from_char p c = Ret b /\ wf b /\
  forall x, byte x -> mem b x = (x =? c).
Proof.
  intros p c Hc. destruct (bf_set_ok p bf_default c wf_default Hc) as (b & E & W & M).
  exists b. split; [exact E|split; [exact W|]]. intros x Hx. rewrite M, mem_default by exact Hx. apply orb_false_r.
Qed.
Lemma cr_set_bytes_ok : forall p bs cr, wf cr -> (forall x, In x bs -> byte x) ->
  exists b, cr_set_bytes p cr bs = Ret b /\ wf b /\
    forall x, byte x -> mem b x = existsb (N.eqb x) bs || mem cr x.
Proof.
  intros p bs; induction bs as [|c bs IH]; intros cr Hw Hbs.
  - exists cr. split; [reflexivity|split; [exact Hw|reflexivity]].
  - cbn [cr_set_bytes]. destruct (bf_set_ok p cr c Hw) as (b1 & E1 & W1 & M1); [apply Hbs; left; reflexivity|].
    unfold cr_set. rewrite E1. cbn [bind].
    destruct (IH b1 W1) as (b & E & W & M); [intros x Hx; apply Hbs; right; exact Hx|].
    exists b. split; [exact E|split; [exact W|]]. intros x Hx. rewrite M, M1 by exact Hx.
    simpl. destruct (x =? c), (existsb (N.eqb x) bs); reflexivity.
Qed.
Lemma cr_from_bytes_ok : forall p bs, (forall x, In x bs -> byte x) ->
  exists b, cr_from_bytes p bs = Ret b /\ wf b /\ forall x, byte x -> mem b x = existsb (N.eqb x) bs.
Proof.
  intros p bs H. destruct (cr_set_bytes_ok p bs cr_default wf_default H) as (b & E & W & M).
  exists b. split; [exact E|split; [exact W|]]. intros x Hx. rewrite M by exact Hx.
  unfold cr_default. rewrite mem_default. apply orb_false_r.
Qed.
Lemma cr_from_range_ok : forall p from to, byte from -> byte to -> from <= to ->
  exists b, cr_from_range p from to = Ret b /\ wf b /\ forall x, byte x -> mem b x = (from <=? x) && (x <=? to).
Proof.
  intros p from to Hf Ht Hle.
  destruct (bf_set_range_ok p bf_default from to wf_default Hf Ht Hle) as (b & E & W & M).
  exists b. split; [exact E|split; [exact W|]]. intros x Hx. rewrite M, mem_default by exact Hx. apply orb_false_r.
Qed.

(** ** Letters *)
Lemma mytolower_upper : forall u, 65 <= u <= 90 -> mytolower u = u + 32.
Proof. intros u H. unfold mytolower, myisupper. replace ((65 <=? u) && (u <=? 90)) with true by lia. reflexivity. Qed.
Lemma ourisalpha_ok : forall c, ourisalpha c = true <-> is_letter c.
Proof.
  intro c. unfold ourisalpha, mytolower, mytoupper, myisupper, myislower, is_letter, is_upper, is_lower.
  ifs; lia.
Qed.
Lemma mytoupper_eq : forall c, mytoupper c = upper_case c.
Proof. reflexivity. Qed.

Lemma make_caseless_loop_ok : forall p cs cr, wf cr -> (forall u, In u cs -> 65 <= u <= 90) ->
  exists b, make_caseless_loop p cs cr = Ret b /\ wf b /\ forall c, byte c ->
    mem b c = mem cr c || existsb (fun u => (mem cr u || mem cr (u + 32)) && ((c =? u) || (c =? u + 32))) cs.
Proof.
  intros p cs; induction cs as [|u cs IH]; intros cr Hw Hcs.
  - exists cr. split; [reflexivity|split; [exact Hw|]]. intros c _. simpl. symmetry; apply orb_false_r.
  - cbn [make_caseless_loop]. pose proof (Hcs u (or_introl eq_refl)) as Hu.
    rewrite mytolower_upper by exact Hu. unfold cr_test, cr_set.
    rewrite !bf_test_ok by (try exact Hw; unfold byte; lia). cbn [bind].
    assert (Step : exists b1,
      (if mem cr u then Ret true else Ret (mem cr (u + 32))) = Ret (mem cr u || mem cr (u + 32)) /\
      (if mem cr u || mem cr (u + 32) then let! cr1 := bf_set p cr u in bf_set p cr1 (u + 32) else Ret cr) = Ret b1 /\
      wf b1 /\ forall c, byte c ->
        mem b1 c = mem cr c || ((mem cr u || mem cr (u + 32)) && ((c =? u) || (c =? u + 32)))).
    { destruct (mem cr u || mem cr (u + 32)) eqn:Hit.
      - destruct (bf_set_ok p cr u Hw) as (b1 & E1 & W1 & M1); [unfold byte; lia|].
        destruct (bf_set_ok p b1 (u + 32) W1) as (b2 & E2 & W2 & M2); [unfold byte; lia|].
        exists b2. split; [destruct (mem cr u); [reflexivity|simpl in Hit; rewrite Hit; reflexivity]|].
        split; [rewrite E1; exact E2|]. split; [exact W2|]. intros c Hc. rewrite M2, M1 by exact Hc.
        simpl. destruct (mem cr c), (c =? u), (c =? u + 32); reflexivity.
      - exists cr. split; [destruct (mem cr u); [discriminate|simpl in Hit; rewrite Hit; reflexivity]|].
        split; [reflexivity|]. split; [exact Hw|]. intros c _. simpl. symmetry; apply orb_false_r. }
    destruct Step as (b1 & Eh & E1 & W1 & M1). rewrite Eh. cbn [bind]. unfold charreach in *. rewrite E1. cbn [bind].
    destruct (IH b1 W1) as (b & E & W & M); [intros v Hv; apply Hcs; right; exact Hv|].
    exists b. split; [exact E|split; [exact W|]]. intros c Hc. rewrite M, M1 by exact Hc.
    cbn [existsb]. rewrite <- orb_assoc. f_equal.
    destruct ((mem cr u || mem cr (u + 32)) && ((c =? u) || (c =? u + 32))) eqn:Q; cbn [orb]; [reflexivity|].
    apply eq_true_iff_eq. rewrite !existsb_exists. split.
    + intros (v & Hv & Hx). exists v. split; [exact Hv|].
      pose proof (Hcs v (or_intror Hv)) as Lv.
      rewrite !M1 in Hx by (unfold byte; lia).
      destruct (N.eq_dec v u) as [->|Ne].
      * revert Hx Q. destruct (mem cr u), (mem cr (u + 32)), (c =? u), (c =? u + 32); simpl; intros; try discriminate;
          try reflexivity; rewrite ?N.eqb_refl in *; simpl in *; congruence.
      * replace (v =? u) with false in Hx by lia. replace (v =? u + 32) with false in Hx by lia.
        replace (v + 32 =? u) with false in Hx by lia. replace (v + 32 =? u + 32) with false in Hx by lia.
        simpl in Hx. rewrite !andb_false_r, !orb_false_r in Hx. exact Hx.
    + intros (v & Hv & Hx). exists v. split; [exact Hv|].
      pose proof (Hcs v (or_intror Hv)) as Lv. rewrite !M1 by (unfold byte; lia).
      apply andb_true_iff in Hx. destruct Hx as [Hx ->]. rewrite andb_true_r.
      apply orb_true_iff in Hx. destruct Hx as [->| ->]; simpl; [reflexivity|]. apply orb_true_r.
Qed.

Definition caseless_mem (cr : bitfield) (c : N) : bool :=
  mem cr c || (negb (other_case c =? c) && mem cr (other_case c)).
Lemma make_caseless_ok : forall p cr, wf cr -> exists b, make_caseless p cr = Ret b /\ wf b /\
  forall c, byte c -> mem b c = caseless_mem cr c.
Proof.
  intros p cr Hw. destruct (make_caseless_loop_ok p (seqN 65 26) cr Hw) as (b & E & W & M).
  - intros u Hu. apply in_seqN in Hu. lia.
  - exists b. split; [exact E|split; [exact W|]]. intros c Hc. rewrite M by exact Hc.
    unfold caseless_mem. apply eq_true_iff_eq. rewrite !orb_true_iff, existsb_exists, andb_true_iff.
    split.
    + intros [H|(u & Hu & H)]; [left; exact H|]. apply in_seqN in Hu.
      apply andb_true_iff in H. destruct H as [H1 H2].
      apply orb_true_iff in H2. unfold other_case. destruct H2 as [H2|H2]; apply N.eqb_eq in H2; subst c.
      * replace ((65 <=? u) && (u <=? 90)) with true by lia.
        destruct (mem cr u); [left; reflexivity|]. right. simpl in H1. split; [lia|exact H1].
      * replace ((65 <=? u + 32) && (u + 32 <=? 90)) with false by lia.
        replace ((97 <=? u + 32) && (u + 32 <=? 122)) with true by lia.
        replace (u + 32 - 32) with u by lia.
        destruct (mem cr (u + 32)); [left; reflexivity|]. right. rewrite orb_false_r in H1. split; [lia|exact H1].
    + intros [H|(H1 & H2)]; [left; exact H|]. right. unfold other_case in H1, H2.
      destruct ((65 <=? c) && (c <=? 90)) eqn:Eu.
      * exists c. split; [apply in_seqN; lia|]. rewrite H2, orb_true_r, N.eqb_refl. reflexivity.
      * destruct ((97 <=? c) && (c <=? 122)) eqn:El.
        -- exists (c - 32). split; [apply in_seqN; lia|]. rewrite H2. replace (c - 32 + 32) with c by lia.
           rewrite N.eqb_refl, orb_true_r. reflexivity.
        -- lia.
Qed.

(** ** Predicates *)
Lemma is_alphabetic_ok : forall p cr, wf cr ->
  cr_is_alphabetic p cr = Ret (match elements cr with [] => false | _ => forallb ourisalpha (elements cr) end).
Proof.
  intros p cr Hw. unfold cr_is_alphabetic, cr_none. rewrite bf_none_ok by exact Hw.
  destruct (elements cr) as [|c l] eqn:E; [reflexivity|].
  rewrite iterate_ok' by exact Hw. rewrite (fold_exit_forall ourisalpha (elements cr)). rewrite E. reflexivity.
Qed.
Lemma is_bit5_ok : forall p cr, wf cr ->
  cr_is_bit5_insensitive p cr = Ret (forallb (fun c => mem cr (N.lxor c 32)) (elements cr)).
Proof.
  intros p cr Hw. unfold cr_is_bit5_insensitive. rewrite iterate_ok' by exact Hw.
  rewrite <- (fold_exit_forall (fun c => mem cr (N.lxor c 32)) (elements cr)).
  assert (H : forall l, (forall c, In c l -> byte c) ->
    fold_exit (fun (_ : unit) pos => let! t := cr_test p cr (N.lxor pos 32) in Ret (if negb t then inr false else inl tt)) l tt
    = fold_exit (fun (_ : unit) c => Ret (if negb (mem cr (N.lxor c 32)) then inr false else inl tt)) l tt).
  { intro l; induction l as [|c l IH]; intro Hl; [reflexivity|]. simpl.
    unfold cr_test. rewrite bf_test_ok.
    - cbn [bind]. destruct (mem cr (N.lxor c 32)); simpl; [|reflexivity].
      apply IH. intros x Hx; apply Hl; right; exact Hx.
    - exact Hw.
    - apply (lxor_lt 8); [apply Hl; left; reflexivity|reflexivity]. }
  rewrite H; [reflexivity|]. intros c Hc. apply (in_elements_byte cr), Hc.
Qed.
Lemma is_caseless_char_ok : forall p cr, wf cr ->
  cr_is_caseless_char p cr =
  Ret (match elements cr with [a; b] => a =? upper_case b | _ => false end).
Proof.
  intros p cr Hw. unfold cr_is_caseless_char, cr_count. rewrite bf_count_ok by exact Hw.
  destruct (elements cr) as [|a [|b [|c l]]] eqn:E.
  - reflexivity.
  - reflexivity.
  - replace (N.of_nat (List.length [a; b]) =? 2) with true by reflexivity. cbn [negb].
    unfold cr_find_first, cr_find_next. rewrite bf_find_first_ok by exact Hw. rewrite E. cbn [bind hd_error expect].
    rewrite bf_find_next_ok; [|exact Hw|apply (in_elements_byte cr); rewrite E; left; reflexivity].
    rewrite E. pose proof (elements_sorted cr) as S. rewrite E in S.
    change [a; b] with ([] ++ a :: [b]). rewrite (sorted_next [] a [b]) by exact S. reflexivity.
  - replace (N.of_nat (List.length (a :: b :: c :: l)) =? 2) with false; [reflexivity|].
    cbn [List.length]. lia.
Qed.
Lemma subset_ok : forall a b, wf a -> wf b ->
  (cr_is_subset_of a b = true <-> forall c, mem a c = true -> mem b c = true).
Proof.
  intros a b Ha Hb. unfold cr_is_subset_of, bf_and. rewrite bf_eqb_spec.
  destruct (bf_and_ok b a Hb Ha) as [W M]. rewrite <- same_iff by assumption. unfold same. split.
  - intros H c Hm. destruct (N.lt_ge_cases c 256) as [L|G].
    + specialize (H c L). rewrite M, Hm, andb_true_r in H by exact L. exact H.
    + rewrite mem_out in Hm; [discriminate|exact Ha|unfold byte; lia].
  - intros H c Hc. rewrite M by exact Hc. destruct (mem a c) eqn:E; [rewrite H by exact E; reflexivity|apply andb_false_r].
Qed.
Lemma none_iff : forall a, wf a -> (bf_none a = true <-> forall c, byte c -> mem a c = false).
Proof.
  intros a Ha. rewrite bf_none_ok by exact Ha. split.
  - intros H c _. destruct (mem a c) eqn:E; [|reflexivity]. apply in_elements in E; [|exact Ha].
    destruct (elements a); [contradiction|discriminate].
  - intro H. destruct (elements a) as [|c l] eqn:E; [reflexivity|]. exfalso.
    assert (I : In c (elements a)) by (rewrite E; left; reflexivity).
    pose proof (in_elements_byte a c I) as Hb. apply in_elements in I; [|exact Ha]. rewrite H in I by exact Hb. discriminate.
Qed.
Lemma overlaps_ok : forall a b, wf a -> wf b ->
  (cr_overlaps a b = true <-> exists c, mem a c = true /\ mem b c = true).
Proof.
  intros a b Ha Hb. unfold cr_overlaps, cr_any, bf_any, cr_and, cr_and_assign.
  destruct (bf_and_ok b a Hb Ha) as [W M]. rewrite bf_none_ok by exact W. split.
  - destruct (elements (bf_and_assign b a)) as [|c l] eqn:E; [discriminate|]. intros _. exists c.
    assert (I : In c (elements (bf_and_assign b a))) by (rewrite E; left; reflexivity).
    pose proof (in_elements_byte _ c I) as Hc. apply in_elements in I; [|exact W]. rewrite M in I by exact Hc.
    apply andb_true_iff in I. tauto.
  - intros (c & H1 & H2).
    assert (Hc : byte c). { destruct (N.lt_ge_cases c 256) as [L|G]; [exact L|].
      rewrite mem_out in H1; [discriminate|exact Ha|unfold byte; lia]. }
    assert (I : In c (elements (bf_and_assign b a))).
    { apply in_elements; [exact W|]. rewrite M, H1, H2 by exact Hc. reflexivity. }
    destruct (elements (bf_and_assign b a)); [contradiction|reflexivity].
Qed.
Lemma is_ascii_ok : forall p cr, wf cr -> exists r, cr_is_ascii p cr = Ret r /\
  (r = true <-> forall c, mem cr c = true -> c <= 127).
Proof.
  intros p cr Hw. unfold cr_is_ascii.
  destruct (cr_from_range_ok p 0 127) as (b & E & W & M); try (unfold byte; lia).
  rewrite E. cbn [bind]. eexists. split; [reflexivity|].
  destruct (bf_not_ok b W) as [Wn Mn]. unfold cr_none, cr_and, cr_and_assign, cr_not.
  destruct (bf_and_ok (bf_not b) cr Wn Hw) as [Wa Ma]. rewrite none_iff by exact Wa. split.
  - intros H c Hm. destruct (N.lt_ge_cases c 256) as [L|G].
    + specialize (H c L). rewrite Ma, Mn, M, Hm in H by exact L. lia.
    + rewrite mem_out in Hm; [discriminate|exact Hw|unfold byte; lia].
  - intros H c Hc. rewrite Ma, Mn, M by exact Hc. destruct (mem cr c) eqn:Em; [specialize (H c Em); lia|apply andb_false_r].
Qed.
Lemma is_utf8_start_ok : forall p cr, wf cr -> exists r, cr_is_utf8_start p cr = Ret r /\
  (r = true <-> forall c, mem cr c = true -> 192 <= c).
Proof.
  intros p cr Hw. unfold cr_is_utf8_start, UTF_CONT_MAX, UTF_TWO_BYTE_HEADER.
  destruct (cr_from_range_ok p 0 (192 - 1)) as (b & E & W & M); try (unfold byte; lia).
  rewrite E. cbn [bind]. eexists. split; [reflexivity|].
  unfold cr_none, cr_and, cr_and_assign.
  destruct (bf_and_ok b cr W Hw) as [Wa Ma]. rewrite none_iff by exact Wa. split.
  - intros H c Hm. destruct (N.lt_ge_cases c 256) as [L|G]; [|lia].
    specialize (H c L). rewrite Ma, M, Hm in H by exact L. lia.
  - intros H c Hc. rewrite Ma, M by exact Hc. destruct (mem cr c) eqn:Em; [specialize (H c Em); lia|apply andb_false_r].
Qed.

(** ** Masks *)
Definition and_all (l : list N) : N := fold_left N.land l 255.
Definition or_all (l : list N) : N := fold_left N.lor l 0.
Lemma and_all_bit : forall l a i, N.testbit (fold_left N.land l a) i = N.testbit a i && forallb (fun c => N.testbit c i) l.
Proof.
  induction l as [|c l IH]; intros a i; simpl; [symmetry; apply andb_true_r|].
  rewrite IH, N.land_spec. symmetry; apply andb_assoc.
Qed.
Lemma or_all_bit : forall l a i, N.testbit (fold_left N.lor l a) i = N.testbit a i || existsb (fun c => N.testbit c i) l.
Proof.
  induction l as [|c l IH]; intros a i; simpl; [symmetry; apply orb_false_r|].
  rewrite IH, N.lor_spec. symmetry; apply orb_assoc.
Qed.
Lemma make_and_cmp_mask_ok : forall p cr, wf cr -> make_and_cmp_mask p cr =
  Ret (bnot 8 (N.lxor (and_all (elements cr)) (or_all (elements cr))), and_all (elements cr)).
Proof.
  intros p cr Hw. unfold make_and_cmp_mask. rewrite iterate_ok' by exact Hw.
  assert (H : forall l lo hi, fold_exit (fun '(lo, hi) pos => Ret (@inl (N * N) unit (N.land lo pos, N.lor hi pos))) l (lo, hi)
    = Ret (inl (fold_left N.land l lo, fold_left N.lor l hi))).
  { induction l as [|c l IH]; intros lo hi; simpl; [reflexivity|apply IH]. }
  rewrite H. reflexivity.
Qed.
Lemma mask_bit_spec : forall l i, i < 8 ->
  N.testbit (bnot 8 (N.lxor (and_all l) (or_all l))) i =
  Bool.eqb (forallb (fun c => N.testbit c i) l) (existsb (fun c => N.testbit c i) l).
Proof.
  intros l i Hi. rewrite testbit_bnot by exact Hi. rewrite N.lxor_spec.
  unfold and_all, or_all. rewrite and_all_bit, or_all_bit, N.bits_0.
  change 255 with (N.ones 8). rewrite testbit_ones. replace (i <? 8) with true by lia. simpl.
  destruct (forallb (fun c => N.testbit c i) l), (existsb (fun c => N.testbit c i) l); reflexivity.
Qed.
Lemma and_all_bit' : forall l i, i < 8 -> N.testbit (and_all l) i = forallb (fun c => N.testbit c i) l.
Proof.
  intros l i Hi. unfold and_all. rewrite and_all_bit. change 255 with (N.ones 8). rewrite testbit_ones.
  replace (i <? 8) with true by lia. reflexivity.
Qed.
Lemma byte_bits_ext : forall x y, byte x -> byte y -> (forall i, i < 8 -> N.testbit x i = N.testbit y i) -> x = y.
Proof.
  intros x y Hx Hy H. apply N.bits_inj; intro i. destruct (N.lt_ge_cases i 8) as [L|G]; [apply H; exact L|].
  rewrite !(testbit_high 8) by assumption. reflexivity.
Qed.
Lemma and_all_byte : forall l, byte (and_all l).
Proof.
  intro l. unfold byte. change 256 with (2 ^ 8). apply lt_pow2_bits. intros i Hi.
  unfold and_all. rewrite and_all_bit. change 255 with (N.ones 8). rewrite testbit_ones.
  replace (i <? 8) with false by lia. reflexivity.
Qed.
Lemma byte_land : forall x y, byte x -> byte (N.land x y).
Proof. intros x y H. unfold byte. change 256 with (2 ^ 8). apply land_lt. exact H. Qed.

(** Passing the test, bit by bit. *)
Lemma mask_pass_iff : forall l x, byte x -> l <> [] ->
  (N.land x (bnot 8 (N.lxor (and_all l) (or_all l))) = and_all l <->
   forall i, i < 8 -> (forall c c', In c l -> In c' l -> N.testbit c i = N.testbit c' i) ->
     forall c, In c l -> N.testbit x i = N.testbit c i).
Proof.
  intros l x Hx Hne. split.
  - intros H i Hi Hag c Hc.
    assert (B : N.testbit (N.land x (bnot 8 (N.lxor (and_all l) (or_all l)))) i = N.testbit (and_all l) i) by (rewrite H; reflexivity).
    rewrite N.land_spec, mask_bit_spec, and_all_bit' in B by exact Hi.
    destruct (N.testbit c i) eqn:T.
    + assert (F : forallb (fun c => N.testbit c i) l = true).
      { apply forallb_forall. intros y Hy. rewrite (Hag y c) by assumption. exact T. }
      assert (X : existsb (fun c => N.testbit c i) l = true) by (apply existsb_exists; exists c; auto).
      rewrite F, X in B. simpl in B. rewrite andb_true_r in B. exact B.
    + assert (X : existsb (fun c => N.testbit c i) l = false).
      { destruct (existsb (fun c => N.testbit c i) l) eqn:X; [|reflexivity]. apply existsb_exists in X.
        destruct X as (y & Hy & Ty). rewrite (Hag y c) in Ty by assumption. congruence. }
      assert (F : forallb (fun c => N.testbit c i) l = false).
      { destruct (forallb (fun c => N.testbit c i) l) eqn:F; [|reflexivity]. rewrite forallb_forall in F.
        rewrite F in T by exact Hc. discriminate. }
      rewrite F, X in B. simpl in B. rewrite andb_true_r in B. exact B.
  - intro H. apply byte_bits_ext; [apply byte_land, Hx|apply and_all_byte|].
    intros i Hi. rewrite N.land_spec, mask_bit_spec, and_all_bit' by exact Hi.
    destruct l as [|c0 l0] eqn:El; [congruence|]. rewrite <- El in *.
    assert (I0 : In c0 l) by (rewrite El; left; reflexivity).
    destruct (forallb (fun c => N.testbit c i) l) eqn:F.
    + rewrite forallb_forall in F.
      assert (X : existsb (fun c => N.testbit c i) l = true) by (apply existsb_exists; exists c0; auto).
      rewrite X. simpl. rewrite andb_true_r. rewrite (H i Hi) with (c := c0); [apply F, I0| |exact I0].
      intros c c' Hc Hc'. rewrite !F by assumption. reflexivity.
    + destruct (existsb (fun c => N.testbit c i) l) eqn:X; simpl; [apply andb_false_r|]. rewrite andb_true_r.
      assert (Z : forall c, In c l -> N.testbit c i = false).
      { intros c Hc. destruct (N.testbit c i) eqn:T; [|reflexivity].
        assert (existsb (fun c => N.testbit c i) l = true) by (apply existsb_exists; eauto). congruence. }
      rewrite (H i Hi) with (c := c0); [apply Z, I0| |exact I0].
      intros c c' Hc Hc'. rewrite !Z by assumption. reflexivity.
Qed.

(** ** fill_bitvector *)
Lemma list_upd_length : forall {A} (f : A -> A) l i, List.length (list_upd l i f) = List.length l.
Proof. intros A f l; induction l as [|x l IH]; intros [|i]; simpl; auto. Qed.
Lemma nth_error_list_upd : forall {A} (f : A -> A) l i j,
  nth_error (list_upd l i f) j = if Nat.eqb j i then option_map f (nth_error l j) else nth_error l j.
Proof.
  intros A f l; induction l as [|x l IH]; intros [|i] [|j]; simpl; try reflexivity.
  - destruct (Nat.eqb j i); reflexivity.
  - apply IH.
Qed.
Definition has_bit3 (c : N) : bool := N.testbit c 3.
Lemma land8 : forall c, N.land c 8 = if has_bit3 c then 8 else 0.
Proof.
  intro c. unfold has_bit3. apply N.bits_inj; intro i. rewrite N.land_spec. change 8 with (2 ^ 3) at 1. rewrite testbit_pow2.
  destruct (N.eqb_spec 3 i) as [<-|Ne].
  - rewrite andb_true_r. destruct (N.testbit c 3); reflexivity.
  - rewrite andb_false_r. destruct (N.testbit c 3); [|symmetry; apply N.bits_0].
    change 8 with (2 ^ 3). rewrite testbit_pow2. symmetry. lia.
Qed.
(** the loop without overflow checks, or over members without bit 3 *)
Definition fill_spec (l : list N) (k : nat) : N := if existsb (fun c => N.to_nat (c / 8) =? k)%nat l then 1 else 0.
Lemma fill_loop_ok : forall p l bs, (forall c, In c l -> byte c) -> (32 <= List.length bs)%nat ->
  (overflow_checks p = false \/ forall c, In c l -> has_bit3 c = false) ->
  exists bs', fold_exit (fun bs pos => let! bs' := slice_upd bs (pos / 8) (fun x =>
           let! m := chk_shl p 8 1 (N.land pos 8) in Ret (N.lor x m)) in Ret (@inl (list N) unit bs')) l bs = Ret (inl bs') /\
    List.length bs' = List.length bs /\
    forall k x, nth_error bs k = Some x -> nth_error bs' k = Some (N.lor x (fill_spec l k)).
Proof.
  intros p l; induction l as [|c l IH]; intros bs Hl Hlen Hp.
  - exists bs. split; [reflexivity|split; [reflexivity|]]. intros k x H. rewrite H. unfold fill_spec. simpl.
    rewrite N.lor_0_r. reflexivity.
  - cbn [fold_exit]. pose proof (Hl c (or_introl eq_refl)) as Hc. unfold byte in Hc.
    unfold slice_upd. destruct (nth_error bs (N.to_nat (c / 8))) as [y|] eqn:En.
    2:{ apply nth_error_None in En. lia. }
    assert (Em : chk_shl p 8 1 (N.land c 8) = Ret 1).
    { rewrite land8. destruct Hp as [Hp|Hp].
      - unfold chk_shl. rewrite Hp. destruct (has_bit3 c); reflexivity.
      - rewrite Hp by (left; reflexivity). reflexivity. }
    rewrite Em. cbn [bind].
    destruct (IH (list_upd bs (N.to_nat (c / 8)) (fun _ => N.lor y 1))) as (bs' & E & L & M).
    + intros x Hx; apply Hl; right; exact Hx.
    + rewrite list_upd_length. exact Hlen.
    + destruct Hp as [Hp|Hp]; [left; exact Hp|right; intros x Hx; apply Hp; right; exact Hx].
    + exists bs'. split; [exact E|]. rewrite list_upd_length in L. split; [exact L|].
      intros k x Hk. specialize (M k). rewrite nth_error_list_upd in M. rewrite Hk in M.
      unfold fill_spec in *. cbn [existsb]. rewrite (Nat.eqb_sym (N.to_nat (c / 8)) k).
      destruct (Nat.eqb_spec k (N.to_nat (c / 8))) as [Ek|Nk].
      * simpl in M. rewrite (M _ eq_refl). subst k. rewrite En in Hk. inversion Hk; subst y. simpl.
        f_equal. destruct (existsb (fun c0 => (N.to_nat (c0 / 8) =? N.to_nat (c / 8))%nat) l).
        -- rewrite <- N.lor_assoc. reflexivity.
        -- apply N.lor_0_r.
      * simpl. apply M. reflexivity.
Qed.
Lemma fill_loop_panic : forall p l bs, (forall c, In c l -> byte c) -> (32 <= List.length bs)%nat ->
  overflow_checks p = true -> existsb has_bit3 l = true ->
  fold_exit (fun bs pos => let! bs' := slice_upd bs (pos / 8) (fun x =>
           let! m := chk_shl p 8 1 (N.land pos 8) in Ret (N.lor x m)) in Ret (@inl (list N) unit bs')) l bs = Panic POverflow.
Proof.
  intros p l; induction l as [|c l IH]; intros bs Hl Hlen Hp He; [discriminate|].
  cbn [fold_exit]. pose proof (Hl c (or_introl eq_refl)) as Hc. unfold byte in Hc.
  unfold slice_upd at 1. destruct (nth_error bs (N.to_nat (c / 8))) as [y|] eqn:En.
  2:{ apply nth_error_None in En. lia. }
  simpl in He. rewrite land8. destruct (has_bit3 c) eqn:B.
  - unfold chk_shl. rewrite Hp. reflexivity.
  - change (chk_shl p 8 1 0) with (@Ret N 1). cbn [bind]. apply IH.
    + intros x Hx; apply Hl; right; exact Hx.
    + rewrite list_upd_length; exact Hlen.
    + exact Hp.
    + exact He.
Qed.
Lemma fill_bitvector_ok : forall p cr bits_, wf cr -> (32 <= List.length bits_)%nat ->
  (overflow_checks p = false \/ existsb has_bit3 (elements cr) = false) ->
  exists bs, fill_bitvector p cr bits_ = Ret bs /\ List.length bs = List.length bits_ /\
    forall k, nth_error bs k = if (k <? 32)%nat then Some (fill_spec (elements cr) k) else nth_error bits_ k.
Proof.
  intros p cr bits_ Hw Hlen Hp. unfold fill_bitvector.
  destruct (Nat.ltb_spec (List.length bits_) 32) as [L|_]; [lia|].
  rewrite iterate_ok' by exact Hw.
  destruct (fill_loop_ok p (elements cr) (repeat 0 32 ++ skipn 32 bits_)) as (bs & E & L & M).
  - intros c Hc; apply (in_elements_byte cr), Hc.
  - rewrite app_length, repeat_length. lia.
  - destruct Hp as [Hp|Hp]; [left; exact Hp|right]. intros c Hc. destruct (has_bit3 c) eqn:B; [|reflexivity].
    assert (existsb has_bit3 (elements cr) = true) by (apply existsb_exists; eauto). congruence.
  - rewrite E. cbn [bind]. exists bs. split; [reflexivity|].
    rewrite app_length, repeat_length, skipn_length in L. split; [lia|]. intro k.
    destruct (Nat.ltb_spec k 32) as [Lk|Gk].
    + rewrite (M k 0); [rewrite N.lor_0_l; reflexivity|].
      rewrite nth_error_app1 by (rewrite repeat_length; exact Lk).
      apply nth_error_repeat. exact Lk.
    + assert (Es : nth_error (repeat 0 32 ++ skipn 32 bits_) k = nth_error bits_ k).
      { rewrite nth_error_app2 by (rewrite repeat_length; exact Gk). rewrite repeat_length.
        rewrite <- (firstn_skipn 32 bits_) at 2. rewrite nth_error_app2 by (rewrite firstn_length; lia).
        rewrite firstn_length. f_equal; lia. }
      destruct (nth_error bits_ k) as [x|] eqn:En.
      * rewrite (M k x) by exact Es. f_equal. unfold fill_spec.
        destruct (existsb (fun c => (N.to_nat (c / 8) =? k)%nat) (elements cr)) eqn:X; [|apply N.lor_0_r].
        apply existsb_exists in X. destruct X as (c & Hc & Ec). apply in_elements_byte in Hc.
        unfold byte in Hc. apply Nat.eqb_eq in Ec. lia.
      * apply nth_error_None. apply nth_error_None in En. lia.
Qed.
Lemma fill_bitvector_panic : forall p cr bits_, wf cr -> (32 <= List.length bits_)%nat ->
  overflow_checks p = true -> existsb has_bit3 (elements cr) = true ->
  fill_bitvector p cr bits_ = Panic POverflow.
Proof.
  intros p cr bits_ Hw Hlen Hp He. unfold fill_bitvector.
  destruct (Nat.ltb_spec (List.length bits_) 32) as [L|_]; [lia|].
  rewrite iterate_ok' by exact Hw. rewrite fill_loop_panic; try assumption; [reflexivity| |].
  - intros c Hc; apply (in_elements_byte cr), Hc.
  - rewrite app_length, repeat_length. lia.
Qed.
Lemma fill_bitvector_short : forall p cr bits_, (List.length bits_ < 32)%nat -> fill_bitvector p cr bits_ = Panic PIndex.
Proof.
  intros p cr bits_ H. unfold fill_bitvector.
  destruct (Nat.ltb_spec (List.length bits_) 32) as [L|G]; [reflexivity|lia].
Qed.
