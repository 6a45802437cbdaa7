(** Property C88: the case flags of a literal are the ones pushed, in the words
    of the bit vector that keeps them. *)
From Verif Require Import Base ModelUtil ModelLiteral ModelBitVec SpecBitVec ProofBase ProofLiteral ProofBitVec.
Local Open Scope N_scope.

Lemma usize_pos : forall p, 0 < 2 ^ usize_bits p.
Proof. intro p. apply N.neq_0_lt_0, N.pow_nonzero. lia. Qed.

(** Pushing works as long as the count fits, and panics otherwise. *)
Theorem C88_room : forall p bs,
  (N.of_nat (List.length bs) < 2 ^ usize_bits p -> exists v, bv_pushes p bv_default bs = Ret v) /\
  (2 ^ usize_bits p <= N.of_nat (List.length bs) -> bv_pushes p bv_default bs = Panic PExpect).
Proof.
  intros p bs. split; intro H.
  - destruct (pushes_ok p bs bv_default [] holds_default H) as (v & E & _). eauto.
  - apply (pushes_full p bs bv_default [] holds_default); [|exact H]. intros ->.
    pose proof (usize_pos p). cbn in H. lia.
Qed.
Lemma reached : forall p bs v, bv_pushes p bv_default bs = Ret v -> holds v bs.
Proof.
  intros p bs v E. destruct (N.lt_ge_cases (N.of_nat (List.length bs)) (2 ^ usize_bits p)) as [L|L].
  - destruct (pushes_ok p bs bv_default [] holds_default L) as (v' & E' & H). rewrite E in E'. injection E' as <-. exact H.
  - rewrite (proj2 (C88_room p bs) L) in E. discriminate.
Qed.
(** The words are the bits cut into groups of 32, the last padded with clear
    bits; every bit reads back, and none is read past the end. *)
Theorem C88_words : forall p bs v, bv_pushes p bv_default bs = Ret v ->
  bv_storage v = stored bs /\ Forall (fun w => w < 2 ^ 32) (bv_storage v) /\
  bv_nbits v = N.of_nat (List.length bs) /\
  (forall i, bv_get v (N.of_nat i) = nth_error bs i) /\
  (bv_any v = true <-> In true bs).
Proof.
  intros p bs v E. apply reached in E as H. conjs.
  - apply holds_stored; exact H.
  - apply H.
  - apply H.
  - intro i. rewrite (holds_get v bs _ H), Nat2N.id.
    destruct (N.ltb_spec (N.of_nat i) (N.of_nat (List.length bs))); [reflexivity|].
    symmetry. apply nth_error_None. lia.
  - rewrite (holds_any v bs H), existsb_exists. split; [intros (x & I & ->); exact I|eauto].
Qed.
(** Comparison never panics and is the dictionary order of the bits. *)
Theorem C88_cmp : forall p q bs cs v w, bv_pushes p bv_default bs = Ret v -> bv_pushes q bv_default cs = Ret w ->
  (bv_cmp v w = Ret Lt <-> before bs cs) /\ (bv_cmp v w = Ret Eq <-> bs = cs) /\ (bv_cmp v w = Ret Gt <-> before cs bs) /\
  exists o, bv_cmp v w = Ret o.
Proof.
  intros p q bs cs v w Ev Ew. apply reached in Ev, Ew. rewrite (cmp_ok v w bs cs Ev Ew). conjs.
  - rewrite <- lex_before. split; congruence.
  - rewrite <- (lexB_eq bs cs). split; congruence.
  - rewrite <- lex_before, (lexB_sym bs cs). destruct (lex_cmp bool_cmp bs cs); simpl; split; congruence.
  - eauto.
Qed.
(** Every function of a literal does over the words what the plain account has
    it do over lists, for all literals reached by pushing. *)
Theorem C88_literal : forall p q es fs a b,
  wl_pushes p wl_default es = Ret a -> wl_pushes q wl_default fs = Ret b ->
  let l := lit_pushes lit_default es in
  let m := lit_pushes lit_default fs in
  wl_s a = lit_s l /\ wl_len a = lit_len l /\ wl_is_empty a = lit_is_empty l /\
  wl_any_nocase a = lit_any_nocase l /\ wl_iter a = lit_iter l /\
  mixed_sensitivity (wl_iter a) = mixed_sensitivity (lit_iter l) /\
  wl_eq a b = lit_eq l m /\ wl_cmp a b = Ret (lit_cmp l m).
Proof.
  intros p q es fs a b Ea Eb l m.
  apply (same_pushes p es _ _ _ same_default) in Ea. apply (same_pushes q fs _ _ _ same_default) in Eb.
  fold l in Ea. fold m in Eb. destruct Ea as [Sa Ha], Eb as [Sb Hb].
  assert (I : wl_iter a = lit_iter l).
  { unfold wl_iter, lit_iter. rewrite Sa. apply same_iter_from. split; assumption. }
  conjs.
  - exact Sa.
  - unfold wl_len, lit_len. rewrite Sa. reflexivity.
  - unfold wl_is_empty, lit_is_empty. rewrite Sa. reflexivity.
  - apply holds_any. exact Ha.
  - exact I.
  - rewrite I. reflexivity.
  - unfold wl_eq, lit_eq. rewrite Sa, Sb. reflexivity.
  - unfold wl_cmp, lit_cmp. rewrite Sa, Sb. destruct (lex_cmp N.compare (lit_s l) (lit_s m)); try reflexivity.
    apply cmp_ok; assumption.
Qed.
(** Such literals exist for every sequence whose length fits a [usize], and for
    no longer one. *)
Theorem C88_literal_room : forall p es,
  (N.of_nat (List.length es) < 2 ^ usize_bits p -> exists a, wl_pushes p wl_default es = Ret a) /\
  (2 ^ usize_bits p <= N.of_nat (List.length es) -> wl_pushes p wl_default es = Panic PExpect).
Proof.
  intros p es. pose proof (wl_pushes_bits p es wl_default [] holds_default) as W.
  change (wl_nocase wl_default) with bv_default in W.
  pose proof (C88_room p (map snd es)) as [R1 R2]. rewrite map_length in R1, R2. split; intro H.
  - destruct (R1 H) as (v & Ev). destruct (wl_pushes p wl_default es); [eauto|congruence|contradiction].
  - specialize (R2 H). destruct (wl_pushes p wl_default es); [congruence|congruence|contradiction].
Qed.

(** Thirty-four bits take two words, the second with two bits in use. *)
Example C88_case :
  bv_pushes dev bv_default (repeat false 31 ++ [true; false; true]) = Ret (BitVec [2147483648; 2] 34) /\
  (let v := BitVec [2147483648; 2] 34 in
   bv_get v 31 = Some true /\ bv_get v 32 = Some false /\ bv_get v 33 = Some true /\ bv_get v 34 = None /\ bv_any v = true) /\
  (let! v := bv_pushes dev bv_default (repeat true 33) in let! w := bv_pushes dev bv_default (repeat true 32) in bv_cmp v w) = Ret Gt /\
  (let! v := bv_pushes dev bv_default (repeat true 40) in let! w := bv_pushes dev bv_default (repeat true 39 ++ [false; true]) in bv_cmp w v) = Ret Lt /\
  before (repeat true 39 ++ [false; true]) (repeat true 40) /\
  (let! a := wl_pushes dev wl_default (repeat (97, false) 32 ++ [(98, true)]) in
   Ret (wl_any_nocase a, wl_len a, nth_error (wl_iter a) 32)) = Ret (true, 33, Some (LitElem 66 true)).
Proof.
  split; [vm_compute; reflexivity|]. split; [vm_compute; auto|].
  conjs; try (vm_compute; reflexivity). apply (before_bit (repeat true 39) [true] []).
Qed.

Print Assumptions C88_room.
Print Assumptions C88_words.
Print Assumptions C88_cmp.
Print Assumptions C88_literal.
Print Assumptions C88_literal_room.
