(** Properties C21-C30: character classes. *)
From Coq Require Import Sorted.
From Verif Require Import Base ModelUtil ModelBitField ModelCharReach SpecSet ProofBase ProofBitField
  ProofBitField2 ProofCharReach.
Local Open Scope N_scope.

(** A concrete class used to show that hypotheses can be met: A b z, 0 and 0xff. *)
Definition sample : bitfield := BF 1 288230393331580930 0 9223372036854775808.
Definition sample_members : list N := [0; 65; 98; 122; 255].
Example sample_wf : wf sample.
Proof. repeat split; vm_compute; reflexivity. Qed.
Example sample_elements : elements sample = sample_members.
Proof. vm_compute. reflexivity. Qed.

Definition members_of (o : outcome bitfield) : option (list N) := match o with Ret r => Some (elements r) | _ => None end.

(** ** C21 *)
Theorem C21_set : forall p b c, wf b -> byte c ->
  exists r, cr_set p b c = Ret r /\ wf r /\ forall x, byte x -> mem r x = (x =? c) || mem b x.
Proof. exact bf_set_ok. Qed.
Theorem C21_reset : forall p b c, wf b -> byte c ->
  exists r, cr_reset p b c = Ret r /\ wf r /\ forall x, byte x -> mem r x = negb (x =? c) && mem b x.
Proof. exact bf_reset_ok. Qed.
Theorem C21_flip : forall p b c, wf b -> byte c ->
  exists r, cr_flip p b c = Ret r /\ wf r /\ forall x, byte x -> mem r x = xorb (x =? c) (mem b x).
Proof. exact bf_flip_ok. Qed.
Theorem C21_test : forall p b c, wf b -> byte c -> cr_test p b c = Ret (mem b c).
Proof. exact bf_test_ok. Qed.
Theorem C21_bulk : forall b, wf b ->
  (wf (cr_set_all b) /\ forall x, byte x -> mem (cr_set_all b) x = true) /\
  (wf (cr_reset_all b) /\ forall x, byte x -> mem (cr_reset_all b) x = false) /\
  (wf (cr_flip_all b) /\ forall x, byte x -> mem (cr_flip_all b) x = negb (mem b x)).
Proof.
  intros b Hb. split; [apply bf_set_all_ok|]. split.
  - destruct (bf_reset_all_ok b) as [W M]. split; [exact W|intros x _; apply M].
  - apply bf_flip_all_ok; exact Hb.
Qed.
Theorem C21_set_bytes : forall p bs b, wf b -> (forall x, In x bs -> byte x) ->
  exists r, cr_set_bytes p b bs = Ret r /\ wf r /\
    forall x, byte x -> (mem r x = true <-> In x bs \/ mem b x = true).
Proof.
  intros p bs b Hb Hbs. destruct (cr_set_bytes_ok p bs b Hb Hbs) as (r & E & W & M).
  exists r. split; [exact E|split; [exact W|]]. intros x Hx. rewrite M by exact Hx.
  rewrite orb_true_iff, existsb_exists. split.
  - intros [(y & Hy & Ey)|H]; [left|right; exact H]. apply N.eqb_eq in Ey. subst; exact Hy.
  - intros [H|H]; [left; exists x; split; [exact H|apply N.eqb_refl]|right; exact H].
Qed.
Theorem C21_constructors : forall p,
  (wf cr_default /\ elements cr_default = []) /\
  (forall c, byte c -> exists r, cr_from_char p c = Ret r /\ wf r /\ elements r = [c]) /\
  (forall bs, (forall x, In x bs -> byte x) ->
     exists r, cr_from_bytes p bs = Ret r /\ wf r /\ forall x, mem r x = true <-> In x bs) /\
  (exists r, cr_dot p = Ret r /\ wf r /\ elements r = all_bytes).
Proof.
  intro p. split; [split; [exact wf_default|vm_compute; reflexivity]|]. split; [|split].
  - intros c Hc. destruct (cr_from_char_ok p c Hc) as (r & E & W & M).
    exists r. split; [exact E|split; [exact W|]].
    unfold elements. rewrite all_bytes_seqN, (filter_ext_In _ (fun x => x =? c)).
    2:{ intros x Hx. apply in_seqN in Hx. apply M. unfold byte; lia. }
    assert (S : forallb (fun c => match filter (fun x => x =? c) (seqN 0 256) with [y] => y =? c | _ => false end) (seqN 0 256) = true)
      by (vm_compute; reflexivity).
    rewrite forallb_forall in S. unfold byte in Hc. specialize (S c ltac:(apply in_seqN; lia)).
    destruct (filter (fun x => x =? c) (seqN 0 256)) as [|y [|? ?]]; try discriminate.
    apply N.eqb_eq in S. subst; reflexivity.
  - intros bs Hbs. destruct (cr_from_bytes_ok p bs Hbs) as (r & E & W & M).
    exists r. split; [exact E|split; [exact W|]]. intro x. split.
    + intro H. assert (Hx : byte x). { destruct (N.lt_ge_cases x 256) as [L|G]; [exact L|].
        rewrite mem_out in H; [discriminate|exact W|unfold byte; lia]. }
      rewrite M in H by exact Hx. apply existsb_exists in H. destruct H as (y & Hy & Ey). apply N.eqb_eq in Ey. subst; exact Hy.
    + intro H. rewrite M by (apply Hbs, H). apply existsb_exists. exists x. split; [exact H|apply N.eqb_refl].
  - destruct (cr_from_range_ok p 0 255) as (r & E & W & M); try (unfold byte; lia).
    exists r. split; [exact E|split; [exact W|]]. unfold elements. apply filter_all.
    intros x Hx. rewrite in_all_bytes in Hx. rewrite M by exact Hx. unfold byte in Hx; lia.
Qed.
(** Any sequence of point updates, of any length, on any class. *)
Inductive class_op := OSet (c : N) | OReset (c : N) | OFlip (c : N) | OSetAll | OResetAll | OFlipAll | OBytes (bs : list N).
Definition op_bytes (o : class_op) : Prop :=
  match o with OSet c | OReset c | OFlip c => byte c | OBytes bs => forall x, In x bs -> byte x | _ => True end.
Definition op_run (p : profile) (o : class_op) (b : charreach) : outcome charreach :=
  match o with
  | OSet c => cr_set p b c | OReset c => cr_reset p b c | OFlip c => cr_flip p b c
  | OSetAll => Ret (cr_set_all b) | OResetAll => Ret (cr_reset_all b) | OFlipAll => Ret (cr_flip_all b)
  | OBytes bs => cr_set_bytes p b bs
  end.
Fixpoint ops_run (p : profile) (os : list class_op) (b : charreach) : outcome charreach :=
  match os with [] => Ret b | o :: os => let! b' := op_run p o b in ops_run p os b' end.
Definition op_spec (o : class_op) (x : N) (m : bool) : bool :=
  match o with
  | OSet c => if x =? c then true else m | OReset c => if x =? c then false else m
  | OFlip c => if x =? c then negb m else m
  | OSetAll => true | OResetAll => false | OFlipAll => negb m
  | OBytes bs => existsb (fun y => y =? x) bs || m
  end.
Theorem C21_sequences : forall p os b, wf b -> (forall o, In o os -> op_bytes o) ->
  exists r, ops_run p os b = Ret r /\ wf r /\
    forall x, byte x -> mem r x = fold_left (fun m o => op_spec o x m) os (mem b x).
Proof.
  intros p os; induction os as [|o os IH]; intros b Hb Ho; cbn [ops_run fold_left]; [eauto|].
  assert (S : exists b', op_run p o b = Ret b' /\ wf b' /\ forall x, byte x -> mem b' x = op_spec o x (mem b x)).
  { pose proof (Ho o (or_introl eq_refl)) as Hc. destruct o as [c|c|c| | | |bs]; cbn [op_run op_spec op_bytes] in *.
    - destruct (C21_set p b c Hb Hc) as (r & E & W & M). exists r. split; [exact E|split; [exact W|]]. intros x Hx. rewrite M by exact Hx.
      destruct (x =? c); reflexivity.
    - destruct (C21_reset p b c Hb Hc) as (r & E & W & M). exists r. split; [exact E|split; [exact W|]]. intros x Hx. rewrite M by exact Hx.
      destruct (x =? c); reflexivity.
    - destruct (C21_flip p b c Hb Hc) as (r & E & W & M). exists r. split; [exact E|split; [exact W|]]. intros x Hx. rewrite M by exact Hx.
      destruct (x =? c), (mem b x); reflexivity.
    - eexists; split; [reflexivity|]. apply (C21_bulk b Hb).
    - eexists; split; [reflexivity|]. apply (C21_bulk b Hb).
    - eexists; split; [reflexivity|]. apply (C21_bulk b Hb).
    - destruct (cr_set_bytes_ok p bs b Hb Hc) as (r & E & W & M). exists r. split; [exact E|split; [exact W|]]. intros x Hx. rewrite M by exact Hx.
      f_equal. clear. induction bs as [|y bs IHb]; simpl; [reflexivity|]. rewrite IHb, N.eqb_sym. reflexivity. }
  destruct S as (b' & E & W & M). rewrite E. cbn [bind].
  destruct (IH b' W) as (r & E2 & W2 & M2); [intros o' Ho'; apply Ho; right; exact Ho'|].
  exists r. split; [exact E2|split; [exact W2|]]. intros x Hx. rewrite M2, M by exact Hx. reflexivity.
Qed.
Example C21_seq_case : members_of (ops_run dev [OFlipAll; OReset 7; OFlip 98; OBytes [7; 0]; OFlipAll] sample) = Some [65; 122; 255].
Proof. vm_compute. reflexivity. Qed.
Example C21_case : members_of (cr_set dev sample 97) = Some ([0; 65; 97; 98; 122; 255]).
Proof. vm_compute. reflexivity. Qed.

(** ** C22 *)
Theorem C22_pointwise : forall a b, wf a -> wf b ->
  (wf (cr_and a b) /\ forall c, byte c -> mem (cr_and a b) c = mem a c && mem b c) /\
  (wf (cr_or a b) /\ forall c, byte c -> mem (cr_or a b) c = mem a c || mem b c) /\
  (wf (cr_xor a b) /\ forall c, byte c -> mem (cr_xor a b) c = xorb (mem a c) (mem b c)) /\
  (wf (cr_not a) /\ forall c, byte c -> mem (cr_not a) c = negb (mem a c)) /\
  (wf (cr_and_assign a b) /\ forall c, byte c -> mem (cr_and_assign a b) c = mem a c && mem b c) /\
  (wf (cr_or_assign a b) /\ forall c, byte c -> mem (cr_or_assign a b) c = mem a c || mem b c) /\
  (wf (cr_xor_assign a b) /\ forall c, byte c -> mem (cr_xor_assign a b) c = xorb (mem a c) (mem b c)).
Proof.
  intros a b Ha Hb. pose proof (bf_and_ok b a Hb Ha) as [W1 M1]. pose proof (bf_or_ok b a Hb Ha) as [W2 M2].
  pose proof (bf_xor_ok b a Hb Ha) as [W3 M3].
  split; [split; [exact W1|intros c Hc; rewrite andb_comm; apply M1; exact Hc]|].
  split; [split; [exact W2|intros c Hc; rewrite orb_comm; apply M2; exact Hc]|].
  split; [split; [exact W3|intros c Hc; rewrite xorb_comm; apply M3; exact Hc]|].
  split; [apply bf_not_ok; exact Ha|]. split; [apply bf_and_ok; assumption|].
  split; [apply bf_or_ok; assumption|apply bf_xor_ok; assumption].
Qed.
(** The same for bit fields, by value and in place. *)
Theorem C22_fields : forall a b, wf a -> wf b ->
  (wf (bf_and a b) /\ forall c, byte c -> mem (bf_and a b) c = mem a c && mem b c) /\
  (wf (bf_or a b) /\ forall c, byte c -> mem (bf_or a b) c = mem a c || mem b c) /\
  (wf (bf_xor a b) /\ forall c, byte c -> mem (bf_xor a b) c = xorb (mem a c) (mem b c)) /\
  (wf (bf_not a) /\ forall c, byte c -> mem (bf_not a) c = negb (mem a c)) /\
  (wf (bf_and_assign a b) /\ forall c, byte c -> mem (bf_and_assign a b) c = mem a c && mem b c) /\
  (wf (bf_or_assign a b) /\ forall c, byte c -> mem (bf_or_assign a b) c = mem a c || mem b c) /\
  (wf (bf_xor_assign a b) /\ forall c, byte c -> mem (bf_xor_assign a b) c = xorb (mem a c) (mem b c)).
Proof.
  intros a b Ha Hb. pose proof (bf_and_ok b a Hb Ha) as [W1 M1]. pose proof (bf_or_ok b a Hb Ha) as [W2 M2].
  pose proof (bf_xor_ok b a Hb Ha) as [W3 M3].
  split; [split; [exact W1|intros c Hc; rewrite andb_comm; apply M1; exact Hc]|].
  split; [split; [exact W2|intros c Hc; rewrite orb_comm; apply M2; exact Hc]|].
  split; [split; [exact W3|intros c Hc; rewrite xorb_comm; apply M3; exact Hc]|].
  split; [apply bf_not_ok; exact Ha|]. split; [apply bf_and_ok; assumption|].
  split; [apply bf_or_ok; assumption|apply bf_xor_ok; assumption].
Qed.
Theorem C22_equality : forall a b, wf a -> wf b ->
  (cr_eqb a b = true <-> forall c, byte c -> mem a c = mem b c).
Proof.
  intros a b Ha Hb. unfold cr_eqb. rewrite bf_eqb_spec. rewrite <- same_iff by assumption. reflexivity.
Qed.
(** Boolean algebra laws hold as equalities of classes. *)
Theorem C22_algebra : forall a b c, wf a -> wf b -> wf c ->
  cr_and a b = cr_and b a /\ cr_or a b = cr_or b a /\
  cr_and a (cr_and b c) = cr_and (cr_and a b) c /\ cr_or a (cr_or b c) = cr_or (cr_or a b) c /\
  cr_and a (cr_or b c) = cr_or (cr_and a b) (cr_and a c) /\
  cr_not (cr_and a b) = cr_or (cr_not a) (cr_not b) /\ cr_not (cr_or a b) = cr_and (cr_not a) (cr_not b) /\
  cr_not (cr_not a) = a /\ cr_xor a b = cr_or (cr_and a (cr_not b)) (cr_and (cr_not a) b) /\
  cr_and a (cr_not a) = cr_default /\ cr_or a (cr_not a) = cr_set_all a.
Proof.
  intros a b c Ha Hb Hc.
  assert (An : forall x y, wf x -> wf y -> wf (cr_and x y) /\ forall z, byte z -> mem (cr_and x y) z = mem x z && mem y z)
    by (intros; apply C22_pointwise; assumption).
  assert (Or : forall x y, wf x -> wf y -> wf (cr_or x y) /\ forall z, byte z -> mem (cr_or x y) z = mem x z || mem y z)
    by (intros x y Hx Hy; apply (C22_pointwise x y Hx Hy)).
  assert (Xo : forall x y, wf x -> wf y -> wf (cr_xor x y) /\ forall z, byte z -> mem (cr_xor x y) z = xorb (mem x z) (mem y z))
    by (intros x y Hx Hy; apply (C22_pointwise x y Hx Hy)).
  assert (No : forall x, wf x -> wf (cr_not x) /\ forall z, byte z -> mem (cr_not x) z = negb (mem x z))
    by (intros x Hx; apply (C22_pointwise x x Hx Hx)).
  assert (Wand : forall x y, wf x -> wf y -> wf (cr_and x y)) by (intros; apply An; assumption).
  assert (Wor : forall x y, wf x -> wf y -> wf (cr_or x y)) by (intros; apply Or; assumption).
  assert (Wxor : forall x y, wf x -> wf y -> wf (cr_xor x y)) by (intros; apply Xo; assumption).
  assert (Wnot : forall x, wf x -> wf (cr_not x)) by (intros; apply No; assumption).
  conjs; (apply same_eq; [auto 6|auto 6 using wf_default, (proj1 (bf_set_all_ok a))|]; intros z Hz).
  - rewrite !(fun x y Hx Hy => proj2 (An x y Hx Hy)) by auto. apply andb_comm.
  - rewrite !(fun x y Hx Hy => proj2 (Or x y Hx Hy)) by auto. apply orb_comm.
  - rewrite !(fun x y Hx Hy => proj2 (An x y Hx Hy)) by auto. apply andb_assoc.
  - rewrite !(fun x y Hx Hy => proj2 (Or x y Hx Hy)) by auto. apply orb_assoc.
  - rewrite (proj2 (An a (cr_or b c) Ha (Wor _ _ Hb Hc))), (proj2 (Or b c Hb Hc)),
      (proj2 (Or (cr_and a b) (cr_and a c) (Wand _ _ Ha Hb) (Wand _ _ Ha Hc))),
      (proj2 (An a b Ha Hb)), (proj2 (An a c Ha Hc)) by exact Hz. apply andb_orb_distrib_r.
  - rewrite (proj2 (No _ (Wand _ _ Ha Hb))), (proj2 (An a b Ha Hb)),
      (proj2 (Or _ _ (Wnot _ Ha) (Wnot _ Hb))), (proj2 (No a Ha)), (proj2 (No b Hb)) by exact Hz. apply negb_andb.
  - rewrite (proj2 (No _ (Wor _ _ Ha Hb))), (proj2 (Or a b Ha Hb)),
      (proj2 (An _ _ (Wnot _ Ha) (Wnot _ Hb))), (proj2 (No a Ha)), (proj2 (No b Hb)) by exact Hz. apply negb_orb.
  - rewrite (proj2 (No _ (Wnot _ Ha))), (proj2 (No a Ha)) by exact Hz. apply negb_involutive.
  - rewrite (proj2 (Xo a b Ha Hb)), (proj2 (Or _ _ (Wand _ _ Ha (Wnot _ Hb)) (Wand _ _ (Wnot _ Ha) Hb))),
      (proj2 (An _ _ Ha (Wnot _ Hb))), (proj2 (An _ _ (Wnot _ Ha) Hb)), (proj2 (No a Ha)), (proj2 (No b Hb)) by exact Hz.
    destruct (mem a z), (mem b z); reflexivity.
  - rewrite (proj2 (An _ _ Ha (Wnot _ Ha))), (proj2 (No a Ha)) by exact Hz. unfold cr_default. rewrite mem_default.
    apply andb_negb_r.
  - rewrite (proj2 (Or _ _ Ha (Wnot _ Ha))), (proj2 (No a Ha)) by exact Hz.
    unfold cr_set_all. rewrite (proj2 (bf_set_all_ok a)) by exact Hz. apply orb_negb_r.
Qed.
Example C22_case : elements (cr_and sample (BF 1 2 0 0)) = [0; 65] /\
  elements (cr_xor sample (BF 1 2 4 0)) = [98; 122; 130; 255] /\ cr_eqb sample (BF 1 2 0 0) = false.
Proof. vm_compute. auto. Qed.

(** ** C23 *)
Theorem C23_set_range : forall p b from to, wf b -> byte from -> byte to ->
  if from <=? to then
    exists r, cr_set_range p b from to = Ret r /\ wf r /\
      forall x, byte x -> mem r x = ((from <=? x) && (x <=? to)) || mem b x
  else cr_set_range p b from to = Panic PAssert.
Proof.
  intros p b from to Hb Hf Ht. destruct (N.leb_spec from to) as [L|G].
  - apply bf_set_range_ok; assumption.
  - apply bf_set_range_panic; exact G.
Qed.
Theorem C23_from_range : forall p from to, byte from -> byte to ->
  if from <=? to then
    exists r, cr_from_range p from to = Ret r /\ wf r /\ forall x, byte x -> mem r x = (from <=? x) && (x <=? to)
  else cr_from_range p from to = Panic PAssert.
Proof.
  intros p from to Hf Ht. destruct (N.leb_spec from to) as [L|G].
  - apply cr_from_range_ok; assumption.
  - apply bf_set_range_panic; exact G.
Qed.
Example C23_case : members_of (cr_set_range dev sample 60 130) = Some (0 :: seqN 60 71 ++ [255]).
Proof. vm_compute. reflexivity. Qed.

(** ** C24 *)
Theorem C24_find_first : forall p b, wf b -> exists r, cr_find_first p b = Ret r /\
  match r with
  | None => forall c, mem b c = false
  | Some c => mem b c = true /\ forall x, mem b x = true -> c <= x
  end.
Proof.
  intros p b Hb. exists (hd_error (elements b)). split; [apply bf_find_first_ok; exact Hb|].
  pose proof (elements_sorted b) as S. destruct (elements b) as [|c l] eqn:E; simpl.
  - intro c. destruct (mem b c) eqn:M; [|reflexivity]. apply in_elements in M; [|exact Hb]. rewrite E in M. contradiction.
  - split; [apply in_elements; [exact Hb|rewrite E; left; reflexivity]|].
    intros x Hx. apply in_elements in Hx; [|exact Hb]. rewrite E in Hx. inversion S as [|? ? Hs Hf]; subst.
    destruct Hx as [->|Hx]; [lia|]. rewrite Forall_forall in Hf. specialize (Hf x Hx). lia.
Qed.
Theorem C24_find_last : forall p b, wf b -> exists r, cr_find_last p b = Ret r /\
  match r with
  | None => forall c, mem b c = false
  | Some c => mem b c = true /\ forall x, mem b x = true -> x <= c
  end.
Proof.
  intros p b Hb. exists (hd_error (rev (elements b))). split; [apply bf_find_last_ok; exact Hb|].
  pose proof (elements_sorted b) as S. destruct (rev (elements b)) as [|c l] eqn:E; simpl.
  - intro c. destruct (mem b c) eqn:M; [|reflexivity]. apply in_elements in M; [|exact Hb].
    apply in_rev in M. rewrite E in M. contradiction.
  - assert (E' : elements b = rev l ++ [c]). { rewrite <- (rev_involutive (elements b)), E. reflexivity. }
    split; [apply in_elements; [exact Hb|rewrite E'; apply in_app_iff; right; left; reflexivity]|].
    intros x Hx. apply in_elements in Hx; [|exact Hb]. rewrite E' in Hx, S. clear E E'.
    induction (rev l) as [|y m IH]; simpl in *; [destruct Hx as [->|[]]; lia|].
    inversion S as [|? ? Hs Hf]; subst. destruct Hx as [->|Hx]; [|apply IH; assumption].
    rewrite Forall_forall in Hf. specialize (Hf c ltac:(apply in_app_iff; right; left; reflexivity)). lia.
Qed.
Theorem C24_find_next : forall p b last, wf b -> byte last -> exists r, cr_find_next p b last = Ret r /\
  match r with
  | None => forall c, last < c -> mem b c = false
  | Some c => last < c /\ mem b c = true /\ forall x, last < x -> mem b x = true -> c <= x
  end.
Proof.
  intros p b last Hb Hl. exists (hd_error (filter (fun c => last <? c) (elements b))).
  split; [apply bf_find_next_ok; assumption|].
  pose proof (filter_sorted (fun c => last <? c) _ (elements_sorted b)) as S.
  assert (Mem : forall x, In x (filter (fun c => last <? c) (elements b)) <-> mem b x = true /\ last < x).
  { intro x. rewrite filter_In, in_elements by exact Hb. rewrite N.ltb_lt. reflexivity. }
  destruct (filter (fun c => last <? c) (elements b)) as [|c l] eqn:E; simpl.
  - intros c Hc. destruct (mem b c) eqn:M; [|reflexivity]. exfalso. apply (Mem c). auto.
  - destruct (proj1 (Mem c) (or_introl eq_refl)) as [M L]. split; [exact L|split; [exact M|]].
    intros x Hx Mx. inversion S as [|? ? Hs Hf]; subst. destruct (proj2 (Mem x) (conj Mx Hx)) as [->|I]; [lia|].
    rewrite Forall_forall in Hf. specialize (Hf x I). lia.
Qed.
(** Iterating as the crate does visits exactly the members, once each, in
    increasing order, and ends: the textual form is that list. *)
Theorem C24_iteration : forall p b, wf b -> exists l, cr_display p b = Ret l /\
  StronglySorted N.lt l /\ forall c, In c l <-> mem b c = true.
Proof.
  intros p b Hb. exists (elements b). split; [apply cr_display_ok; exact Hb|].
  split; [apply elements_sorted|]. intro c; apply in_elements; exact Hb.
Qed.
Example C24_case : cr_display dev sample = Ret sample_members /\ cr_find_next dev sample 98 = Ret (Some 122)
  /\ cr_find_next dev sample 255 = Ret None /\ cr_find_last dev sample = Ret (Some 255).
Proof. vm_compute. auto. Qed.

(** ** C25 *)
Theorem C25_count : forall b, wf b -> cr_count b = N.of_nat (List.length (elements b)).
Proof. exact bf_count_ok. Qed.
Theorem C25_find_nth : forall p b n, wf b -> n < 2 ^ 32 ->
  cr_find_nth p b n = Ret (nth_error (elements b) (N.to_nat n)).
Proof. exact bf_find_nth_ok. Qed.
Lemma elements_full : forall b, wf b -> (List.length (elements b) = 256%nat <-> forall c, byte c -> mem b c = true).
Proof.
  intros b Hb. split.
  - intros H c Hc. apply in_elements; [exact Hb|].
    assert (E : elements b = all_bytes).
    { unfold elements in *. assert (L : List.length all_bytes = 256%nat) by (vm_compute; reflexivity).
      rewrite <- L in H. clear L. revert H. generalize all_bytes as l. intro l.
      assert (B : forall l, (List.length (filter (mem b) l) <= List.length l)%nat).
      { intro m; induction m as [|x m IH]; simpl; [lia|]. destruct (mem b x); simpl; lia. }
      induction l as [|x l IH]; intro H; simpl in *; [reflexivity|]. pose proof (B l).
      destruct (mem b x); simpl in *; [f_equal; apply IH; lia|lia]. }
    rewrite E. apply in_all_bytes. exact Hc.
  - intro H. unfold elements. rewrite filter_all; [vm_compute; reflexivity|].
    intros x Hx. apply H. apply in_all_bytes. exact Hx.
Qed.
Theorem C25_none_any_all : forall b, wf b ->
  (cr_none b = true <-> cr_count b = 0) /\ (cr_any b = true <-> 0 < cr_count b) /\
  (cr_all b = true <-> cr_count b = 256).
Proof.
  intros b Hb. unfold cr_none, cr_any, bf_any, cr_all, cr_count. rewrite bf_count_ok by exact Hb.
  rewrite bf_all_ok by exact Hb. rewrite bf_none_ok by exact Hb.
  split; [|split].
  - destruct (elements b); cbn [List.length]; split; try discriminate; try reflexivity; lia.
  - destruct (elements b); cbn [List.length negb]; split; try discriminate; try reflexivity; lia.
  - rewrite <- elements_full by exact Hb. lia.
Qed.
Example C25_case : cr_count sample = 5 /\ cr_find_nth dev sample 3 = Ret (Some 122) /\ cr_find_nth dev sample 5 = Ret None
  /\ cr_all (cr_set_all sample) = true.
Proof. vm_compute. auto. Qed.

(** ** C26 *)
Lemma other_case_letter : forall c, (other_case c =? c) = false <-> is_letter c.
Proof. intro c. unfold other_case, is_letter, is_upper, is_lower. ifs; lia. Qed.
Lemma other_case_byte : forall c, byte c -> byte (other_case c).
Proof. intros c H. unfold byte, other_case in *. ifs; lia. Qed.
Lemma other_case_invol : forall c, other_case (other_case c) = c.
Proof. intro c. unfold other_case. ifs; lia. Qed.
Theorem C26_make_caseless : forall p b, wf b -> exists r, make_caseless p b = Ret r /\ wf r /\
  (forall c, byte c -> (mem r c = true <-> mem b c = true \/ (is_letter c /\ mem b (other_case c) = true))) /\
  (forall c, byte c -> mem r (other_case c) = mem r c) /\
  (forall s, wf s -> (forall c, byte c -> mem b c = true -> mem s c = true) ->
     (forall c, byte c -> mem s (other_case c) = mem s c) ->
     forall c, byte c -> mem r c = true -> mem s c = true) /\
  make_caseless p r = Ret r.
Proof.
  intros p b Hb. destruct (make_caseless_ok p b Hb) as (r & E & W & M).
  assert (Cl : forall c, byte c -> mem r (other_case c) = mem r c).
  { intros c Hc. rewrite !M by (try apply other_case_byte; exact Hc). unfold caseless_mem.
    rewrite other_case_invol. destruct (N.eqb_spec (other_case c) c) as [Eq|Ne].
    - rewrite Eq, N.eqb_refl. reflexivity.
    - replace (c =? other_case c) with false by lia. simpl. apply orb_comm. }
  exists r. split; [exact E|]. split; [exact W|]. split; [|split; [exact Cl|split]].
  - intros c Hc. rewrite M by exact Hc. unfold caseless_mem. rewrite orb_true_iff, andb_true_iff, negb_true_iff.
    rewrite other_case_letter. reflexivity.
  - intros s Ws Sup Scl c Hc Hr. rewrite M in Hr by exact Hc. unfold caseless_mem in Hr.
    apply orb_true_iff in Hr. destruct Hr as [Hr|Hr]; [apply Sup; assumption|].
    apply andb_true_iff in Hr. destruct Hr as [_ Hr]. rewrite <- Scl by exact Hc.
    apply Sup; [apply other_case_byte; exact Hc|exact Hr].
  - destruct (make_caseless_ok p r W) as (r2 & E2 & W2 & M2). rewrite E2. f_equal.
    apply same_eq; [exact W2|exact W|]. intros c Hc. rewrite M2 by exact Hc. unfold caseless_mem.
    rewrite Cl by exact Hc. destruct (mem r c), (other_case c =? c); reflexivity.
Qed.
Example C26_case : members_of (make_caseless dev sample) = Some ([0; 65; 66; 90; 97; 98; 122; 255]).
Proof. vm_compute. reflexivity. Qed.

(** ** C27 *)
Theorem C27_alphabetic : forall p b, wf b -> exists r, cr_is_alphabetic p b = Ret r /\
  (r = true <-> (exists c, mem b c = true) /\ forall c, mem b c = true -> is_letter c).
Proof.
  intros p b Hb. eexists. split; [apply is_alphabetic_ok; exact Hb|].
  destruct (elements b) as [|c l] eqn:E.
  - split; [discriminate|]. intros [(c & Hc) _]. apply in_elements in Hc; [|exact Hb]. rewrite E in Hc. contradiction.
  - rewrite <- E. rewrite forallb_forall. split.
    + intro H. split.
      * exists c. apply in_elements; [exact Hb|rewrite E; left; reflexivity].
      * intros x Hx. apply ourisalpha_ok, H. apply in_elements; assumption.
    + intros [_ H] x Hx. apply ourisalpha_ok, H. apply in_elements; assumption.
Qed.
Theorem C27_caseless_char : forall p b, wf b -> exists r, cr_is_caseless_char p b = Ret r /\
  (r = true <-> exists u, is_upper u /\ forall c, mem b c = true <-> c = u \/ c = u + 32).
Proof.
  intros p b Hb. eexists. split; [apply is_caseless_char_ok; exact Hb|].
  pose proof (elements_sorted b) as S.
  assert (I : forall c, mem b c = true <-> In c (elements b)) by (intro c; symmetry; apply in_elements; exact Hb).
  split.
  - destruct (elements b) as [|a [|c [|d l]]]; try discriminate. intro H. apply N.eqb_eq in H.
    inversion S as [|? ? _ Hf]; subst. inversion Hf; subst. unfold upper_case in *.
    destruct ((97 <=? c) && (c <=? 122)) eqn:El; [|lia].
    exists (c - 32). split; [unfold is_upper; lia|]. intro x. rewrite I. simpl. lia.
  - intros (u & Hu & H). unfold is_upper in Hu.
    assert (E : elements b = [u; u + 32]).
    { assert (H' : forall c, In c (elements b) <-> c = u \/ c = u + 32) by (intro c; rewrite <- I; apply H).
      revert S H'. generalize (elements b) as l. intros l S H'.
      destruct l as [|a l]; [exfalso; apply (proj2 (H' u)); auto|].
      inversion S as [|? ? S1 F1]; subst. rewrite Forall_forall in F1.
      assert (Ea : a = u).
      { destruct (proj1 (H' a) (or_introl eq_refl)) as [?|Ea]; [assumption|].
        destruct (proj2 (H' u) (or_introl eq_refl)) as [?|Iu]; [assumption|]. specialize (F1 u Iu). lia. }
      subst a. destruct l as [|c l]; [exfalso; destruct (proj2 (H' (u + 32)) (or_intror eq_refl)) as [?|[]]; lia|].
      assert (Ec : c = u + 32).
      { destruct (proj1 (H' c) (or_intror (or_introl eq_refl))) as [?|?]; [|assumption].
        specialize (F1 c (or_introl eq_refl)). lia. }
      subst c. destruct l as [|d l]; [reflexivity|exfalso].
      inversion S1 as [|? ? _ F2]; subst. inversion F2; subst.
      destruct (proj1 (H' d) (or_intror (or_intror (or_introl eq_refl)))); lia. }
    rewrite E. unfold upper_case. replace ((97 <=? u + 32) && (u + 32 <=? 122)) with true by lia. lia.
Qed.
Theorem C27_bit5 : forall p b, wf b -> exists r, cr_is_bit5_insensitive p b = Ret r /\
  (r = true <-> forall c, mem b c = true -> mem b (N.lxor c 32) = true).
Proof.
  intros p b Hb. eexists. split; [apply is_bit5_ok; exact Hb|]. rewrite forallb_forall.
  split; intros H c Hc; apply H; apply in_elements; assumption.
Qed.
Theorem C27_subset_overlap : forall a b, wf a -> wf b ->
  (cr_is_subset_of a b = true <-> forall c, mem a c = true -> mem b c = true) /\
  (cr_overlaps a b = true <-> exists c, mem a c = true /\ mem b c = true).
Proof. intros a b Ha Hb. split; [apply subset_ok; assumption|apply overlaps_ok; assumption]. Qed.
Theorem C27_ascii_utf8 : forall p b, wf b ->
  (exists r, cr_is_ascii p b = Ret r /\ (r = true <-> forall c, mem b c = true -> c <= 127)) /\
  (exists r, cr_is_utf8_start p b = Ret r /\ (r = true <-> forall c, mem b c = true -> 192 <= c)).
Proof. intros p b Hb. split; [apply is_ascii_ok; exact Hb|apply is_utf8_start_ok; exact Hb]. Qed.
Example C27_case :
  cr_is_alphabetic dev (BF 0 (2 ^ 1 + 2 ^ 33) 0 0) = Ret true /\ cr_is_alphabetic dev sample = Ret false /\
  cr_is_caseless_char dev (BF 0 (2 ^ 1 + 2 ^ 33) 0 0) = Ret true /\
  cr_is_caseless_char dev (BF 0 (2 ^ 1 + 2 ^ 34) 0 0) = Ret false /\
  cr_is_bit5_insensitive dev (BF 0 (2 ^ 1 + 2 ^ 33) 0 0) = Ret true /\ cr_is_bit5_insensitive dev sample = Ret false /\
  cr_is_subset_of (BF 1 2 0 0) sample = true /\ cr_is_subset_of sample (BF 1 2 0 0) = false /\
  cr_overlaps sample (BF 1 0 0 0) = true /\ cr_overlaps sample (BF 2 0 0 0) = false /\
  cr_is_ascii dev sample = Ret false /\ cr_is_utf8_start dev (BF 0 0 0 1) = Ret true.
Proof. vm_compute. repeat split. Qed.

(** ** C28 *)
Theorem C28_mask : forall p b, wf b -> exists a m, make_and_cmp_mask p b = Ret (a, m) /\ byte a /\ byte m /\
  (* every member passes *)
  (forall c, mem b c = true -> N.land c a = m) /\
  (* the test implies every and/compare test all members pass *)
  (forall a' m', (forall c, mem b c = true -> N.land c a' = m') ->
     forall x, byte x -> N.land x a = m -> N.land x a' = m').
Proof.
  intros p b Hb. do 2 eexists. split; [apply make_and_cmp_mask_ok; exact Hb|].
  set (l := elements b).
  assert (I : forall c, mem b c = true <-> In c l) by (intro c; symmetry; apply in_elements; exact Hb).
  assert (By : forall c, In c l -> byte c) by (intros c Hc; apply (in_elements_byte b), Hc).
  assert (Bo : byte (or_all l)).
  { unfold byte. change 256 with (2 ^ 8). apply lt_pow2_bits. intros i Hi. unfold or_all. rewrite or_all_bit, N.bits_0. simpl.
    destruct (existsb (fun c => N.testbit c i) l) eqn:X; [|reflexivity]. apply existsb_exists in X.
    destruct X as (c & Hc & T). rewrite (testbit_high 8) in T; [discriminate|apply By, Hc|exact Hi]. }
  split; [apply (bnot_lt 8), (lxor_lt 8); [apply and_all_byte|exact Bo]|]. split; [apply and_all_byte|].
  split.
  - intros c Hc. apply I in Hc. apply mask_pass_iff; [apply By, Hc|destruct l; [contradiction|discriminate]|].
    intros i Hi Hag c' Hc'. apply Hag; assumption.
  - intros a' m' Hall x Hx Hpass. destruct l as [|c0 l0] eqn:El.
    { exfalso. assert (Z : N.land x (bnot 8 (N.lxor (and_all []) (or_all []))) = 0) by (change (bnot 8 (N.lxor (and_all []) (or_all []))) with 0; apply N.land_0_r).
      rewrite Z in Hpass. discriminate. }
    rewrite <- El in *. assert (I0 : In c0 l) by (rewrite El; left; reflexivity).
    rewrite mask_pass_iff in Hpass; [|exact Hx|congruence].
    rewrite <- (Hall c0) by (apply I, I0).
    apply N.bits_inj; intro i. rewrite !N.land_spec. destruct (N.testbit a' i) eqn:A; [|rewrite !andb_false_r; reflexivity].
    rewrite !andb_true_r. destruct (N.lt_ge_cases i 8) as [L|G].
    + apply Hpass; [exact L| |exact I0]. intros c c' Hc Hc'.
      assert (E : N.land c a' = N.land c' a') by (rewrite (Hall c), (Hall c') by (apply I; assumption); reflexivity).
      apply (f_equal (fun z => N.testbit z i)) in E. rewrite !N.land_spec, A, !andb_true_r in E. exact E.
    + rewrite !(testbit_high 8); [reflexivity|apply By, I0|exact G|exact Hx|exact G].
Qed.
(** The empty class: no byte passes. *)
Theorem C28_mask_empty : forall p x, byte x -> exists a m, make_and_cmp_mask p cr_default = Ret (a, m) /\ N.land x a <> m.
Proof.
  intros p x Hx. exists 0, 255. split.
  - rewrite make_and_cmp_mask_ok by exact wf_default. vm_compute. reflexivity.
  - rewrite N.land_0_r. discriminate.
Qed.
Example C28_case : make_and_cmp_mask dev (BF 0 (2 ^ 1 + 2 ^ 33) 0 0) = Ret (223, 65).
Proof. vm_compute. reflexivity. Qed.

(** ** C29 *)
Theorem C29_refuted : exists b buf c, wf b /\ List.length buf = 32%nat /\ mem b c = true /\
  fill_bitvector dev b buf = Panic POverflow /\
  exists bs, fill_bitvector release b buf = Ret bs /\ N.testbit (nth (N.to_nat (c / 8)) bs 0) (c mod 8) = false.
Proof.
  exists (BF 0 (2 ^ 41) 0 0), (repeat 0 32), 105. conjs; try (vm_compute; reflexivity).
  - repeat split; vm_compute; reflexivity.
  - exists (match fill_bitvector release (BF 0 (2 ^ 41) 0 0) (repeat 0 32) with Ret bs => bs | _ => [] end).
    split; vm_compute; reflexivity.
Qed.
(** What it does instead: byte k gets value 1 when some member lies in 8k..8k+7,
    else 0; bytes after the 32nd are untouched; with overflow checks any member
    with bit 3 set panics; a short buffer panics. *)
Theorem C29_actual_partial : forall p b buf, wf b ->
  if (List.length buf <? 32)%nat then fill_bitvector p b buf = Panic PIndex
  else if overflow_checks p && existsb (fun c => N.testbit c 3) (elements b) then
    fill_bitvector p b buf = Panic POverflow
  else exists bs, fill_bitvector p b buf = Ret bs /\ List.length bs = List.length buf /\
    forall k, nth_error bs k =
      if (k <? 32)%nat then Some (if existsb (fun c => N.to_nat (c / 8) =? k)%nat (elements b) then 1 else 0)
      else nth_error buf k.
Proof.
  intros p b buf Hb. destruct (Nat.ltb_spec (List.length buf) 32) as [L|G].
  - apply fill_bitvector_short; exact L.
  - destruct (overflow_checks p) eqn:Ep; cbn [andb].
    + destruct (existsb (fun c => N.testbit c 3) (elements b)) eqn:X.
      * apply fill_bitvector_panic; assumption.
      * apply fill_bitvector_ok; try assumption. right; exact X.
    + apply fill_bitvector_ok; try assumption. left; exact Ep.
Qed.

(** ** C30 *)
Theorem C30_total_order : forall a b c, wf a -> wf b -> wf c ->
  (cr_cmp a b = Eq <-> forall x, byte x -> mem a x = mem b x) /\
  (cr_cmp a b = Eq <-> cr_eqb a b = true) /\
  cr_cmp b a = CompOpp (cr_cmp a b) /\
  (cr_cmp a b = Lt -> cr_cmp b c = Lt -> cr_cmp a c = Lt).
Proof.
  intros a b c Ha Hb Hc. split; [|split; [|split]].
  - unfold cr_cmp. rewrite bf_cmp_eq. rewrite <- same_iff by assumption. reflexivity.
  - unfold cr_cmp, cr_eqb. rewrite bf_cmp_eq, bf_eqb_spec. reflexivity.
  - apply bf_cmp_sym.
  - apply bf_cmp_trans.
Qed.
(** Which of two classes comes first. *)
Theorem C30_order : forall a b, wf a -> wf b ->
  (cr_cmp a b = Lt <-> exists c, decides a b c) /\ (cr_cmp a b = Gt <-> exists c, decides b a c).
Proof.
  intros a b Ha Hb. unfold cr_cmp. split; [apply bf_cmp_lt_iff; assumption|].
  rewrite <- bf_cmp_lt_iff by assumption. rewrite (bf_cmp_sym a b). destruct (bf_cmp a b); cbn; split; congruence.
Qed.
Example C30_case : cr_cmp sample (BF 1 2 0 0) = Gt /\ cr_cmp sample sample = Eq.
Proof. vm_compute. auto. Qed.
(** Byte 2 decides between {0, 1} and {2}; a byte of a lower block outweighs all higher ones. *)
Example C30_order_case : cr_cmp (BF 3 0 0 0) (BF 4 0 0 0) = Lt /\ decides (BF 3 0 0 0) (BF 4 0 0 0) 2 /\
  cr_cmp (BF 0 0 0 (2 ^ 63)) (BF 1 0 0 0) = Lt.
Proof.
  split; [vm_compute; reflexivity|]. split; [|vm_compute; reflexivity].
  split; [unfold byte; lia|]. split; [reflexivity|]. split; [reflexivity|].
  intros d Hd H. change (2 / 64) with 0 in H. rewrite !mem_word; [|repeat split; reflexivity|exact Hd|repeat split; reflexivity|exact Hd].
  destruct H as [H|[H G]]; [lia|]. rewrite H. replace (d mod 64) with d by lia.
  cbn. rewrite !N.bits_above_log2; [reflexivity|cbn; lia|cbn; lia].
Qed.

Print Assumptions C21_set. Print Assumptions C21_reset. Print Assumptions C21_flip.
Print Assumptions C21_test. Print Assumptions C21_bulk. Print Assumptions C21_set_bytes.
Print Assumptions C21_constructors. Print Assumptions C21_sequences. Print Assumptions C22_pointwise. Print Assumptions C22_fields. Print Assumptions C22_equality.
Print Assumptions C22_algebra. Print Assumptions C23_set_range. Print Assumptions C23_from_range.
Print Assumptions C24_find_first. Print Assumptions C24_find_last. Print Assumptions C24_find_next.
Print Assumptions C24_iteration. Print Assumptions C25_count. Print Assumptions C25_find_nth.
Print Assumptions C25_none_any_all. Print Assumptions C26_make_caseless. Print Assumptions C27_alphabetic.
Print Assumptions C27_caseless_char. Print Assumptions C27_bit5. Print Assumptions C27_subset_overlap.
Print Assumptions C27_ascii_utf8. Print Assumptions C28_mask. Print Assumptions C28_mask_empty.
Print Assumptions C29_refuted. Print Assumptions C29_actual_partial. Print Assumptions C30_total_order.
Print Assumptions C30_order.
