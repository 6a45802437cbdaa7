(** C83: classes built from characters. *)
From Verif Require Import Base ModelUtil ModelBitField ModelCharReach ModelParser SpecSet SpecGrammar SpecTree SpecClass
  ProofBase ProofBitField ProofBitField2 ProofCharReach ProofGrammar ProofParser ProofTree ProofVerb PropSet PropParser.
Local Open Scope N_scope.
Local Open Scope list_scope.

(** One character. *)
Theorem C83_add : forall p k c, wf (ac_cr k) ->
  if c <? 256 then exists k', class_add p k c = Ret (ROk k') /\ ac_mode k' = ac_mode k /\ wf (ac_cr k') /\
    forall x, byte x -> (mem (ac_cr k') x = true <-> mem (ac_cr k) x = true \/ covers (caseless (ac_mode k)) c x)
  else class_add p k c = Ret (RErr too_wide).
Proof.
  intros p [m b] c W. cbn [ac_cr ac_mode] in *. unfold class_add. destruct (N.ltb_spec c 256) as [L|L]; [|replace (255 <? c) with true by lia; reflexivity].
  replace (255 <? c) with false by lia. replace (cast 8 c) with c by (unfold cast; rewrite N.mod_small; [reflexivity|exact L]).
  unfold ac_add. cbn [ac_mode ac_cr]. destruct (cr_from_char_ok p c L) as (b1 & -> & W1 & M1). cbn [bind].
  assert (X : exists b2, (if caseless m then make_caseless p b1 else Ret b1) = Ret b2 /\ wf b2 /\ forall x, byte x -> (mem b2 x = true <-> covers (caseless m) c x)).
  { destruct (caseless m).
    - destruct (C26_make_caseless p b1 W1) as (b2 & E & W2 & M2 & _). exists b2. conjs; [exact E|exact W2|]. intros x Hx. rewrite (M2 x Hx). unfold covers.
      assert (Ho : byte (other_case x)) by (unfold byte, other_case in *; ifs; lia). rewrite (M1 x Hx), (M1 _ Ho), !N.eqb_eq. tauto.
    - exists b1. conjs; [reflexivity|exact W1|]. intros x Hx. rewrite (M1 x Hx), N.eqb_eq. unfold covers. split; [auto|]. intros [E|[E _]]; [exact E|discriminate E]. }
  destruct X as (b2 & -> & W2 & M2). cbn [bind]. eexists. split; [reflexivity|]. cbn [ac_mode ac_cr]. destruct (bf_or_ok b b2 W W2) as [W3 M3]. conjs; [reflexivity|exact W3|].
  intros x Hx. unfold cr_or_assign. rewrite (M3 x Hx), orb_true_iff, (M2 x Hx). reflexivity.
Qed.
(** A sequence of characters: the class holds what they stand for and nothing else; a
    character that is no byte ends it with an error. *)
Theorem C83_adds : forall p k cs, wf (ac_cr k) ->
  if forallb (fun c => c <? 256) cs then exists k', add_all p k cs = Ret (ROk k') /\ ac_mode k' = ac_mode k /\ wf (ac_cr k') /\
    forall x, byte x -> (mem (ac_cr k') x = true <-> mem (ac_cr k) x = true \/ exists c, In c cs /\ covers (caseless (ac_mode k)) c x)
  else add_all p k cs = Ret (RErr too_wide).
Proof.
  intros p k cs. revert k. induction cs as [|c cs IH]; intros k W; cbn [forallb add_all].
  - exists k. conjs; auto. intros x _. split; [auto|]. intros [H|(c & [] & _)]. exact H.
  - pose proof (C83_add p k c W) as H. destruct (c <? 256) eqn:L; cbn [andb]; [|rewrite H; reflexivity].
    destruct H as (k1 & -> & E1 & W1 & M1). cbn [bindr]. specialize (IH k1 W1). destruct (forallb (fun c => c <? 256) cs); [|exact IH].
    destruct IH as (k2 & -> & E2 & W2 & M2). exists k2. rewrite E1 in *. conjs; [reflexivity|exact E2|exact W2|]. intros x Hx. rewrite (M2 x Hx), (M1 x Hx). split.
    + intros [[H|H]|(d & I & H)]; [auto|right; exists c; split; [left; reflexivity|exact H]|right; exists d; split; [right; exact I|exact H]].
    + intros [H|(d & [<-|I] & H)]; [auto|auto|right; exists d; auto].
Qed.
(** So neither order nor repetition matter. *)
Theorem C83_order : forall p k cs cs', wf (ac_cr k) -> (forall c, In c cs <-> In c cs') -> add_all p k cs = add_all p k cs'.
Proof.
  intros p k cs cs' W H.
  assert (F : forallb (fun c => c <? 256) cs = forallb (fun c => c <? 256) cs').
  { destruct (forallb (fun c => c <? 256) cs') eqn:E.
    - rewrite forallb_forall in *. intros c I. apply E, H, I.
    - destruct (forallb (fun c => c <? 256) cs) eqn:E2; [|reflexivity]. rewrite <- E. symmetry. rewrite forallb_forall in *. intros c I. apply E2, H, I. }
  pose proof (C83_adds p k cs W) as A. pose proof (C83_adds p k cs' W) as B. rewrite F in A. destruct (forallb (fun c => c <? 256) cs'); [|congruence].
  destruct A as ([m b] & -> & E1 & W1 & M1). destruct B as ([m' b'] & -> & E2 & W2 & M2). cbn [ac_mode ac_cr] in *. subst m m'. do 3 f_equal.
  rewrite (field_of_unique b' (mem b') W2 (fun _ _ => eq_refl)). apply field_of_unique; [exact W1|]. intros x Hx. apply eq_true_iff_eq. rewrite (M1 x Hx), (M2 x Hx). split; (intros [Z|(c & I & Z)]; [auto|right; exists c; split; [apply H; exact I|exact Z]]).
Qed.
(** The class of a literal character. *)
Theorem C83_literal : forall p c nocase,
  if c <? 256 then exists k, get_literal_component_class p c nocase = Ret (ROk k) /\ wf (ac_cr k) /\ (forall x, byte x -> (mem (ac_cr k) x = true <-> covers nocase c x))
  else get_literal_component_class p c nocase = Ret (RErr too_wide).
Proof.
  intros p c nocase. unfold get_literal_component_class. set (m := ParseMode nocase _ _ _ _ _).
  assert (W : wf (ac_cr (get_component_class m))) by exact wf_default. pose proof (C83_add p (get_component_class m) c W) as H.
  destruct (c <? 256); [|exact H]. destruct H as (k & E & _ & Wk & M). exists k. conjs; [exact E|exact Wk|]. intros x Hx. rewrite (M x Hx).
  unfold get_component_class, ac_new. cbn [ac_cr ac_mode caseless m]. unfold cr_default. rewrite mem_default. split; [intros [Z|Z]; [discriminate Z|exact Z]|auto].
Qed.
(** Parsing never reports such a character: it stops at the first one that is not ASCII (C07). *)
Theorem C83_unreported : forall p s m e, parse p s m = Ret (RErr e) -> err_reason e <> err_reason too_wide /\ forall at_, err_reason e <> err_reason too_wide ++ lit " at index " ++ show at_.
Proof.
  intros p s m e E. assert (H : hd_error (err_reason e) = Some 85 \/ hd_error (err_reason e) = Some 77).
  { pose proof (parse_cases p s m) as C. rewrite E in C. inversion C; subst;
      try match goal with H : unsupported_verb _ /\ _ \/ _ |- _ => destruct H as [[_ ->]|[_ ->]] end; try (left; reflexivity); right; reflexivity. }
  assert (T : forall t, hd_error (err_reason too_wide ++ t) = Some 72) by reflexivity. split.
  - intro Z. rewrite Z in H. specialize (T []). rewrite app_nil_r in T. rewrite T in H. destruct H as [H|H]; discriminate H.
  - intros at_ Z. rewrite Z, T in H. destruct H as [H|H]; discriminate H.
Qed.
Example C83_case : forall p, exists k, add_all p (get_component_class (ParseMode true false false false false false)) [97; 90; 233; 97; 48] = Ret (ROk k) /\ elements (ac_cr k) = [48; 65; 90; 97; 122; 233] /\
  add_all p k [97; 256; 98] = Ret (RErr too_wide).
Proof. intros [[] [] []]; eexists; (split; [vm_compute; reflexivity|split; vm_compute; reflexivity]). Qed.
Print Assumptions C83_add.
Print Assumptions C83_adds.
Print Assumptions C83_order.
Print Assumptions C83_literal.
Print Assumptions C83_unreported.
