(** Lemmas about the specification of the pattern language. *)
From Verif Require Import Base ModelUtil ModelBitField ModelCharReach ModelParser SpecSet SpecGrammar
  ProofBase ProofBitField ProofCharReach.
Local Open Scope N_scope.
Local Open Scope list_scope.

Section AtomInd.
  Context (P : atom -> Prop) (Hch : forall c, P (Ch c))
    (Hgrp : forall bs, Forall (Forall P) bs -> P (Grp bs)).
  Fixpoint atom_ind' (a : atom) : P a :=
    match a with
    | Ch c => Hch c
    | Grp bs => Hgrp bs
        ((fix go (bs : list (list atom)) : Forall (Forall P) bs :=
            match bs with
            | [] => Forall_nil _
            | b :: t => Forall_cons _
                ((fix go2 (b : list atom) : Forall P b :=
                    match b with
                    | [] => Forall_nil _
                    | a :: u => Forall_cons _ (atom_ind' a) (go2 u)
                    end) b) (go t)
            end) bs)
    end.
End AtomInd.

(** ** Text *)
Lemma join_cons : forall c x y l, join c (x :: y :: l) = x ++ c :: join c (y :: l).
Proof. reflexivity. Qed.
Lemma join_snoc : forall c l x, l <> [] -> join c (l ++ [x]) = join c l ++ c :: x.
Proof.
  intros c l x. induction l as [|y l IH]; intro H; [contradiction|].
  destruct l as [|z l]; [reflexivity|].
  change ((y :: z :: l) ++ [x]) with (y :: z :: (l ++ [x])). rewrite join_cons.
  change (z :: l ++ [x]) with ((z :: l) ++ [x]). rewrite IH by discriminate.
  rewrite (join_cons c y z l). rewrite <- app_assoc. reflexivity.
Qed.
Lemma join_snoc_app : forall c l x t, join c (l ++ [x ++ t]) = join c (l ++ [x]) ++ t.
Proof.
  intros c l x t. destruct l as [|y l]; [reflexivity|].
  rewrite !join_snoc by discriminate. rewrite <- app_assoc. reflexivity.
Qed.
Lemma text_grp : forall bs, text_atom (Grp bs) = 40 :: text bs ++ [41].
Proof. reflexivity. Qed.
Lemma text_cons : forall b b' e, text (b :: b' :: e) = text_seq b ++ 124 :: text (b' :: e).
Proof. reflexivity. Qed.
Lemma text_one : forall b, text [b] = text_seq b.
Proof. reflexivity. Qed.
Lemma text_seq_cons : forall a b, text_seq (a :: b) = text_atom a ++ text_seq b.
Proof. reflexivity. Qed.
Lemma text_add_atom : forall d b a, text (d ++ [b ++ [a]]) = text (d ++ [b]) ++ text_atom a.
Proof.
  intros d b a. unfold text. rewrite !map_app. cbn [map].
  replace (text_seq (b ++ [a])) with (text_seq b ++ text_atom a).
  - apply join_snoc_app.
  - unfold text_seq. rewrite flat_map_app. simpl. rewrite app_nil_r. reflexivity.
Qed.
Lemma text_add_branch : forall e, e <> [] -> text (e ++ [[]]) = text e ++ [124].
Proof.
  intros e H. unfold text. rewrite map_app. cbn [map]. change (text_seq []) with (@nil N).
  rewrite join_snoc; [reflexivity|]. destruct e; [contradiction|discriminate].
Qed.

(** ** Counting parentheses *)
Lemma opens_app : forall a b, opens (a ++ b) = (opens a + opens b)%nat.
Proof. intros; apply count_occ_app. Qed.
Lemma closes_app : forall a b, closes (a ++ b) = (closes a + closes b)%nat.
Proof. intros; apply count_occ_app. Qed.
Lemma opens_cons : forall c s, opens (c :: s) = ((if (c =? 40)%N then 1 else 0) + opens s)%nat.
Proof.
  intros c s. unfold opens. destruct (N.eqb_spec c 40) as [->|N].
  - rewrite count_occ_cons_eq by reflexivity. reflexivity.
  - rewrite count_occ_cons_neq by exact N. reflexivity.
Qed.
Lemma closes_cons : forall c s, closes (c :: s) = ((if (c =? 41)%N then 1 else 0) + closes s)%nat.
Proof.
  intros c s. unfold closes. destruct (N.eqb_spec c 41) as [->|N].
  - rewrite count_occ_cons_eq by reflexivity. reflexivity.
  - rewrite count_occ_cons_neq by exact N. reflexivity.
Qed.
Lemma opens_nil : opens [] = 0%nat.
Proof. reflexivity. Qed.
Lemma closes_nil : closes [] = 0%nat.
Proof. reflexivity. Qed.
Lemma opens_open : opens [40] = 1%nat.
Proof. reflexivity. Qed.
Lemma closes_open : closes [40] = 0%nat.
Proof. reflexivity. Qed.
Ltac cnt := rewrite ?closes_cons, ?opens_cons, ?closes_app, ?opens_app, ?opens_nil, ?closes_nil, ?opens_open, ?closes_open in *;
  change (40 =? 40) with true in *; change (41 =? 41) with true in *; change (40 =? 41) with false in *; change (41 =? 40) with false in *; cbv iota in *; lia.
Lemma nn_nil : never_negative [].
Proof. intros a b H. symmetry in H. apply app_eq_nil in H. destruct H as [-> _]. cnt. Qed.
Lemma nn_app : forall a b, never_negative a -> (forall x y, b = x ++ y -> (closes a + closes x <= opens a + opens x)%nat) ->
  never_negative (a ++ b).
Proof.
  intros a b Ha Hb x y E. apply app_eq_app in E. destruct E as (l & [[E1 E2]|[E1 E2]]).
  - apply (Ha _ _ E1).
  - rewrite E1, closes_app, opens_app. apply (Hb _ _ E2).
Qed.
Lemma nn_prefix : forall a b, never_negative (a ++ b) -> never_negative a.
Proof. intros a b H x y E. apply (H x (y ++ b)). rewrite E, app_assoc. reflexivity. Qed.
Lemma nn_count : forall a, never_negative a -> (closes a <= opens a)%nat.
Proof. intros a H. apply (H a []). symmetry; apply app_nil_r. Qed.
Lemma nn_app2 : forall a b, never_negative a -> never_negative b -> never_negative (a ++ b).
Proof.
  intros a b Ha Hb. apply nn_app; [exact Ha|]. intros x y E. specialize (Hb _ _ E). pose proof (nn_count _ Ha). lia.
Qed.
Lemma nn_snoc : forall a c, never_negative a -> (c = 41 -> (closes a < opens a)%nat) -> never_negative (a ++ [c]).
Proof.
  intros a c Ha Hc. apply nn_app; [exact Ha|]. pose proof (nn_count _ Ha) as Le.
  intros [|x0 x] y E; [cnt|]. injection E as <- E. symmetry in E. apply app_eq_nil in E. destruct E as [-> _].
  rewrite closes_cons, opens_cons. destruct (N.eqb_spec c 41) as [->|]; [specialize (Hc eq_refl)|]; cnt.
Qed.
Lemma nn_cons_open : forall b, (forall x y, b = x ++ y -> (closes x <= 1 + opens x)%nat) -> never_negative (40 :: b).
Proof.
  intros b H. change (40 :: b) with ([40] ++ b). apply nn_app.
  - intros [|x0 x] y E; [cnt|]. injection E as <- E. symmetry in E. apply app_eq_nil in E. destruct E as [-> _]. cnt.
  - intros x y E. specialize (H _ _ E). cnt.
Qed.

Lemma balanced_app : forall a b, balanced a -> balanced b -> balanced (a ++ b).
Proof. intros a b [Ha Ea] [Hb Eb]. split; [apply nn_app2; assumption|]. rewrite closes_app, opens_app. lia. Qed.
Lemma balanced_one : forall c, c <> 40 -> c <> 41 -> balanced [c].
Proof.
  intros c N0 N1. split.
  - apply (nn_snoc [] c nn_nil). intro; contradiction.
  - rewrite closes_cons, opens_cons. replace (c =? 41) with false by lia. replace (c =? 40) with false by lia. reflexivity.
Qed.
Lemma balanced_group : forall s, balanced s -> balanced (40 :: s ++ [41]).
Proof.
  intros s [H E]. split.
  - apply nn_cons_open. intros x y E'. assert (S : never_negative (40 :: s)).
    { apply nn_cons_open. intros x' y' E2. specialize (H _ _ E2). lia. }
    assert (S2 : never_negative ((40 :: s) ++ [41])).
    { apply nn_snoc; [exact S|]. intros _. rewrite closes_cons, opens_cons. cnt. }
    assert (E3 : (40 :: s) ++ [41] = (40 :: x) ++ y) by (simpl; f_equal; exact E').
    specialize (S2 _ _ E3). rewrite closes_cons, opens_cons in S2. cnt.
  - rewrite closes_cons, opens_cons, closes_app, opens_app. simpl. change (closes [41]) with 1%nat. change (opens [41]) with 0%nat. lia.
Qed.
Lemma balanced_nil : balanced [].
Proof. split; [apply nn_nil|reflexivity]. Qed.
Lemma text_seq_balanced : forall b, Forall (fun a => balanced (text_atom a)) b -> balanced (text_seq b).
Proof.
  intros b H; induction H as [|a b Ha _ IH]; [apply balanced_nil|]. rewrite text_seq_cons. apply balanced_app; assumption.
Qed.
Lemma text_balanced' : forall e, Forall (Forall (fun a => balanced (text_atom a))) e -> balanced (text e).
Proof.
  intros e H; induction H as [|b e Hb He IH]; [apply balanced_nil|].
  destruct e as [|b' e]; [rewrite text_one; apply text_seq_balanced; exact Hb|].
  rewrite text_cons. apply balanced_app; [apply text_seq_balanced; exact Hb|].
  change (124 :: text (b' :: e)) with ([124] ++ text (b' :: e)). apply balanced_app; [|exact IH].
  apply balanced_one; discriminate.
Qed.
Lemma wf_seq_forall : forall (P : atom -> Prop) b, (forall a, wf_atom a -> P a) -> (forall a, In a b -> wf_atom a) -> Forall P b.
Proof. intros P b H W. apply Forall_forall. intros a I. apply H, W, I. Qed.
Lemma text_atom_balanced : forall a, wf_atom a -> balanced (text_atom a).
Proof.
  induction a as [c|bs IH] using atom_ind'; intro W; inversion W as [? [P0 [P1 _]]|? _ Wb]; subst.
  - apply balanced_one; assumption.
  - rewrite text_grp. apply balanced_group, text_balanced'.
    rewrite Forall_forall in IH. apply Forall_forall. intros b Ib. specialize (IH b Ib).
    rewrite Forall_forall in *. intros a Ia. apply IH; [exact Ia|]. eapply Wb; eassumption.
Qed.
Lemma text_balanced : forall e, wf_expr e -> balanced (text e).
Proof.
  intros e [_ W]. apply text_balanced'. apply Forall_forall. intros b Ib. apply wf_seq_forall; [apply text_atom_balanced|].
  intros a Ia. eapply W; eassumption.
Qed.

(** ** Every text is a chain of open groups, up to the first unmatched closing
    parenthesis.  A frame is the finished branches and the current one; the
    innermost frame comes first. *)
Definition frame := (expr * list atom)%type.
Definition frame_expr (f : frame) : expr := fst f ++ [snd f].
Fixpoint chain_text (st : list frame) : str :=
  match st with
  | [] => []
  | [f] => text (frame_expr f)
  | f :: outer => chain_text outer ++ 40 :: text (frame_expr f)
  end.
Definition wf_frame (f : frame) : Prop := wf_expr (frame_expr f).
Lemma frame_nonempty : forall f, frame_expr f <> [].
Proof. intros f H. unfold frame_expr in H. symmetry in H. eapply app_cons_not_nil; exact H. Qed.
Lemma chain_cons : forall f g outer, chain_text (f :: g :: outer) = chain_text (g :: outer) ++ 40 :: text (frame_expr f).
Proof. reflexivity. Qed.
Lemma chain_replace : forall f f' outer t, text (frame_expr f') = text (frame_expr f) ++ t ->
  chain_text (f' :: outer) = chain_text (f :: outer) ++ t.
Proof.
  intros f f' outer t H. destruct outer as [|g outer]; [exact H|].
  rewrite !chain_cons, H, <- app_assoc. reflexivity.
Qed.
Lemma wf_add_atom : forall d b a, wf_frame (d, b) -> wf_atom a -> wf_frame (d, b ++ [a]).
Proof.
  intros d b a [_ W] Wa. split; [apply frame_nonempty|]. unfold frame_expr in *. cbn [fst snd] in *.
  intros b' a' I J. apply in_app_or in I. destruct I as [I|[<-|[]]].
  - apply (W b'); [apply in_or_app; left; exact I|exact J].
  - apply in_app_or in J. destruct J as [J|[<-|[]]]; [|exact Wa]. apply (W b); [apply in_or_app; right; left; reflexivity|exact J].
Qed.
Lemma decompose : forall s, exists st, st <> [] /\ Forall wf_frame st /\
  (s = chain_text st \/ exists f rest, st = [f] /\ s = text (frame_expr f) ++ 41 :: rest).
Proof.
  induction s as [|c s IH] using rev_ind.
  - exists [([], [])]. split; [discriminate|]. split.
    + constructor; [|constructor]. split; [discriminate|]. intros b a [<-|[]] [].
    + left. reflexivity.
  - destruct IH as (st & Ne & W & [E|(f & rest & -> & E)]).
    2:{ exists [f]. split; [discriminate|]. split; [exact W|]. right. exists f, (rest ++ [c]). split; [reflexivity|].
        rewrite E, <- app_assoc. reflexivity. }
    destruct st as [|f outer]; [contradiction|]. clear Ne. inversion W as [|? ? Wf Wo]; subst.
    destruct f as [d b].
    destruct (N.eq_dec c 40) as [->|N40].
    { exists (([], []) :: (d, b) :: outer). split; [discriminate|]. split.
      - constructor; [|exact W]. split; [discriminate|]. intros b' a' [<-|[]] [].
      - left. rewrite chain_cons. reflexivity. }
    destruct (N.eq_dec c 124) as [->|N124].
    { exists ((d ++ [b], []) :: outer). split; [discriminate|]. split.
      - constructor; [|exact Wo]. split; [apply frame_nonempty|]. unfold frame_expr. cbn [fst snd]. intros b' a' I J.
        apply in_app_or in I. destruct I as [I|[<-|[]]]; [|contradiction]. apply (proj2 Wf b' a'); assumption.
      - left. symmetry. apply chain_replace. unfold frame_expr. cbn [fst snd]. apply text_add_branch. apply (frame_nonempty (d, b)). }
    destruct (N.eq_dec c 41) as [->|N41].
    { destruct outer as [|[d' b'] outer].
      - exists [(d, b)]. split; [discriminate|]. split; [exact W|]. right. exists (d, b), []. split; reflexivity.
      - inversion Wo as [|? ? Wg Wo']; subst. exists ((d', b' ++ [Grp (frame_expr (d, b))]) :: outer). split; [discriminate|]. split.
        + constructor; [|exact Wo']. apply wf_add_atom; [exact Wg|]. constructor; [apply frame_nonempty|]. apply (proj2 Wf).
        + left. rewrite chain_cons, <- app_assoc. symmetry. apply chain_replace.
          unfold frame_expr at 1. cbn [fst snd]. rewrite text_add_atom. reflexivity. }
    exists ((d, b ++ [Ch c]) :: outer). split; [discriminate|]. split.
    { constructor; [|exact Wo]. apply wf_add_atom; [exact Wf|]. constructor. repeat split; assumption. }
    left. symmetry. apply chain_replace. unfold frame_expr at 1. cbn [fst snd]. rewrite text_add_atom. reflexivity.
Qed.
Lemma chain_counts : forall st, st <> [] -> Forall wf_frame st ->
  never_negative (chain_text st) /\ (opens (chain_text st) + 1 = closes (chain_text st) + List.length st)%nat.
Proof.
  induction st as [|f outer IH]; intros Ne W; [contradiction|]. inversion W as [|? ? Wf Wo]; subst.
  pose proof (text_balanced _ Wf) as [B1 B2]. destruct outer as [|g outer].
  - cbn [chain_text List.length]. split; [exact B1|lia].
  - destruct (IH ltac:(discriminate) Wo) as [H1 H2]. rewrite chain_cons. split.
    + apply nn_app2; [exact H1|]. apply nn_cons_open. intros x y E. specialize (B1 _ _ E). lia.
    + rewrite opens_app, closes_app, opens_cons, closes_cons. cbn [List.length] in *. change (40 =? 40) with true. cnt.
Qed.
Lemma nn_decompose : forall s, never_negative s -> exists st, st <> [] /\ Forall wf_frame st /\ s = chain_text st.
Proof.
  intros s H. destruct (decompose s) as (st & Ne & W & [E|(f & rest & -> & E)]); [eauto|exfalso].
  inversion W as [|? ? Wf _]; subst. destruct (text_balanced _ Wf) as [_ B].
  assert (X : (closes (text (frame_expr f) ++ [41%N]) <= opens (text (frame_expr f) ++ [41%N]))%nat).
  { apply (H _ rest). rewrite <- app_assoc. reflexivity. }
  rewrite closes_app, opens_app in X. change (closes [41]) with 1%nat in X. change (opens [41]) with 0%nat in X. lia.
Qed.
Lemma balanced_derivation : forall s, balanced s <-> exists e, wf_expr e /\ text e = s.
Proof.
  intro s. split.
  - intros [H E]. destruct (nn_decompose _ H) as (st & Ne & W & ->). destruct (chain_counts st Ne W) as [_ C].
    destruct st as [|f [|g outer]]; [contradiction| |cbn [List.length] in C; lia].
    inversion W; subst. exists (frame_expr f). split; [assumption|reflexivity].
  - intros (e & W & <-). apply text_balanced. exact W.
Qed.

(** ** Bit fields given by a predicate *)
Lemma word_of_bit : forall f k i, N.testbit (word_of f k) i = (i <? 64) && f (64 * k + i).
Proof.
  intros f k i. unfold word_of.
  assert (G : forall l, N.testbit (fold_right (fun i acc => N.lor (if f (64 * k + i) then 2 ^ i else 0) acc) 0 l) i =
    existsb (fun j => (j =? i) && f (64 * k + j)) l).
  { induction l as [|j l IH]; cbn [fold_right existsb]; [apply N.bits_0|]. rewrite N.lor_spec, IH.
    f_equal. destruct (f (64 * k + j)); [rewrite testbit_pow2; lia|rewrite N.bits_0; lia]. }
  rewrite G. apply eq_true_iff_eq. rewrite existsb_exists. split.
  - intros (j & I & H). apply in_map_iff in I. destruct I as (n & En & I). apply in_seq in I.
    apply andb_true_iff in H. destruct H as [Hj Hf]. apply N.eqb_eq in Hj. rewrite <- Hj, Hf. lia.
  - intro H. apply andb_true_iff in H. destruct H as [Hi Hf]. exists i. split; [|rewrite Hf, N.eqb_refl; reflexivity]. apply in_map_iff. exists (N.to_nat i). split; [lia|]. apply in_seq. lia.
Qed.
Lemma word_of_lt : forall f k, word_of f k < 2 ^ 64.
Proof. intros f k. apply lt_pow2_bits. intros i Hi. rewrite word_of_bit. replace (i <? 64) with false by lia. reflexivity. Qed.
Lemma field_of_wf : forall f, wf (field_of f).
Proof. intro f. repeat split; apply word_of_lt. Qed.
Lemma field_of_mem : forall f c, byte c -> mem (field_of f) c = f c.
Proof.
  intros f c Hc. rewrite mem_word by (try apply field_of_wf; exact Hc).
  assert (E : word (field_of f) (c / 64) = word_of f (c / 64)).
  { destruct (byte_cases c Hc) as [->|[->|[->| ->]]]; reflexivity. }
  rewrite E, word_of_bit. replace (64 * (c / 64) + c mod 64) with c by lia. replace (c mod 64 <? 64) with true by lia. reflexivity.
Qed.
Lemma field_of_unique : forall b f, wf b -> (forall c, byte c -> mem b c = f c) -> b = field_of f.
Proof.
  intros b f W H. apply same_eq; [exact W|apply field_of_wf|]. intros c Hc. rewrite field_of_mem by exact Hc. apply H, Hc.
Qed.
Lemma char_matches_byte : forall nc c x, c < 128 -> char_matches nc c x = true -> x < 128.
Proof. intros nc c x Hc H. assert (O : other_case c < 128) by (unfold other_case; ifs; lia). unfold char_matches in H. destruct nc; lia. Qed.
Lemma class_of_mem : forall nc c x, c < 128 -> mem (ac_cr (class_of nc c)) x = char_matches nc c x.
Proof.
  intros nc c x Hc. cbn [class_of ac_cr]. destruct (N.lt_ge_cases x 256) as [Hx|Hx]; [apply field_of_mem; exact Hx|].
  rewrite mem_out; [|apply field_of_wf|unfold byte; lia].
  destruct (char_matches nc c x) eqn:E; [|reflexivity]. apply char_matches_byte in E; [lia|exact Hc].
Qed.
Lemma class_of_inj : forall c d, c < 128 -> d < 128 -> class_of false c = class_of false d -> c = d.
Proof.
  intros c d Hc Hd E. assert (M : mem (ac_cr (class_of false c)) c = mem (ac_cr (class_of false d)) c) by (rewrite E; reflexivity).
  rewrite !class_of_mem in M by assumption. unfold char_matches in M. cbn in M. lia.
Qed.
