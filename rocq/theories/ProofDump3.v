(** The textual dumps: what can be read back. *)
From Verif Require Import Base ModelUtil ModelBitField ModelCharReach ModelParser ModelDump SpecSet SpecGrammar SpecTree SpecVisit SpecDump
  ProofBase ProofBitField ProofBitField2 ProofCharReach ProofShortcut ProofVisit ProofDump ProofDump2.
Local Open Scope N_scope.
Local Open Scope list_scope.

(** ** A code without prefixes can be read in one way only *)
Section Code.
  Context {A : Type} (code : A -> str) (ok : A -> Prop).
  Hypothesis code_prefix : forall x y r r', ok x -> ok y -> code x ++ r = code y ++ r' -> x = y.
  Hypothesis code_nonempty : forall x, ok x -> code x <> [].
  Lemma code_inj : forall l l', Forall ok l -> Forall ok l' -> flat_map code l = flat_map code l' -> l = l'.
  Proof.
    induction l as [|x l IH]; intros [|y l'] F F' E; cbn [flat_map] in E; [reflexivity| | |].
    - inversion F'; subst. symmetry in E. apply app_eq_nil in E. destruct E as [E _]. destruct (code_nonempty y); assumption.
    - inversion F; subst. apply app_eq_nil in E. destruct E as [E _]. destruct (code_nonempty x); assumption.
    - inversion F as [|? ? Fx Fl]; inversion F' as [|? ? Fy Fl']; subst. pose proof (code_prefix x y _ _ Fx Fy E) as Z. subst y. apply app_inv_head in E. f_equal. apply IH; assumption.
  Qed.
End Code.
Fixpoint prefix_b (a b : str) : bool := match a, b with [], _ => true | x :: a', y :: b' => (x =? y) && prefix_b a' b' | _ :: _, [] => false end.
Lemma app_prefix : forall a b r r', a ++ r = b ++ r' -> prefix_b a b = true \/ prefix_b b a = true.
Proof.
  induction a as [|x a IH]; intros [|y b] r r' E; [left; reflexivity..|right; reflexivity|]. cbn in E. injection E as -> E. cbn. rewrite N.eqb_refl. cbn. eapply IH. exact E.
Qed.
(** Tokens: bytes, then dash, three abbreviations, brackets and caret. *)
Definition tok_text (o : cc_output) (t : N) : str :=
  if t <? 256 then describe_char t o
  else match t - 256 with 0 => [45] | 1 => escape o 119 | 2 => escape o 100 | 3 => escape o 115 | 4 => [91] | 5 => [93] | _ => [94] end.
Definition tok_ok (t : N) : Prop := t < 263.
Definition tokens : list N := map N.of_nat (List.seq 0 263).
Lemma in_tokens : forall t, tok_ok t -> In t tokens.
Proof. intros t H. unfold tokens. apply in_map_iff. exists (N.to_nat t). split; [lia|]. apply in_seq. unfold tok_ok in H. lia. Qed.
Lemma tok_table : forall o, let l := map (fun t => (t, tok_text o t)) tokens in
  forallb (fun x => negb (prefix_b (snd x) []) && forallb (fun y => (fst x =? fst y) || negb (prefix_b (snd x) (snd y))) l) l = true.
Proof. intros []; vm_compute; reflexivity. Qed.
Lemma tok_prefix : forall o x y, tok_ok x -> tok_ok y -> prefix_b (tok_text o x) (tok_text o y) = true -> x = y.
Proof.
  intros o x y Hx Hy P. pose proof (tok_table o) as T. cbv zeta in T. rewrite forallb_forall in T.
  specialize (T (x, tok_text o x)). assert (I : In (x, tok_text o x) (map (fun t => (t, tok_text o t)) tokens)) by (apply in_map_iff; exists x; split; [reflexivity|apply in_tokens; exact Hx]).
  specialize (T I). cbn [fst snd] in T. apply andb_true_iff in T. destruct T as [_ T]. rewrite forallb_forall in T. specialize (T (y, tok_text o y)).
  assert (J : In (y, tok_text o y) (map (fun t => (t, tok_text o t)) tokens)) by (apply in_map_iff; exists y; split; [reflexivity|apply in_tokens; exact Hy]).
  specialize (T J). cbn [fst snd] in T. rewrite P in T. cbn [negb] in T. rewrite orb_false_r in T. apply N.eqb_eq. exact T.
Qed.
Lemma tok_nonempty : forall o x, tok_ok x -> tok_text o x <> [].
Proof.
  intros o x Hx Z. pose proof (tok_table o) as T. cbv zeta in T. rewrite forallb_forall in T.
  specialize (T (x, tok_text o x)). assert (I : In (x, tok_text o x) (map (fun t => (t, tok_text o t)) tokens)) by (apply in_map_iff; exists x; split; [reflexivity|apply in_tokens; exact Hx]).
  specialize (T I). cbn [fst snd] in T. rewrite Z in T. discriminate T.
Qed.
Lemma tok_inj : forall o l l', Forall tok_ok l -> Forall tok_ok l' -> flat_map (tok_text o) l = flat_map (tok_text o) l' -> l = l'.
Proof.
  intros o. apply code_inj; [|apply tok_nonempty]. intros x y r r' Hx Hy E. apply app_prefix in E. destruct E as [E|E]; [|symmetry]; eapply tok_prefix; eassumption.
Qed.
Lemma char_inj : forall o c d, byte c -> byte d -> describe_char c o = describe_char d o -> c = d.
Proof.
  intros o c d Hc Hd E. unfold byte in *. assert (X : [c] = [d]); [|injection X; auto]. apply (tok_inj o); [repeat constructor; unfold tok_ok; lia..|]. cbn [flat_map]. unfold tok_text. replace (c <? 256) with true by lia. replace (d <? 256) with true by lia. rewrite E. reflexivity.
Qed.
Lemma chars_inj : forall o l l', Forall byte l -> Forall byte l' -> flat_map (fun c => describe_char c o) l = flat_map (fun c => describe_char c o) l' -> l = l'.
Proof.
  intros o l l' F F' E. apply (tok_inj o).
  - eapply Forall_impl; [|exact F]. intros c H. unfold byte, tok_ok in *. lia.
  - eapply Forall_impl; [|exact F']. intros c H. unfold byte, tok_ok in *. lia.
  - assert (X : forall l, Forall byte l -> flat_map (tok_text o) l = flat_map (fun c => describe_char c o) l).
    { clear. intros l F. induction F as [|c l H F IH]; [reflexivity|]. cbn [flat_map]. rewrite IH. unfold tok_text. unfold byte in H. replace (c <? 256) with true by lia. reflexivity. }
    rewrite !X by assumption. exact E.
Qed.

(** ** Items *)
Definition item_toks (i : item) : list N := match i with IChar c => [c] | IRange lo hi => [lo; 256; hi] | IWord => [257] | IDigit => [258] | ISpace => [259] end.
Lemma item_toks_ok : forall i, item_ok i -> Forall (fun t => t < 260) (item_toks i).
Proof. intros [c|a z| | |] H; cbn in *; unfold byte in *; repeat constructor; lia. Qed.
Lemma items_toks_ok : forall is, Forall item_ok is -> Forall (fun t => t < 260) (flat_map item_toks is).
Proof. intros is F. induction F as [|i is H F IH]; cbn; [constructor|]. apply Forall_app. split; [apply item_toks_ok; exact H|exact IH]. Qed.
Lemma tok_ok_of : forall l, Forall (fun t => t < 260) l -> Forall tok_ok l.
Proof. intros l F. eapply Forall_impl; [|exact F]. intros t H. cbn in H. unfold tok_ok. lia. Qed.
Lemma tok_text_byte : forall o c, byte c -> tok_text o c = describe_char c o.
Proof. intros o c H. unfold tok_text. unfold byte in H. replace (c <? 256) with true by lia. reflexivity. Qed.
Lemma item_toks_text : forall o i, item_ok i -> flat_map (tok_text o) (item_toks i) = item_text o i.
Proof.
  intros o [c|a z| | |] H; cbn [item_toks flat_map item_text item_ok] in *.
  - rewrite tok_text_byte by exact H. apply app_nil_r.
  - destruct H as [Ha Hz]. rewrite (tok_text_byte o a Ha), (tok_text_byte o z Hz), app_nil_r. reflexivity.
  - destruct o; reflexivity.
  - destruct o; reflexivity.
  - destruct o; reflexivity.
Qed.
Lemma items_toks_text : forall o is, Forall item_ok is -> flat_map (tok_text o) (flat_map item_toks is) = flat_map (item_text o) is.
Proof. intros o is F. induction F as [|i is H F IH]; [reflexivity|]. cbn [flat_map]. rewrite flat_map_app, item_toks_text, IH by exact H. reflexivity. Qed.
Lemma items_head : forall is r, Forall item_ok is -> flat_map item_toks is <> 256 :: r.
Proof. intros is r F. destruct F as [|[c|a z| | |] is H F]; cbn in *; unfold byte in *; try discriminate; intro E; injection E as E; lia. Qed.
Lemma items_inj : forall is is', Forall item_ok is -> Forall item_ok is' -> flat_map item_toks is = flat_map item_toks is' -> is = is'.
Proof.
  intros is is' F. revert is'. induction F as [|i is H F IH]; intros is' F' E.
  - destruct F' as [|[c|a z| | |] is' H' F']; [reflexivity|discriminate E..].
  - destruct F' as [|i' is' H' F']; [destruct i; discriminate E|].
    destruct i as [c|a z| | |], i' as [c'|a' z'| | |]; cbn [flat_map item_toks app item_ok] in *; unfold byte in *.
    + injection E as -> E. f_equal. apply IH; assumption.
    + injection E as -> E. destruct (items_head _ _ F E).
    + injection E as E _. lia.
    + injection E as E _. lia.
    + injection E as E _. lia.
    + injection E as <- E. symmetry in E. destruct (items_head _ _ F' E).
    + injection E as -> -> E. f_equal. apply IH; assumption.
    + injection E as E _. lia.
    + injection E as E _. lia.
    + injection E as E _. lia.
    + injection E as E _. lia.
    + injection E as E _. lia.
    + injection E as E. f_equal. apply IH; assumption.
    + discriminate E.
    + discriminate E.
    + injection E as E _. lia.
    + injection E as E _. lia.
    + discriminate E.
    + injection E as E. f_equal. apply IH; assumption.
    + discriminate E.
    + injection E as E _. lia.
    + injection E as E _. lia.
    + discriminate E.
    + discriminate E.
    + injection E as E. f_equal. apply IH; assumption.
Qed.
Lemma items_text_inj : forall o is is', Forall item_ok is -> Forall item_ok is' -> flat_map (item_text o) is = flat_map (item_text o) is' -> is = is'.
Proof.
  intros o is is' F F' E. apply items_inj; [assumption..|]. apply (tok_inj o); [apply tok_ok_of, items_toks_ok; assumption..|]. rewrite !items_toks_text by assumption. exact E.
Qed.

(** ** A text stands for one set *)
(** the five forms, as tokens *)
Inductive form := FEmpty | FAny | FBare (is : list item) | FSet (is : list item) | FNeg (is : list item).
Definition form_ok (f : form) : Prop :=
  match f with FEmpty | FAny => True | FBare is => is <> [] /\ (List.length is <= 4)%nat /\ Forall item_ok is | FSet is | FNeg is => is <> [] /\ Forall item_ok is end.
Definition form_text (o : cc_output) (f : form) : str :=
  match f with
  | FEmpty => lit "<empty>" | FAny => lit "<any>"
  | FBare is => flat_map (item_text o) is
  | FSet is => lit "[" ++ flat_map (item_text o) is ++ lit "]"
  | FNeg is => lit "[^" ++ flat_map (item_text o) is ++ lit "]"
  end.
Definition form_toks (f : form) : list N :=
  match f with
  | FEmpty => lit "<empty>" | FAny => lit "<any>"
  | FBare is => flat_map item_toks is
  | FSet is => 260 :: flat_map item_toks is ++ [261]
  | FNeg is => 260 :: 262 :: flat_map item_toks is ++ [261]
  end.
Lemma form_toks_text : forall o f, form_ok f -> flat_map (tok_text o) (form_toks f) = form_text o f.
Proof.
  intros o [| |is|is|is] H; cbn [form_ok form_toks form_text] in *.
  - destruct o; vm_compute; reflexivity.
  - destruct o; vm_compute; reflexivity.
  - apply items_toks_text, H.
  - cbn [flat_map]. rewrite flat_map_app, items_toks_text by apply H. reflexivity.
  - cbn [flat_map]. rewrite flat_map_app, items_toks_text by apply H. reflexivity.
Qed.
Lemma form_toks_ok : forall f, form_ok f -> Forall tok_ok (form_toks f).
Proof.
  intros [| |is|is|is] H; cbn [form_ok form_toks] in *.
  - apply Forall_forall. intros t I. vm_compute in I. unfold tok_ok. lia.
  - apply Forall_forall. intros t I. vm_compute in I. unfold tok_ok. lia.
  - apply tok_ok_of, items_toks_ok, H.
  - constructor; [unfold tok_ok; lia|]. apply Forall_app. split; [apply tok_ok_of, items_toks_ok, H|]. constructor; [unfold tok_ok; lia|constructor].
  - constructor; [unfold tok_ok; lia|]. constructor; [unfold tok_ok; lia|]. apply Forall_app. split; [apply tok_ok_of, items_toks_ok, H|]. constructor; [unfold tok_ok; lia|constructor].
Qed.
Lemma items_first : forall is t r, Forall item_ok is -> flat_map item_toks is = t :: r -> t < 260.
Proof. intros is t r F E. pose proof (items_toks_ok is F) as T. rewrite E in T. inversion T; assumption. Qed.
Lemma bare_word : forall is s, (List.length is <= 4)%nat -> Forall item_ok is -> Forall byte s -> (4 < List.length s)%nat -> flat_map item_toks is <> s.
Proof.
  intros is s L F B Ls E. assert (X : flat_map item_toks (map IChar s) = s) by (clear; induction s as [|c s IH]; [reflexivity|]; cbn; f_equal; exact IH).
  rewrite <- X in E. apply items_inj in E; [|exact F|]; [subst is; rewrite map_length in L; lia|]. apply Forall_forall. intros i I. apply in_map_iff in I. destruct I as (c & <- & I). rewrite Forall_forall in B. exact (B c I).
Qed.
Lemma empty_bytes : Forall byte (lit "<empty>"). Proof. apply Forall_forall. intros t I. vm_compute in I. unfold byte. lia. Qed.
Lemma any_bytes : Forall byte (lit "<any>"). Proof. apply Forall_forall. intros t I. vm_compute in I. unfold byte. lia. Qed.
Lemma form_inj : forall o f g, form_ok f -> form_ok g -> form_text o f = form_text o g -> f = g.
Proof.
  intros o f g Hf Hg E. rewrite <- !form_toks_text in E by assumption. apply tok_inj in E; [|apply form_toks_ok; assumption..].
  assert (Brk : forall is r, Forall item_ok is -> flat_map item_toks is <> 260 :: r) by (intros is r F X; apply items_first in X; [lia|exact F]).
  assert (Car : forall is r, Forall item_ok is -> is <> [] -> flat_map item_toks is ++ [261] <> 262 :: r).
  { intros is r F Ne X. destruct F as [|i is Hi F]; [contradiction|]. pose proof (item_toks_ok i Hi) as T. destruct i; cbn in X, T; injection X as X _; inversion T; lia. }
  destruct f as [| |is|is|is], g as [| |js|js|js]; cbn [form_toks form_ok] in *.
  - reflexivity.
  - discriminate E.
  - destruct Hg as (_ & L & F). destruct (bare_word js (lit "<empty>") L F empty_bytes); [vm_compute; lia|symmetry; exact E].
  - discriminate E.
  - discriminate E.
  - discriminate E.
  - reflexivity.
  - destruct Hg as (_ & L & F). destruct (bare_word js (lit "<any>") L F any_bytes); [vm_compute; lia|symmetry; exact E].
  - discriminate E.
  - discriminate E.
  - destruct Hf as (_ & L & F). destruct (bare_word is (lit "<empty>") L F empty_bytes); [vm_compute; lia|exact E].
  - destruct Hf as (_ & L & F). destruct (bare_word is (lit "<any>") L F any_bytes); [vm_compute; lia|exact E].
  - f_equal. apply items_inj; tauto.
  - destruct (Brk is _ ltac:(tauto) E).
  - destruct (Brk is _ ltac:(tauto) E).
  - discriminate E.
  - discriminate E.
  - symmetry in E. destruct (Brk js _ ltac:(tauto) E).
  - injection E as E. apply app_inj_tail in E. f_equal. apply items_inj; tauto.
  - injection E as E. destruct (Car is _ ltac:(tauto) ltac:(tauto) E).
  - discriminate E.
  - discriminate E.
  - symmetry in E. destruct (Brk js _ ltac:(tauto) E).
  - injection E as E. symmetry in E. destruct (Car js _ ltac:(tauto) ltac:(tauto) E).
  - injection E as E. apply app_inj_tail in E. f_equal. apply items_inj; tauto.
Qed.
Definition form_set (f : form) (c : N) : Prop :=
  match f with FEmpty => False | FAny => byte c | FBare is | FSet is => in_items is c | FNeg is => byte c /\ ~ in_items is c end.
Lemma denotes_form : forall o s P, denotes o s P -> exists f, form_ok f /\ s = form_text o f /\ P = form_set f.
Proof.
  intros o s P D. destruct D as [| |is N L F|is N F|is N F]; [exists FEmpty|exists FAny|exists (FBare is)|exists (FSet is)|exists (FNeg is)]; cbn; auto.
Qed.
Lemma denotes_unique : forall o s P Q, denotes o s P -> denotes o s Q -> P = Q.
Proof.
  intros o s P Q DP DQ. apply denotes_form in DP, DQ. destruct DP as (f & Hf & -> & ->), DQ as (g & Hg & E & ->). apply form_inj in E; [|assumption..]. subst g. reflexivity.
Qed.

(** ** The items written *)
Definition run_items (r : N * N) : list item :=
  if snd r - fst r <? 4 then map IChar (bytes_from (fst r) (S (N.to_nat (snd r - fst r)))) else [IRange (fst r) (snd r)].
Lemma run_items_text : forall o r, flat_map (item_text o) (run_items r) = run_text o r.
Proof.
  intros o r. unfold run_items, run_text. fold (bytes_from (fst r) (S (N.to_nat (snd r - fst r)))). destruct (snd r - fst r <? 4).
  - generalize (bytes_from (fst r) (S (N.to_nat (snd r - fst r)))). intro l. induction l as [|c l IH]; [reflexivity|]. cbn. rewrite IH. reflexivity.
  - cbn [flat_map item_text]. apply app_nil_r.
Qed.
Lemma in_bytes_from : forall lo n c, In c (bytes_from lo n) <-> lo <= c < lo + N.of_nat n.
Proof.
  intros lo n c. unfold bytes_from. rewrite in_map_iff. split.
  - intros (i & <- & I). apply in_seq in I. lia.
  - intro H. exists (N.to_nat (c - lo)). split; [lia|]. apply in_seq. lia.
Qed.
Lemma run_items_in : forall r c, fst r <= snd r -> (in_items (run_items r) c <-> fst r <= c <= snd r).
Proof.
  intros r c L. unfold run_items, in_items. destruct (snd r - fst r <? 4).
  - split.
    + intros (i & I & E). apply in_map_iff in I. destruct I as (x & <- & I). apply in_bytes_from in I. cbn in E. subst x. lia.
    + intro H. exists (IChar c). split; [|reflexivity]. apply in_map_iff. exists c. split; [reflexivity|]. apply in_bytes_from. lia.
  - split; [intros (i & [<-|[]] & E); exact E|]. intro H. exists (IRange (fst r) (snd r)). split; [left; reflexivity|exact H].
Qed.
Lemma run_items_ok : forall r, fst r <= snd r -> byte (snd r) -> Forall item_ok (run_items r).
Proof.
  intros r L B. unfold byte in B. apply Forall_forall. intros i I. unfold run_items in I. destruct (snd r - fst r <? 4).
  - apply in_map_iff in I. destruct I as (x & <- & I). apply in_bytes_from in I. cbn. unfold byte. lia.
  - destruct I as [<-|[]]. cbn. unfold byte. lia.
Qed.
Lemma run_items_length : forall r, (1 <= List.length (run_items r) <= 4)%nat.
Proof.
  intro r. unfold run_items. destruct (N.ltb_spec (snd r - fst r) 4) as [H|H]; [|cbn; lia]. rewrite map_length. unfold bytes_from. rewrite map_length, seq_length. lia.
Qed.
Lemma in_items_app : forall a b c, in_items (a ++ b) c <-> in_items a c \/ in_items b c.
Proof.
  intros a b c. unfold in_items. split.
  - intros (i & I & H). apply in_app_or in I. destruct I as [I|I]; [left|right]; eauto.
  - intros [(i & I & H)|(i & I & H)]; exists i; (split; [apply in_or_app; auto|exact H]).
Qed.
Lemma in_items_flat : forall rs c, in_items (flat_map run_items rs) c <-> exists r, In r rs /\ in_items (run_items r) c.
Proof.
  intros rs c. unfold in_items. split.
  - intros (i & I & H). apply in_flat_map in I. destruct I as (r & Ir & I). eauto.
  - intros (r & Ir & i & I & H). exists i. split; [apply in_flat_map; eauto|exact H].
Qed.
Definition abbr_items (l : list N) : list item :=
  (if includes l is_word then [IWord] else []) ++ (if negb (includes l is_word) && includes l is_digit then [IDigit] else []) ++ (if includes l is_space then [ISpace] else []).
Lemma abbr_items_text : forall o l, fst (abbreviations o l) = map (item_text o) (abbr_items l).
Proof. intros o l. unfold abbreviations, abbr_items. cbv zeta. cbn [fst]. repeat destruct (includes _ _); reflexivity. Qed.
Lemma abbr_split : forall l c, bytes l -> (In c l <-> in_items (abbr_items l) c \/ In c (unabbreviated l)).
Proof.
  intros l c [_ B]. rewrite Forall_forall in B. unfold unabbreviated, abbreviations, abbr_items. cbv zeta. cbn [snd]. rewrite filter_In, !in_items_app.
  assert (W : includes l is_word = true -> is_word c = true -> In c l) by (intros H Hc; rewrite includes_iff in H; apply H; [unfold is_word in Hc; unfold byte; lia|exact Hc]).
  assert (D : includes l is_digit = true -> is_digit c = true -> In c l) by (intros H Hc; rewrite includes_iff in H; apply H; [unfold is_digit in Hc; unfold byte; lia|exact Hc]).
  assert (S : includes l is_space = true -> is_space c = true -> In c l) by (intros H Hc; rewrite includes_iff in H; apply H; [unfold is_space in Hc; unfold byte; lia|exact Hc]).
  assert (One : forall i, in_items [i] c <-> in_item i c) by (intro i; unfold in_items; split; [intros (j & [<-|[]] & H); exact H|intro H; exists i; split; [left; reflexivity|exact H]]).
  assert (Nil : in_items [] c <-> False) by (unfold in_items; split; [intros (j & [] & _)|intros []]).
  destruct (includes l is_word), (includes l is_digit), (includes l is_space); cbn [andb negb orb]; rewrite ?One, ?Nil; cbn [in_item]; rewrite ?negb_true_iff, ?orb_false_r;
    destruct (is_word c) eqn:Ew, (is_digit c) eqn:Ed, (is_space c) eqn:Es; cbn [orb]; intuition (try discriminate).
Qed.
Lemma unabbreviated_any : forall o l, snd (abbreviations o l) = unabbreviated l.
Proof. reflexivity. Qed.
Lemma highest_run : forall l, bytes l -> l <> [] -> forall c, In c l ->
  let r := List.last (runs_of l) (0, 0) in (fst r <= c <= snd r <-> forall d x, In d l -> c <= x <= d -> In x l).
Proof.
  intros l B Ne c I. pose proof (runs_of_ok l (proj1 B)) as (Co & Le & So). assert (Nr : runs_of l <> []) by (destruct l as [|a l]; [contradiction|apply runs_from_nonempty]).
  destruct (exists_last Nr) as (rs & z & E). rewrite E in *. rewrite last_last. cbv zeta.
  assert (Iz : In z (rs ++ [z])) by (apply in_or_app; right; left; reflexivity). pose proof (Le z Iz) as Lz.
  assert (Before : forall r, In r rs -> snd r + 1 < fst z).
  { clear - So. induction rs as [|x rs IH]; intros r Ir; [destruct Ir|]. cbn in So. inversion So as [|? ? So' F]; subst. destruct Ir as [<-|Ir]; [|auto]. rewrite Forall_forall in F. apply F. apply in_or_app. right. left. reflexivity. }
  split.
  - intros Hc d x Id Hx. apply Co. exists z. split; [exact Iz|]. apply Co in Id. destruct Id as (q & Iq & Hq). apply in_app_or in Iq. destruct Iq as [Iq|[<-|[]]]; [specialize (Before q Iq); lia|lia].
  - intro H. apply Co in I. destruct I as (q & Iq & Hq). pose proof Iq as Iq'. apply in_app_or in Iq. destruct Iq as [Iq|[<-|[]]]; [|exact Hq]. exfalso. pose proof (Before q Iq) as Bq.
    assert (X : In (snd q + 1) l) by (apply (H (fst z)); [apply Co; exists z; split; [exact Iz|lia]|lia]). apply Co in X. destruct X as (w & Iw & Hw).
    clear - So Iq' Iw Hw Hq Le. pose proof (Le q Iq') as Lq. clear Le. induction So as [|y rs' So IH F]; [destruct Iw|]. rewrite Forall_forall in F. destruct Iq' as [<-|Iq], Iw as [<-|Iw]; [lia|specialize (F _ Iw); lia|specialize (F _ Iq); lia|auto].
Qed.
Lemma runs_of_nil : forall l, runs_of l = [] -> l = [].
Proof. intros [|c l] E; [reflexivity|]. destruct (runs_from_nonempty _ _ _ E). Qed.
Lemma flat_length : forall rs, (List.length (flat_map run_items rs) <= 4 * List.length rs)%nat.
Proof. induction rs as [|r rs IH]; [cbn; lia|]. cbn [flat_map List.length]. rewrite app_length. pose proof (run_items_length r). lia. Qed.
Lemma flat_text : forall o rs, flat_map (item_text o) (flat_map run_items rs) = List.concat (map (run_text o) rs).
Proof. intros o rs. induction rs as [|r rs IH]; [reflexivity|]. cbn. rewrite flat_map_app, run_items_text, IH. reflexivity. Qed.
Lemma concat_map_items : forall o is, List.concat (map (item_text o) is) = flat_map (item_text o) is.
Proof. intros o is. symmetry. apply flat_map_concat_map. Qed.
Lemma shown_items : forall o l, bytes l -> l <> [] -> exists is, fst (shown o l) = flat_map (item_text o) is /\ is <> [] /\ Forall item_ok is /\ (snd (shown o l) <= 1 -> (List.length is <= 4)%nat) /\
  forall c, in_items is c <-> In c l /\ ~ left_out l c.
Proof.
  intros o l B Ne. unfold shown.
  assert (Bnd : forall k r, bytes k -> In r (runs_of k) -> fst r <= snd r /\ byte (snd r)).
  { intros k r [Sk Bk] I. destruct (runs_of_ok k Sk) as (Co & Le & _). split; [apply Le; exact I|]. rewrite Forall_forall in Bk. apply Bk. apply Co. exists r. split; [exact I|]. specialize (Le r I). lia. }
  assert (Big : (2 <= List.length (runs_of l))%nat -> exists is, fst (let (abbr, rest) := abbreviations o l in
    let rs := runs_of rest in
    let items := abbr ++ map (run_text o) (removelast rs) in
    let last := List.last rs (0, 0) in
    let n := N.of_nat (List.length items) in
    match rs with
    | [] => (List.concat items, n)
    | _ => if snd last =? 255 then (List.concat items ++ run_text o last, n + 1) else (List.concat items, n)
    end) = flat_map (item_text o) is /\ is <> [] /\ Forall item_ok is /\ (snd (let (abbr, rest) := abbreviations o l in
    let rs := runs_of rest in
    let items := abbr ++ map (run_text o) (removelast rs) in
    let last := List.last rs (0, 0) in
    let n := N.of_nat (List.length items) in
    match rs with
    | [] => (List.concat items, n)
    | _ => if snd last =? 255 then (List.concat items ++ run_text o last, n + 1) else (List.concat items, n)
    end) <= 1 -> (List.length is <= 4)%nat) /\ forall c, in_items is c <-> In c l /\ ~ left_out l c).
  { intro Two. pose proof (abbr_items_text o l) as At. pose proof (abbreviations_bytes o l B) as Bu. pose proof (unabbreviated_any o l) as Un. pose proof (fun c => abbr_split l c B) as Sp. destruct (abbreviations o l) as [abbr rest]. cbn [fst snd] in *. subst abbr. cbv zeta.
    assert (Iok : Forall item_ok (abbr_items l)) by (unfold abbr_items; repeat destruct (includes _ _); repeat constructor).
    assert (Rk : forall k r, bytes k -> In r (removelast (runs_of k)) -> fst r <= snd r /\ byte (snd r)).
    { intros k r Bk I. apply (Bnd k r Bk). destruct (runs_of k) as [|x rs] eqn:E; [destruct I|]. rewrite (app_removelast_last (0, 0) (l := x :: rs)) by discriminate. apply in_or_app. left. exact I. }
    assert (Fok : forall k, bytes k -> Forall item_ok (flat_map run_items (removelast (runs_of k)))).
    { intros k Bk. apply Forall_forall. intros i I. apply in_flat_map in I. destruct I as (r & Ir & I). destruct (Rk k r Bk Ir) as [L1 L2]. pose proof (run_items_ok r L1 L2) as F. rewrite Forall_forall in F. exact (F i I). }
    destruct rest as [|a rest].
    - cbn [runs_of removelast map]. rewrite app_nil_r. exists (abbr_items l). cbn [fst snd]. rewrite concat_map_items. split; [reflexivity|]. split.
      { intro Z. destruct l as [|x l]; [contradiction|]. destruct (proj1 (Sp x) (or_introl eq_refl)) as [(i & I & _)|X]; [rewrite Z in I; exact I|rewrite <- Un in X; exact X]. }
      split; [exact Iok|]. split; [intro H; rewrite map_length in H; lia|]. intro c. rewrite (Sp c). unfold left_out. rewrite <- Un. cbn [In]. tauto.
    - pose proof (highest_run (a :: rest) Bu ltac:(discriminate)) as Hi. cbv zeta in Hi. pose proof (Fok _ Bu) as Fu. pose proof (runs_of_ok _ (proj1 Bu)) as (Co & Le & So).
      destruct (runs_of (a :: rest)) as [|r0 rs0] eqn:Er; [destruct (runs_from_nonempty _ _ _ Er)|]. rewrite <- Er in *.
      assert (Nr : runs_of (a :: rest) <> []) by (rewrite Er; discriminate). set (z := List.last (runs_of (a :: rest)) (0, 0)) in *. pose proof (app_removelast_last (0, 0) Nr) as Ap. fold z in Ap. set (D := removelast (runs_of (a :: rest))) in *.
      assert (Iz : In z (runs_of (a :: rest))) by (rewrite Ap; apply in_or_app; right; left; reflexivity). destruct (Bnd _ z Bu Iz) as [Lz Bz].
      assert (Zin : forall c, fst z <= c <= snd z -> In c (a :: rest)) by (intros c Hc; apply Co; eauto).
      assert (Din : forall c, in_items (flat_map run_items D) c <-> In c (a :: rest) /\ ~ (fst z <= c <= snd z)).
      { intro c. rewrite in_items_flat. split.
        - intros (r & Ir & H). assert (Ir' : In r (runs_of (a :: rest))) by (rewrite Ap; apply in_or_app; left; exact Ir). apply run_items_in in H; [|apply Le; exact Ir']. split; [apply Co; eauto|].
          assert (X : snd r + 1 < fst z).
          { rewrite Ap in So. clear - So Ir. induction D as [|x D IH]; [destruct Ir|]. cbn in So. inversion So as [|? ? So' F]; subst. destruct Ir as [<-|Ir]; [|auto]. rewrite Forall_forall in F. apply F. apply in_or_app. right. left. reflexivity. }
          lia.
        - intros [I N]. apply Co in I. destruct I as (r & Ir & H). rewrite Ap in Ir. apply in_app_or in Ir. destruct Ir as [Ir|[<-|[]]]; [|contradiction]. exists r. split; [exact Ir|]. apply run_items_in; [lia|exact H]. }
      destruct (N.eqb_spec (snd z) 255) as [E|E].
      + exists (abbr_items l ++ flat_map run_items D ++ run_items z). cbn [fst snd]. rewrite concat_app, !flat_map_app, concat_map_items, flat_text, run_items_text, <- app_assoc. split; [reflexivity|]. split.
        { intro Z. apply (f_equal (@List.length item)) in Z. rewrite !app_length in Z. pose proof (run_items_length z) as Q. cbn [List.length] in Z. lia. }
        split; [apply Forall_app; split; [exact Iok|apply Forall_app; split; [exact Fu|apply run_items_ok; assumption]]|]. split.
        { intro H. rewrite app_length, !map_length in H. rewrite !app_length. pose proof (flat_length D). pose proof (run_items_length z). lia. }
        intro c. rewrite !in_items_app, Din, run_items_in by exact Lz. rewrite (Sp c). unfold left_out. rewrite <- Un.
        assert (M : In 255 (a :: rest)) by (apply Zin; lia). specialize (Zin c). assert (Dec : fst z <= c <= snd z \/ ~ (fst z <= c <= snd z)) by lia. tauto.
      + exists (abbr_items l ++ flat_map run_items D). cbn [fst snd]. rewrite concat_app, !flat_map_app, concat_map_items, flat_text. split; [reflexivity|].
        assert (Some255 : ~ In 255 (a :: rest)).
        { intro M. apply Co in M. destruct M as (r & Ir & H). destruct (Bnd _ r Bu Ir) as [_ Br]. unfold byte in Br, Bz. rewrite Ap in Ir. apply in_app_or in Ir. destruct Ir as [Ir|[<-|[]]]; [|lia].
          assert (X : snd r + 1 < fst z).
          { rewrite Ap in So. clear - So Ir. induction D as [|x D IH]; [destruct Ir|]. cbn in So. inversion So as [|? ? So' F]; subst. destruct Ir as [<-|Ir]; [|auto]. rewrite Forall_forall in F. apply F. apply in_or_app. right. left. reflexivity. }
          lia. }
        split.
        { intro Z. apply app_eq_nil in Z. destruct Z as [Z1 Z2]. assert (El : unabbreviated l = l).
          { unfold unabbreviated, abbreviations. cbv zeta. cbn [snd]. unfold abbr_items in Z1. destruct (includes l is_word), (includes l is_digit), (includes l is_space); cbn in Z1; try discriminate Z1. apply filter_none. reflexivity. }
          rewrite <- Un in El. rewrite El in *. assert (D = []) by (destruct D as [|q D']; [reflexivity|]; cbn in Z2; apply app_eq_nil in Z2; destruct Z2 as [Z2 _]; pose proof (run_items_length q) as Q; rewrite Z2 in Q; cbn in Q; lia).
          rewrite Ap, H in Two. cbn in Two. lia. }
        split; [apply Forall_app; split; [exact Iok|exact Fu]|]. split.
        { intro H. rewrite app_length, !map_length in H. rewrite app_length. pose proof (flat_length D). lia. }
        intro c. rewrite in_items_app, Din. rewrite (Sp c). unfold left_out. rewrite <- Un. specialize (Hi c). specialize (Zin c).
        assert (NA : in_items (abbr_items l) c -> ~ In c (a :: rest)).
        { intros (i & I & H) J. rewrite Un in J. unfold unabbreviated, abbreviations in J. cbv zeta in J. cbn [snd] in J. apply filter_In in J. destruct J as [_ J]. unfold abbr_items in I.
          destruct (includes l is_word), (includes l is_digit), (includes l is_space); cbn in I, J; intuition (subst; cbn in *; repeat match goal with X : _ = true |- _ => rewrite X in * end; cbn in *; rewrite ?orb_true_r in *; try discriminate). }
        assert (Dec : fst z <= c <= snd z \/ ~ (fst z <= c <= snd z)) by lia. tauto. }
  destruct (runs_of l) as [|r [|q rs]] eqn:E.
  - destruct (Ne (runs_of_nil l E)).
  - exists (run_items r). cbn [fst snd]. rewrite run_items_text. destruct (Bnd l r B) as [L1 L2]; [rewrite E; left; reflexivity|]. pose proof (run_items_length r) as Lr. split; [reflexivity|]. split; [intro Z; rewrite Z in Lr; cbn in Lr; lia|].
    split; [apply run_items_ok; assumption|]. split; [intro; lia|]. intro c. rewrite run_items_in by exact L1. destruct (runs_of_ok l (proj1 B)) as (Co & _ & _). rewrite E in Co. unfold left_out. rewrite E. cbn [List.length]. split.
    + intro H. split; [apply Co; exists r; split; [left; reflexivity|exact H]|]. intros [X _]. lia.
    + intros [I _]. apply Co in I. destruct I as (w & [<-|[]] & H). exact H.
  - apply Big. cbn. lia.
Qed.

(** ** The text of a class *)
Lemma tok_first : forall o x y r r', tok_ok x -> tok_ok y -> tok_text o x ++ r = tok_text o y ++ r' -> x = y.
Proof. intros o x y r r' Hx Hy E. apply app_prefix in E. destruct E as [E|E]; [|symmetry]; eapply tok_prefix; eassumption. Qed.
Lemma starts_app : forall a s, starts_with a s = true -> exists r, s = a ++ r.
Proof.
  induction a as [|x a IH]; intros s H; [exists s; reflexivity|]. destruct s as [|y s]; [discriminate|]. cbn in H. apply andb_true_iff in H. destruct H as [E H]. apply N.eqb_eq in E. subst y.
  destruct (IH s H) as (r & ->). exists r. reflexivity.
Qed.
Lemma app_starts : forall a r, starts_with a (a ++ r) = true.
Proof. induction a as [|x a IH]; intro r; cbn; [reflexivity|]. rewrite N.eqb_refl. apply IH. Qed.
Lemma form_caret : forall o f, form_ok f -> starts_with (lit "[^") (form_text o f) = match f with FNeg _ => true | _ => false end.
Proof.
  intros o f H. destruct (starts_with (lit "[^") (form_text o f)) eqn:E.
  - apply starts_app in E. destruct E as (r & E). rewrite <- form_toks_text in E by exact H. change (lit "[^" ++ r) with (tok_text o 260 ++ tok_text o 262 ++ r) in E.
    destruct f as [| |is|is|is]; cbn [form_toks form_ok] in *; [| | | |reflexivity]; exfalso.
    + change (lit "<empty>") with (60 :: lit "empty>") in E. cbn [flat_map] in E. apply tok_first in E; unfold tok_ok; lia.
    + change (lit "<any>") with (60 :: lit "any>") in E. cbn [flat_map] in E. apply tok_first in E; unfold tok_ok; lia.
    + destruct H as (Ne & _ & F). pose proof (items_toks_ok is F) as T. destruct (flat_map item_toks is) as [|t ts]; [cbn in E; discriminate E|]. inversion T as [|? ? Tt _]; subst. cbn [flat_map] in E. apply tok_first in E; unfold tok_ok; lia.
    + destruct H as (Ne & F). pose proof (items_toks_ok is F) as T. cbn [flat_map] in E. apply app_inv_head in E. destruct (flat_map item_toks is) as [|t ts]; cbn [app flat_map] in E; (apply tok_first in E; [|unfold tok_ok..]); [discriminate E|lia|lia| |inversion T; lia|lia]. inversion T as [|? ? Tt _]; subst. lia.
  - destruct f as [| |is|is|is]; try reflexivity. cbn [form_text] in E. rewrite app_starts in E. discriminate E.
Qed.
Lemma text_form : forall o b, exists f, form_ok f /\ text_of o b = form_text o f /\
  (match f with
   | FNeg _ => forall c, form_set f c <-> byte c /\ ~ (In c (others b) /\ ~ left_out (others b) c)
   | _ => forall c, form_set f c <-> In c (elements b) /\ ~ left_out (elements b) c
   end).
Proof.
  intros o b. unfold text_of.
  assert (Short : forall l c, (List.length l <= 1)%nat -> ~ left_out l c) by (intros [|x [|y l]] c L (H & _); cbn in *; lia).
  assert (Single : forall x c, in_items [IChar x] c <-> c = x) by (intros x c; unfold in_items; split; [intros (i & [<-|[]] & H); exact H|intros ->; exists (IChar x); split; [left; reflexivity|reflexivity]]).
  pose proof (bytes_elements b) as Be. pose proof (bytes_others b) as Bo.
  assert (Any : others b = [] -> forall c, byte c -> In c (elements b)).
  { intros E c Bc. apply has_iff. rewrite has_elements by exact Bc. destruct (mem b c) eqn:M; [reflexivity|]. assert (X : has (others b) c = true) by (rewrite has_others, M by exact Bc; reflexivity). rewrite E in X. discriminate X. }
  assert (Full : forall l, bytes l -> (forall c, byte c -> In c l) -> forall c, ~ left_out l c).
  { intros l Bl H c (Two & _ & _). destruct (runs_of_ok l (proj1 Bl)) as (Co & Le & So). destruct (runs_of l) as [|r [|q rs]]; [cbn in Two; lia..|]. inversion So as [|? ? _ F]; subst. rewrite Forall_forall in F.
    assert (Lt : forall w, In w (q :: rs) -> snd r + 1 < fst w) by exact F. pose proof (Lt q (or_introl eq_refl)) as Lq. pose proof (Le q (or_intror (or_introl eq_refl))) as Lq2.
    assert (Bq : In (snd q) l) by (apply Co; exists q; split; [right; left; reflexivity|lia]). destruct Bl as [_ Bl]. rewrite Forall_forall in Bl. apply Bl in Bq. unfold byte in Bq.
    assert (X : In (snd r + 1) l) by (apply H; unfold byte; lia). apply Co in X. destruct X as (w & [<-|Iw] & Hw); [lia|]. specialize (Lt w Iw). lia. }
  destruct (elements b) as [|x [|y k]] eqn:E1.
  - exists FEmpty. split; [exact I|]. split; [reflexivity|]. intro c. cbn. tauto.
  - destruct (others b) as [|u m] eqn:E2.
    + exists FAny. split; [exact I|]. split; [reflexivity|]. intro c. cbn [form_set]. split; [intro Bc; split; [apply Any; [reflexivity|exact Bc]|apply Short; cbn; lia]|]. intros [I _]. destruct Be as [_ Be]. rewrite Forall_forall in Be. apply Be. exact I.
    + exists (FBare [IChar x]). destruct Be as [_ Be]. inversion Be; subst. split; [cbn; split; [discriminate|split; [lia|repeat constructor; assumption]]|]. split; [cbn; rewrite app_nil_r; reflexivity|].
      intro c. cbn [form_set]. rewrite Single. cbn [In]. split; [intros ->; split; [left; reflexivity|apply Short; cbn; lia]|intros [[<-|[]] _]; reflexivity].
  - destruct (others b) as [|u [|v m]] eqn:E2.
    + exists FAny. split; [exact I|]. split; [reflexivity|]. intro c. cbn [form_set]. split.
      * intro Bc. split; [apply Any; [reflexivity|exact Bc]|]. apply Full; [exact Be|intros; apply Any; [reflexivity|assumption]].
      * intros [I _]. destruct Be as [_ Be]. rewrite Forall_forall in Be. apply Be. exact I.
    + exists (FNeg [IChar u]). destruct Bo as [_ Bo]. inversion Bo; subst. split; [cbn; split; [discriminate|repeat constructor; assumption]|]. split; [cbn [form_text flat_map item_text]; rewrite app_nil_r; reflexivity|].
      intro c. cbn [form_set]. rewrite Single. cbn [In]. split.
      * intros [Bc N]. split; [exact Bc|]. intros [[<-|[]] _]. apply N. reflexivity.
      * intros [Bc N]. split; [exact Bc|]. intros ->. apply N. split; [left; reflexivity|apply Short; cbn; lia].
    + rewrite <- E1, <- E2 in *. destruct (shown_items o (elements b)) as (is & T1 & N1 & F1 & L1 & S1); [exact Be|rewrite E1; discriminate|].
      destruct (shown_items o (others b)) as (js & T2 & N2 & F2 & L2 & S2); [exact Bo|rewrite E2; discriminate|]. rewrite T1, T2.
      destruct (str_len _ <=? str_len _).
      * destruct (N.ltb_spec 1 (snd (shown o (elements b)))) as [H|H].
        -- exists (FSet is). split; [split; assumption|]. split; [reflexivity|]. exact S1.
        -- exists (FBare is). split; [split; [assumption|split; [apply L1; exact H|assumption]]|]. split; [reflexivity|]. exact S1.
      * exists (FNeg js). split; [split; assumption|]. split; [reflexivity|]. intro c. cbn [form_set]. rewrite S2. tauto.
Qed.
Lemma form_denotes : forall o f, form_ok f -> denotes o (form_text o f) (form_set f).
Proof. intros o [| |is|is|is] H; cbn [form_ok form_text] in *; [apply d_empty|apply d_any|apply d_bare; tauto|apply d_set; tauto|apply d_neg; tauto]. Qed.
