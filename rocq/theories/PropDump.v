(** Theorems about the textual dumps (C50, C51). *)
From Verif Require Import Base ModelUtil ModelBitField ModelCharReach ModelParser ModelDump SpecSet SpecGrammar SpecTree SpecVisit SpecDump SpecGraph
  ProofBase ProofBitField ProofBitField2 ProofCharReach ProofGrammar ProofParser ProofTree ProofShortcut ProofGraph ProofVisit ProofDump ProofDump2 ProofDump3 ProofDump4 PropParser.
Local Open Scope N_scope.
Local Open Scope list_scope.

(** ** C50: characters and classes *)
Theorem C50_char_injective : forall o c d, byte c -> byte d -> describe_char c o = describe_char d o -> c = d.
Proof. exact char_inj. Qed.
Lemma by_bytes : forall P : N -> Prop, Forall P all_bytes -> forall c, byte c -> P c.
Proof. intros P F c B. rewrite Forall_forall in F. apply F, in_all_bytes, B. Qed.
(** Reading a written character gives the byte back, whatever follows, and only
    visible ASCII is written; except for bytes below 16 other than tab, line feed and
    carriage return, whose one hexadecimal digit is padded with a space. *)
Definition padded (c : N) : Prop := c < 16 /\ c <> 9 /\ c <> 10 /\ c <> 13.
Theorem C50_char_read : forall o c rest, byte c ->
  read_char o (describe_char c o ++ rest) = Some (c, rest) /\
  (~ padded c -> Forall visible (describe_char c o)) /\
  (padded c -> exists d, hex_digit d = Some c /\ describe_char c o = backslash o ++ [120; 32; d]).
Proof.
  intros o c rest B. assert (I : In c all_bytes) by (apply in_all_bytes; exact B).
  set (low := fun c => (c <? 16) && negb ((c =? 9) || (c =? 10) || (c =? 13))).
  assert (Lo : low c = true <-> padded c) by (unfold low, padded; lia).
  split.
  { revert c B I Lo. intros c B _ _. pattern c. apply by_bytes; [|exact B].
    let l := eval vm_compute in all_bytes in change all_bytes with l. destruct o; repeat (constructor; [reflexivity|]); constructor. }
  assert (V : forallb (fun c => low c || forallb (fun x => (33 <=? x) && (x <=? 126)) (describe_char c o)) all_bytes = true) by (destruct o; vm_compute; reflexivity).
  assert (D : Forall (fun c => low c = false \/ exists d, hex_digit d = Some c /\ describe_char c o = backslash o ++ [120; 32; d]) all_bytes).
  { apply Forall_forall. intros x Ix. destruct (low x) eqn:Lx; [right|left; reflexivity].
    exists (if x <? 10 then x + 48 else x + 87). assert (Z : forallb (fun x => negb (low x) || (match hex_digit (if x <? 10 then x + 48 else x + 87) with Some y => x =? y | None => false end &&
      str_eqb (describe_char x o) (backslash o ++ [120; 32; if x <? 10 then x + 48 else x + 87]))) all_bytes = true) by (destruct o; vm_compute; reflexivity).
    rewrite forallb_forall in Z. specialize (Z x Ix). rewrite Lx in Z. cbn [negb orb] in Z. apply andb_true_iff in Z. destruct Z as [Z1 Z2]. split; [|apply str_eqb_eq; exact Z2].
    destruct (hex_digit _) as [y|]; [|discriminate Z1]. apply N.eqb_eq in Z1. congruence. }
  rewrite Forall_forall in D. rewrite forallb_forall in V. split.
  - intro P. assert (Lf : low c = false) by (destruct (low c); [exfalso; apply P, Lo; reflexivity|reflexivity]).
    specialize (V c I). rewrite Lf in V. cbn [orb] in V. rewrite forallb_forall in V. apply Forall_forall. intros x Ix. specialize (V x Ix). unfold visible. lia.
  - intro P. destruct (D c I) as [Z|Z]; [apply Lo in P; congruence|exact Z].
Qed.
(** Visible characters but the backslash are written as themselves, some after
    backslashes; nothing else is, and tab, line feed and carriage return have their
    usual escapes. *)
Theorem C50_char_visible : forall o c, byte c ->
  (visible c /\ c <> 92 <-> exists k, describe_char c o = repeat 92 k ++ [c]) /\
  (visible c -> (describe_char c o = [c] <-> ~ In c (lit "\^-[].") /\ (o = Dot -> c <> 34 /\ c <> 39))) /\
  (In c [9; 10; 13] <-> exists x, In (c, x) [(9, 116); (10, 110); (13, 114)] /\ describe_char c o = backslash o ++ [x]).
Proof.
  intros o c B. pattern c. apply by_bytes; [|exact B]. clear c B.
  assert (Z : forallb (fun c => let d := describe_char c o in
    let own := str_eqb d [c] || str_eqb d [92; c] || str_eqb d [92; 92; c] in
    Bool.eqb ((33 <=? c) && (c <=? 126) && negb (c =? 92)) own &&
    (own || negb (last d 0 =? c) || negb (forallb (N.eqb 92) (removelast d))) &&
    (negb ((33 <=? c) && (c <=? 126)) || Bool.eqb (str_eqb d [c]) (negb (existsb (N.eqb c) (lit "\^-[].")) && (negb (is_dot o) || negb ((c =? 34) || (c =? 39))))) &&
    (negb (c =? 9) || str_eqb d (backslash o ++ [116])) && (negb (c =? 10) || str_eqb d (backslash o ++ [110])) && (negb (c =? 13) || str_eqb d (backslash o ++ [114]))) all_bytes = true)
    by (destruct o; vm_compute; reflexivity).
  rewrite forallb_forall in Z. apply Forall_forall. intros c I. specialize (Z c I). cbn zeta in Z.
  repeat (apply andb_true_iff in Z; destruct Z as [Z ?]). rename Z into Own, H3 into Last, H2 into Plain, H1 into T9, H0 into T10, H into T13.
  apply eqb_prop in Own. conjs.
  - split.
    + intros [V N]. unfold visible in V. replace ((33 <=? c) && (c <=? 126) && negb (c =? 92)) with true in Own by lia. symmetry in Own.
      apply orb_true_iff in Own. destruct Own as [Own|Own]; [apply orb_true_iff in Own; destruct Own as [Own|Own]|]; apply str_eqb_eq in Own; [exists 0%nat|exists 1%nat|exists 2%nat]; exact Own.
    + intros (k & E). destruct ((33 <=? c) && (c <=? 126) && negb (c =? 92)) eqn:X; [unfold visible; lia|]. rewrite <- Own in Last. cbn [orb] in Last.
      rewrite E, last_last, removelast_last, N.eqb_refl in Last. cbn [negb orb] in Last.
      assert (F : forallb (N.eqb 92) (repeat 92 k) = true) by (apply forallb_forall; intros x Ix; apply repeat_spec in Ix; subst; reflexivity). rewrite F in Last. discriminate Last.
  - intro V. unfold visible in V. replace ((33 <=? c) && (c <=? 126)) with true in Plain by lia. cbn [negb orb] in Plain. apply eqb_prop in Plain.
    rewrite <- str_eqb_eq, Plain, andb_true_iff, negb_true_iff. split.
    + intros [P1 P2]. split.
      * intro J. assert (existsb (N.eqb c) (lit "\^-[].") = true) by (apply existsb_exists; exists c; split; [exact J|apply N.eqb_refl]). congruence.
      * intros ->. cbn [is_dot negb orb] in P2. lia.
    + intros [P1 P2]. split.
      * destruct (existsb _ _) eqn:Ex; [exfalso|reflexivity]. apply existsb_exists in Ex. destruct Ex as (x & J & Q). apply N.eqb_eq in Q. subst x. exact (P1 J).
      * destruct o; [reflexivity|]. cbn [is_dot negb orb]. specialize (P2 eq_refl). lia.
  - split.
    + intros [<-|[<-|[<-|[]]]]; [exists 116|exists 110|exists 114]; (split; [cbn; auto|]); [apply str_eqb_eq in T9|apply str_eqb_eq in T10|apply str_eqb_eq in T13]; assumption.
    + intros (x & [E|[E|[E|[]]]] & _); injection E as <- <-; cbn; auto.
Qed.
(** Nor can two series of characters be confused. *)
Theorem C50_char_sequences : forall o l l', Forall byte l -> Forall byte l' ->
  flat_map (fun c => describe_char c o) l = flat_map (fun c => describe_char c o) l' -> l = l'.
Proof. exact chars_inj. Qed.
(** The runs used to say what is written are the maximal runs. *)
Theorem C50_runs : forall b, is_runs (fun c => mem b c = true /\ byte c) (runs_of (elements b)).
Proof.
  intro b. destruct (runs_of_ok (elements b) (elements_sorted b)) as (Co & Le & So). split; [|split; assumption]. intro x. rewrite <- Co. unfold elements. rewrite filter_In, in_all_bytes. tauto.
Qed.
(** The text of every class, for every length limit. *)
Theorem C50_class_text : forall p b max o, wf b -> describe_class p b max o = class_text p o max b.
Proof. exact describe_class_ok. Qed.
(** With the limit used by the dump, which classes are written at all. *)
Theorem C50_returns_iff : forall p b o, wf b -> ((exists s, describe_class p b 256 o = Ret s) <-> ~ stuck b).
Proof.
  intros p b o W. rewrite describe_class_ok by exact W. destruct (class_text_ok p o b) as [H1 H2]. split.
  - intros (s & E) St. rewrite H1 in E by exact St. unfold stopped in E. destruct (overflow_checks p); discriminate E.
  - intro N. rewrite H2 by exact N. eauto.
Qed.
Theorem C50_stuck : forall p b o, wf b -> stuck b -> describe_class p b 256 o = if overflow_checks p then Panic POverflow else Diverge.
Proof. intros p b o W St. rewrite describe_class_ok by exact W. apply class_text_ok. exact St. Qed.
(** Without overflow checks the loop goes on for ever: no number of rounds is
    enough, from any first byte. *)
Theorem C50_forever : forall p o lo out, overflow_checks p = false -> byte lo -> forall rounds, describe_range_loop p rounds lo 255 o out = Diverge.
Proof. intros p o lo out P L rounds. apply range_loop_forever; assumption. Qed.
(** A text stands for one set only. *)
Theorem C50_denotes_unique : forall o s P Q, denotes o s P -> denotes o s Q -> forall c, P c <-> Q c.
Proof. intros o s P Q HP HQ c. rewrite (denotes_unique o s P Q HP HQ). tauto. Qed.
(** The set the text of a class stands for: the class, without the bytes left out,
    or all bytes but the non-members that are written. *)
Theorem C50_denotes : forall p b o s, wf b -> describe_class p b 256 o = Ret s -> exists P, denotes o s P /\
  forall c, P c <-> byte c /\
    if starts_with (lit "[^") s then mem b c = true \/ left_out (written b s) c else mem b c = true /\ ~ left_out (written b s) c.
Proof.
  intros p b o s W E. rewrite describe_class_ok in E by exact W. destruct (class_text_ok p o b) as [H1 H2].
  assert (N : ~ stuck b) by (intro St; rewrite H1 in E by exact St; unfold stopped in E; destruct (overflow_checks p); discriminate E). rewrite H2 in E by exact N. injection E as <-.
  destruct (text_form o b) as (f & Hf & Ef & Sf). rewrite Ef. exists (form_set f). split; [apply form_denotes; exact Hf|]. pose proof (form_caret o f Hf) as C.
  assert (Wr : written b (form_text o f) = match f with FNeg _ => others b | _ => elements b end).
  { unfold written, others, elements. rewrite C. destruct f; apply filter_ext; intro c; cbn [negb]; destruct (mem b c); reflexivity. }
  rewrite Wr, C. intro c. assert (Me : In c (elements b) <-> byte c /\ mem b c = true) by (unfold elements; rewrite filter_In, in_all_bytes; tauto).
  assert (Mo : In c (others b) <-> byte c /\ mem b c = false) by (unfold others; rewrite filter_In, in_all_bytes, negb_true_iff; tauto).
  destruct f as [| |is|is|is]; rewrite (Sf c); [rewrite Me; tauto..|]. rewrite Mo. destruct (mem b c); [intuition congruence|].
  assert (Dec : left_out (others b) c \/ ~ left_out (others b) c).
  { unfold left_out. destruct (le_dec 2 (List.length (runs_of (others b)))) as [D1|D1]; [|right; tauto]. set (l := unabbreviated (others b)).
    destruct (in_dec N.eq_dec c l) as [D2|D2]; [|right; tauto]. destruct (in_dec N.eq_dec 255 l) as [D3|D3]; [right; tauto|].
    assert (Bl : bytes l) by (apply (abbreviations_bytes Text), bytes_others). pose proof (highest_run l Bl) as Hi. assert (Ne : l <> []) by (intro Z; rewrite Z in D2; exact D2). specialize (Hi Ne c D2). cbv zeta in Hi.
    assert (D4 : fst (List.last (runs_of l) (0, 0)) <= c <= snd (List.last (runs_of l) (0, 0)) \/ ~ fst (List.last (runs_of l) (0, 0)) <= c <= snd (List.last (runs_of l) (0, 0))) by lia. tauto. }
  intuition congruence.
Qed.
(** Reading the text of a class from left to right gives that set. *)
Lemma char_item : forall o c rest, byte c -> read_item o (describe_char c o ++ rest) =
  match rest with 45 :: t => match read_char o t with Some (d, t') => Some (IRange c d, t') | None => None end | _ => Some (IChar c, rest) end.
Proof.
  intros o c rest B. pattern c. apply by_bytes; [|exact B].
  let l := eval vm_compute in all_bytes in change all_bytes with l. destruct o; repeat (constructor; [reflexivity|]); constructor.
Qed.
Lemma char_head : forall o c, byte c -> exists x r, describe_char c o = x :: r /\ x <> 45 /\ x <> 93 /\ x <> 91.
Proof.
  intros o c B. pattern c. apply by_bytes; [|exact B].
  let l := eval vm_compute in all_bytes in change all_bytes with l. destruct o; repeat (constructor; [eexists; eexists; split; [reflexivity|split; [discriminate|split; discriminate]]|]); constructor.
Qed.
Lemma item_head : forall o i, item_ok i -> exists x r, item_text o i = x :: r /\ x <> 45 /\ x <> 93 /\ x <> 91.
Proof.
  intros o i H. destruct i as [c|lo hi| | |]; cbn [item_text item_ok] in *.
  - apply char_head, H.
  - destruct (char_head o lo (proj1 H)) as (x & r & E & N). rewrite E. eexists. eexists. split; [reflexivity|exact N].
  - destruct o; eexists; eexists; (split; [reflexivity|split; [discriminate|split; discriminate]]).
  - destruct o; eexists; eexists; (split; [reflexivity|split; [discriminate|split; discriminate]]).
  - destruct o; eexists; eexists; (split; [reflexivity|split; [discriminate|split; discriminate]]).
Qed.
Definition no_dash (s : str) : Prop := forall t, s <> 45 :: t.
Lemma read_item_ok : forall o i rest, item_ok i -> no_dash rest -> read_item o (item_text o i ++ rest) = Some (i, rest).
Proof.
  intros o i rest H Nd. destruct i as [c|lo hi| | |]; cbn [item_text item_ok] in *.
  - rewrite char_item by exact H. destruct rest as [|x r]; [reflexivity|]. destruct (N.eq_dec x 45) as [->|Nx]; [destruct (Nd r eq_refl)|].
    destruct x as [|x]; [reflexivity|]. do 6 (destruct x as [x|x|]; try reflexivity). destruct (Nx eq_refl).
  - rewrite <- !app_assoc. rewrite char_item by apply H. cbn [app]. destruct (C50_char_read o hi rest (proj2 H)) as [R _]. rewrite R. reflexivity.
  - destruct o; reflexivity.
  - destruct o; reflexivity.
  - destruct o; reflexivity.
Qed.
Lemma items_no_dash : forall o is rest, Forall item_ok is -> no_dash rest -> no_dash (flat_map (item_text o) is ++ rest).
Proof.
  intros o is rest F Nd. destruct is as [|i is]; [exact Nd|]. inversion F as [|? ? Hi _]; subst. destruct (item_head o i Hi) as (x & r & E & Nx & _). cbn [flat_map]. rewrite E. cbn [app]. intros t Z. injection Z as Z _. exact (Nx Z).
Qed.
Lemma read_items_step : forall fuel o x r, x <> 93 -> read_items (S fuel) o (x :: r) =
  match read_item o (x :: r) with Some (i, t) => match read_items fuel o t with Some (is, e) => Some (i :: is, e) | None => None end | None => None end.
Proof.
  intros fuel o x r N. assert (Z : forall (A : Type) (a b : A), match x with 93 => a | _ => b end = b).
  { intros A a b. destruct x as [|x]; [reflexivity|]. do 7 (destruct x as [x|x|]; try reflexivity). destruct (N eq_refl). }
  cbn [read_items]. apply Z.
Qed.
Lemma read_items_ok : forall o is rest fuel, Forall item_ok is -> (List.length is <= fuel)%nat -> rest = [] \/ rest = [93] ->
  read_items fuel o (flat_map (item_text o) is ++ rest) = Some (is, rest).
Proof.
  intros o is rest. induction is as [|i is IH]; intros fuel F L R.
  - cbn [flat_map app]. destruct R as [->| ->]; destruct fuel; reflexivity.
  - inversion F as [|? ? Hi Fi]; subst. destruct fuel as [|fuel]; [cbn in L; lia|]. cbn [flat_map]. rewrite <- app_assoc.
    assert (Nd : no_dash (flat_map (item_text o) is ++ rest)) by (apply items_no_dash; [exact Fi|destruct R as [->| ->]; intros t Z; discriminate Z]).
    pose proof (read_item_ok o i _ Hi Nd) as Ri. destruct (item_head o i Hi) as (x & r & E & _ & N93 & _). rewrite E in *. cbn [app] in *. rewrite read_items_step by exact N93. rewrite Ri.
    rewrite IH; [reflexivity|exact Fi|cbn in L; lia|exact R].
Qed.
Lemma items_length : forall o is, Forall item_ok is -> (List.length is <= List.length (flat_map (item_text o) is))%nat.
Proof.
  intros o is F. induction F as [|i is Hi F IH]; [reflexivity|]. cbn [flat_map List.length]. rewrite app_length. destruct (item_head o i Hi) as (x & r & E & _). rewrite E. cbn [List.length]. lia.
Qed.
Definition form_read (f : form) : bool * list item :=
  match f with FEmpty => (false, []) | FAny => (true, []) | FBare is | FSet is => (false, is) | FNeg is => (true, is) end.
Lemma read_form : forall o f, form_ok f -> read_class o (form_text o f) = Some (form_read f).
Proof.
  intros o f H. assert (Ne : forall g, form_ok g -> g <> f -> str_eqb (form_text o f) (form_text o g) = false).
  { intros g G N. apply not_true_is_false. intro Z. apply str_eqb_eq in Z. apply form_inj in Z; [|exact H|exact G]. exact (N (eq_sym Z)). }
  destruct f as [| |is|is|is].
  - destruct o; reflexivity.
  - destruct o; reflexivity.
  - pose proof (Ne FEmpty I ltac:(discriminate)) as Z1. pose proof (Ne FAny I ltac:(discriminate)) as Z2. unfold read_class. cbn [form_text form_read] in *. rewrite Z1, Z2. clear Z1 Z2. destruct H as (N & _ & F).
    pose proof (read_items_ok o is [] (List.length (flat_map (item_text o) is)) F (items_length o is F) (or_introl eq_refl)) as R. rewrite app_nil_r in R.
    destruct is as [|i is]; [destruct (N eq_refl)|]. inversion F as [|? ? Hi _]; subst. destruct (item_head o i Hi) as (x & r & E & _ & _ & N91).
    cbn [flat_map] in *. rewrite E in *. cbn [app] in *.
    rewrite R. destruct x as [|x]; [reflexivity|]. do 7 (destruct x as [x|x|]; try reflexivity). destruct (N91 eq_refl).
  - pose proof (Ne FEmpty I ltac:(discriminate)) as Z1. pose proof (Ne FAny I ltac:(discriminate)) as Z2. unfold read_class. cbn [form_text form_read] in *. rewrite Z1, Z2. clear Z1 Z2. destruct H as (N & F).
    change (lit "[") with [91]. change (lit "]") with [93]. cbn [app].
    assert (L : (List.length is <= List.length (flat_map (item_text o) is ++ [93%N]))%nat) by (pose proof (items_length o is F); rewrite app_length; lia).
    pose proof (read_items_ok o is [93] _ F L (or_intror eq_refl)) as R.
    destruct is as [|i is]; [destruct (N eq_refl)|]. inversion F as [|? ? Hi _]; subst.
    pose proof (form_caret o (FSet (i :: is)) (conj N F)) as C. cbn [form_text] in C. change (lit "[") with [91] in C. change (lit "]") with [93] in C. cbn [app] in C.
    destruct (item_head o i Hi) as (x & r & E & _). cbn [flat_map] in *. rewrite E in *. cbn [app] in *. rewrite R.
    assert (N94 : x <> 94) by (intros ->; vm_compute in C; discriminate C).
    destruct x as [|x]; [reflexivity|]. do 7 (destruct x as [x|x|]; try reflexivity). destruct (N94 eq_refl).
  - pose proof (Ne FEmpty I ltac:(discriminate)) as Z1. pose proof (Ne FAny I ltac:(discriminate)) as Z2. unfold read_class. cbn [form_text form_read] in *. rewrite Z1, Z2. clear Z1 Z2. destruct H as (N & F).
    change (lit "[^") with [91; 94]. change (lit "]") with [93]. cbn [app].
    assert (L : (List.length is <= List.length (flat_map (item_text o) is ++ [93%N]))%nat) by (pose proof (items_length o is F); rewrite app_length; lia).
    rewrite (read_items_ok o is [93] _ F L (or_intror eq_refl)). reflexivity.
Qed.
Theorem C50_read : forall p b o s, wf b -> describe_class p b 256 o = Ret s -> exists r, read_class o s = Some r /\
  forall c, stands_for r c <-> byte c /\
    if starts_with (lit "[^") s then mem b c = true \/ left_out (written b s) c else mem b c = true /\ ~ left_out (written b s) c.
Proof.
  intros p b o s W E. destruct (C50_denotes p b o s W E) as (P & D & M). destruct (denotes_form o s P D) as (f & Hf & -> & ->). exists (form_read f). split; [apply read_form; exact Hf|].
  intro c. rewrite <- (M c). assert (B : forall is, Forall item_ok is -> in_items is c -> byte c).
  { intros is F (i & I & X). rewrite Forall_forall in F. specialize (F i I). destruct i as [d|lo hi| | |]; cbn in F, X; [subst; exact F|unfold byte in *; lia|..].
    - unfold is_word in X. unfold byte. lia.
    - unfold is_digit in X. unfold byte. lia.
    - unfold is_space in X. unfold byte. lia. }
  unfold stands_for. destruct f as [| |is|is|is]; cbn [form_read form_set fst snd form_ok] in *.
  - split; [intros [_ [_ X]]; destruct (X eq_refl) as (i & [] & _)|intros []].
  - split; [intros [X _]; exact X|]. intro X. split; [exact X|]. split; [intros (i & [] & _)|discriminate].
  - destruct Hf as (_ & _ & F). specialize (B is F). tauto.
  - destruct Hf as (_ & F). specialize (B is F). tauto.
  - destruct Hf as (_ & F). split; [intros [Bc X]; split; [exact Bc|intro Y; apply X in Y; discriminate Y]|]. intros [Bc X]. split; [exact Bc|]. split; [intro Y; destruct (X Y)|discriminate].
Qed.
(** The word characters, 1, a double quote, a closing bracket, and 200 to 255, in a
    dot file. *)
Example C50_read_case : let b := BF 287948918354870274 576460746532061182 0 18446744073709551360 in
  wf b /\ exists s, describe_class release b 256 Dot = Ret s /\ read_class Dot s = Some (false, [IWord; IChar 1; IChar 34; IChar 93; IRange 200 255]).
Proof.
  split; [repeat split; vm_compute; reflexivity|]. exists [91; 92; 92; 119; 92; 92; 120; 32; 49; 92; 34; 92; 92; 93; 92; 92; 120; 99; 56; 45; 92; 92; 120; 102; 102; 93].
  split; vm_compute; reflexivity.
Qed.
(** Full statement: different classes have different texts.  Proved for texts in
    which nothing can be left out: one run, or reaching 255, or only abbreviations. *)
Theorem C50_faithful_partial : forall p p' b b' o s, wf b -> wf b' -> describe_class p b 256 o = Ret s -> describe_class p' b' 256 o = Ret s ->
  whole b s -> whole b' s -> b = b'.
Proof.
  intros p p' b b' o s W W' E E' H H'. destruct (C50_denotes p b o s W E) as (P & D & M). destruct (C50_denotes p' b' o s W' E') as (P' & D' & M'). pose proof (C50_denotes_unique o s P P' D D') as Eq.
  assert (Nothing : forall b, whole b s -> forall c, ~ left_out (written b s) c).
  { intros b0 [X|[X|X]] c (L1 & L2 & L3 & _); [lia| |rewrite X in L2; exact L2]. apply L3. apply has_iff. unfold unabbreviated. rewrite abbreviations_high by lia. apply has_iff. exact X. }
  apply same_eq; [assumption..|]. intros c B. specialize (M c). specialize (M' c). specialize (Eq c). pose proof (Nothing b H c) as N1. pose proof (Nothing b' H' c) as N2. destruct (starts_with _ _), (mem b c), (mem b' c); intuition congruence.
Qed.
(** The statement fails: {A} and {A, a} have the same text; so do other classes
    whose highest run is left out.  And the class of 0, 254 and 255 cannot be written. *)
Theorem C50_refuted :
  (exists b b' s, wf b /\ wf b' /\ b <> b' /\ forall p, describe_class p b 256 Text = Ret s /\ describe_class p b' 256 Text = Ret s) /\
  (exists b, wf b /\ describe_class dev b 256 Text = Panic POverflow /\ describe_class release b 256 Text = Diverge).
Proof.
  split.
  - exists (field_of (N.eqb 65)), (field_of (fun c => (c =? 65) || (c =? 97))), (lit "A"). split; [apply field_of_wf|]. split; [apply field_of_wf|]. split; [vm_compute; discriminate|].
    intro p. rewrite !describe_class_ok by apply field_of_wf. split.
    + vm_compute. reflexivity.
    + destruct (class_text_ok p Text (field_of (fun c => (c =? 65) || (c =? 97)))) as [_ H]. rewrite H; [vm_compute; reflexivity|]. intros (_ & _ & _ & X). apply X. vm_compute. auto.
  - exists (field_of (fun c => (c =? 0) || (254 <=? c))). split; [apply field_of_wf|]. split; vm_compute; reflexivity.
Qed.
(** Classes meeting the hypotheses: [a-f0-9] reaching 255, a stuck one, one of which
    a run is left out. *)
Definition hex_class : bitfield := field_of (fun c => is_digit c || ((97 <=? c) && (c <=? 102)) || (200 <=? c)).
Example C50_case : wf hex_class /\ (forall p, describe_class p hex_class 256 Text = Ret (lit "[\da-f\xc8-\xff]")) /\ whole hex_class (lit "[\da-f\xc8-\xff]") /\ ~ stuck hex_class /\
  stuck (field_of (fun c => (c =? 0) || (254 <=? c))) /\
  left_out (elements (field_of (fun c => (c =? 65) || (c =? 97)))) 97.
Proof.
  split; [apply field_of_wf|]. assert (N : ~ stuck hex_class) by (intros (_ & _ & _ & X); apply X; vm_compute; auto). split.
  { intro p. rewrite describe_class_ok by apply field_of_wf. destruct (class_text_ok p Text hex_class) as [_ H]. rewrite H by exact N. vm_compute. reflexivity. }
  split; [right; left; vm_compute; tauto|]. split; [exact N|]. split.
  - split; [exists 0, 255; vm_compute; auto|]. split; [exists 1, 2; vm_compute; auto|]. split; [vm_compute; reflexivity|]. vm_compute. intros (X & _). discriminate X.
  - split; [vm_compute; auto|]. split; [vm_compute; auto|]. split; [vm_compute; intuition discriminate|]. intros d x I H. replace x with 97; [vm_compute; auto|].
    assert (J : unabbreviated (elements (field_of (fun c => (c =? 65) || (c =? 97)))) = [65; 97]) by (vm_compute; reflexivity). rewrite J in I. cbn in I. lia.
Qed.

(** ** C51: trees *)
(** The dump is one block per node, from top to bottom and left to right, indented
    by twice the depth. *)
Theorem C51_dump : forall p c txt, finalized c -> (forall k, In k (leaves c) -> describe_class p (ac_cr k) 256 Text = Ret (txt k)) ->
  exists ps, preorder (node_of c) ps /\ dump_tree p c = Ret (ROk (blocks txt (node_of c) ps)).
Proof.
  intros p c txt F H. exists (pres (trace [] c)). split; [apply pres_preorder|]. rewrite dump_tree_ok by exact F.
  assert (G : forallb (good p) (leaves c) = true). { apply forallb_forall. intros k I. unfold good. rewrite H by exact I. reflexivity. }
  rewrite G. do 2 f_equal. rewrite <- (tree_blocks txt (node_of c) c []) by reflexivity. apply tree_text_ext. intros k I. unfold written_as. rewrite H by exact I. reflexivity.
Qed.
Theorem C51_order_unique : forall root ps ps', preorder root ps -> preorder root ps' -> ps = ps'.
Proof.
  intros root ps ps' [S1 I1] [S2 I2]. apply (sorted_unique earlier); [|assumption..|].
  - assert (X : forall a b, earlier a b -> before (Event Pre a) (Event Pre b)).
    { intros a b E. inversion E; subst; [apply b_pre; discriminate|apply b_left; assumption]. }
    intros a b E1 E2. apply (before_asym _ _ (X _ _ E1) (X _ _ E2)).
  - intro pos. rewrite I1, I2. reflexivity.
Qed.
(** It fails exactly if some class cannot be written. *)
Theorem C51_fails : forall p c, finalized c -> (exists k, In k (leaves c) /\ stuck (ac_cr k)) ->
  dump_tree p c = if overflow_checks p then Panic POverflow else Diverge.
Proof.
  intros p c F (k & I & St). rewrite dump_tree_ok by exact F. destruct (forallb (good p) (leaves c)) eqn:G; [|reflexivity].
  rewrite forallb_forall in G. specialize (G k I). unfold good in G. rewrite C50_stuck in G; [destruct (overflow_checks p); discriminate G|eapply finalized_leaves; eassumption|exact St].
Qed.
Theorem C51_returns : forall p c, finalized c -> (forall k, In k (leaves c) -> ~ stuck (ac_cr k)) -> exists s, dump_tree p c = Ret (ROk s).
Proof.
  intros p c F H. rewrite dump_tree_ok by exact F. replace (forallb (good p) (leaves c)) with true; [eauto|]. symmetry. apply forallb_forall. intros k I. unfold good.
  destruct (proj2 (C50_returns_iff p (ac_cr k) Text (finalized_leaves c F k I)) (H k I)) as (s & ->). reflexivity.
Qed.
(** Trees made by the parser are always written, each class as its least member,
    whatever the build. *)
Definition least (k : ascii_class) : str := describe_char (hd 0 (elements (ac_cr k))) Text.
Lemma tree_written : forall p nc e k, wf_expr e -> ascii_text (text e) -> In k (leaves (tree nc e)) -> describe_class p (ac_cr k) 256 Text = Ret (least k).
Proof.
  intros p nc e k W A I. rewrite tree_leaves in I by exact W. apply in_map_iff in I. destruct I as (c & <- & I). unfold plain_text in I. apply filter_In in I. destruct I as [I _].
  assert (c < 128) by (apply A; exact I). unfold least. rewrite stored_least by assumption. apply class_of_written. assumption.
Qed.
Theorem C51_parsed : forall p s m t m', parse p s m = Ret (ROk (t, m')) -> exists ps, preorder (node_of t) ps /\
  forall q, dump_tree q t = Ret (ROk (blocks least (node_of t) ps)).
Proof.
  intros p s m t m' E. apply C13_tree_iff in E. destruct E as (body & e & St & A & G & W & <- & ->).
  exists (pres (trace [] (tree (caseless m) e))). split; [apply pres_preorder|]. intro q.
  destruct (C51_dump q _ least (tree_finalized (caseless m) e) (fun k => tree_written q (caseless m) e k W A)) as (ps & P & ->). do 3 f_equal. eapply C51_order_unique; [exact P|apply pres_preorder].
Qed.
(** Two dumps are the same just if the trees have the same shape and indices and
    the same texts for their classes. *)
Theorem C51_equal_iff : forall p c c' s s' txt, finalized c -> finalized c' -> unnamed c -> unnamed c' ->
  (forall k, In k (leaves c ++ leaves c') -> describe_class p (ac_cr k) 256 Text = Ret (txt k)) ->
  dump_tree p c = Ret (ROk s) -> dump_tree p c' = Ret (ROk s') -> (s = s' <-> alike txt c c').
Proof.
  intros p c c' s s' txt F F' U U' H E E'.
  assert (L : forall k, In k (leaves c) -> describe_class p (ac_cr k) 256 Text = Ret (txt k)) by (intros; apply H, in_or_app; auto).
  assert (L' : forall k, In k (leaves c') -> describe_class p (ac_cr k) 256 Text = Ret (txt k)) by (intros; apply H, in_or_app; auto).
  destruct (C51_dump p c txt F L) as (ps & P & D). destruct (C51_dump p c' txt F' L') as (ps' & P' & D'). rewrite D in E. rewrite D' in E'. injection E as <-. injection E' as <-.
  rewrite (C51_order_unique _ _ _ P (pres_preorder c)), (C51_order_unique _ _ _ P' (pres_preorder c')).
  rewrite <- (tree_blocks txt (node_of c) c []), <- (tree_blocks txt (node_of c') c' []) by reflexivity. split.
  - apply tree_text_inj; [assumption..| |].
    + intros k I. eapply class_no_newline; [eapply finalized_leaves; [exact F|exact I]|apply L; exact I].
    + intros k I. eapply class_no_newline; [eapply finalized_leaves; [exact F'|exact I]|apply L'; exact I].
  - intro X. apply alike_text. exact X.
Qed.
(** Full statement: different trees made by the parser have different dumps.  Proved
    for trees parsed in the same case mode. *)
Theorem C51_injective_partial : forall p p' q q' s s' m m' t t' n n' d, caseless m = caseless m' ->
  parse p s m = Ret (ROk (t, n)) -> parse p' s' m' = Ret (ROk (t', n')) -> dump_tree q t = Ret (ROk d) -> dump_tree q' t' = Ret (ROk d) -> t = t'.
Proof.
  intros p p' q q' s s' m m' t t' n n' d Cm E E' D D'. destruct (C51_parsed _ _ _ _ _ E') as (ps & _ & Y). rewrite Y in D'. rewrite <- (Y q) in D'. clear Y ps.
  apply C13_tree_iff in E, E'. destruct E as (body & e & St & A & G & W & T & ->). destruct E' as (body' & e' & St' & A' & G' & W' & T' & ->). subst body body'. rewrite <- Cm in *. set (nc := caseless m) in *.
  apply (alike_eq least); [apply tree_finalized|apply tree_finalized| |].
  - intros k k' I I' El. rewrite tree_leaves in I, I' by assumption. apply in_map_iff in I, I'. destruct I as (c & <- & I), I' as (c' & <- & I'). unfold plain_text in I, I'. apply filter_In in I, I'. destruct I as [I _], I' as [I' _].
    assert (c < 128) by (apply A; exact I). assert (c' < 128) by (apply A'; exact I'). unfold least in El. rewrite !stored_least in El by assumption. apply C50_char_injective in El; [|apply stored_byte; assumption..].
    rewrite (class_of_stored nc c), (class_of_stored nc c') by assumption. rewrite El. reflexivity.
  - apply (C51_equal_iff q (tree nc e) (tree nc e') d d least); try apply tree_finalized; try apply tree_unnamed; try assumption; [|reflexivity].
    intros k I. apply in_app_or in I. destruct I as [I|I]; [apply (tree_written q nc e)|apply (tree_written q nc e')]; assumption.
Qed.
(** Case-sensitively the dump even determines the text. *)
Theorem C51_determines_text : forall p p' q q' s s' m m' t t' n n' d, caseless m = false -> caseless m' = false ->
  parse p s m = Ret (ROk (t, n)) -> parse p' s' m' = Ret (ROk (t', n')) -> dump_tree q t = Ret (ROk d) -> dump_tree q' t' = Ret (ROk d) ->
  exists body, starts s m body n /\ starts s' m' body n'.
Proof.
  intros p p' q q' s s' m m' t t' n n' d C C' E E' D D'. assert (t = t') by (apply (C51_injective_partial p p' q q' s s' m m' t t' n n' d); [rewrite C, C'; reflexivity|assumption..]). subst t'. eapply C13_injective; [exact C|exact C'|exact E|exact E'].
Qed.
(** Between the modes it fails: "A" has the same dump either way. *)
Theorem C51_refuted : exists m m' t t' n n' d, parse release (lit "A") m = Ret (ROk (t, n)) /\ parse release (lit "A") m' = Ret (ROk (t', n')) /\ t <> t' /\
  dump_tree release t = Ret (ROk d) /\ dump_tree release t' = Ret (ROk d).
Proof.
  exists (ParseMode true false false false false false), (ParseMode false false false false false false). do 5 eexists.
  split; [vm_compute; reflexivity|]. split; [vm_compute; reflexivity|]. split; [discriminate|]. split; [vm_compute; reflexivity|]. vm_compute. reflexivity.
Qed.
Example C51_case : exists t m', parse release (lit "a(|b)") mode_default = Ret (ROk (t, m')) /\ dump_tree dev t = Ret (ROk
  (line 0 (lit "SEQUENCE (capture index 0)") ++ line 1 (lit "ASCII CLASS") ++ line 2 (lit "a") ++ line 1 (lit "SEQUENCE (capture index 1)") ++
   line 2 (lit "ALTERNATION") ++ line 3 (lit "SEQUENCE (not captured)") ++ line 4 (lit " <empty>") ++ line 3 (lit "SEQUENCE (not captured)") ++ line 4 (lit "ASCII CLASS") ++ line 5 (lit "b"))).
Proof. do 2 eexists. split; [vm_compute; reflexivity|]. vm_compute. reflexivity. Qed.

Print Assumptions C50_char_injective. Print Assumptions C50_char_read.
Print Assumptions C50_char_visible. Print Assumptions C50_char_sequences. Print Assumptions C50_runs. Print Assumptions C50_class_text. Print Assumptions C50_returns_iff. Print Assumptions C50_stuck.
Print Assumptions C50_forever. Print Assumptions C50_denotes_unique. Print Assumptions C50_denotes. Print Assumptions C50_read. Print Assumptions C50_faithful_partial. Print Assumptions C50_refuted.
Print Assumptions C51_dump. Print Assumptions C51_order_unique. Print Assumptions C51_fails. Print Assumptions C51_returns. Print Assumptions C51_parsed.
Print Assumptions C51_equal_iff. Print Assumptions C51_injective_partial. Print Assumptions C51_determines_text. Print Assumptions C51_refuted.
