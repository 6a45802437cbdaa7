(** The textual dumps. *)
From Verif Require Import Base ModelUtil ModelBitField ModelCharReach ModelParser ModelDump SpecSet SpecGrammar SpecTree SpecVisit SpecDump
  ProofBase ProofBitField ProofBitField2 ProofCharReach ProofShortcut ProofVisit.
Local Open Scope N_scope.
Local Open Scope list_scope.

(** ** Ranges *)
Definition bytes_from (lo : N) (n : nat) : list N := map (fun i => lo + N.of_nat i) (List.seq 0 n).
Lemma bytes_from_S : forall lo n, bytes_from lo (S n) = lo :: bytes_from (lo + 1) n.
Proof.
  intros lo n. unfold bytes_from. cbn [List.seq map]. rewrite N.add_0_r. f_equal. rewrite <- seq_shift, map_map. apply map_ext. intro i. lia.
Qed.
Lemma chk_add_small : forall p c, c < 255 -> chk_add p 8 c 1 = Ret (c + 1).
Proof. intros p c Hc. unfold chk_add. replace (c + 1 <? 2 ^ 8) with true by lia. reflexivity. Qed.
Lemma range_loop_ok : forall p o n fuel lo out, lo + N.of_nat n < 255 -> (n < fuel)%nat ->
  describe_range_loop p fuel lo (lo + N.of_nat n) o out = Ret (out ++ flat_map (fun c => describe_char c o) (bytes_from lo (S n))).
Proof.
  intros p o n; induction n as [|n IH]; intros [|fuel] lo out H F; try lia; cbn [describe_range_loop]; rewrite chk_add_small by lia; cbn [bind].
  - replace (lo + N.of_nat 0 <? lo + 1) with true by lia. rewrite bytes_from_S. cbn. rewrite app_nil_r. reflexivity.
  - replace (lo + N.of_nat (S n) <? lo + 1) with false by lia. replace (lo + N.of_nat (S n)) with (lo + 1 + N.of_nat n) by lia. rewrite IH by lia.
    rewrite (bytes_from_S lo). cbn [flat_map]. rewrite <- app_assoc. reflexivity.
Qed.
Lemma range_loop_forever : forall p o fuel lo out, overflow_checks p = false -> lo < 256 -> describe_range_loop p fuel lo 255 o out = Diverge.
Proof.
  intros p o fuel; induction fuel as [|fuel IH]; intros lo out P L; [reflexivity|]. cbn [describe_range_loop]. unfold chk_add. rewrite P.
  destruct (N.ltb_spec (lo + 1) (2 ^ 8)) as [H|H]; cbn [bind].
  - replace (255 <? lo + 1) with false by lia. apply IH; [exact P|lia].
  - assert (lo = 255) by lia. subst lo. change ((255 + 1) mod 2 ^ 8) with 0. cbn [N.ltb N.compare]. apply IH; [exact P|lia].
Qed.
Lemma range_loop_overflow : forall p o n fuel lo out, overflow_checks p = true -> lo + N.of_nat n = 255 -> (n < fuel)%nat -> describe_range_loop p fuel lo 255 o out = Panic POverflow.
Proof.
  intros p o n; induction n as [|n IH]; intros [|fuel] lo out P E F; try lia; cbn [describe_range_loop].
  - assert (lo = 255) by lia. subst lo. unfold chk_add. rewrite P. reflexivity.
  - rewrite chk_add_small by lia. cbn [bind]. replace (255 <? lo + 1) with false by lia. apply IH; [exact P|lia|lia].
Qed.
Lemma describe_range_ok : forall p lo hi o, lo <= hi -> hi < 256 -> describe_range p lo hi o = run_result p o (lo, hi).
Proof.
  intros p lo hi o L H. unfold describe_range, run_result, run_text. cbn [fst snd]. fold (bytes_from lo (S (N.to_nat (hi - lo)))). destruct (N.eqb_spec lo hi) as [->|N].
  - replace ((hi =? 255) && (252 <=? hi) && (hi <=? 254)) with false by lia.
    rewrite N.sub_diag. change (N.to_nat 0) with 0%nat. rewrite bytes_from_S. cbn. rewrite app_nil_r. reflexivity.
  - unfold chk_sub. replace (lo <=? hi) with true by lia. cbn [bind]. destruct (N.ltb_spec (hi - lo) 4) as [D|D].
    + destruct (N.eqb_spec hi 255) as [E|E].
      * replace ((252 <=? lo) && (lo <=? 254)) with true by lia. cbn [andb]. subst hi. replace ((252 <=? lo) && (lo <=? 254)) with true by lia. destruct (overflow_checks p) eqn:P.
        -- apply (range_loop_overflow p o (N.to_nat (255 - lo))); [exact P|lia|lia].
        -- apply range_loop_forever; [exact P|lia].
      * cbn [andb]. replace hi with (lo + N.of_nat (N.to_nat (hi - lo))) at 1 by lia. rewrite range_loop_ok by lia. reflexivity.
    + replace ((hi =? 255) && (252 <=? lo) && (lo <=? 254)) with false by lia. reflexivity.
Qed.

(** ** Runs *)
Lemma runs_from_hd : forall l lo hi, exists h t, runs_from lo hi l = (lo, h) :: t /\ hi <= h.
Proof.
  induction l as [|c l IH]; intros lo hi; cbn [runs_from]; [exists hi, []; split; [reflexivity|lia]|].
  destruct (N.eqb_spec c (hi + 1)) as [->|N]; [|exists hi, (runs_from c c l); split; [reflexivity|lia]].
  destruct (IH lo (hi + 1)) as (h & t & E & L). exists h, t. split; [exact E|lia].
Qed.
Lemma runs_from_ok : forall l lo hi, lo <= hi -> StronglySorted N.lt (hi :: l) -> is_runs (fun x => lo <= x <= hi \/ In x l) (runs_from lo hi l) /\ forall r, In r (runs_from lo hi l) -> lo <= fst r.
Proof.
  induction l as [|c l IH]; intros lo hi L S; cbn [runs_from].
  - split; [split; [|split]|].
    + intro x. split; [intros [X|[]]; exists (lo, hi); split; [left; reflexivity|exact X]|]. intros (r & [<-|[]] & X). left. exact X.
    + intros r [<-|[]]. exact L.
    + repeat constructor.
    + intros r [<-|[]]. cbn. lia.
  - inversion S as [|? ? Sl F]; subst. rewrite Forall_forall in F. pose proof (F c (or_introl eq_refl)) as Lc. inversion Sl as [|? ? Sl' Fl]; subst. rewrite Forall_forall in Fl.
    destruct (N.eqb_spec c (hi + 1)) as [E|N].
    + subst c. destruct (IH lo (hi + 1) ltac:(lia) Sl) as [(I1 & I2 & I3) I4]. split; [split; [|split]|]; auto. intro x. rewrite <- I1. split.
      * intros [X|[<-|X]]; [left; lia|left; lia|right; exact X].
      * intros [X|X]; [|right; right; exact X]. destruct (N.eq_dec x (hi + 1)) as [->|]; [right; left; reflexivity|left; lia].
    + destruct (IH c c ltac:(lia) Sl) as [(I1 & I2 & I3) I4]. split; [split; [|split]|].
      * intro x. split.
        -- intros [X|X]; [exists (lo, hi); split; [left; reflexivity|exact X]|]. assert (Y : c <= x <= c \/ In x l) by (destruct X as [->|X]; [left; lia|right; exact X]).
           apply I1 in Y. destruct Y as (r & Ir & Y). exists r. split; [right; exact Ir|exact Y].
        -- intros (r & [<-|Ir] & X); [left; exact X|]. right. assert (Y : c <= x <= c \/ In x l) by (apply I1; eauto). destruct Y as [Y|Y]; [left; lia|right; exact Y].
      * intros r [<-|Ir]; [exact L|apply I2; exact Ir].
      * constructor; [exact I3|]. apply Forall_forall. intros r Ir. specialize (I4 r Ir). cbn [snd]. lia.
      * intros r [<-|Ir]; [cbn; lia|]. specialize (I4 r Ir). lia.
Qed.
Lemma runs_of_ok : forall l, StronglySorted N.lt l -> is_runs (fun x => In x l) (runs_of l).
Proof.
  intros [|c l] S; cbn [runs_of].
  - split; [|split]; [|intros r []|constructor]. intro x. split; [intros []|intros (r & [] & _)].
  - destruct (runs_from_ok l c c ltac:(lia) S) as [(I1 & I2 & I3) _]. split; [|split; assumption]. intro x. rewrite <- I1. cbn. split; intros [X|X]; auto; left; lia.
Qed.
Lemma runs_from_nonempty : forall l lo hi, runs_from lo hi l <> [].
Proof. intros l lo hi. destruct (runs_from_hd l lo hi) as (h & t & -> & _). discriminate. Qed.

(** The two loops over the members. *)
Lemma contiguous_loop_ok : forall p cr l fuel pre c lo, wf cr -> elements cr = pre ++ c :: l -> (List.length l < fuel)%nat ->
  contiguous_loop p fuel cr c = Ret (match runs_from lo c l with [r] => Some (snd r) | _ => None end).
Proof.
  intros p cr l; induction l as [|x l IH]; intros [|fuel] pre c lo W E F; cbn [List.length] in F; try lia; cbn [contiguous_loop].
  - assert (B : byte c) by (apply (in_elements_byte cr); rewrite E; apply in_or_app; right; left; reflexivity). unfold cr_find_next. rewrite bf_find_next_ok by assumption.
    rewrite E, sorted_next by (rewrite <- E; apply elements_sorted). reflexivity.
  - assert (B : byte c) by (apply (in_elements_byte cr); rewrite E; apply in_or_app; right; left; reflexivity). unfold cr_find_next. rewrite bf_find_next_ok by assumption.
    assert (Bx : byte x) by (apply (in_elements_byte cr); rewrite E; apply in_or_app; right; right; left; reflexivity).
    assert (Lx : c < x).
    { pose proof (elements_sorted cr) as S. rewrite E in S. clear -S. induction pre as [|y pre IH]; cbn in S; inversion S as [|? ? S' F]; subst; [|auto]. rewrite Forall_forall in F. apply F. left. reflexivity. }
    rewrite E, sorted_next by (rewrite <- E; apply elements_sorted). cbn [bind hd_error]. unfold byte in *. rewrite chk_add_small by lia. cbn [bind runs_from].
    destruct (N.eqb_spec x (c + 1)) as [->|N]; cbn [negb].
    + apply (IH fuel (pre ++ [c]) (c + 1) lo W); [rewrite E, <- app_assoc; reflexivity|lia].
    + destruct (runs_from_hd l x x) as (h & t & -> & _). reflexivity.
Qed.
Lemma removelast_cons : forall {A} (x : A) l, l <> [] -> removelast (x :: l) = x :: removelast l.
Proof. intros A x [|y l] H; [contradiction|reflexivity]. Qed.
Lemma last_cons : forall {A} (x : A) l d, l <> [] -> List.last (x :: l) d = List.last l d.
Proof. intros A x [|y l] d H; [contradiction|reflexivity]. Qed.
Lemma run_result_ok : forall p o r, snd r < 255 -> run_result p o r = Ret (run_text o r).
Proof. intros p o r H. unfold run_result. replace (snd r =? 255) with false by lia. reflexivity. Qed.
Lemma sorted_mid : forall pre c x l, StronglySorted N.lt (pre ++ c :: x :: l) -> c < x.
Proof. induction pre as [|y pre IH]; intros c x l S; cbn in S; inversion S as [|? ? S' F]; subst; [|eauto]. rewrite Forall_forall in F. apply F. left. reflexivity. Qed.
Lemma ranges_loop_ok : forall p cr o max l fuel pre lo c i out, wf cr -> elements cr = pre ++ c :: l -> lo <= c -> (List.length l < fuel)%nat -> max = 0 \/ i < max ->
  ranges_loop p fuel cr lo c i max o out =
  let rs := runs_from lo c l in
  let done := map (run_text o) (removelast rs) in
  let n := i + N.of_nat (List.length done) in
  Ret (if (0 <? max) && (max <=? n) then inr (out ++ List.concat (firstn (N.to_nat (max - i)) done) ++ lit "...]")
       else inl (fst (List.last rs (0, 0)), snd (List.last rs (0, 0)), n, out ++ List.concat done)).
Proof.
  intros p cr o max l; induction l as [|x l IH]; intros [|fuel] pre lo c i out W E L F M; cbn [List.length] in F; try lia; cbn [ranges_loop];
    (assert (B : byte c) by (apply (in_elements_byte cr); rewrite E; apply in_or_app; right; left; reflexivity)); unfold cr_find_next; rewrite bf_find_next_ok by assumption;
    rewrite E, sorted_next by (rewrite <- E; apply elements_sorted); cbn [bind hd_error].
  - cbn [runs_from removelast map List.length List.last fst snd]. cbv zeta. rewrite N.add_0_r. replace ((0 <? max) && (max <=? i)) with false by lia. cbn. rewrite app_nil_r. reflexivity.
  - assert (Bx : byte x) by (apply (in_elements_byte cr); rewrite E; apply in_or_app; right; right; left; reflexivity).
    assert (Lx : c < x) by (pose proof (elements_sorted cr) as S; rewrite E in S; exact (sorted_mid _ _ _ _ S)).
    unfold byte in *. rewrite chk_add_small by lia. cbn [bind runs_from].
    assert (E' : elements cr = (pre ++ [c]) ++ x :: l) by (rewrite E, <- app_assoc; reflexivity).
    destruct (N.eqb_spec x (c + 1)) as [Ex|N]; cbn [negb].
    + subst x. apply (IH fuel (pre ++ [c]) lo (c + 1) i out W E'); [lia|lia|exact M].
    + rewrite describe_range_ok by lia. rewrite run_result_ok by (cbn; lia). cbn [bind]. pose proof (runs_from_nonempty l x x) as Ne. cbv zeta. rewrite removelast_cons, last_cons by exact Ne. cbn [map List.length].
      destruct (N.eqb_spec (i + 1) max) as [Em|Em].
      * replace ((0 <? max) && (max <=? i + N.of_nat (S (List.length (map (run_text o) (removelast (runs_from x x l))))))) with true by lia.
        replace (N.to_nat (max - i)) with 1%nat by lia. cbn [firstn List.concat]. rewrite app_nil_r. reflexivity.
      * rewrite (IH fuel (pre ++ [c]) x x (i + 1) (out ++ run_text o (lo, c)) W E') by lia. cbv zeta.
        set (D := map (run_text o) (removelast (runs_from x x l))). replace (i + 1 + N.of_nat (List.length D)) with (i + N.of_nat (S (List.length D))) by lia.
        destruct ((0 <? max) && (max <=? i + N.of_nat (S (List.length D)))) eqn:C.
        -- replace (N.to_nat (max - i)) with (S (N.to_nat (max - (i + 1)))) by lia. cbn [firstn List.concat]. rewrite <- !app_assoc. reflexivity.
        -- cbn [List.concat]. rewrite <- app_assoc. reflexivity.
Qed.

(** ** Abbreviations *)
Lemma filter_filter : forall {A} (f g : A -> bool) l, filter f (filter g l) = filter (fun x => g x && f x) l.
Proof. intros A f g l. induction l as [|x l IH]; [reflexivity|]. cbn. destruct (g x); cbn; [destruct (f x); rewrite IH; reflexivity|exact IH]. Qed.
Lemma elements_minus : forall a w f, wf a -> wf w -> (forall c, byte c -> mem w c = f c) ->
  wf (cr_and a (cr_not w)) /\ elements (cr_and a (cr_not w)) = filter (fun c => negb (f c)) (elements a).
Proof.
  intros a w f Ha Hw Hf. destruct (bf_not_ok w Hw) as [Wn Mn]. destruct (bf_and_ok (cr_not w) a Wn Ha) as [Wa Ma]. split; [exact Wa|].
  unfold elements. rewrite filter_filter. apply filter_ext_in. intros c Ic. apply in_all_bytes in Ic.
  change (mem (cr_and a (cr_not w)) c) with (mem (bf_and_assign (cr_not w) a) c). rewrite Ma by exact Ic. unfold cr_not. rewrite Mn, Hf by exact Ic. apply andb_comm.
Qed.
Lemma includes_iff : forall l f, includes l f = true <-> forall c, byte c -> f c = true -> In c l.
Proof.
  intros l f. unfold includes. rewrite forallb_forall. split.
  - intros H c B F. assert (I : In c (filter f all_bytes)) by (apply filter_In; split; [apply in_all_bytes; exact B|exact F]). apply H in I. apply existsb_exists in I.
    destruct I as (x & I & E). apply N.eqb_eq in E. subst x. exact I.
  - intros H c I. apply filter_In in I. destruct I as [I F]. apply in_all_bytes in I. apply existsb_exists. exists c. split; [apply H; assumption|apply N.eqb_refl].
Qed.
Lemma subset_includes : forall w a f, wf w -> wf a -> (forall c, byte c -> mem w c = f c) -> cr_is_subset_of w a = includes (elements a) f.
Proof.
  intros w a f Hw Ha Hf. apply eq_iff_eq_true. rewrite subset_ok, includes_iff by assumption. split.
  - intros H c B F. apply in_elements; [exact Ha|]. apply H. rewrite Hf by exact B. exact F.
  - intros H c M. assert (B : byte c) by (destruct (N.lt_ge_cases c 256) as [B|B]; [exact B|]; rewrite mem_out in M by (try assumption; unfold byte; lia); discriminate).
    rewrite Hf in M by exact B. apply in_elements; [exact Ha|]. apply H; assumption.
Qed.
Lemma bytes_set : forall p bs f, (forallb (fun c => c <? 256) bs = true) -> forallb (fun c => Bool.eqb (existsb (N.eqb c) bs) (f c)) all_bytes = true ->
  exists b, cr_from_bytes p bs = Ret b /\ wf b /\ forall c, byte c -> mem b c = f c.
Proof.
  intros p bs f H1 H2. destruct (cr_from_bytes_ok p bs) as (b & E & W & M).
  { intros x I. rewrite forallb_forall in H1. specialize (H1 x I). unfold byte. lia. }
  exists b. split; [exact E|]. split; [exact W|]. intros c B. rewrite M by exact B. rewrite forallb_forall in H2. apply eqb_prop. apply H2. apply in_all_bytes. exact B.
Qed.
Definition extraction (o : cc_output) (l : list N) : option (str * list N) :=
  if includes l is_word then Some (escape o 119, filter (fun c => negb (is_word c)) l)
  else if includes l is_digit then Some (escape o 100, filter (fun c => negb (is_digit c)) l)
  else if includes l is_space then Some (escape o 115, filter (fun c => negb (is_space c)) l)
  else None.
Lemma extract_ok : forall p cr o, wf cr ->
  match extraction o (elements cr) with
  | Some (s, rest) => exists cr', extract_mnemonic p cr o = Ret (Some (s, cr')) /\ wf cr' /\ elements cr' = rest
  | None => extract_mnemonic p cr o = Ret None
  end.
Proof.
  intros p cr o W. unfold extraction, extract_mnemonic.
  destruct (bytes_set p WORD_BYTES is_word) as (bw & Ew & Ww & Mw); [vm_compute; reflexivity..|].
  destruct (bytes_set p DIGIT_BYTES is_digit) as (bd & Ed & Wd & Md); [vm_compute; reflexivity..|].
  destruct (bytes_set p SPACE_BYTES is_space) as (bs & Es & Ws & Ms); [vm_compute; reflexivity..|].
  rewrite Ew. cbn [bind]. rewrite (subset_includes bw cr is_word Ww W Mw). destruct (includes (elements cr) is_word).
  { eexists. split; [reflexivity|]. apply elements_minus; assumption. }
  rewrite Ed. cbn [bind]. rewrite (subset_includes bd cr is_digit Wd W Md). destruct (includes (elements cr) is_digit).
  { eexists. split; [reflexivity|]. apply elements_minus; assumption. }
  rewrite Es. cbn [bind]. rewrite (subset_includes bs cr is_space Ws W Ms). destruct (includes (elements cr) is_space); [|reflexivity].
  eexists. split; [reflexivity|]. apply elements_minus; assumption.
Qed.
Lemma includes_not : forall l f c, byte c -> f c = true -> ~ In c l -> includes l f = false.
Proof. intros l f c B F N. destruct (includes l f) eqn:E; [|reflexivity]. rewrite includes_iff in E. destruct (N (E c B F)). Qed.
Lemma includes_filter : forall l f g, (forall c, byte c -> f c = true -> g c = true) -> includes (filter g l) f = includes l f.
Proof.
  intros l f g H. apply eq_iff_eq_true. rewrite !includes_iff. split; intros X c B F; [specialize (X c B F); apply filter_In in X; apply X|]. apply filter_In. split; [apply X; assumption|auto].
Qed.
Lemma not_in_minus : forall (f : N -> bool) l c, f c = true -> ~ In c (filter (fun c => negb (f c)) l).
Proof. intros f l c F I. apply filter_In in I. destruct I as [_ I]. rewrite F in I. discriminate I. Qed.
Lemma disjoint_space : forall c, byte c -> is_space c = true -> negb (is_word c) = true /\ negb (is_digit c) = true.
Proof. intros c _ H. unfold is_space in H. unfold is_word, is_digit. split; lia. Qed.
Lemma digit_word : forall c, is_digit c = true -> is_word c = true.
Proof. intros c H. unfold is_digit in H. unfold is_word. lia. Qed.
Lemma filter_none : forall {A} (f : A -> bool) l, (forall x, f x = true) -> filter f l = l.
Proof. intros A f l H. induction l as [|x l IH]; [reflexivity|]. cbn. rewrite H, IH. reflexivity. Qed.

Lemma ex_word : forall o l, includes l is_word = true -> extraction o l = Some (escape o 119, filter (fun c => negb (is_word c)) l).
Proof. intros o l H. unfold extraction. rewrite H. reflexivity. Qed.
Lemma ex_digit : forall o l, includes l is_word = false -> includes l is_digit = true -> extraction o l = Some (escape o 100, filter (fun c => negb (is_digit c)) l).
Proof. intros o l H1 H2. unfold extraction. rewrite H1, H2. reflexivity. Qed.
Lemma ex_space : forall o l, includes l is_word = false -> includes l is_digit = false -> includes l is_space = true -> extraction o l = Some (escape o 115, filter (fun c => negb (is_space c)) l).
Proof. intros o l H1 H2 H3. unfold extraction. rewrite H1, H2, H3. reflexivity. Qed.
Lemma ex_none : forall o l, includes l is_word = false -> includes l is_digit = false -> includes l is_space = false -> extraction o l = None.
Proof. intros o l H1 H2 H3. unfold extraction. rewrite H1, H2, H3. reflexivity. Qed.
Lemma no_word : forall l, includes (filter (fun c => negb (is_word c)) l) is_word = false.
Proof. intro l. apply (includes_not _ _ 95); [unfold byte; lia|reflexivity|apply not_in_minus; reflexivity]. Qed.
Lemma no_digit : forall l, includes (filter (fun c => negb (is_digit c)) l) is_digit = false.
Proof. intro l. apply (includes_not _ _ 48); [unfold byte; lia|reflexivity|apply not_in_minus; reflexivity]. Qed.
Lemma no_digit_word : forall l, includes (filter (fun c => negb (is_digit c)) l) is_word = false.
Proof. intro l. apply (includes_not _ _ 48); [unfold byte; lia|reflexivity|apply not_in_minus; reflexivity]. Qed.
Lemma no_word_digit : forall l, includes (filter (fun c => negb (is_word c)) l) is_digit = false.
Proof. intro l. apply (includes_not _ _ 48); [unfold byte; lia|reflexivity|apply (not_in_minus is_word); reflexivity]. Qed.
Lemma no_space : forall l, includes (filter (fun c => negb (is_space c)) l) is_space = false.
Proof. intro l. apply (includes_not _ _ 32); [unfold byte; lia|reflexivity|apply not_in_minus; reflexivity]. Qed.
Lemma word_space : forall l, includes (filter (fun c => negb (is_word c)) l) is_space = includes l is_space.
Proof. intro l. apply includes_filter. intros c B S. apply disjoint_space; assumption. Qed.
Lemma digit_space : forall l, includes (filter (fun c => negb (is_digit c)) l) is_space = includes l is_space.
Proof. intro l. apply includes_filter. intros c B S. apply disjoint_space; assumption. Qed.
Lemma space_word : forall l, includes (filter (fun c => negb (is_space c)) l) is_word = includes l is_word.
Proof. intro l. apply includes_filter. intros c B D. unfold is_word in D. unfold is_space. lia. Qed.
Lemma space_digit : forall l, includes (filter (fun c => negb (is_space c)) l) is_digit = includes l is_digit.
Proof. intro l. apply includes_filter. intros c B D. unfold is_digit in D. unfold is_space. lia. Qed.

(** The extractions to come from the members [l], and what is left at the end. *)
Fixpoint extractions (fuel : nat) (o : cc_output) (l : list N) : option (list str * list N) :=
  match fuel with
  | O => None
  | S f => match extraction o l with
           | None => Some ([], l)
           | Some (s, rest) => option_map (fun x => (s :: fst x, snd x)) (extractions f o rest)
           end
  end.
Lemma extractions_ok : forall o l, extractions 4 o l = Some (abbreviations o l).
Proof.
  intros o l. unfold abbreviations. cbv zeta.
  destruct (includes l is_word) eqn:Iw; [|destruct (includes l is_digit) eqn:Id]; destruct (includes l is_space) eqn:Is; cbn [andb negb orb app extractions].
  - rewrite (ex_word o l Iw). rewrite ex_space by (rewrite ?no_word, ?no_word_digit, ?word_space; auto).
    rewrite ex_none by (rewrite ?no_space, ?space_word, ?space_digit, ?no_word, ?no_word_digit; auto). cbn. rewrite filter_filter. do 2 f_equal. apply filter_ext. intro c. destruct (is_word c), (is_space c); reflexivity.
  - rewrite (ex_word o l Iw). rewrite ex_none by (rewrite ?no_word, ?no_word_digit, ?word_space; auto). cbn. do 2 f_equal. apply filter_ext. intro c. destruct (is_word c); reflexivity.
  - rewrite (ex_digit o l Iw Id). rewrite ex_space by (rewrite ?no_digit, ?no_digit_word, ?digit_space; auto).
    rewrite ex_none by (rewrite ?no_space, ?space_word, ?space_digit, ?no_digit, ?no_digit_word; auto). cbn. rewrite filter_filter. do 2 f_equal. apply filter_ext. intro c. destruct (is_digit c), (is_space c); reflexivity.
  - rewrite (ex_digit o l Iw Id). rewrite ex_none by (rewrite ?no_digit, ?no_digit_word, ?digit_space; auto). cbn. do 2 f_equal. apply filter_ext. intro c. destruct (is_digit c); reflexivity.
  - rewrite (ex_space o l Iw Id Is). rewrite ex_none by (rewrite ?no_space, ?space_word, ?space_digit; auto). reflexivity.
  - rewrite (ex_none o l Iw Id Is). do 2 f_equal. symmetry. apply filter_none. reflexivity.
Qed.
Lemma mnemonic_loop_gen : forall p max o fuel cr i out abbr rest, wf cr -> extractions fuel o (elements cr) = Some (abbr, rest) -> max = 0 \/ i < max ->
  if (0 <? max) && (max <=? i + N.of_nat (List.length abbr)) then mnemonic_loop p fuel cr i max o out = Ret (inr (out ++ List.concat (firstn (N.to_nat (max - i)) abbr) ++ lit "...]"))
  else exists cr', mnemonic_loop p fuel cr i max o out = Ret (inl (cr', i + N.of_nat (List.length abbr), out ++ List.concat abbr)) /\ wf cr' /\ elements cr' = rest.
Proof.
  intros p max o fuel. induction fuel as [|f IH]; intros cr i out abbr rest W E Hi; cbn [extractions mnemonic_loop] in *; [discriminate E|].
  pose proof (extract_ok p cr o W) as X. destruct (extraction o (elements cr)) as [[s r]|].
  - destruct X as (cr1 & X1 & W1 & L1). rewrite X1. cbn [bind]. subst r. destruct (extractions f o (elements cr1)) as [[abbr1 rest1]|] eqn:E1; [|discriminate E]. cbn in E. inversion E; subst abbr rest; clear E. cbn [List.length].
    destruct (N.eqb_spec (i + 1) max) as [<-|M].
    + replace ((0 <? i + 1) && (i + 1 <=? i + N.of_nat (S (List.length abbr1)))) with true by lia. replace (N.to_nat (i + 1 - i)) with 1%nat by lia. cbn [firstn List.concat]. rewrite app_nil_r. reflexivity.
    + specialize (IH cr1 (i + 1) (out ++ s) abbr1 rest1 W1 E1). replace (i + 1 + N.of_nat (List.length abbr1)) with (i + N.of_nat (S (List.length abbr1))) in IH by lia.
      assert (Q : max = 0 \/ i + 1 < max) by lia. specialize (IH Q). destruct ((0 <? max) && (max <=? i + N.of_nat (S (List.length abbr1)))) eqn:C.
      * rewrite IH. replace (N.to_nat (max - i)) with (S (N.to_nat (max - (i + 1)))) by lia. cbn [firstn List.concat]. rewrite <- !app_assoc. reflexivity.
      * destruct IH as (cr' & E2 & R). exists cr'. split; [|exact R]. rewrite E2. cbn [List.concat]. rewrite <- app_assoc. reflexivity.
  - rewrite X. inversion E; subst abbr rest. cbn [List.length]. replace ((0 <? max) && (max <=? i + N.of_nat 0)) with false by lia. exists cr. cbn [bind List.concat]. rewrite app_nil_r. replace (i + N.of_nat 0) with i by lia. auto.
Qed.
Lemma mnemonic_loop_ok : forall p cr max o, wf cr -> let (abbr, rest) := abbreviations o (elements cr) in
  if (0 <? max) && (max <=? N.of_nat (List.length abbr)) then mnemonic_loop p 4 cr 0 max o [] = Ret (inr (List.concat (firstn (N.to_nat max) abbr) ++ lit "...]"))
  else exists cr', mnemonic_loop p 4 cr 0 max o [] = Ret (inl (cr', N.of_nat (List.length abbr), List.concat abbr)) /\ wf cr' /\ elements cr' = rest.
Proof.
  intros p cr max o W. pose proof (extractions_ok o (elements cr)) as E. destruct (abbreviations o (elements cr)) as [abbr rest].
  assert (Q : max = 0 \/ 0 < max) by lia. pose proof (mnemonic_loop_gen p max o 4 cr 0 [] abbr rest W E Q) as X. rewrite N.add_0_l, N.sub_0_r in X. exact X.
Qed.

(** ** Classes *)
Lemma describe_class_int_ok : forall p b max o, wf b -> describe_class_int p b max o = inside p o max (elements b).
Proof.
  intros p b max o W. unfold describe_class_int, contiguous_range, cr_find_first. rewrite bf_find_first_ok by exact W. cbn [bind].
  assert (Len : (List.length (elements b) < LOOP_FUEL)%nat) by (pose proof (elements_length_le b); unfold LOOP_FUEL; lia).
  assert (Rest : bind (mnemonic_loop p 4 b 0 max o []) (fun m => match m with
    | inr s => Ret (s, max)
    | inl (cr, i, out) => if cr_none cr then Ret (out, i) else
        let! f := bf_find_first p cr in
        match f with
        | None => Ret (out, i)
        | Some c_start =>
          let! r := ranges_loop p LOOP_FUEL cr c_start c_start i max o out in
          match r with
          | inr s => Ret (s, max)
          | inl (c_start', c_last, i', out') => if c_last =? 255 then let! s := describe_range p c_start' c_last o in Ret (out' ++ s, i' + 1) else Ret (out', i')
          end
        end
    end) = (let (abbr, rest) := abbreviations o (elements b) in
    let rs := runs_of rest in
    let items := abbr ++ map (run_text o) (removelast rs) in
    let n := N.of_nat (List.length items) in
    if (0 <? max) && (max <=? n) then Ret (List.concat (firstn (N.to_nat max) items) ++ lit "...]", max)
    else match rs with
         | [] => Ret (List.concat items, n)
         | _ :: _ =>
           let r := List.last rs (0, 0) in
           if snd r =? 255 then let! s := run_result p o r in Ret (List.concat items ++ s, n + 1) else Ret (List.concat items, n)
         end)).
  { pose proof (mnemonic_loop_ok p b max o W) as M. destruct (abbreviations o (elements b)) as [abbr rest]. cbv zeta. rewrite app_length.
    destruct ((0 <? max) && (max <=? N.of_nat (List.length abbr))) eqn:C.
    - rewrite M. cbn [bind]. replace ((0 <? max) && (max <=? N.of_nat (List.length abbr + _))) with true by lia.
      rewrite firstn_app. replace (N.to_nat max - List.length abbr)%nat with 0%nat by lia. cbn [firstn]. rewrite app_nil_r. reflexivity.
    - destruct M as (cr & -> & Wc & Ec). cbn [bind]. unfold cr_none. rewrite bf_none_ok, bf_find_first_ok by exact Wc. rewrite Ec. destruct rest as [|c l].
      + cbn [runs_of removelast map List.length]. rewrite Nat.add_0_r, C, app_nil_r. reflexivity.
      + cbn [hd_error bind runs_of]. assert (Ll : (List.length l < LOOP_FUEL)%nat) by (pose proof (elements_length_le cr) as Q; rewrite Ec in Q; cbn in Q; unfold LOOP_FUEL; lia).
        rewrite (ranges_loop_ok p cr o max l LOOP_FUEL [] c c (N.of_nat (List.length abbr)) (List.concat abbr) Wc Ec) by lia. cbv zeta.
        set (D := map (run_text o) (removelast (runs_from c c l))). cbn [bind]. replace (N.of_nat (List.length abbr) + N.of_nat (List.length D)) with (N.of_nat (List.length abbr + List.length D)) by lia.
        destruct ((0 <? max) && (max <=? N.of_nat (List.length abbr + List.length D))) eqn:C2.
        * rewrite firstn_app, concat_app. rewrite (firstn_all2 abbr) by lia. replace (N.to_nat (max - N.of_nat (List.length abbr))) with (N.to_nat max - List.length abbr)%nat by lia.
          rewrite <- app_assoc. reflexivity.
        * pose proof (runs_from_nonempty l c c) as Ne. destruct (runs_from c c l) as [|r0 rs] eqn:Er; [contradiction|]. rewrite <- Er in *. rewrite concat_app.
          destruct (N.eqb_spec (snd (List.last (runs_from c c l) (0, 0))) 255) as [E|E]; [|reflexivity].
          rewrite describe_range_ok.
          -- destruct (List.last (runs_from c c l) (0, 0)) as [a z]. reflexivity.
          -- assert (S : StronglySorted N.lt (c :: l)) by (rewrite <- Ec; apply elements_sorted). destruct (runs_of_ok _ S) as (_ & Le & _). apply Le. cbn [runs_of].
             destruct (exists_last Ne) as (l' & x & ->). rewrite last_last. apply in_or_app. right. left. reflexivity.
          -- lia. }
  unfold inside. destruct (elements b) as [|c l] eqn:E; cbn [hd_error].
  - cbn [bind runs_of]. exact Rest.
  - rewrite (contiguous_loop_ok p b l LOOP_FUEL [] c c W E) by (cbn in Len; lia). cbn [bind runs_of].
    destruct (runs_from_hd l c c) as (h & t & Er & Lh). rewrite Er in *. destruct t as [|r t]; cbn [option_map bind].
    + cbn [snd]. assert (S : StronglySorted N.lt (c :: l)) by (rewrite <- E; apply elements_sorted). destruct (runs_of_ok _ S) as (Co & _ & _).
      assert (Ih : In h (c :: l)) by (apply Co; exists (c, h); cbn [runs_of]; rewrite Er; split; [left; reflexivity|cbn; lia]). rewrite <- E in Ih. apply in_elements_byte in Ih. unfold byte in Ih.
      rewrite describe_range_ok by lia. reflexivity.
    + exact Rest.
Qed.
Lemma elements_not : forall b, wf b -> elements (cr_not b) = filter (fun c => negb (mem b c)) all_bytes.
Proof.
  intros b W. unfold elements. apply filter_ext_in. intros c Ic. apply in_all_bytes in Ic. apply bf_not_ok; assumption.
Qed.
Lemma describe_class_ok : forall p b max o, wf b -> describe_class p b max o = class_text p o max b.
Proof.
  intros p b max o W. destruct (bf_not_ok b W) as [Wn Mn]. unfold describe_class, class_text, cr_count. rewrite !bf_count_ok by assumption. unfold cr_none, cr_find_first.
  rewrite bf_none_ok, !bf_find_first_ok, !describe_class_int_ok by assumption. change (bf_not b) with (cr_not b) in *. rewrite elements_not by exact W. set (non := filter (fun c => negb (mem b c)) all_bytes).
  assert (Full : cr_all b = match non with [] => true | _ => false end).
  { apply eq_iff_eq_true. unfold cr_all. rewrite bf_all_ok by exact W. split.
    - intro H. destruct non as [|c l] eqn:E; [reflexivity|]. exfalso. assert (I : In c non) by (rewrite E; left; reflexivity). apply filter_In in I. destruct I as [I N]. apply in_all_bytes in I. rewrite H in N by exact I. discriminate N.
    - destruct non as [|c l] eqn:E; [|discriminate]. intros _ c B. destruct (mem b c) eqn:M; [reflexivity|]. exfalso. assert (I : In c non) by (apply filter_In; split; [apply in_all_bytes; exact B|rewrite M; reflexivity]). rewrite E in I. exact I. }
  rewrite Full. assert (Both : elements b = [] -> non <> []).
  { intros E1 E2. assert (B0 : byte 0) by (unfold byte; lia). destruct (mem b 0) eqn:M.
    - apply in_elements in M; [|exact W]. rewrite E1 in M. exact M.
    - assert (I : In 0 non) by (apply filter_In; split; [apply in_all_bytes; exact B0|rewrite M; reflexivity]). rewrite E2 in I. exact I. }
  destruct (elements b) as [|x [|y l]] eqn:El.
  - destruct non as [|u k]; [destruct (Both eq_refl eq_refl)|]. reflexivity.
  - destruct non as [|u k]; [reflexivity|]. reflexivity.
  - replace (N.of_nat (List.length (x :: y :: l)) =? 1) with false by (cbn [List.length]; lia). destruct non as [|u [|v k]]; [reflexivity|reflexivity|].
    replace (N.of_nat (List.length (u :: v :: k)) =? 1) with false by (cbn [List.length]; lia). reflexivity.
Qed.
