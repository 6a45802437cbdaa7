(** The textual dumps: when they come to an end. *)
From Verif Require Import Base ModelUtil ModelBitField ModelCharReach ModelParser ModelDump SpecSet SpecGrammar SpecTree SpecVisit SpecDump
  ProofBase ProofBitField ProofBitField2 ProofCharReach ProofShortcut ProofVisit ProofDump.
Local Open Scope N_scope.
Local Open Scope list_scope.

Definition has (l : list N) (c : N) : bool := existsb (N.eqb c) l.
Lemma has_iff : forall l c, has l c = true <-> In c l.
Proof. intros l c. unfold has. rewrite existsb_exists. split; [intros (x & I & E); apply N.eqb_eq in E; subst; exact I|intro I; exists c; split; [exact I|apply N.eqb_refl]]. Qed.
Lemma has_filter : forall f l c, f c = true -> has (filter f l) c = has l c.
Proof. intros f l c F. apply eq_iff_eq_true. rewrite !has_iff, filter_In. tauto. Qed.
Definition bad (l : list N) : bool := has l 255 && has l 254 && negb (has l 253 && has l 252 && has l 251).
Definition bytes (l : list N) : Prop := StronglySorted N.lt l /\ Forall byte l.
Lemma bytes_filter : forall f l, bytes l -> bytes (filter f l).
Proof.
  intros f l [S B]. split.
  - clear B. induction S as [|x l S IH F]; cbn; [constructor|]. destruct (f x); [|exact IH]. constructor; [exact IH|]. rewrite Forall_forall in *. intros y I. apply filter_In in I. apply F. apply I.
  - rewrite Forall_forall in *. intros x I. apply filter_In in I. apply B. apply I.
Qed.

Lemma bytes_all : bytes all_bytes.
Proof. split; [rewrite all_bytes_seqN; apply seqN_sorted|apply Forall_forall; intros c I; apply in_all_bytes; exact I]. Qed.

(** ** Runs that cannot be written *)
Lemma bad_iff : forall l rs, bytes l -> is_runs (fun x => In x l) rs -> ((exists r, In r rs /\ bad_run r) <-> bad l = true).
Proof.
  intros l rs [S B] (Co & Le & So). rewrite Forall_forall in B. unfold bad. rewrite !andb_true_iff, negb_true_iff, <- not_true_iff_false, !andb_true_iff, !has_iff. split.
  - intros (r & I & E & L). assert (M : forall x, fst r <= x <= snd r -> In x l) by (intros x Hx; apply Co; eauto).
    split; [split; apply M; lia|]. intros [[I3 I2] I1].
    (* the byte before the run would be in another run *)
    assert (J : In (fst r - 1) l) by (destruct (N.eq_dec (fst r) 252) as [->|]; [exact I1|destruct (N.eq_dec (fst r) 253) as [->|]; [exact I2|replace (fst r) with 254 by lia; exact I3]]).
    apply Co in J. destruct J as (q & Iq & Lq). clear - So I Iq L E Lq. induction So as [|x rs So IH F]; [destruct I|]. rewrite Forall_forall in F.
    destruct I as [<-|I], Iq as [<-|Iq]; [lia|specialize (F _ Iq); lia|specialize (F _ I); lia|auto].
  - intros [[I5 I4] N]. pose proof (proj1 (Co 255) I5) as (r & Ir & Lr). exists r. split; [exact Ir|].
    assert (E : snd r = 255) by (assert (X : In (snd r) l) by (apply Co; exists r; split; [exact Ir|lia]); apply B in X; unfold byte in X; lia).
    split; [exact E|]. split.
    + destruct (N.lt_ge_cases (fst r) 252) as [L|L]; [|exact L]. exfalso. apply N. split; [split|]; apply Co; exists r; (split; [exact Ir|lia]).
    + destruct (N.le_gt_cases (fst r) 254) as [L|L]; [exact L|]. exfalso. pose proof (proj1 (Co 254) I4) as (q & Iq & Lq). pose proof (Le q Iq).
      clear - So Ir Iq L Lq Lr E. induction So as [|x rs So IH F]; [destruct Ir|]. rewrite Forall_forall in F.
      destruct Ir as [<-|Ir], Iq as [<-|Iq]; [lia|specialize (F _ Iq); lia|specialize (F _ Ir); lia|auto].
Qed.
Lemma bad_last : forall l, bytes l -> l <> [] -> (bad_run (List.last (runs_of l) (0, 0)) <-> bad l = true).
Proof.
  intros l B Ne. pose proof (runs_of_ok l (proj1 B)) as R. rewrite <- (bad_iff l _ B R). destruct R as (Co & Le & So). destruct B as [_ B]. rewrite Forall_forall in B.
  assert (Nr : runs_of l <> []) by (destruct l as [|c l]; [contradiction|apply runs_from_nonempty]). destruct (exists_last Nr) as (rs & z & E). rewrite E in *. rewrite last_last. split.
  - intro H. exists z. split; [apply in_or_app; right; left; reflexivity|exact H].
  - intros (r & Ir & H). apply in_app_or in Ir. destruct Ir as [Ir|[<-|[]]]; [|exact H]. exfalso. destruct H as [H _].
    assert (X : snd r + 1 < fst z).
    { clear - So Ir. induction rs as [|x rs IH]; [destruct Ir|]. cbn in So. inversion So as [|? ? So' F]; subst. destruct Ir as [<-|Ir]; [|auto]. rewrite Forall_forall in F. apply F. apply in_or_app. right. left. reflexivity. }
    assert (Y : In (fst z) l) by (apply Co; exists z; split; [apply in_or_app; right; left; reflexivity|]; specialize (Le z ltac:(apply in_or_app; right; left; reflexivity)); lia).
    apply B in Y. unfold byte in Y. lia.
Qed.
Lemma runs_count : forall rs a, a <= 255 -> (forall r, In r rs -> a <= fst r /\ fst r <= snd r /\ snd r <= 255) -> StronglySorted (fun x y => snd x + 1 < fst y) rs -> a + 2 * N.of_nat (List.length rs) <= 257.
Proof.
  induction rs as [|r rs IH]; intros a La H S; [cbn; lia|]. inversion S as [|? ? S' F]; subst. rewrite Forall_forall in F. pose proof (H r (or_introl eq_refl)) as Hr. cbn [List.length].
  destruct rs as [|q rs]; [cbn; lia|]. specialize (IH (a + 2)). assert (X : a + 2 <= 255).
  { pose proof (F q (or_introl eq_refl)). pose proof (H q (or_intror (or_introl eq_refl))). lia. }
  specialize (IH X). assert (Y : forall r0, In r0 (q :: rs) -> a + 2 <= fst r0 /\ fst r0 <= snd r0 /\ snd r0 <= 255).
  { intros r0 I. pose proof (F r0 I). pose proof (H r0 (or_intror I)). lia. }
  specialize (IH Y S'). lia.
Qed.
Lemma runs_of_count : forall l, bytes l -> N.of_nat (List.length (runs_of l)) <= 128.
Proof.
  intros l [S B]. destruct (runs_of_ok l S) as (Co & Le & So). rewrite Forall_forall in B. pose proof (runs_count (runs_of l) 0) as C.
  assert (X : forall r, In r (runs_of l) -> 0 <= fst r /\ fst r <= snd r /\ snd r <= 255).
  { intros r I. pose proof (Le r I). assert (Y : In (snd r) l) by (apply Co; exists r; split; [exact I|lia]). apply B in Y. unfold byte in Y. lia. }
  specialize (C ltac:(lia) X So). lia.
Qed.
Lemma run_result_cases : forall p o r, (bad_run r -> run_result p o r = stopped p) /\ (~ bad_run r -> run_result p o r = Ret (run_text o r)).
Proof.
  intros p o r. unfold run_result, bad_run, stopped. split; intro H.
  - replace ((snd r =? 255) && (252 <=? fst r) && (fst r <=? 254)) with true by lia. reflexivity.
  - replace ((snd r =? 255) && (252 <=? fst r) && (fst r <=? 254)) with false by lia. reflexivity.
Qed.

(** What is written of the members [l], when all goes well and nothing is cut short. *)
Definition shown (o : cc_output) (l : list N) : str * N :=
  match runs_of l with
  | [r] => (run_text o r, 2)
  | _ =>
    let (abbr, rest) := abbreviations o l in
    let rs := runs_of rest in
    let items := abbr ++ map (run_text o) (removelast rs) in
    let last := List.last rs (0, 0) in
    let n := N.of_nat (List.length items) in
    match rs with
    | [] => (List.concat items, n)
    | _ => if snd last =? 255 then (List.concat items ++ run_text o last, n + 1) else (List.concat items, n)
    end
  end.
Lemma abbreviations_high : forall o l c, 128 <= c -> has (snd (abbreviations o l)) c = has l c.
Proof.
  intros o l c H. unfold abbreviations. cbv zeta. cbn [snd]. apply has_filter. replace (is_word c) with false by (unfold is_word; lia). replace (is_digit c) with false by (unfold is_digit; lia).
  replace (is_space c) with false by (unfold is_space; lia). rewrite !andb_false_r. reflexivity.
Qed.
Lemma abbreviations_bad : forall o l, bad (snd (abbreviations o l)) = bad l.
Proof. intros o l. unfold bad. rewrite !abbreviations_high by lia. reflexivity. Qed.
Lemma abbreviations_count : forall o l, (List.length (fst (abbreviations o l)) <= 3)%nat.
Proof. intros o l. unfold abbreviations. cbv zeta. cbn [fst]. rewrite !app_length. repeat destruct (includes _ _); cbn; lia. Qed.
Lemma abbreviations_bytes : forall o l, bytes l -> bytes (snd (abbreviations o l)).
Proof. intros o l B. unfold abbreviations. cbv zeta. cbn [snd]. apply bytes_filter. exact B. Qed.
Lemma removelast_length : forall {A} (l : list A), (List.length (removelast l) <= List.length l)%nat.
Proof. intros A l. induction l as [|x l IH]; [cbn; lia|]. cbn [removelast]. destruct l; cbn in *; lia. Qed.
Lemma inside_ok : forall p o l, bytes l -> inside p o 256 l = if bad l then stopped p else Ret (shown o l).
Proof.
  intros p o l B. unfold inside, shown.
  assert (Rest : (let (abbr, rest) := abbreviations o l in
    let rs := runs_of rest in
    let items := abbr ++ map (run_text o) (removelast rs) in
    let n := N.of_nat (List.length items) in
    if (0 <? 256) && (256 <=? n) then Ret (List.concat (firstn (N.to_nat 256) items) ++ lit "...]", 256)
    else match rs with
         | [] => Ret (List.concat items, n)
         | _ :: _ =>
           let r := List.last rs (0, 0) in
           if snd r =? 255 then let! s := run_result p o r in Ret (List.concat items ++ s, n + 1) else Ret (List.concat items, n)
         end) =
    if bad l then stopped p else Ret (let (abbr, rest) := abbreviations o l in
    let rs := runs_of rest in
    let items := abbr ++ map (run_text o) (removelast rs) in
    let last := List.last rs (0, 0) in
    let n := N.of_nat (List.length items) in
    match rs with
    | [] => (List.concat items, n)
    | _ => if snd last =? 255 then (List.concat items ++ run_text o last, n + 1) else (List.concat items, n)
    end)).
  { pose proof (abbreviations_bad o l) as Bd. pose proof (abbreviations_count o l) as Ca. pose proof (abbreviations_bytes o l B) as Br. destruct (abbreviations o l) as [abbr rest]. cbn [fst snd] in *. cbv zeta.
    rewrite app_length, map_length. pose proof (runs_of_count rest Br) as Cr. pose proof (removelast_length (runs_of rest)) as Cl.
    match goal with |- context [(0 <? 256) && (256 <=? ?n)] => replace ((0 <? 256) && (256 <=? n)) with false by lia end. rewrite <- Bd.
    destruct rest as [|c rest]; [reflexivity|]. pose proof (bad_last (c :: rest) Br ltac:(discriminate)) as La. destruct (runs_of (c :: rest)) as [|r rs] eqn:Er; [destruct (runs_from_nonempty _ _ _ Er)|]. rewrite <- Er in *. clear Er.
    set (z := List.last (runs_of (c :: rest)) (0, 0)) in *. destruct (run_result_cases p o z) as [R1 R2]. destruct (bad (c :: rest)).
    - assert (H : bad_run z) by (apply La; reflexivity). replace (snd z =? 255) with true by (destruct H; lia). rewrite (R1 H). unfold stopped. destruct (overflow_checks p); reflexivity.
    - destruct (N.eqb_spec (snd z) 255); [|reflexivity]. rewrite R2 by (intro H; apply La in H; discriminate H). reflexivity. }
  destruct (runs_of l) as [|r [|q rs]] eqn:E; [exact Rest| |exact Rest].
  assert (Ne : l <> []) by (intro Z; subst l; discriminate E). pose proof (bad_last l B Ne) as La. rewrite E in La. cbn [List.last] in La. destruct (run_result_cases p o r) as [R1 R2]. destruct (bad l).
  - rewrite R1 by (apply La; reflexivity). unfold stopped. destruct (overflow_checks p); reflexivity.
  - rewrite R2 by (intro H; apply La in H; discriminate H). reflexivity.
Qed.

(** ** Classes *)
Definition others (b : bitfield) : list N := filter (fun c => negb (mem b c)) all_bytes.
Lemma bytes_elements : forall b, bytes (elements b).
Proof. intro b. apply bytes_filter, bytes_all. Qed.
Lemma bytes_others : forall b, bytes (others b).
Proof. intro b. apply bytes_filter, bytes_all. Qed.
Lemma has_elements : forall b c, byte c -> has (elements b) c = mem b c.
Proof. intros b c B. apply eq_iff_eq_true. rewrite has_iff. unfold elements. rewrite filter_In, in_all_bytes. tauto. Qed.
Lemma has_others : forall b c, byte c -> has (others b) c = negb (mem b c).
Proof. intros b c B. apply eq_iff_eq_true. rewrite has_iff. unfold others. rewrite filter_In, in_all_bytes. tauto. Qed.
(** The text, when there is one. *)
Definition text_of (o : cc_output) (b : bitfield) : str :=
  match elements b, others b with
  | [], _ => lit "<empty>"
  | _, [] => lit "<any>"
  | [c], _ => describe_char c o
  | _, [c] => lit "[^" ++ describe_char c o ++ lit "]"
  | l, non =>
    if str_len (fst (shown o l)) <=? str_len (fst (shown o non))
    then if 1 <? snd (shown o l) then lit "[" ++ fst (shown o l) ++ lit "]" else fst (shown o l)
    else lit "[^" ++ fst (shown o non) ++ lit "]"
  end.
Lemma class_text_ok : forall p o b, (stuck b -> class_text p o 256 b = stopped p) /\ (~ stuck b -> class_text p o 256 b = Ret (text_of o b)).
Proof.
  intros p o b. unfold class_text, text_of. fold (others b).
  assert (Pair : forall f x y k, filter f all_bytes = x :: y :: k -> x < y /\ byte y /\ f x = true /\ f y = true).
  { intros f x y k E. assert (S : StronglySorted N.lt (x :: y :: k)) by (rewrite <- E; apply bytes_filter, bytes_all). inversion S as [|? ? _ F]; subst. rewrite Forall_forall in F.
    assert (Ix : In x (filter f all_bytes)) by (rewrite E; left; reflexivity). assert (Iy : In y (filter f all_bytes)) by (rewrite E; right; left; reflexivity).
    apply filter_In in Ix, Iy. destruct Ix as [_ Fx], Iy as [Iy Fy]. apply in_all_bytes in Iy. split; [apply F; left; reflexivity|]. auto. }
  assert (Short : forall f k, filter f all_bytes = k -> (List.length k <= 1)%nat -> ~ exists x y, x < y /\ byte y /\ f x = true /\ f y = true).
  { intros f k E L (x & y & Lt & By & Fx & Fy). assert (Ix : In x k) by (rewrite <- E; apply filter_In; split; [apply in_all_bytes; unfold byte in *; lia|exact Fx]).
    assert (Iy : In y k) by (rewrite <- E; apply filter_In; split; [apply in_all_bytes; exact By|exact Fy]). destruct k as [|z [|w k]]; cbn in *; [contradiction| |lia]. destruct Ix as [<-|[]], Iy as [<-|[]]. lia. }
  assert (One : forall k, elements b = k -> (List.length k <= 1)%nat -> ~ stuck b) by (intros k E L (H & _); exact (Short (mem b) k E L H)).
  assert (Co1 : forall k, others b = k -> (List.length k <= 1)%nat -> ~ stuck b).
  { intros k E L (_ & (x & y & H1 & H2 & H3 & H4) & _). apply (Short (fun c => negb (mem b c)) k E L). exists x, y. rewrite H3, H4. auto. }
  assert (Triv : forall s, ~ stuck b -> (stuck b -> Ret s = @stopped str p) /\ (~ stuck b -> Ret s = Ret s)) by (intros s H; split; [intro; contradiction|reflexivity]).
  destruct (elements b) as [|x [|y k]] eqn:E1.
  - destruct (others b) as [|u [|v m]]; apply Triv; apply (One [] eq_refl); cbn; lia.
  - destruct (others b) as [|u [|v m]]; apply Triv; apply (One [x] eq_refl); cbn; lia.
  - destruct (others b) as [|u [|v m]] eqn:E2; [apply Triv; apply (Co1 [] eq_refl); cbn; lia|apply Triv; apply (Co1 [u] eq_refl); cbn; lia|].
    clear One Co1 Triv Short. pose proof (Pair (mem b) x y k E1) as P1. pose proof (Pair (fun c => negb (mem b c)) u v m E2) as P2. rewrite <- E1, <- E2. clear E1 E2.
    assert (K : stuck b <-> bad (elements b) || bad (others b) = true).
    { unfold stuck, bad. rewrite !has_elements, !has_others by (unfold byte; lia). destruct P1 as (? & ? & ? & ?), P2 as (? & ? & Hu & Hv). apply negb_true_iff in Hu, Hv. split.
      - intros (_ & _ & Hq & Hn). destruct (mem b 255), (mem b 254), (mem b 253), (mem b 252), (mem b 251); cbn; try reflexivity; try discriminate; exfalso; apply Hn; auto.
      - intro H'. split; [eauto 8|]. split; [eauto 8|]. destruct (mem b 255), (mem b 254), (mem b 253), (mem b 252), (mem b 251); cbn in H'; try discriminate; (split; [reflexivity|intros (? & ? & ?); discriminate]). }
    rewrite !inside_ok by (apply bytes_elements || apply bytes_others). split; intro H.
    + apply K in H. destruct (bad (elements b)); [unfold stopped; destruct (overflow_checks p); reflexivity|]. cbn [orb] in H. rewrite H. cbn [bind]. destruct (shown o (elements b)). unfold stopped. destruct (overflow_checks p); reflexivity.
    + assert (Z : bad (elements b) || bad (others b) = false) by (apply not_true_iff_false; rewrite <- K; exact H). apply orb_false_iff in Z. destruct Z as [-> ->]. cbn [bind].
      destruct (shown o (elements b)) as [a n], (shown o (others b)) as [a' n']. reflexivity.
Qed.
