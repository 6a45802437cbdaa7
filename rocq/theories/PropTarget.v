(** C78: what the width of a pointer on the target changes. *)
From Verif Require Import Base ProofBase ModelUtil ModelCompiler SpecCompile SpecReference SpecTarget ProofParser ProofVerb PropCompile PropReference.
Local Open Scope N_scope.
Local Open Scope list_scope.

Definition open_text (k : N) : str := lit "Missing close parenthesis for group started at index " ++ decimal k ++ lit ".".
Lemma open_text_inj : forall i j, open_text i = open_text j -> i = j.
Proof. intros i j E. unfold open_text in E. apply app_inv_head in E. apply app_inv_tail in E. rewrite !decimal_ok in E. apply show_inj. exact E. Qed.
Lemma word_big : forall p, 4294967296 <= word p.
Proof. intro p. unfold word. destruct (target p); lia. Qed.
(** The two complaints are the same and not about a group left open after its
    first byte, or both are about the same such group. *)
Definition told_alike (p q : profile) (a b : option complaint) : Prop :=
  (a = b /\ forall n, 0 < n <= 16000 -> a <> Some (Refused EParse (open_text (word p - n)))) \/
  (exists n, 0 < n <= 16000 /\ a = Some (Refused EParse (open_text (word p - n))) /\ b = Some (Refused EParse (open_text (word q - n)))).
Lemma alike_same : forall p q a, (forall r, a <> Some (Refused EParse r)) -> told_alike p q a a.
Proof. intros p q a H. left. split; [reflexivity|]. intros n _. apply H. Qed.

Section Two.
  Context (p q : profile) (Sc : same_checks p q).
  Lemma read_text_alike : forall s pos opened, pos + byte_length s <= 16000 -> (forall a, In a opened -> a <= 16000) ->
    told_alike p q (read_text p pos opened s) (read_text q pos opened s).
  Proof.
    destruct Sc as [O _]. induction s as [|c s IH]; intros pos opened L B; cbn [read_text].
    - destruct opened as [|a opened]; [apply alike_same; discriminate|].
      pose proof (B a (or_introl eq_refl)) as Ba. pose proof (word_big p) as Wp. pose proof (word_big q) as Wq.
      destruct (N.eq_dec a 0) as [->|Na].
      + left. rewrite !N.sub_0_r, !N.mod_same by lia. split; [reflexivity|].
        intros n Hn E. assert (X : open_text 0 = open_text (word p - n)) by (apply (f_equal (fun c => match c with Some (Refused _ r) => r | _ => [] end)) in E; exact E).
        apply open_text_inj in X. lia.
      + right. exists a. rewrite !N.mod_small by lia. split; [lia|]. split; reflexivity.
    - destruct (N.leb_spec 128 c) as [H|H]; [apply alike_same; discriminate|].
      assert (E1 : byte_length (c :: s) = 1 + byte_length s).
      { unfold byte_length. cbn [flat_map]. unfold utf8_bytes at 1. replace (c <? 128) with true by lia. rewrite app_length. cbn [List.length]. lia. }
      rewrite E1 in L. destruct (c =? 40).
      { rewrite O. destruct (overflow_checks q && _); [apply alike_same; discriminate|]. apply IH; [lia|]. intros a [<-|I]; [lia|auto]. }
      destruct (c =? 41).
      { destruct opened as [|a opened]; [apply alike_same; discriminate|]. apply IH; [lia|]. intros b I. apply B. right. exact I. }
      apply IH; [lia|exact B].
  Qed.
  Lemma complaint_alike : forall it, told_alike p q (complaint_about p it) (complaint_about q it).
  Proof.
    intro it. unfold complaint_about. destruct (N.ltb_spec 16000 (byte_length (it_expr it))) as [L|L]; [apply alike_same; discriminate|].
    destruct (quiet it && som_leftmost it); [apply alike_same; discriminate|]. unfold read_pattern.
    destruct (split_verb (it_expr it)) as [[v rest]|] eqn:V.
    - destruct (one_of _ v); [|apply alike_same; discriminate]. apply read_text_alike; [|intros a []].
      apply split_verb_some in V. destruct V as (Ev & _). rewrite Ev in L. rewrite !byte_length_ok in *.
      change (str_len (40 :: 42 :: v ++ 41 :: rest)) with (1 + (1 + str_len (v ++ 41 :: rest))) in L. rewrite str_len_app in L.
      change (str_len (41 :: rest)) with (1 + str_len rest) in L. lia.
    - apply read_text_alike; [lia|intros a []].
  Qed.
  (** The outcomes of a run are the same and not about such a group, or both are
      about the same one. *)
  Definition alike {A} (a b : outcome (result compile_error A)) : Prop :=
    (a = b /\ forall n i, 0 < n <= 16000 -> a <> Ret (RErr (left_open p n i))) \/
    (exists n i, 0 < n <= 16000 /\ a = Ret (RErr (left_open p n i)) /\ b = Ret (RErr (left_open q n i))).
  Lemma read_items_alike : forall l i seen, alike (read_items p i seen l) (read_items q i seen l).
  Proof.
    destruct Sc as [_ D]. induction l as [|it l IH]; intros i seen; cbn [read_items].
    { left. split; [reflexivity|discriminate]. }
    destruct (complaint_alike it) as [[E N]|(n & Hn & Ep & Eq)].
    - rewrite <- E. destruct (complaint_about p it) as [[k r|w]|] eqn:C.
      + left. split; [reflexivity|]. intros n j Hn X. injection X as -> -> _. apply (N n Hn). reflexivity.
      + left. split; [reflexivity|discriminate].
      + destruct (plain_literal it); [|apply IH]. destruct (find _ seen) as [[j a]|]; [|apply IH]. destruct (Bool.eqb _ _); [apply IH|].
        rewrite D. destruct (debug_assertions q); left; (split; [reflexivity|discriminate]).
    - rewrite Ep, Eq. right. exists n, i. split; [exact Hn|]. split; reflexivity.
  Qed.
  Lemma reference_alike : forall es fs ids m, alike (reference p es fs ids m) (reference q es fs ids m).
  Proof.
    intros es fs ids m. unfold reference. destruct es as [|e es]; [left; split; [reflexivity|discriminate]|].
    destruct (8000000 <? _); [left; split; [reflexivity|discriminate]|].
    destruct (read_items_alike (items_of (e :: es) fs ids) 0 []) as [[E N]|(n & i & Hn & Ep & Eq)].
    - rewrite <- E. destruct (read_items p 0 [] _) as [[x|x]|w|]; left; (split; [reflexivity|]); intros n i Hn X; try discriminate X. injection X as ->. apply (N n i Hn). reflexivity.
    - rewrite Ep, Eq. right. exists n, i. auto.
  Qed.
End Two.

(** Two targets give the same outcome, or the same error about the same group
    with another number in its text. *)
Theorem C78_targets : forall p q, same_checks p q -> forall es fs ids m,
  compile_multi p es fs ids m = compile_multi q es fs ids m \/
  exists n i, 0 < n <= 16000 /\ compile_multi p es fs ids m = Ret (RErr (left_open p n i)) /\ compile_multi q es fs ids m = Ret (RErr (left_open q n i)).
Proof.
  intros p q Sc es fs ids m. rewrite !C76_reference. destruct (reference_alike p q Sc es fs ids m) as [[E _]|H]; [left; exact E|right; exact H].
Qed.
(** They differ exactly when a group that is not the first thing in its pattern is
    left open. *)
Theorem C78_differ : forall p q, same_checks p q -> target p <> target q -> forall es fs ids m,
  compile_multi p es fs ids m <> compile_multi q es fs ids m <->
  exists n i, 0 < n <= 16000 /\ compile_multi p es fs ids m = Ret (RErr (left_open p n i)).
Proof.
  intros p q Sc Ht es fs ids m. rewrite !C76_reference. destruct (reference_alike p q Sc es fs ids m) as [[E N]|(n & i & Hn & Ep & Eq)].
  - split; [intro X; contradiction|]. intros (n & i & Hn & X). destruct (N n i Hn X).
  - split; [intros _; eauto|]. intros _. rewrite Ep, Eq. intro E.
    assert (X : open_text (word p - n) = open_text (word q - n)) by (apply (f_equal (fun o => match o with Ret (RErr e) => err_reason e | _ => [] end)) in E; exact E).
    apply open_text_inj in X. apply Ht. unfold word in X. destruct (target p), (target q); auto; lia.
Qed.
(** Whatever the target, the same sets are accepted, with the same database, and a
    refused set is refused for the same pattern with the same kind of error. *)
Theorem C78_verdict : forall p q, same_checks p q -> forall es fs ids m,
  match compile_multi p es fs ids m, compile_multi q es fs ids m with
  | Ret (ROk a), Ret (ROk b) => a = b
  | Ret (RErr a), Ret (RErr b) => err_kind a = err_kind b /\ err_index a = err_index b
  | Panic a, Panic b => a = b
  | _, _ => False
  end.
Proof.
  intros p q Sc es fs ids m. destruct (C78_targets p q Sc es fs ids m) as [E|(n & i & _ & -> & ->)]; [|split; reflexivity].
  pose proof (C05_terminates p es fs ids m) as T. rewrite <- E. destruct (compile_multi p es fs ids m) as [[x|x]|w|]; try split; try reflexivity. apply T. reflexivity.
Qed.
Example C78_case : same_checks release release32 /\ target release <> target release32 /\
  compile_multi release [lit "x"; lit "a(b(c"] [0; 0] [0; 1] Block = Ret (RErr (left_open release 3 1)) /\
  compile_multi release32 [lit "x"; lit "a(b(c"] [0; 0] [0; 1] Block = Ret (RErr (left_open release32 3 1)) /\
  err_reason (left_open release32 3 1) = lit "Missing close parenthesis for group started at index 4294967293." /\
  err_reason (left_open release 3 1) = lit "Missing close parenthesis for group started at index 18446744073709551613." /\
  compile release32 (lit "(ab") 0 Block = compile release (lit "(ab") 0 Block /\ compile dev32 (lit "a(b)") 0 Block = Panic POverflow /\
  compile release32 (lit "a(b|c)") 0 Block = Ret (ROk (Database (RoseEngine FullRose Block))).
Proof. split; [split; reflexivity|]. split; [discriminate|]. vm_compute. repeat split. Qed.
Print Assumptions C78_targets. Print Assumptions C78_differ. Print Assumptions C78_verdict.
