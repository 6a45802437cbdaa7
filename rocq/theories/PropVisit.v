(** Property C52: visitors see every node once, in order. *)
From Verif Require Import Base ModelUtil ModelBitField ModelCharReach ModelLiteral ModelParser SpecSet SpecGrammar SpecTree SpecVisit
  ProofBase ProofShortcut ProofParser ProofTree ProofVisit PropParser.
Local Open Scope N_scope.
Local Open Scope list_scope.

(** Walking is performing the calls that are due, in order, up to the first error;
    and there is only one such sequence. *)
Theorem C52_walk : forall c, finalized c -> exists tr, complete (node_of c) tr /\
  forall V E p (vis : visitor V E) v, walk_component p vis v c = perform vis (node_of c) tr v.
Proof.
  intros c F. exists (trace [] c). split; [apply trace_complete|]. intros V E p vis v. apply walk_trace; [exact F|reflexivity].
Qed.
Theorem C52_unique : forall root tr tr', complete root tr -> complete root tr' -> tr = tr'.
Proof.
  intros root tr tr' [S1 D1] [S2 D2]. apply (sorted_unique before before_asym); [assumption..|]. intro e. rewrite D1, D2. reflexivity.
Qed.
Theorem C52_once : forall root tr, complete root tr -> NoDup tr /\
  forall pos, node_at root pos <> None <-> exists a b c, tr = a ++ Event Pre pos :: b ++ Event Post pos :: c /\
    forall e, In e b -> exists h x, e = Event h (pos ++ x).
Proof.
  intros root tr [S D]. split; [apply (sorted_NoDup before before_irrefl); exact S|]. intro pos. split.
  - intro N. destruct (node_at root pos) as [n|] eqn:E; [|contradiction].
    assert (I1 : In (Event Pre pos) tr) by (apply D; exists n; split; [exact E|exact Logic.I]). assert (I2 : In (Event Post pos) tr) by (apply D; exists n; split; [exact E|exact Logic.I]).
    apply in_split in I1. destruct I1 as (a & r & ->).
    assert (I3 : In (Event Post pos) r).
    { apply in_app_or in I2. destruct I2 as [I2|[I2|I2]]; [|discriminate I2|exact I2]. exfalso.
      assert (B : before (Event Post pos) (Event Pre pos)).
      { apply in_split in I2. destruct I2 as (x & y & ->). clear D. rewrite <- app_assoc in S. cbn in S. clear -S. induction x as [|z x IH]; cbn in S; inversion S as [|? ? S' F]; subst; [|apply IH; exact S'].
        rewrite Forall_forall in F. apply F. apply in_or_app. right. left. reflexivity. }
      apply (before_asym _ _ B). replace (Event Post pos) with (Event Post (pos ++ [])) by (rewrite app_nil_r; reflexivity). apply b_pre. discriminate. }
    apply in_split in I3. destruct I3 as (b & c & ->). exists a, b, c. split; [reflexivity|]. intros e Ie.
    assert (De : due root e) by (apply D; apply in_or_app; right; right; apply in_or_app; left; exact Ie).
    assert (B1 : before (Event Pre pos) e).
    { clear -S Ie. induction a as [|z a IH]; cbn in S; inversion S as [|? ? S' F]; subst; [|apply IH; exact S']. rewrite Forall_forall in F. apply F. apply in_or_app. left. exact Ie. }
    assert (B2 : before e (Event Post pos)).
    { assert (S2 : StronglySorted before (b ++ Event Post pos :: c)).
      { clear -S. induction a as [|z a IH]; cbn in S; inversion S as [|? ? S' F]; subst; [exact S'|apply IH; exact S']. }
      clear -S2 Ie. induction b as [|z b IH]; [destruct Ie|]. cbn in S2. inversion S2 as [|? ? S' F]; subst. destruct Ie as [->|Ie]; [|apply IH; assumption].
      rewrite Forall_forall in F. apply F. apply in_or_app. right. left. reflexivity. }
    destruct e as [h ps]. apply before_key in B1, B2. exists h. revert B1 B2. unfold key. cbn [ev_pos ev_hook stop]. clear.
    assert (G : forall pos ps, lex (map step pos ++ [(0, 0)%nat]) (map step ps ++ [stop h]) -> lex (map step ps ++ [stop h]) (map step pos ++ [(1, 0)%nat]) -> exists x, ps = pos ++ x).
    { clear. induction pos as [|i pos IH]; intros ps A B; [exists ps; reflexivity|]. destruct ps as [|j ps]; cbn [map app lex] in A, B.
      - exfalso. unfold below_pair, step in *. destruct h; cbn [stop fst snd] in *.
        + destruct A as [A|[A _]]; [lia|discriminate A].
        + destruct A as [A|[A _]]; [|injection A as A; lia]. destruct B as [B|[B _]]; [|injection B as B; lia]. lia.
        + destruct B as [B|[B _]]; [lia|discriminate B].
      - unfold below_pair, step in A, B. cbn [fst snd] in A, B. assert (i = j) by (destruct A as [A|[A _]]; [|injection A as A; lia]; destruct B as [B|[B _]]; [lia|injection B as B; lia]). subst j.
        destruct A as [A|[_ A]]; [lia|]. destruct B as [B|[_ B]]; [lia|]. destruct (IH ps A B) as (x & ->). exists x. reflexivity. }
    intros A B. destruct (G _ _ A B) as (x & ->). exists x. reflexivity.
  - intros (a & b & c & E & _). assert (I : In (Event Pre pos) tr) by (rewrite E; apply in_or_app; right; left; reflexivity). apply D in I. destruct I as (n & Hn & _). cbn in Hn. congruence.
Qed.
(** The trees that parsing yields qualify. *)
Theorem C52_parsed : forall p s m t m', parse p s m = Ret (ROk (t, m')) -> exists tr, complete (node_of t) tr /\
  forall V E q (vis : visitor V E) v, walk_component q vis v t = perform vis (node_of t) tr v.
Proof.
  intros p s m t m' E. apply C13_tree_iff in E. destruct E as (b & e & _ & _ & _ & _ & _ & ->). apply C52_walk. apply tree_finalized.
Qed.
(** A tree with an unfinished alternation: refused by debug builds, walked without
    the alternation by release builds. *)
Theorem C52_unfinished : forall V E (vis : visitor V E) v ch bs ci cn,
  (forall p, debug_assertions p = true -> walk_component p vis v (CSequence (Seqn ch (Some bs) ci cn)) = Panic PDebugAssert) /\
  (forall p, debug_assertions p = false -> pre_sequence vis v (Seqn ch (Some bs) ci cn) = Ret (ROk v) -> ch = [] ->
     walk_component p vis v (CSequence (Seqn ch (Some bs) ci cn)) = let! v' := post_sequence vis v (Seqn ch (Some bs) ci cn) in Ret (ROk v')).
Proof.
  intros V E vis v ch bs ci cn. split.
  - intros p D. cbn [walk_component walk_seqn]. unfold rs_debug_assert. rewrite D. reflexivity.
  - intros p D Q ->. cbn [walk_component walk_seqn]. unfold rs_debug_assert. rewrite D, Q. reflexivity.
Qed.
(** A visitor that records what it sees and fails at the second class; and the
    whole sequence of calls for a small tree. *)
Definition log_visitor : visitor (list N) N := {|
  pre_class := fun v _ => if (List.length (filter (N.eqb 1) v) =? 1)%nat then Ret (RErr 7) else Ret (ROk (v ++ [1]));
  pre_alternation := fun v _ => Ret (ROk (v ++ [2])); pre_sequence := fun v _ => Ret (ROk (v ++ [3]));
  during_class := fun v _ => v ++ [4]; during_alternation := fun v _ => v ++ [5]; during_sequence := fun v _ => v ++ [6];
  post_class := fun v _ => Ret (v ++ [7]); post_alternation := fun v _ => Ret (v ++ [8]); post_sequence := fun v _ => Ret (v ++ [9]) |}.
Example C52_case : exists t m', parse release (lit "a|(b)") mode_default = Ret (ROk (t, m')) /\ finalized t /\
  trace [] t = [Event Pre []; Event Pre [0]%nat; Event Pre [0; 0]%nat; Event Pre [0; 0; 0]%nat; Event (During 0) [0; 0; 0]%nat; Event Post [0; 0; 0]%nat; Event Post [0; 0]%nat; Event (During 0) [0]%nat;
    Event Pre [0; 1]%nat; Event Pre [0; 1; 0]%nat; Event Pre [0; 1; 0; 0]%nat; Event (During 0) [0; 1; 0; 0]%nat; Event Post [0; 1; 0; 0]%nat; Event Post [0; 1; 0]%nat; Event Post [0; 1]%nat; Event Post [0]%nat; Event Post []] /\
  complete (node_of t) (trace [] t) /\
  walk_component release log_visitor [] t = Ret (RErr 7).
Proof.
  exists (tree false [[Ch 97]; [Grp [[Ch 98]]]]), mode_default. split; [vm_compute; reflexivity|]. split; [apply tree_finalized|]. split; [vm_compute; reflexivity|]. split; [apply trace_complete|]. vm_compute. reflexivity.
Qed.

Print Assumptions C52_walk. Print Assumptions C52_unique. Print Assumptions C52_once. Print Assumptions C52_parsed. Print Assumptions C52_unfinished.
