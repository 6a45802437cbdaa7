(** Runs of the source text: describe_char and describe_range. *)
From Verif Require Import Base ModelUtil ModelBitField ModelCharReach ModelDump ModelRust ModelInterp ModelSource SpecSource SpecSet ProofBitField ProofBitField2.
From Verif Require Import ProofSourceA ProofSourceB ProofSourceC ProofSourceD ProofSourceE ProofSourceF.
Local Open Scope string_scope.
Local Open Scope N_scope.
Local Open Scope list_scope.
Lemma d_escaped : forall p lf d, call p G lf (S d) None "ESCAPED" [] = Ret (Some (VList (map (VInt U8) ESCAPED), [])).
Proof. enter. auto_. Qed.
Lemma d_single : forall p lf d, call p G lf (S d) None "DOT_SINGLE_ESCAPED" [] = Ret (Some (VList (map (VInt U8) DOT_SINGLE_ESCAPED), [])).
Proof. enter. auto_. Qed.
Lemma exists_byte : forall c l, existsb (val_eqb (VInt U8 c)) (map (VInt U8) l) = existsb (N.eqb c) l.
Proof. intros c l. induction l as [|x l IH]; [reflexivity|]. cbn [map existsb]. rewrite IH. reflexivity. Qed.
#[export] Hint Rewrite d_escaped d_single : calls.

Lemma d_char : forall p lf d out c o, call p G lf (S (S d)) None "describe_char" [VStr out; VInt U8 c; v_out o] =
  Ret (Some (ok_ VUnit, [VStr (out ++ describe_char c o); VInt U8 c; v_out o])).
Proof.
  enter. unfold describe_char, is_dot, backslash. destruct o; unfold v_out; auto_.
  all: rewrite <- ?app_assoc, ?app_nil_r; try reflexivity.
  all: repeat match goal with
    | H : existsb _ (VInt U8 94 :: _) = ?r |- _ => change (existsb (N.eqb c) ESCAPED = r) in H; rewrite H; clear H
    | H : existsb _ (VInt U8 34 :: _) = ?r |- _ => change (existsb (N.eqb c) DOT_SINGLE_ESCAPED = r) in H; rewrite H; clear H
    end; reflexivity.
Qed.
#[export] Hint Rewrite d_char : calls.
Arguments describe_char : simpl never.
Arguments describe_range : simpl never.
Arguments describe_range_loop : simpl never.
Arguments contiguous_loop : simpl never.
Arguments mnemonic_loop : simpl never.
Arguments ranges_loop : simpl never.
Strategy 500 [describe_char describe_range describe_range_loop contiguous_loop mnemonic_loop ranges_loop].
Lemma drl_S : forall p f c1 c2 o out, describe_range_loop p (S f) c1 c2 o out =
    (let out' := out ++ describe_char c1 o in
    let! c1' := chk_add p 8 c1 1 in
    if c2 <? c1' then Ret out' else describe_range_loop p f c1' c2 o out').
Proof. reflexivity. Qed.
Lemma drl_ends : forall p c2 o n c1 out, (c2 < 255 \/ (c2 = 255 /\ overflow_checks p = true)) -> c1 < 256 -> (c2 + 256 - c1) mod 256 < N.of_nat n -> describe_range_loop p n c1 c2 o out <> Diverge.
Proof.
  intros p c2 o n. induction n as [|n IH]; intros c1 out H2 H1 Hn; [lia|]. rewrite drl_S. cbv zeta.
  unfold chk_add. change (2 ^ 8) with 256. destruct (c1 + 1 <? 256) eqn:E.
  - cbn [bind]. destruct (c2 <? c1 + 1) eqn:F; [discriminate|]. apply IH; [exact H2|lia|]. lia.
  - destruct (overflow_checks p); [discriminate|]. cbn [bind]. replace c1 with 255 in * by lia. change ((255 + 1) mod 256) with 0.
    destruct (c2 <? 0) eqn:F; [discriminate|]. apply IH; [exact H2|lia|]. lia.
Qed.
Lemma d_range : forall p lf d out c1 c2 o, c1 < 256 -> c2 < 256 -> (20 <= lf)%nat -> call p G lf (S (S (S d))) None "describe_range" [VStr out; VInt U8 c1; VInt U8 c2; v_out o] =
  (let! s := describe_range p c1 c2 o in Ret (Some (ok_ VUnit, [VStr (out ++ s); VInt U8 c1; VInt U8 c2; v_out o]))).
Proof.
  enter. unfold describe_range. auto_.
  all: rewrite <- ?app_assoc; try reflexivity.
  assert (Ha : a = (c2 + 256 - c1) mod 256).
  { revert Heqo0. unfold chk_sub. change (2 ^ 8) with 256. destruct (c1 <=? c2) eqn:E; [intros [= <-]; lia|]. destruct (overflow_checks p); [discriminate|]. intros [= <-]. f_equal. lia. }
  assert (Hc : (c2 < 255 \/ (c2 = 255 /\ overflow_checks p = true)) \/ (c2 = 255 /\ overflow_checks p = false)) by (destruct (overflow_checks p); lia).
  match goal with |- ?L = ?R => match L with context C [loop ?p ?g ?o1 ?cf _ ?w _] => match R with context D [describe_range_loop _ _ _ _ _ _] =>
    enough (A : forall f k c acc, (f <= k)%nat -> describe_range_loop p f c c2 o acc <> Diverge ->
      ltac:(let t := context C [loop p g o1 cf k w [("c1", VInt U8 c); ("f", VStr (out ++ acc)); ("c1", VInt U8 c1); ("c2", VInt U8 c2); ("out_type", v_out o)]] in exact t) =
      ltac:(let t := context D [describe_range_loop p f c c2 o acc] in exact t));
    [ enough (B : c2 = 255 -> overflow_checks p = false -> forall k c out1, c < 256 -> 
      ltac:(let t := context C [loop p g o1 cf k w [("c1", VInt U8 c); ("f", VStr out1); ("c1", VInt U8 c1); ("c2", VInt U8 c2); ("out_type", v_out o)]] in exact t) = Diverge);
      [ | clear A ] | ] end end end.
  - destruct Hc as [Hc|[Hc1 Hc2]].
    + rewrite <- (app_nil_r out) at 1. apply (A 5%nat); [lia|]. apply drl_ends; [exact Hc|exact H|]. change (N.of_nat 5) with 5. lia.
    + rewrite B by assumption. subst c2.
      assert (D : forall f c acc, c < 256 -> describe_range_loop p f c 255 o acc = Diverge).
      { induction f as [|f IH]; intros c acc Hx; [reflexivity|]. rewrite drl_S. cbv zeta. unfold chk_add. change (2 ^ 8) with 256. rewrite Hc2.
        destruct (c + 1 <? 256) eqn:E; cbn [bind].
        - replace (255 <? c + 1) with false by lia. apply IH. lia.
        - replace (255 <? (c + 1) mod 256) with false by lia. apply IH. lia. }
      rewrite D by assumption. reflexivity.
  - intros E Hov. induction k as [|k IH]; intros c out1 Hx; [reflexivity|]. rewrite turn_loop. subst c2. auto_.
    + exfalso. unfold chk_add in Heqo1. change (2 ^ 8) with 256 in Heqo1. rewrite Hov in Heqo1. destruct (c + 1 <? 256) eqn:E; injection Heqo1 as <-; lia.
    + apply IH. unfold chk_add in Heqo1. change (2 ^ 8) with 256 in Heqo1. rewrite Hov in Heqo1. destruct (c + 1 <? 256) eqn:E; injection Heqo1 as <-; lia.
    + unfold chk_add in Heqo1. change (2 ^ 8) with 256 in Heqo1. rewrite Hov in Heqo1. destruct (c + 1 <? 256); discriminate.
  - induction f as [|f IH]; intros k c acc Hk Hd; [destruct (Hd eq_refl)|]. destruct k as [|k]; [lia|]. rewrite turn_loop. rewrite drl_S in Hd |- *. cbv zeta in Hd |- *. auto_.
    all: rewrite <- ?app_assoc; try reflexivity. cbn [bind] in Hd. rewrite Heqb1 in Hd. apply IH; [lia|exact Hd].
Qed.
#[export] Hint Rewrite d_range using (assumption || lia) : calls.
