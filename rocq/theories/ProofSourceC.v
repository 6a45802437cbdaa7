(** Runs of the source text: count, find_nth, the rounding helpers and compare.rs. *)
From Verif Require Import Base ModelUtil ModelBitField ModelRust ModelInterp ModelDump ModelSource SpecSource ProofBase ProofBitField ProofBitField2.
From Verif Require Import ProofSourceA ProofSourceB.
Local Open Scope string_scope.
Local Open Scope N_scope.
Local Open Scope list_scope.
#[export] Hint Rewrite c_find_first c_find_last c_find_next using lia : calls.
Lemma count_ones64_le : forall x, count_ones64 x <= 64.
Proof. intro x. unfold count_ones64. assert (F : forall (f : N -> bool) l, (List.length (filter f l) <= List.length l)%nat) by (intros f l; induction l as [|y l IH]; cbn; [lia|destruct (f y); cbn; lia]). pose proof (F (N.testbit x) (seqN 0 64)) as H. rewrite seqN_length in H. lia. Qed.
Lemma add32 : forall p a b, a <= 192 -> b <= 64 -> chk_add p 32 a b = Ret (a + b).
Proof. intros. unfold chk_add. replace (a + b <? 2 ^ 32) with true by (symmetry; apply N.ltb_lt; change (2 ^ 32) with 4294967296; lia). reflexivity. Qed.
Lemma c_count : forall p lf d b, call p G lf (S (S d)) BFo "count" [v_bf b] = Ret (Some (VInt U32 (bf_count b), [v_bf b])).
Proof.
  enter. unfold bf_count. pose proof (count_ones64_le (w0 b)). pose proof (count_ones64_le (w1 b)). pose proof (count_ones64_le (w2 b)). pose proof (count_ones64_le (w3 b)).
  do 4 (exe; rewrite add32 by lia). exe. fin.
Qed.
#[export] Hint Rewrite c_count : calls.


Lemma c_find_nth : forall p lf d b n, n < 256 -> (300 <= lf)%nat -> call p G lf (S (S (S (S d)))) BFo "find_nth" [v_bf b; VInt U8 n] = (let! r := bf_find_nth p b n in Ret (Some (v_opt r, [v_bf b; VInt U8 n]))).
Proof.
  intros p lf d b n Hn Hl. enter. unfold bf_find_nth. repeat lhs.
  match goal with |- ?L = _ => match L with context C [loop ?p ?g ?o ?cf _ (WFor ?q _ ?body) _] =>
    enough (A : forall l i sum k, (List.length l + 260 <= k)%nat ->
      ltac:(let t := context C [loop p g o cf k (WFor q (enumerate_from i (map (VInt U64) l)) body) [("sum", VInt U32 sum); ("self", v_bf b); ("n", VInt U8 n)]] in exact t) =
      (let! r := find_nth_loop p b n i sum l in Ret (Some (v_opt r, [v_bf b; VInt U8 n]))))
  end end.
  { apply (A (words b) 0 0 lf). cbn. lia. }
  intro l; induction l as [|x l IH]; intros i sum k Hk; cbn [List.length] in Hk.
  - destruct k as [|k]; [lia|]. cbn [enumerate_from map find_nth_loop]. rewrite turn_end. unfold rs_debug_assert. auto_.
  - destruct k as [|k]; [lia|]. cbn [enumerate_from map find_nth_loop]. rewrite turn_for. unfold rs_debug_assert, rs_debug_assert_m, bit_index, BLOCK_SIZE. auto_; [|apply IH; lia].
    match goal with |- context [loop ?p ?g ?o ?cf _ (WFor PWild ?it ?body) (?a :: ("block", _) :: ?s)] =>
      assert (I : forall k y f m, (k < m)%nat -> loop p g o cf m (WFor PWild (map (VInt U32) (seqN f k)) body) (a :: ("block", VInt U64 y) :: s) =
        (let! y' := drop_low_bits p k y in val_ VUnit (a :: ("block", VInt U64 y') :: s)))
    end.
    { induction k0 as [|k0 IHk]; intros y f m Hm; (destruct m as [|m]; [lia|]); cbn [seqN map drop_low_bits]; [rewrite turn_end; reflexivity|].
      rewrite turn_for. unfold rs_debug_assert. auto_; apply IHk; lia. }
    rewrite I by lia. auto_.
Qed.

#[export] Hint Rewrite c_find_nth using (assumption || lia) : calls.
(** ue2common.rs *)
Notation ibits := ModelInterp.bits.
Lemma c_round_up_16 : forall p lf d w a, w <> U8 -> call p G lf (S d) None "round_up_16" [VInt w a] = (let! r := round_up_16 p (ibits p w) a in Ret (Some (VInt w r, [VInt w a]))).
Proof. intros p lf d w a N. enter. unfold round_up_16. destruct w; cbn [ModelInterp.bits]; [destruct (N eq_refl)|auto_..]. Qed.
Lemma c_round_down_16 : forall p lf d w a, w <> U8 -> call p G lf (S d) None "round_down_16" [VInt w a] = Ret (Some (VInt w (round_down_16 a), [VInt w a])).
Proof. intros p lf d w a N. enter. unfold round_down_16. destruct w; cbn [ModelInterp.bits]; [destruct (N eq_refl)|auto_..]. Qed.
Lemma c_round_up_n : forall p lf d w a n, w <> U8 -> call p G lf (S d) None "round_up_n" [VInt w a; VInt U8 n] = (let! r := round_up_n p (ibits p w) a n in Ret (Some (VInt w r, [VInt w a; VInt U8 n]))).
Proof. intros p lf d w a n N. enter. unfold round_up_n. destruct w; cbn [ModelInterp.bits]; [destruct (N eq_refl)|auto_..]. Qed.
Lemma c_round_down_n : forall p lf d w a n, w <> U8 -> call p G lf (S d) None "round_down_n" [VInt w a; VInt U8 n] = (let! r := round_down_n p a n in Ret (Some (VInt w r, [VInt w a; VInt U8 n]))).
Proof. intros p lf d w a n N. enter. unfold round_down_n. destruct w; cbn [ModelInterp.bits]; [destruct (N eq_refl)|auto_..]. Qed.
Lemma c_round_up_cache_line : forall p lf d w a, w <> U8 -> call p G lf (S d) None "round_up_cache_line" [VInt w a] = (let! r := round_up_cache_line p (ibits p w) a in Ret (Some (VInt w r, [VInt w a]))).
Proof. intros p lf d w a N. enter. unfold round_up_cache_line. destruct w; cbn [ModelInterp.bits]; [destruct (N eq_refl)|auto_..]. Qed.
#[export] Hint Rewrite c_round_up_16 c_round_down_16 c_round_up_n c_round_down_n c_round_up_cache_line using discriminate : calls.
(** compare.rs *)
Lemma c_myisupper : forall p lf d c, call p G lf (S d) None "myisupper" [VInt U8 c] = Ret (Some (VBool (myisupper c), [VInt U8 c])).
Proof. pure_. Qed.
Lemma c_myislower : forall p lf d c, call p G lf (S d) None "myislower" [VInt U8 c] = Ret (Some (VBool (myislower c), [VInt U8 c])).
Proof. pure_. Qed.
#[export] Hint Rewrite c_myisupper c_myislower : calls.
Lemma c_mytolower : forall p lf d c, call p G lf (S (S d)) None "mytolower" [VInt U8 c] = Ret (Some (VInt U8 (mytolower c), [VInt U8 c])).
Proof.
  enter. unfold mytolower. auto_; apply andb_prop in Heqb as [_ A%N.leb_le];
  unfold chk_add in Heqo; replace (c + 32 <? 2 ^ 8) with true in Heqo by (change (2 ^ 8) with 256; lia); congruence.
Qed.
Lemma c_mytoupper : forall p lf d c, call p G lf (S (S d)) None "mytoupper" [VInt U8 c] = Ret (Some (VInt U8 (mytoupper c), [VInt U8 c])).
Proof.
  enter. unfold mytoupper. auto_; apply andb_prop in Heqb as [A%N.leb_le _];
  unfold chk_sub in Heqo; replace (32 <=? c) with true in Heqo by lia; congruence.
Qed.
#[export] Hint Rewrite c_mytolower c_mytoupper : calls.
Lemma c_ourisalpha : forall p lf d c, call p G lf (S (S (S d))) None "ourisalpha" [VInt U8 c] = Ret (Some (VBool (ourisalpha c), [VInt U8 c])).
Proof. pure_. Qed.
#[export] Hint Rewrite c_ourisalpha : calls.
