(** Runs of the source text: describe_class_int. *)
From Verif Require Import Base ModelUtil ModelBitField ModelCharReach ModelDump ModelRust ModelInterp ModelSource SpecSource SpecSet SpecDump ProofBitField ProofBitField2 ProofDump.
From Verif Require Import ProofSourceA ProofSourceB ProofSourceC ProofSourceD ProofSourceE ProofSourceF ProofSourceG ProofSourceH.
Local Open Scope string_scope.
Local Open Scope N_scope.
Local Open Scope list_scope.
Lemma ml_S : forall p f cr i max o out, mnemonic_loop p (S f) cr i max o out =
    (let! r := extract_mnemonic p cr o in
    match r with
    | None => Ret (inl (cr, i, out))
    | Some (s, remaining) =>
      let i' := i + 1 in
      if i' =? max then Ret (inr (out ++ s ++ lit "...]"))
      else mnemonic_loop p f remaining i' max o (out ++ s)
    end).
Proof. reflexivity. Qed.
Lemma rl_S : forall p f cr c_start c_last i max o out, ranges_loop p (S f) cr c_start c_last i max o out =
    (let! next := cr_find_next p cr c_last in
    match next with
    | None => Ret (inl (c_start, c_last, i, out))
    | Some c =>
      let! l1 := chk_add p 8 c_last 1 in
      if negb (c =? l1) then
        let! s := describe_range p c_start c_last o in
        let i' := i + 1 in
        if i' =? max then Ret (inr (out ++ s ++ lit "...]"))
        else ranges_loop p f cr c c i' max o (out ++ s)
      else ranges_loop p f cr c_start c i max o out
    end).
Proof. reflexivity. Qed.
Lemma contiguous_bytes : forall p b x y, wf b -> contiguous_range p b = Ret (Some (x, y)) -> x < 256 /\ y < 256.
Proof.
  intros p b x y Hb. unfold contiguous_range. destruct (cr_find_first p b) as [[n|]| |] eqn:E; cbn [bind]; try discriminate.
  apply first_lt in E; [|exact Hb]. intro H. cut (forall f c, c < 256 -> forall m, contiguous_loop p f b c = Ret (Some m) -> m < 256).
  - intro K. destruct (contiguous_loop p LOOP_FUEL b n) as [[m|]| |] eqn:F; cbn in H; try discriminate. injection H as <- <-. split; [exact E|exact (K _ _ E _ F)].
  - clear H. induction f as [|f IH]; intros c Hc m; [discriminate|]. rewrite cl_S. destruct (cr_find_next p b c) as [[q|]| |] eqn:F; cbn [bind]; try discriminate; [|intros [= <-]; exact Hc].
    destruct (chk_add p 8 c 1) as [l| |]; cbn [bind]; try discriminate. destruct (negb (q =? l)); [discriminate|]. apply IH. apply (next_gt p b c q Hb Hc F).
Qed.
Lemma extract_wf : forall p cr o, wf cr -> match extract_mnemonic p cr o with Ret (Some (_, r)) => wf r | _ => True end.
Proof.
  intros p cr o W. pose proof (extract_ok p cr o W) as X. destruct (extraction o (elements cr)) as [[s r]|]; [destruct X as (c & -> & H & _); exact H|rewrite X; exact I].
Qed.
Lemma d_class_int : forall p lf d out b m o, (300 <= lf)%nat -> wf b -> call p G lf (S (S (S (S (S (S (S (S d)))))))) None "describe_class_int" [VStr out; v_cr b; VInt Usize m; v_out o] =
  (let! (s, n) := describe_class_int p b m o in Ret (Some (ok_ (VInt Usize n), [VStr (out ++ s); v_cr b; VInt Usize m; v_out o]))).
Proof.
  intros p lf d out b m o Hl Hb. enter. unfold describe_class_int, LOOP_FUEL.
  assert (Hu : 2 ^ 32 <= 2 ^ usize_bits p) by (apply N.pow_le_mono_r; [lia|unfold usize_bits; destruct (target p); lia]). change (2 ^ 32) with 4294967296 in Hu.
  assert (Hadd : forall a b, a + b < 4294967296 -> chk_add p (usize_bits p) a b = Ret (a + b)).
  { intros x y Hab. unfold chk_add. replace (x + y <? 2 ^ usize_bits p) with true by lia. reflexivity. }
  exe. destruct (contiguous_range p b) as [[[x y]|]| |] eqn:C; [destruct (contiguous_bytes p b x y Hb C)|..]; cbn [bind v_pair]; auto_.
  match goal with |- ?L = ?R => match L with context C [loop ?p ?g ?o1 ?cf _ ?w _] => match R with context D [mnemonic_loop _ _ _ _ _ _ _] =>
    enough (A : forall f k cr i acc, (f <= k)%nat -> wf cr -> i + N.of_nat f <= 4 -> mnemonic_loop p f cr i m o acc <> Diverge ->
      ltac:(let t := context C [loop p g o1 cf k w [("cr", v_cr cr); ("i", VInt Usize i); ("f", VStr (out ++ acc)); ("incr", v_cr b); ("max_length", VInt Usize m); ("out_type", v_out o)]] in exact t) =
      ltac:(let t := context D [mnemonic_loop p f cr i m o acc] in exact t)) end end end.
  { rewrite <- (app_nil_r out) at 1. apply (A 4%nat); [lia|exact Hb|cbn; lia|].
    pose proof (mnemonic_loop_ok p b m o Hb) as X. destruct (abbreviations o (elements b)) as [ab rest].
    destruct ((0 <? m) && _); [rewrite X; discriminate|]. destruct X as (cr' & -> & _). discriminate. }
  induction f as [|f IH]; intros k cr i acc Hk Hcr Hi Hd; [destruct (Hd eq_refl)|]. destruct k as [|k]; [lia|]. rewrite turn_whilelet. rewrite ml_S in Hd |- *. exe.
  pose proof (extract_wf p cr o Hcr) as W. destruct (extract_mnemonic p cr o) as [[[s r]|]| |] eqn:E; cbn [bind] in Hd |- *; [|clear IH|auto_..].
  - exe. rewrite Hadd by lia. auto_; cbv zeta in Hd; try rewrite Heqb0 in Hd; rewrite <- ?app_assoc; try reflexivity.
    apply IH; [lia|exact W|lia|exact Hd].
  - auto_; rewrite ?app_nil_r; try reflexivity. destruct a as [c0|]; cbn [v_opt]; auto_; rewrite ?app_nil_r; try reflexivity.
    assert (H0 : c0 < 256) by exact (first_lt p cr c0 Hcr Heqo0).
    match goal with |- ?L = ?R => match L with context C [loop ?p ?g ?o1 ?cf _ ?w _] => match R with context D [ranges_loop _ _ _ _ _ _ _ _ _] =>
    enough (A2 : forall f k cs cl i1 acc1, (f <= k)%nat -> cs < 256 -> cl < 256 -> 256 <= cl + N.of_nat f -> i1 + N.of_nat f <= 1000 ->
      ltac:(let t := context C [loop p g o1 cf k w [("c_last", VInt U8 cl); ("c_start", VInt U8 cs); ("cr", v_cr cr); ("i", VInt Usize i1); ("f", VStr (out ++ acc1)); ("incr", v_cr b); ("max_length", VInt Usize m); ("out_type", v_out o)]] in exact t) =
      ltac:(let t := context D [ranges_loop p f cr cs cl i1 m o acc1] in exact t)) end end end.
    { apply (A2 257%nat); change (N.of_nat 257) with 257; lia. }
    clear f k Hk Hi Hd. induction f as [|f IH]; intros k cs cl i1 acc1 Hk Hcs Hcl Hf Hi; [lia|]. destruct k as [|k]; [lia|]. rewrite turn_whilelet, rl_S. pose proof (Hadd i1 1 ltac:(lia)) as Hn. exe.
    destruct (cr_find_next p cr cl) as [[q|]| |] eqn:F; cbn [bind v_opt]; [destruct (next_gt p cr cl q Hcr Hcl F)|..]; auto_; rewrite <- ?app_assoc; try reflexivity.
    all: apply IH; lia.
Qed.
#[export] Hint Rewrite d_class_int using (assumption || lia) : calls.
