(** Runs of the source text: set_range. *)
From Verif Require Import Base ModelUtil ModelBitField ModelRust ModelInterp ModelDump ModelSource SpecSource ProofBase ProofBitField ProofBitField2.
From Verif Require Import ProofSourceA ProofSourceB ProofSourceC.
Local Open Scope string_scope.
Local Open Scope N_scope.
Local Open Scope list_scope.

Lemma srl_S : forall p f b i to, set_range_loop p (S f) b i to =
    (let! lhs := chk_add p (usize_bits p) i BLOCK_SIZE in
    let! rhs := chk_add p (usize_bits p) to 1 in
    if lhs <=? rhs then
      let! b' := put_block b (i / BLOCK_SIZE) ALL_ONES in
      let! i' := chk_add p (usize_bits p) i BLOCK_SIZE in
      set_range_loop p f b' i' to
    else Ret (b, i)).
Proof. reflexivity. Qed.
Lemma land_le_r : forall a b, N.land a b <= b.
Proof.
  intros a b. apply N.ldiff_le, N.bits_inj_0. intro i. rewrite N.ldiff_spec, N.land_spec. destruct (N.testbit a i), (N.testbit b i); reflexivity.
Qed.
Lemma c_set_range : forall p lf d b x y, x < 256 -> y < 256 -> (20 <= lf)%nat -> call p G lf (S (S (S d))) BFo "set_range" [v_bf b; VInt U8 x; VInt U8 y] = (let! b' := bf_set_range p b x y in Ret (Some (VUnit, [v_bf b'; VInt U8 x; VInt U8 y]))).
Proof.
  intros. enter. destruct b as [b0 b1 b2 b3]. unfold bf_set_range, upd_block, rs_debug_assert_m, BLOCK_SIZE.
  assert (Hu : 2 ^ 32 <= 2 ^ usize_bits p) by (apply N.pow_le_mono_r; [lia|unfold usize_bits; destruct (target p); lia]). change (2 ^ 32) with 4294967296 in Hu.
  assert (Hadd : forall a b, a + b < 4294967296 -> chk_add p (usize_bits p) a b = Ret (a + b)).
  { intros a b Hab. unfold chk_add. replace (a + b <? 2 ^ usize_bits p) with true by lia. reflexivity. }
  auto_.
  all: match goal with |- ?L = ?R => match L with context C [loop ?p ?g ?o ?cf _ ?w _] => match R with context D [set_range_loop _ _ ?b1 ?i1 _] =>
    enough (A : forall f b i k, (f < k)%nat -> i <= 320 -> y + 1 < i + 64 * (N.of_nat f + 1) ->
      ltac:(let t := context C [loop p g o cf k w [("i", VInt Usize i); ("self", v_bf b); ("from", VInt U8 x); ("to", VInt U8 y)]] in exact t) =
      ltac:(let t := context D [set_range_loop p (S f) b i y] in exact t)); [apply (A 5%nat b1 i1); [lia|try lia|change (N.of_nat 5) with 5; lia]|]
  end end end.
  2: match goal with H : round_up_n _ _ _ _ = Ret ?a |- ?a <= 320 => clear - H; unfold round_up_n in H; change (chk_sub p 8 64 1) with (@Ret N 63) in H; cbn [bind] in H;
       destruct (chk_add p (usize_bits p) x 63); cbn [bind] in H; try discriminate; injection H as <-; change (bnot 8 63) with 192;
       apply N.le_trans with 192; [apply land_le_r|lia] end.
  all: intro f; induction f as [|f IH]; intros b i k Hk Hi Hf; (destruct k as [|k]; [lia|]); rewrite srl_S; unfold BLOCK_SIZE; rewrite turn_while;
      do 2 (exe; rewrite ?Hadd by lia); exe; destruct b; destruct (i + 64 <=? y + 1) eqn:Q; [exfalso; apply N.leb_le in Q; lia|auto_| |clear IH; auto_].
  all: apply N.leb_le in Q; match goal with |- context [loop _ _ _ _ ?k (WWhile _ _)] => pose proof (fun b' => IH b' (i + 64) k ltac:(lia) ltac:(lia) ltac:(lia)) as IH' end; clear IH; exe;
    destruct (four (i / 64)) as [E|[E|[E|[E|E]]]]; rewrite ?E, ?get_block_big, ?put_block_big by exact E; cbn [put_block]; exe; rewrite ?Hadd by lia; exe; fin; try match goal with |- _ = ?R => match R with context [set_range_loop _ _ ?b1 _ _] => exact (IH' b1) end end.
Qed.
