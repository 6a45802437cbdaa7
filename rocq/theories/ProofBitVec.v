(** Lemmas about bit vectors. *)
From Verif Require Import Base ModelUtil ModelLiteral ModelBitVec SpecBitVec ProofBase ProofLiteral.
Local Open Scope N_scope.

(** Word [k] holds bits [32 k .. 32 k + 31]. *)
Definition holds (v : bitvec) (bs : list bool) : Prop :=
  bv_nbits v = N.of_nat (List.length bs) /\
  N.of_nat (List.length (bv_storage v)) = (bv_nbits v + 31) / 32 /\
  Forall (fun w => w < 2 ^ 32) (bv_storage v) /\
  forall k j, j < 32 ->
    N.testbit (nth k (bv_storage v) 0) j = nth (32 * k + N.to_nat j) bs false.

Lemma holds_default : holds bv_default [].
Proof.
  unfold holds, bv_default; cbn. conjs; auto.
  intros k j H. destruct k; rewrite N.bits_0; destruct (_ + N.to_nat j)%nat; reflexivity.
Qed.

Lemma upd_nth_len : forall {A} (f : A -> A) l i, List.length (list_upd l i f) = List.length l.
Proof. intros A f l; induction l as [|x l IH]; intros [|i]; simpl; auto. Qed.
Lemma upd_nth : forall {A} (f : A -> A) l i j d, (i < List.length l)%nat ->
  nth j (list_upd l i f) d = if Nat.eqb j i then f (nth j l d) else nth j l d.
Proof.
  intros A f l; induction l as [|x l IH]; intros i j d H; simpl in H; [lia|].
  destruct i, j; simpl; try reflexivity. apply IH. lia.
Qed.
Lemma upd_forall : forall {A} (P : A -> Prop) (f : A -> A) l i, Forall P l -> (forall x, P x -> P (f x)) -> Forall P (list_upd l i f).
Proof.
  intros A P f l; induction l as [|x l IH]; intros i H Hf; destruct i; simpl; auto; inversion H; subst; constructor; auto.
Qed.
Lemma nth_snoc : forall (bs : list bool) b i, nth i (bs ++ [b]) false = if Nat.eqb i (List.length bs) then b else nth i bs false.
Proof.
  induction bs as [|x bs IH]; intros b [|i]; simpl; try reflexivity.
  - destruct i; reflexivity.
  - apply IH.
Qed.
Lemma nth_snoc0 : forall (l : list N) i, nth i (l ++ [0]) 0 = nth i l 0.
Proof. induction l as [|x l IH]; intros [|i]; simpl; auto. destruct i; reflexivity. Qed.
Lemma shl32 : forall p j, j < 32 -> chk_shl p 32 1 j = Ret (2 ^ j).
Proof.
  intros p j H. unfold chk_shl. apply N.ltb_lt in H as H'. rewrite H'. rewrite N.shiftl_1_l, N.mod_small; [reflexivity|].
  apply N.pow_lt_mono_r; lia.
Qed.

Lemma holds_push : forall p v bs b, holds v bs -> bv_nbits v + 1 < 2 ^ usize_bits p ->
  exists v', bv_push p v b = Ret v' /\ holds v' (bs ++ [b]).
Proof.
  intros p v bs b (Hn & Hl & Hw & Hb) Hroom. unfold bv_push.
  apply N.ltb_lt in Hroom as Hr. rewrite Hr. cbn [expect bind].
  set (n := bv_nbits v) in *.
  set (st := if n mod 32 =? 0 then bv_storage v ++ [0] else bv_storage v).
  assert (Lst : N.of_nat (List.length st) = n / 32 + 1).
  { subst st. destruct (N.eqb_spec (n mod 32) 0) as [E|E].
    - rewrite app_length. cbn [List.length]. rewrite Nat2N.inj_add, Hl. cbn.
      pose proof (N.div_mod' n 32). f_equal. rewrite E in H. symmetry. apply N.div_unique with (r := 31); lia.
    - rewrite Hl. pose proof (N.div_mod' n 32). pose proof (N.mod_lt n 32).
      symmetry. apply N.div_unique with (r := n mod 32 - 1); lia. }
  assert (Wst : Forall (fun w => w < 2 ^ 32) st).
  { subst st. destruct (n mod 32 =? 0); [|exact Hw]. apply Forall_app. split; [exact Hw|]. constructor; [reflexivity|constructor]. }
  assert (Bst : forall k, nth k st 0 = nth k (bv_storage v) 0).
  { intro k. subst st. destruct (n mod 32 =? 0); [apply nth_snoc0|reflexivity]. }
  clearbody st.
  unfold bv_set. cbn [bv_storage bv_nbits].
  assert (A1 : n <? n + 1 = true) by (apply N.ltb_lt; lia). rewrite A1. cbn [rs_assert bind].
  assert (Hj : n mod 32 < 32) by (apply N.mod_lt; lia).
  rewrite shl32 by exact Hj. cbn [bind].
  destruct (nth_error st (N.to_nat (n / 32))) as [x|] eqn:Ex.
  2:{ apply nth_error_None in Ex. lia. }
  eexists. split; [reflexivity|].
  assert (Lk : (N.to_nat (n / 32) < List.length st)%nat) by lia.
  assert (Hx : nth (N.to_nat (n / 32)) st 0 = x) by (apply nth_error_nth; exact Ex).
  assert (Xw : x < 2 ^ 32) by (rewrite Forall_forall in Hw, Wst; apply Wst; eapply nth_error_In; exact Ex).
  unfold holds. cbn [bv_storage bv_nbits]. conjs.
  - rewrite app_length, Nat2N.inj_add, <- Hn. reflexivity.
  - rewrite upd_nth_len, Lst. pose proof (N.div_mod' n 32). apply N.div_unique with (r := n mod 32); lia.
  - apply upd_forall; [exact Wst|]. intros _ _. apply lt_pow2_bits. intros i Hi.
    assert (Zx : N.testbit x i = false).
    { destruct (N.eq_dec x 0) as [->|Nz]; [apply N.bits_0|]. apply N.bits_above_log2.
      assert (N.log2 x < 32) by (apply N.log2_lt_pow2; lia). lia. }
    destruct b.
    + rewrite N.lor_spec, Zx, N.pow2_bits_false by lia. reflexivity.
    + rewrite N.land_spec, Zx. reflexivity.
  - intros k j Lj. rewrite upd_nth by exact Lk. rewrite nth_snoc, <- (Hb k j Lj), <- Bst.
    pose proof (N.div_mod' n 32) as D.
    assert (Len : List.length bs = N.to_nat n) by lia. rewrite Len.
    destruct (Nat.eqb_spec k (N.to_nat (n / 32))) as [->|Nk].
    + rewrite Hx. destruct (N.eq_dec j (n mod 32)) as [->|Nj].
      * assert (T : (32 * N.to_nat (n / 32) + N.to_nat (n mod 32) =? N.to_nat n)%nat = true)
          by (apply Nat.eqb_eq; lia). rewrite T.
        destruct b; [rewrite N.lor_spec, N.pow2_bits_true, orb_true_r; reflexivity|].
        rewrite N.land_spec, testbit_bnot, N.pow2_bits_true by exact Lj. apply andb_false_r.
      * assert (T : (32 * N.to_nat (n / 32) + N.to_nat j =? N.to_nat n)%nat = false)
          by (apply Nat.eqb_neq; lia). rewrite T.
        destruct b; [rewrite N.lor_spec, N.pow2_bits_false, orb_false_r by lia; reflexivity|].
        rewrite N.land_spec, testbit_bnot, N.pow2_bits_false by lia. apply andb_true_r.
    + assert (T : (32 * k + N.to_nat j =? N.to_nat n)%nat = false).
      { apply Nat.eqb_neq. intro E. apply Nk. assert (N.of_nat k = n / 32); [|lia]. apply N.div_unique with (r := j); lia. }
      rewrite T. reflexivity.
Qed.
Lemma push_full : forall p v b, 2 ^ usize_bits p <= bv_nbits v + 1 -> bv_push p v b = Panic PExpect.
Proof. intros p v b H. unfold bv_push. apply N.ltb_ge in H. rewrite H. reflexivity. Qed.

Lemma pushes_ok : forall p bs v cs, holds v cs -> N.of_nat (List.length (cs ++ bs)) < 2 ^ usize_bits p ->
  exists v', bv_pushes p v bs = Ret v' /\ holds v' (cs ++ bs).
Proof.
  intros p bs; induction bs as [|b bs IH]; intros v cs H L; cbn [bv_pushes].
  - rewrite app_nil_r. eauto.
  - destruct (holds_push p v cs b H) as (v1 & E1 & H1).
    + destruct H as (Hn & _). rewrite Hn. rewrite app_length in L. cbn [List.length] in L. lia.
    + rewrite E1. cbn [bind]. replace (cs ++ b :: bs) with ((cs ++ [b]) ++ bs) in * by (rewrite <- app_assoc; reflexivity).
      apply IH; assumption.
Qed.
Lemma pushes_full : forall p bs v cs, holds v cs -> (bs = [] -> False) ->
  2 ^ usize_bits p <= N.of_nat (List.length (cs ++ bs)) -> bv_pushes p v bs = Panic PExpect.
Proof.
  intros p bs; induction bs as [|b bs IH]; intros v cs H Ne L; [contradiction Ne; reflexivity|]. cbn [bv_pushes].
  destruct (N.lt_ge_cases (bv_nbits v + 1) (2 ^ usize_bits p)) as [R|R].
  - destruct (holds_push p v cs b H R) as (v1 & E1 & H1). rewrite E1. cbn [bind].
    apply IH with (cs := cs ++ [b]); [exact H1| |rewrite <- app_assoc; exact L].
    intros ->. destruct H as (Hn & _). rewrite app_length in L. cbn [List.length] in L. lia.
  - rewrite push_full by exact R. reflexivity.
Qed.

Lemma nth_nth_error : forall (l : list bool) i, (i < List.length l)%nat -> nth_error l i = Some (nth i l false).
Proof. intros l i H. apply nth_error_nth'. exact H. Qed.
Lemma land_bit : forall x j, negb (N.land x (N.shiftl 1 j) =? 0) = N.testbit x j.
Proof.
  intros x j. rewrite N.shiftl_1_l. destruct (N.eqb_spec (N.land x (2 ^ j)) 0) as [E|E]; cbn [negb].
  - assert (T : N.testbit (N.land x (2 ^ j)) j = false) by (rewrite E; apply N.bits_0).
    rewrite N.land_spec, N.pow2_bits_true, andb_true_r in T. congruence.
  - destruct (N.testbit x j) eqn:T; [reflexivity|]. exfalso. apply E. apply N.bits_inj. intro i.
    rewrite N.land_spec, N.bits_0. destruct (N.eq_dec j i) as [->|Ni]; [rewrite T; reflexivity|].
    rewrite N.pow2_bits_false by exact Ni. apply andb_false_r.
Qed.

Lemma holds_get : forall v bs i, holds v bs -> bv_get v i = if i <? N.of_nat (List.length bs) then nth_error bs (N.to_nat i) else None.
Proof.
  intros v bs i (Hn & Hl & Hw & Hb). unfold bv_get. rewrite Hn.
  destruct (N.ltb_spec i (N.of_nat (List.length bs))) as [L|L].
  - assert (X : N.of_nat (List.length bs) <=? i = false) by (apply N.leb_gt; exact L). rewrite X.
    pose proof (N.div_mod' i 32) as D. assert (Hj : i mod 32 < 32) by (apply N.mod_lt; lia).
    destruct (nth_error (bv_storage v) (N.to_nat (i / 32))) as [x|] eqn:Ex.
    + rewrite land_bit. rewrite <- (nth_error_nth _ _ 0 Ex), Hb by exact Hj.
      rewrite nth_nth_error by lia. f_equal. f_equal. lia.
    + exfalso. apply nth_error_None in Ex.
      assert (bv_nbits v + 31 = 32 * ((bv_nbits v + 31) / 32) + (bv_nbits v + 31) mod 32) by apply N.div_mod'.
      assert ((bv_nbits v + 31) mod 32 < 32) by (apply N.mod_lt; lia). lia.
  - assert (X : N.of_nat (List.length bs) <=? i = true) by (apply N.leb_le; exact L). rewrite X. reflexivity.
Qed.
Lemma holds_any : forall v bs, holds v bs -> bv_any v = existsb (fun b => b) bs.
Proof.
  intros v bs (Hn & Hl & Hw & Hb). unfold bv_any, bv_none.
  destruct (existsb (fun b => b) bs) eqn:E.
  - apply existsb_exists in E. destruct E as (b & I & ->). apply In_nth with (d := false) in I. destruct I as (i & Li & Hi).
    apply negb_true_iff. apply not_true_is_false. intro F. rewrite forallb_forall in F.
    pose proof (N.div_mod' (N.of_nat i) 32) as D. assert (Hj : N.of_nat i mod 32 < 32) by (apply N.mod_lt; lia).
    specialize (Hb (N.to_nat (N.of_nat i / 32)) (N.of_nat i mod 32) Hj).
    replace (32 * N.to_nat (N.of_nat i / 32) + N.to_nat (N.of_nat i mod 32))%nat with i in Hb by lia. rewrite Hi in Hb.
    destruct (nth_in_or_default (N.to_nat (N.of_nat i / 32)) (bv_storage v) 0) as [J|J].
    + apply F, N.eqb_eq in J. rewrite J, N.bits_0 in Hb. discriminate.
    + rewrite J, N.bits_0 in Hb. discriminate.
  - apply negb_false_iff. apply forallb_forall. intros x I. apply N.eqb_eq.
    apply In_nth with (d := 0) in I. destruct I as (k & Lk & <-). apply N.bits_inj. intro j. rewrite N.bits_0.
    destruct (N.lt_ge_cases j 32) as [Lj|Lj].
    + rewrite Hb by exact Lj. destruct (Nat.lt_ge_cases (32 * k + N.to_nat j) (List.length bs)) as [Li|Li].
      * apply not_true_is_false. intro T. assert (X : existsb (fun b => b) bs = true).
        { apply existsb_exists. exists true. split; [rewrite <- T; apply nth_In; exact Li|reflexivity]. }
        congruence.
      * apply nth_overflow. exact Li.
    + rewrite Forall_forall in Hw. assert (W : nth k (bv_storage v) 0 < 2 ^ 32) by (apply Hw, nth_In; exact Lk).
      destruct (N.eq_dec (nth k (bv_storage v) 0) 0) as [->|Nz]; [apply N.bits_0|]. apply N.bits_above_log2.
      assert (N.log2 (nth k (bv_storage v) 0) < 32) by (apply N.log2_lt_pow2; lia). lia.
Qed.

Lemma holds_next : forall v bs i, holds v bs -> bv_next v (N.of_nat i) = Ret (nth_error bs i).
Proof.
  intros v bs i H. unfold bv_next. rewrite (holds_get v bs _ H). destruct H as (Hn & _). rewrite Hn.
  destruct (N.ltb_spec (N.of_nat i) (N.of_nat (List.length bs))) as [L|L].
  - rewrite Nat2N.id. rewrite nth_nth_error by lia. reflexivity.
  - f_equal. symmetry. apply nth_error_None. lia.
Qed.
Lemma cmp_from_ok : forall a b x y, holds a x -> holds b y -> forall fuel i, (List.length x < fuel + i)%nat ->
  bv_cmp_from fuel a b (N.of_nat i) = Ret (lex_cmp bool_cmp (skipn i x) (skipn i y)) \/ (i > List.length x)%nat.
Proof.
  intros a b x y Ha Hb fuel; induction fuel as [|fuel IH]; intros i L; [right; lia|].
  destruct (Nat.lt_ge_cases (List.length x) i) as [Li|Li]; [right; lia|left]. cbn [bv_cmp_from].
  rewrite (holds_next a x _ Ha). cbn [bind]. destruct (nth_error x i) as [u|] eqn:Eu.
  - rewrite (holds_next b y _ Hb). cbn [bind]. rewrite (skipn_nth _ _ _ Eu).
    destruct (nth_error y i) as [w|] eqn:Ew.
    + rewrite (skipn_nth _ _ _ Ew). cbn [lex_cmp]. destruct (bool_cmp u w); try reflexivity.
      replace (N.of_nat i + 1) with (N.of_nat (S i)) by lia.
      destruct (IH (S i)) as [E|E]; [lia|exact E|].
      assert (i < List.length x)%nat by (apply nth_error_Some; congruence). lia.
    + rewrite (skipn_none _ _ Ew). reflexivity.
  - rewrite (holds_next b y _ Hb). cbn [bind]. rewrite (skipn_none _ _ Eu).
    destruct (nth_error y i) as [w|] eqn:Ew; [rewrite (skipn_nth _ _ _ Ew)|rewrite (skipn_none _ _ Ew)]; reflexivity.
Qed.
Lemma cmp_ok : forall a b x y, holds a x -> holds b y -> bv_cmp a b = Ret (lex_cmp bool_cmp x y).
Proof.
  intros a b x y Ha Hb. unfold bv_cmp.
  destruct (cmp_from_ok a b x y Ha Hb (S (N.to_nat (bv_nbits a))) 0) as [E|E].
  - destruct Ha as (Hn & _). lia.
  - exact E.
  - lia.
Qed.

Lemma lex_before : forall x y, lex_cmp bool_cmp x y = Lt <-> before x y.
Proof.
  split.
  - revert y; induction x as [|u x IH]; intros [|w y]; cbn [lex_cmp]; try discriminate.
    + intros _. apply (before_prefix []).
    + destruct u, w; cbn [bool_cmp]; try discriminate; intro H.
      * destruct (IH y H) as [a v r|c a b]; [apply (before_prefix (true :: a))|apply (before_bit (true :: c))].
      * apply (before_bit []).
      * destruct (IH y H) as [a v r|c a b]; [apply (before_prefix (false :: a))|apply (before_bit (false :: c))].
  - intros [a v r|c a b].
    + induction a as [|u a IH]; [reflexivity|]. cbn [app lex_cmp]. destruct u; exact IH.
    + induction c as [|u c IH]; [reflexivity|]. cbn [app lex_cmp]. destruct u; exact IH.
Qed.

Lemma value_bits : forall bs j, N.testbit (value bs) j = nth (N.to_nat j) bs false.
Proof.
  induction bs as [|b bs IH]; intro j; cbn [value].
  - rewrite N.bits_0. destruct (N.to_nat j); reflexivity.
  - destruct (N.eq_dec j 0) as [->|Nj].
    + destruct b; [rewrite N.add_comm, N.testbit_odd_0|rewrite N.add_0_l, N.testbit_even_0]; reflexivity.
    + replace j with (N.succ (N.pred j)) at 1 by lia.
      replace (N.to_nat j) with (S (N.to_nat (N.pred j))) by lia. cbn [nth]. rewrite <- IH.
      destruct b; [rewrite N.add_comm, N.testbit_odd_succ by lia|rewrite N.add_0_l, N.testbit_even_succ by lia]; reflexivity.
Qed.
Lemma nth_firstn : forall (l : list bool) n i, nth i (firstn n l) false = if Nat.ltb i n then nth i l false else false.
Proof.
  induction l as [|x l IH]; intros [|n] [|i]; simpl; try reflexivity.
  - destruct (Nat.ltb (S i) (S n)); reflexivity.
  - rewrite IH. reflexivity.
Qed.
Lemma nth_skipn : forall (l : list bool) n i, nth i (skipn n l) false = nth (n + i) l false.
Proof. induction l as [|x l IH]; intros [|n] i; simpl; try reflexivity; [destruct i; reflexivity|apply IH]. Qed.

(** Two lists of numbers with the same bits are the same. *)
Lemma nth_ext0 : forall (a b : list N), List.length a = List.length b ->
  (forall k, nth k a 0 = nth k b 0) -> a = b.
Proof. intros a b L H. apply nth_ext with (d := 0) (d' := 0); [exact L|]. intros k _. apply H. Qed.
Lemma words_length : forall fuel bs, (List.length bs <= fuel)%nat ->
  N.of_nat (List.length (words fuel bs)) = (N.of_nat (List.length bs) + 31) / 32.
Proof.
  intro fuel; induction fuel as [|fuel IH]; intros [|b bs] L; try reflexivity; [cbn [List.length] in L; lia|].
  cbn [words]. set (t := b :: bs) in *. cbn [List.length]. rewrite Nat2N.inj_succ, IH.
  - rewrite skipn_length. assert (Lt : (1 <= List.length t)%nat) by (subst t; cbn [List.length]; lia).
    destruct (Nat.lt_ge_cases (List.length t) 32) as [S1|S1].
    + replace (List.length t - 32)%nat with 0%nat by lia. change (N.succ ((N.of_nat 0 + 31) / 32)) with 1.
      apply N.div_unique with (r := N.of_nat (List.length t) - 1); lia.
    + replace (N.of_nat (List.length t) + 31) with (N.of_nat (List.length t - 32) + 31 + 1 * 32) by lia.
      rewrite N.div_add by lia. lia.
  - rewrite skipn_length. subst t. cbn [List.length] in *. lia.
Qed.
Lemma words_bits : forall fuel bs k j, (List.length bs <= fuel)%nat ->
  N.testbit (nth k (words fuel bs) 0) j = if j <? 32 then nth (32 * k + N.to_nat j) bs false else false.
Proof.
  intro fuel; induction fuel as [|fuel IH]; intros bs k j L.
  - destruct bs; [|cbn [List.length] in L; lia]. cbn [words]. destruct k; cbn [nth]; rewrite N.bits_0; destruct (j <? 32); try reflexivity;
      destruct (_ + N.to_nat j)%nat; reflexivity.
  - destruct bs as [|b bs].
    + cbn [words]. destruct k; cbn [nth]; rewrite N.bits_0; destruct (j <? 32); try reflexivity;
      destruct (_ + N.to_nat j)%nat; reflexivity.
    + cbn [words]. set (t := b :: bs) in *. destruct k as [|k]; cbn [nth].
      * rewrite value_bits, nth_firstn. replace (32 * 0 + N.to_nat j)%nat with (N.to_nat j) by lia.
        destruct (N.ltb_spec j 32); destruct (Nat.ltb_spec (N.to_nat j) 32); try lia; reflexivity.
      * rewrite IH by (rewrite skipn_length; subst t; cbn [List.length] in *; lia). rewrite nth_skipn.
        replace (32 * S k + N.to_nat j)%nat with (32 + (32 * k + N.to_nat j))%nat by lia. reflexivity.
Qed.
Lemma holds_stored : forall v bs, holds v bs -> bv_storage v = stored bs.
Proof.
  intros v bs (Hn & Hl & Hw & Hb). unfold stored. apply nth_ext0.
  - pose proof (words_length _ bs (le_n _)). rewrite <- Hn, <- Hl in H. lia.
  - intro k. apply N.bits_inj. intro j. rewrite words_bits by lia. destruct (N.ltb_spec j 32) as [L|L]; [apply Hb; exact L|].
    destruct (nth_in_or_default k (bv_storage v) 0) as [I|I]; [|rewrite I; apply N.bits_0].
    rewrite Forall_forall in Hw. apply Hw in I.
    destruct (N.eq_dec (nth k (bv_storage v) 0) 0) as [->|Nz]; [apply N.bits_0|]. apply N.bits_above_log2.
    assert (N.log2 (nth k (bv_storage v) 0) < 32) by (apply N.log2_lt_pow2; lia). lia.
Qed.

(** The literal over words and the literal over lists. *)
Definition same_literal (w : wliteral) (l : literal) : Prop := wl_s w = lit_s l /\ holds (wl_nocase w) (lit_nocase l).
Lemma same_push : forall p w l c n w', same_literal w l -> wl_push p w c n = Ret w' -> same_literal w' (lit_push l c n).
Proof.
  intros p w l c n w' [E H] P. unfold wl_push in P. destruct (N.lt_ge_cases (bv_nbits (wl_nocase w) + 1) (2 ^ usize_bits p)) as [R|R].
  - destruct (holds_push p _ _ n H R) as (v & Ev & Hv). rewrite Ev in P. cbn [bind] in P. injection P as <-.
    split; cbn [wl_s wl_nocase lit_push lit_s lit_nocase]; [rewrite E; reflexivity|exact Hv].
  - rewrite push_full in P by exact R. discriminate.
Qed.
Lemma same_pushes : forall p es w l w', same_literal w l -> wl_pushes p w es = Ret w' -> same_literal w' (lit_pushes l es).
Proof.
  intros p es; induction es as [|[c n] es IH]; intros w l w' H P; cbn [wl_pushes lit_pushes] in *.
  - injection P as <-. exact H.
  - destruct (wl_push p w c n) as [w1| |] eqn:E; cbn [bind] in P; try discriminate.
    eapply IH; [|exact P]. eapply same_push; eassumption.
Qed.
Lemma same_default : same_literal wl_default lit_default.
Proof. split; [reflexivity|apply holds_default]. Qed.
Lemma same_iter_from : forall w l, same_literal w l -> forall fuel idx, wl_iter_from fuel w idx = lit_iter_from fuel l idx.
Proof.
  intros w l [E H] fuel; induction fuel as [|fuel IH]; intro idx; cbn [wl_iter_from lit_iter_from]; [reflexivity|].
  unfold wl_iter_next, lit_iter_next. rewrite E, (holds_get _ _ _ H), Nat2N.id.
  destruct (nth_error (lit_s l) idx); [|reflexivity].
  destruct (N.ltb_spec (N.of_nat idx) (N.of_nat (List.length (lit_nocase l)))) as [L|L].
  - destruct (nth_error (lit_nocase l) idx); [rewrite IH|]; reflexivity.
  - rewrite (proj2 (nth_error_None (lit_nocase l) idx)) by lia. reflexivity.
Qed.
Lemma wl_pushes_bits : forall p es w cs, holds (wl_nocase w) cs ->
  match wl_pushes p w es with
  | Ret w' => bv_pushes p (wl_nocase w) (map snd es) = Ret (wl_nocase w')
  | Panic e => bv_pushes p (wl_nocase w) (map snd es) = Panic e
  | Diverge => False
  end.
Proof.
  intros p es; induction es as [|[c n] es IH]; intros w cs H; cbn [wl_pushes map snd bv_pushes]; [reflexivity|].
  unfold wl_push. destruct (N.lt_ge_cases (bv_nbits (wl_nocase w) + 1) (2 ^ usize_bits p)) as [R|R].
  - destruct (holds_push p _ _ n H R) as (v & Ev & Hv). rewrite Ev. cbn [bind].
    apply (IH (WLiteral (wl_s w ++ [if n then mytoupper c else c]) v) (cs ++ [n])). exact Hv.
  - rewrite push_full by exact R. reflexivity.
Qed.
