(** General lemmas: outcomes, machine arithmetic, bits, lists. *)
From Verif Require Import Base ModelUtil.
From Coq Require Export ZArith ZifyBool ZifyNat ZifyN.
Export List ListNotations.
Local Open Scope N_scope.
Ltac Zify.zify_post_hook ::= Z.div_mod_to_equations.

Arguments N.add : simpl never.
Arguments N.sub : simpl never.
Arguments N.mul : simpl never.
Arguments N.div : simpl never.
Arguments N.modulo : simpl never.
Arguments N.pow : simpl never.
Arguments N.eqb : simpl never.
Arguments N.ltb : simpl never.
Arguments N.leb : simpl never.
Arguments N.land : simpl never.
Arguments N.lor : simpl never.
Arguments N.lxor : simpl never.
Arguments N.shiftl : simpl never.
Arguments N.testbit : simpl never.
Arguments N.ones : simpl never.
Arguments N.to_nat : simpl never.
Arguments N.of_nat : simpl never.
Arguments lit : simpl never.
Arguments show : simpl never.

(** ** Outcomes *)
Lemma bind_ret : forall {A B} (a : A) (k : A -> outcome B), bind (Ret a) k = k a.
Proof. reflexivity. Qed.
Lemma bind_Ret_inv : forall {A B} (m : outcome A) (k : A -> outcome B) b,
  bind m k = Ret b -> exists a, m = Ret a /\ k a = Ret b.
Proof. intros A B m k b H; destruct m; simpl in H; try discriminate; eauto. Qed.
Lemma bindr_ROk_inv : forall {E A B} (m : outcome (result E A)) (k : A -> outcome (result E B)) b,
  bindr m k = Ret (ROk b) -> exists a, m = Ret (ROk a) /\ k a = Ret (ROk b).
Proof. intros E A B m k b H; destruct m as [[a|e]|w|]; simpl in H; try discriminate; eauto. Qed.

(** ** Checked arithmetic that stays in range *)
Lemma chk_add_ok : forall p w a b, a + b < 2 ^ w -> chk_add p w a b = Ret (a + b).
Proof. intros p w a b H; unfold chk_add. apply N.ltb_lt in H; rewrite H; reflexivity. Qed.
Lemma usize_at_least : forall p, 2 ^ 32 <= 2 ^ usize_bits p.
Proof. intro p. unfold usize_bits. destruct (target p); discriminate. Qed.
Lemma usize_at_most : forall p, 2 ^ usize_bits p <= 2 ^ 64.
Proof. intro p. unfold usize_bits. destruct (target p); discriminate. Qed.
Lemma usize_add_ok : forall p a b, a + b < 2 ^ 32 -> chk_add p (usize_bits p) a b = Ret (a + b).
Proof. intros p a b H. apply chk_add_ok. pose proof (usize_at_least p). lia. Qed.
Lemma chk_sub_ok : forall p w a b, b <= a -> chk_sub p w a b = Ret (a - b).
Proof. intros p w a b H; unfold chk_sub. apply N.leb_le in H; rewrite H; reflexivity. Qed.
Lemma chk_mul_ok : forall p w a b, a * b < 2 ^ w -> chk_mul p w a b = Ret (a * b).
Proof. intros p w a b H; unfold chk_mul. apply N.ltb_lt in H; rewrite H; reflexivity. Qed.
Lemma chk_shl_ok : forall p w a s, s < w -> chk_shl p w a s = Ret (N.shiftl a s mod 2 ^ w).
Proof. intros p w a s H; unfold chk_shl. apply N.ltb_lt in H; rewrite H; reflexivity. Qed.

(** ** Bits *)
Lemma testbit_high : forall w x i, x < 2 ^ w -> w <= i -> N.testbit x i = false.
Proof.
  intros w x i Hx Hi.
  destruct (N.eq_dec x 0) as [->|Hne]; [apply N.bits_0|].
  apply N.bits_above_log2. apply N.lt_le_trans with w; [|exact Hi].
  apply N.log2_lt_pow2; [lia|exact Hx].
Qed.
Lemma lt_pow2_bits : forall w x, (forall i, w <= i -> N.testbit x i = false) -> x < 2 ^ w.
Proof.
  intros w x H.
  assert (E : x = x mod 2 ^ w).
  { apply N.bits_inj; intro i. destruct (N.lt_ge_cases i w) as [Hi|Hi].
    - rewrite N.mod_pow2_bits_low; [reflexivity|exact Hi].
    - rewrite N.mod_pow2_bits_high by exact Hi. apply H; exact Hi. }
  rewrite E. apply N.mod_lt. apply N.pow_nonzero. discriminate.
Qed.
Lemma testbit_bnot : forall w x i, i < w -> N.testbit (bnot w x) i = negb (N.testbit x i).
Proof.
  intros w x i H; unfold bnot. rewrite N.lxor_spec, N.ones_spec_low by exact H.
  destruct (N.testbit x i); reflexivity.
Qed.
Lemma bnot_lt : forall w x, x < 2 ^ w -> bnot w x < 2 ^ w.
Proof.
  intros w x H; apply lt_pow2_bits; intros i Hi; unfold bnot.
  rewrite N.lxor_spec, N.ones_spec_high by exact Hi. rewrite (testbit_high w) by assumption. reflexivity.
Qed.
Lemma lor_lt : forall w x y, x < 2 ^ w -> y < 2 ^ w -> N.lor x y < 2 ^ w.
Proof.
  intros w x y Hx Hy; apply lt_pow2_bits; intros i Hi.
  rewrite N.lor_spec, !(testbit_high w) by assumption; reflexivity.
Qed.
Lemma land_lt : forall w x y, x < 2 ^ w -> N.land x y < 2 ^ w.
Proof.
  intros w x y Hx; apply lt_pow2_bits; intros i Hi.
  rewrite N.land_spec, (testbit_high w x) by assumption; reflexivity.
Qed.
Lemma lxor_lt : forall w x y, x < 2 ^ w -> y < 2 ^ w -> N.lxor x y < 2 ^ w.
Proof.
  intros w x y Hx Hy; apply lt_pow2_bits; intros i Hi.
  rewrite N.lxor_spec, !(testbit_high w) by assumption; reflexivity.
Qed.
Lemma testbit_shl_mod : forall w x s i, i < w ->
  N.testbit (N.shiftl x s mod 2 ^ w) i = (s <=? i) && N.testbit x (i - s).
Proof.
  intros w x s i H. rewrite N.mod_pow2_bits_low by exact H.
  destruct (N.leb_spec s i) as [Hs|Hs].
  - rewrite N.shiftl_spec_high' by exact Hs. reflexivity.
  - rewrite N.shiftl_spec_low by exact Hs. reflexivity.
Qed.
Lemma shl_mod_lt : forall w x s, N.shiftl x s mod 2 ^ w < 2 ^ w.
Proof. intros; apply N.mod_lt, N.pow_nonzero; discriminate. Qed.
Lemma pow2_pos : forall n, 0 < 2 ^ n.
Proof. intro n; apply N.neq_0_lt_0, N.pow_nonzero; discriminate. Qed.
Lemma pow2_le : forall a b, a <= b -> 2 ^ a <= 2 ^ b.
Proof. intros a b H; apply N.pow_le_mono_r; [discriminate|exact H]. Qed.
Lemma pow2_lt : forall a b, a < b -> 2 ^ a < 2 ^ b.
Proof. intros a b H; apply N.pow_lt_mono_r; [reflexivity|exact H]. Qed.
Lemma testbit_pow2 : forall s i, N.testbit (2 ^ s) i = (s =? i).
Proof. intros s i. apply N.pow2_bits_eqb. Qed.
Lemma testbit_ones : forall s i, N.testbit (N.ones s) i = (i <? s).
Proof.
  intros s i; destruct (N.ltb_spec i s) as [H|H].
  - apply N.ones_spec_low; exact H.
  - apply N.ones_spec_high; exact H.
Qed.
Lemma ones_pow2 : forall s, 2 ^ s - 1 = N.ones s.
Proof. intro s. rewrite N.ones_equiv, N.sub_1_r. reflexivity. Qed.
Lemma testbit_pow2_pred : forall s i, N.testbit (2 ^ s - 1) i = (i <? s).
Proof. intros; rewrite ones_pow2; apply testbit_ones. Qed.

(** ** Lists *)
Lemma seqN_seq : forall n s, seqN s n = map (fun k => s + N.of_nat k) (List.seq 0 n).
Proof.
  induction n as [|n IH]; intro s; [reflexivity|].
  cbn [seqN List.seq map]. rewrite IH. f_equal; [lia|].
  rewrite <- seq_shift, map_map. apply map_ext; intro k; lia.
Qed.
Lemma in_seqN : forall n s c, In c (seqN s n) <-> s <= c < s + N.of_nat n.
Proof.
  induction n as [|n IH]; intros s c; simpl; [lia|]. rewrite IH. lia.
Qed.
Lemma seqN_app : forall a b s, seqN s (a + b) = seqN s a ++ seqN (s + N.of_nat a) b.
Proof.
  induction a as [|a IH]; intros b s; simpl.
  - f_equal; lia.
  - rewrite IH. do 3 f_equal; lia.
Qed.
Lemma seqN_length : forall n s, length (seqN s n) = n.
Proof. induction n; intro s; simpl; [reflexivity|f_equal; apply IHn]. Qed.
Lemma nth_error_seqN : forall n s k, (k < n)%nat -> nth_error (seqN s n) k = Some (s + N.of_nat k).
Proof.
  induction n as [|n IH]; intros s k H; [lia|]. destruct k as [|k]; simpl.
  - f_equal; lia.
  - rewrite IH by lia. f_equal; lia.
Qed.
Lemma filter_map_comm : forall {A B} (f : A -> B) (g : B -> bool) l,
  filter g (map f l) = map f (filter (fun x => g (f x)) l).
Proof.
  intros A B f g l; induction l as [|x l IH]; simpl; [reflexivity|].
  rewrite IH. destruct (g (f x)); reflexivity.
Qed.
Lemma filter_ext_In : forall {A} (f g : A -> bool) l,
  (forall x, In x l -> f x = g x) -> filter f l = filter g l.
Proof. intros A f g l H; apply filter_ext_in; exact H. Qed.
Lemma filter_all : forall {A} (f : A -> bool) l, (forall x, In x l -> f x = true) -> filter f l = l.
Proof.
  intros A f l; induction l as [|x l IH]; intro H; simpl; [reflexivity|].
  rewrite H by (left; reflexivity). f_equal; apply IH; intros y Hy; apply H; right; exact Hy.
Qed.
Lemma filter_none : forall {A} (f : A -> bool) l, (forall x, In x l -> f x = false) -> filter f l = [].
Proof.
  intros A f l; induction l as [|x l IH]; intro H; simpl; [reflexivity|].
  rewrite H by (left; reflexivity). apply IH; intros y Hy; apply H; right; exact Hy.
Qed.

(** Splits conjunctions only. *)
Ltac conjs := match goal with |- _ /\ _ => split; [|conjs] | _ => idtac end.
(** Case analysis on the conditions of the [if]s of the goal. *)
Ltac ifs := repeat match goal with |- context [if ?x then _ else _] => destruct x eqn:? end.
