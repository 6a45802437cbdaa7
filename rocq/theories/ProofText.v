(** Decimal output; sizes of trees. *)
From Coq Require Import Decimal DecimalString DecimalN.
From Verif Require Import Base ModelUtil ModelBitField ModelCharReach ModelParser SpecSet SpecGrammar SpecLang SpecText
  ProofBase ProofGrammar ProofTree ProofLang ProofShortcut ProofDump4.
Local Open Scope N_scope.
Local Open Scope list_scope.

(** ** Decimal output *)
Definition dstep (a d : N) : N := 10 * a + (d - 48).
Lemma acc_value : forall u a, fold_left dstep (lit (NilEmpty.string_of_uint u)) (Npos a) = Npos (Pos.of_uint_acc u a).
Proof.
  induction u as [|u IH|u IH|u IH|u IH|u IH|u IH|u IH|u IH|u IH|u IH]; intro a; [reflexivity|..];
    unfold lit; cbn [NilEmpty.string_of_uint list_ascii_of_string map fold_left Pos.of_uint_acc]; rewrite <- IH; unfold lit; f_equal; unfold dstep;
    match goal with |- context [N_of_ascii ?x] => let v := eval vm_compute in (N_of_ascii x) in change (N_of_ascii x) with v end; lia.
Qed.
Lemma uint_value : forall u, fold_left dstep (lit (NilEmpty.string_of_uint u)) 0 = N.of_uint u.
Proof.
  induction u as [|u IH|u IH|u IH|u IH|u IH|u IH|u IH|u IH|u IH|u IH]; [reflexivity|..];
    unfold lit; cbn [NilEmpty.string_of_uint list_ascii_of_string map fold_left];
    match goal with |- context [N_of_ascii ?x] => let v := eval vm_compute in (N_of_ascii x) in change (N_of_ascii x) with v end;
    match goal with |- context [dstep 0 ?d] => let v := eval vm_compute in (dstep 0 d) in change (dstep 0 d) with v end.
  1: exact IH.
  all: match goal with |- fold_left dstep _ (Npos ?a) = _ => exact (acc_value u a) end.
Qed.
Lemma to_uint_not_nil : forall n, N.to_uint n <> Nil.
Proof. intros n Z. apply (f_equal N.of_uint) in Z as Z'. rewrite DecimalN.Unsigned.of_to in Z'. cbn in Z'. subst n. discriminate Z. Qed.
Lemma show_string : forall n, show n = lit (NilEmpty.string_of_uint (N.to_uint n)).
Proof. intro n. unfold show, NilZero.string_of_uint. pose proof (to_uint_not_nil n). destruct (N.to_uint n); [contradiction|reflexivity..]. Qed.
Lemma nzhead_head : forall u v, nzhead u <> D0 v.
Proof. induction u as [|u IH|u IH|u IH|u IH|u IH|u IH|u IH|u IH|u IH|u IH]; intro v; cbn [nzhead]; try discriminate. apply IH. Qed.
Lemma to_uint_head : forall n u, N.to_uint n = D0 u -> u = Nil.
Proof.
  intros n u E. assert (X : N.to_uint n = unorm (N.to_uint n)) by (rewrite <- DecimalN.Unsigned.to_of, DecimalN.Unsigned.of_to; reflexivity).
  rewrite E in X. unfold unorm in X. destruct (nzhead (D0 u)) as [|v|v|v|v|v|v|v|v|v|v] eqn:Z; try discriminate X.
  - injection X as ->. reflexivity.
  - destruct (nzhead_head _ _ Z).
Qed.
Lemma show_decimal : forall n, is_decimal (show n) n.
Proof.
  intro n. rewrite show_string. unfold is_decimal. conjs.
  - pose proof (to_uint_not_nil n). destruct (N.to_uint n); [contradiction|discriminate..].
  - intros d I. apply digits_only in I. exact I.
  - unfold decimal_value. change (fun a d => 10 * a + (d - 48)) with dstep. rewrite uint_value. apply DecimalN.Unsigned.of_to.
  - destruct (N.to_uint n) as [|u|u|u|u|u|u|u|u|u|u] eqn:E; try discriminate. intros _. apply to_uint_head in E. subst u. reflexivity.
Qed.
Lemma last_split : forall (c : N) a b a' b', ~ In c b -> ~ In c b' -> a ++ c :: b = a' ++ c :: b' -> a = a' /\ b = b'.
Proof.
  intros c a. induction a as [|x a IH]; intros b [|x' a'] b' H H' E; cbn in E.
  - injection E as E. auto.
  - injection E as _ E. exfalso. apply H. rewrite E. apply in_or_app. right. left. reflexivity.
  - injection E as _ E. exfalso. apply H'. rewrite <- E. apply in_or_app. right. left. reflexivity.
  - injection E as <- E. destruct (IH b a' b' H H' E) as [-> ->]. auto.
Qed.

(** ** Sizes *)
Definition budget (s : str) : nat := (plain_chars s + opens s + 3 * bars s)%nat.
Lemma budget_app : forall a b, budget (a ++ b) = (budget a + budget b)%nat.
Proof. intros. unfold budget. rewrite plain_app, opens_app, bars_app. lia. Qed.
Lemma list_sum_le : forall {A} (f g : A -> nat) l, (forall x, In x l -> (f x <= g x)%nat) -> (list_sum (map f l) <= list_sum (map g l))%nat.
Proof.
  intros A f g l. induction l as [|x l IH]; intro H; [apply le_n|]. cbn [map]. change (f x + list_sum (map f l) <= g x + list_sum (map g l))%nat.
  pose proof (H x (or_introl eq_refl)). assert (list_sum (map f l) <= list_sum (map g l))%nat by (apply IH; intros; apply H; right; assumption). lia.
Qed.
Lemma budget_seq : forall b, budget (text_seq b) = list_sum (map (fun a => budget (text_atom a)) b).
Proof. induction b as [|a b IH]; [reflexivity|]. rewrite text_seq_cons, budget_app, IH. reflexivity. Qed.
Lemma budget_text : forall e, e <> [] -> (budget (text e) + 3 = list_sum (map (fun b => budget (text_seq b)) e) + 3 * List.length e)%nat.
Proof.
  induction e as [|b e IH]; intro N; [contradiction|]. destruct e as [|b1 e].
  - rewrite text_one. cbn [map list_sum fold_right List.length]. lia.
  - rewrite text_cons. change (124 :: text (b1 :: e)) with ([124] ++ text (b1 :: e)). rewrite !budget_app. specialize (IH ltac:(discriminate)).
    change (budget [124]) with 3%nat. change (list_sum (map (fun b0 => budget (text_seq b0)) (b :: b1 :: e))) with (budget (text_seq b) + list_sum (map (fun b0 => budget (text_seq b0)) (b1 :: e)))%nat.
    cbn [List.length] in *. lia.
Qed.
Definition seq_nodes (l : list component) : nat := list_sum (map tree_nodes l).
Lemma seq_of_nodes : forall ci l, l <> [] -> (tree_nodes (CSequence (seq_of ci l)) + 2 <= list_sum (map seq_nodes l) + 3 * List.length l)%nat.
Proof.
  intros ci l N. destruct l as [|b [|b1 l]]; [contradiction| |].
  - cbn [seq_of tree_nodes map list_sum fold_right List.length]. fold (seq_nodes b). lia.
  - unfold seq_of. set (k := b :: b1 :: l). cbn [tree_nodes map].
    change (list_sum [S (list_sum (map (fun s : seqn => match s with Seqn ch _ _ _ => S (list_sum (map tree_nodes ch)) end) (map branch k)))])
      with (S (list_sum (map (fun s : seqn => match s with Seqn ch _ _ _ => S (list_sum (map tree_nodes ch)) end) (map branch k))) + 0)%nat.
    rewrite map_map. assert (X : list_sum (map (fun x => match branch x with Seqn ch _ _ _ => S (list_sum (map tree_nodes ch)) end) k) = (list_sum (map seq_nodes k) + List.length k)%nat).
    { clear. induction k as [|x k IH]; [reflexivity|]. cbn [map List.length]. change (S (seq_nodes x) + list_sum (map (fun x0 => match branch x0 with Seqn ch _ _ _ => S (list_sum (map tree_nodes ch)) end) k) = seq_nodes x + list_sum (map seq_nodes k) + S (List.length k))%nat. rewrite IH. lia. }
    rewrite X. unfold k. cbn [List.length]. lia.
Qed.
Lemma tree_seq_nodes : forall nc b, (forall a, In a b -> forall n, (tree_nodes (fst (tree_atom nc n a)) <= budget (text_atom a))%nat) ->
  forall n, (seq_nodes (fst (tree_seq nc n b)) <= budget (text_seq b))%nat.
Proof.
  intros nc b. induction b as [|a b IH]; intros H n; [apply le_n|]. unfold tree_seq in *. cbn [mapacc]. pose proof (H a (or_introl eq_refl) n) as Ha.
  destruct (tree_atom nc n a) as [c n1]. specialize (IH (fun x I => H x (or_intror I)) n1). destruct (mapacc (tree_atom nc) n1 b) as [l n2].
  cbn [fst] in *. rewrite text_seq_cons, budget_app. change (seq_nodes (c :: l)) with (tree_nodes c + seq_nodes l)%nat. lia.
Qed.
Lemma tree_branches_nodes : forall nc e, (forall b a, In b e -> In a b -> forall n, (tree_nodes (fst (tree_atom nc n a)) <= budget (text_atom a))%nat) ->
  forall n, (list_sum (map seq_nodes (fst (tree_branches nc n e))) <= list_sum (map (fun b => budget (text_seq b)) e))%nat /\ List.length (fst (tree_branches nc n e)) = List.length e.
Proof.
  intros nc e. induction e as [|b e IH]; intros H n; [split; [apply le_n|reflexivity]|]. unfold tree_branches in *. cbn [mapacc].
  pose proof (tree_seq_nodes nc b (fun a I => H b a (or_introl eq_refl) I) n) as Hb.
  destruct (tree_seq nc n b) as [c n1]. specialize (IH (fun x a I => H x a (or_intror I)) n1). destruct (mapacc (tree_seq nc) n1 e) as [l n2].
  cbn [fst List.length map] in *. destruct IH as [IH1 IH2]. split; [|f_equal; exact IH2].
  change (seq_nodes c + list_sum (map seq_nodes l) <= budget (text_seq b) + list_sum (map (fun b => budget (text_seq b)) e))%nat. lia.
Qed.
Lemma seq_of_budget : forall nc ci n e, e <> [] -> (forall b a, In b e -> In a b -> forall n, (tree_nodes (fst (tree_atom nc n a)) <= budget (text_atom a))%nat) ->
  (tree_nodes (CSequence (seq_of ci (fst (tree_branches nc n e)))) <= 1 + budget (text e))%nat.
Proof.
  intros nc ci n e Ne H. destruct (tree_branches_nodes nc e H n) as [B L]. pose proof (seq_of_nodes ci _ (nonempty_branches nc n e Ne)) as S. rewrite L in S.
  pose proof (budget_text e Ne). lia.
Qed.
Lemma tree_atom_nodes : forall nc a, wf_atom a -> forall n, (tree_nodes (fst (tree_atom nc n a)) <= budget (text_atom a))%nat.
Proof.
  intros nc a. induction a as [c|bs IH] using atom_ind'; intros W n; inversion W as [? Pc|? Ne Wb]; subst.
  - cbn [tree_atom fst tree_nodes text_atom]. unfold budget. rewrite (plain_one c Pc). lia.
  - rewrite tree_atom_grp. cbv zeta. match goal with |- (tree_nodes (fst ?x) <= _)%nat => assert (Q : fst x = CSequence (seq_of (Some n) (fst (tree_branches nc (next_index n) bs)))) by (destruct (tree_branches nc (next_index n) bs); reflexivity) end.
    rewrite Q. clear Q. assert (X : budget (text_atom (Grp bs)) = S (budget (text bs))).
    { unfold budget. rewrite group_plain, group_bars, text_grp. rewrite opens_cons, opens_app. change (opens [41]) with 0%nat. change (40 =? 40)%N with true. cbv iota. lia. }
    rewrite X. apply seq_of_budget; [exact Ne|]. rewrite Forall_forall in IH. intros b a Ib Ia. specialize (IH b Ib). rewrite Forall_forall in IH. apply IH; [exact Ia|]. eapply Wb; eassumption.
Qed.
Lemma tree_nodes_ok : forall nc e, wf_expr e -> (tree_nodes (tree nc e) <= 1 + budget (text e))%nat.
Proof. intros nc e [Ne W]. unfold tree. apply seq_of_budget; [exact Ne|]. intros b a Ib Ia. apply tree_atom_nodes. eapply W; eassumption. Qed.

(** ** Heights *)
Fixpoint nest (a : atom) : nat := match a with Ch _ => 0 | Grp bs => S (list_max (map (fun b => list_max (map nest b)) bs)) end.
Definition nest_expr (e : expr) : nat := list_max (map (fun b => list_max (map nest b)) e).
Lemma list_max_cons : forall x l, list_max (x :: l) = Nat.max x (list_max l).
Proof. reflexivity. Qed.
Lemma deepest_ge : forall s d, (d <= deepest d s)%nat.
Proof. intros [|c s] d; cbn [deepest]; lia. Qed.
Lemma deepest_seq : forall b, (forall a, In a b -> forall d r, deepest d (text_atom a ++ r) = Nat.max (d + nest a) (deepest d r)) ->
  forall d r, deepest d (text_seq b ++ r) = Nat.max (d + list_max (map nest b)) (deepest d r).
Proof.
  induction b as [|a b IH]; intros H d r.
  - cbn. pose proof (deepest_ge r d). lia.
  - rewrite text_seq_cons, <- app_assoc, H by (left; reflexivity). rewrite IH by (intros; apply H; right; assumption). cbn [map]. rewrite list_max_cons. lia.
Qed.
Lemma deepest_text : forall e, e <> [] -> (forall b a, In b e -> In a b -> forall d r, deepest d (text_atom a ++ r) = Nat.max (d + nest a) (deepest d r)) ->
  forall d r, deepest d (text e ++ r) = Nat.max (d + nest_expr e) (deepest d r).
Proof.
  induction e as [|b e IH]; intros N H d r; [contradiction|]. unfold nest_expr in *. cbn [map]. rewrite list_max_cons. destruct e as [|b1 e].
  - rewrite text_one, deepest_seq by (intros; eapply H; [left; reflexivity|assumption]). cbn [map list_max fold_right]. change (list_max []) with 0%nat. lia.
  - rewrite text_cons, <- app_assoc, deepest_seq by (intros; eapply H; [left; reflexivity|assumption]). cbn [app].
    change (deepest d (124 :: text (b1 :: e) ++ r)) with (Nat.max d (deepest d (text (b1 :: e) ++ r))).
    rewrite IH by (discriminate || (intros; eapply H; [right; eassumption|assumption])). lia.
Qed.
Lemma deepest_atom : forall a, wf_atom a -> forall d r, deepest d (text_atom a ++ r) = Nat.max (d + nest a) (deepest d r).
Proof.
  intros a. induction a as [c|bs IH] using atom_ind'; intros W d r; inversion W as [? Pc|? Ne Wb]; subst.
  - destruct Pc as (P1 & P2 & _). cbn [text_atom app deepest nest]. replace (c =? 40) with false by lia. replace (c =? 41) with false by lia. lia.
  - rewrite text_grp. cbn [app deepest]. change (40 =? 40)%N with true. cbv iota. rewrite <- app_assoc.
    rewrite deepest_text.
    + change (nest (Grp bs)) with (S (nest_expr bs)). cbn [app deepest]. change (41 =? 40)%N with false. change (41 =? 41)%N with true. cbv iota. cbn [Nat.pred]. lia.
    + exact Ne.
    + rewrite Forall_forall in IH. intros b a Ib Ia. specialize (IH b Ib). rewrite Forall_forall in IH. apply IH; [exact Ia|]. eapply Wb; eassumption.
Qed.
Lemma deepest_expr : forall e, wf_expr e -> deepest 0 (text e) = nest_expr e.
Proof.
  intros e [Ne W]. rewrite <- (app_nil_r (text e)), deepest_text; [cbn; lia|exact Ne|]. intros b a Ib Ia. apply deepest_atom. eapply W; eassumption.
Qed.
Definition seq_height (l : list component) : nat := list_max (map tree_height l).
Lemma seq_of_height : forall ci l, (tree_height (CSequence (seq_of ci l)) <= 3 + list_max (map seq_height l))%nat.
Proof.
  assert (X : forall k, (list_max (map (fun s : seqn => match s with Seqn ch _ _ _ => S (list_max (map tree_height ch)) end) (map branch k)) <= S (list_max (map seq_height k)))%nat).
  { induction k as [|x k IH]; [cbn; lia|]. cbn [map]. rewrite !list_max_cons. change (match branch x with Seqn ch _ _ _ => S (list_max (map tree_height ch)) end) with (S (seq_height x)). lia. }
  intros ci l. destruct l as [|b [|b1 l]].
  - cbn. lia.
  - cbn [seq_of tree_height map]. fold (seq_height b). rewrite list_max_cons. lia.
  - unfold seq_of. cbn [tree_height]. specialize (X (b :: b1 :: l)). set (k := b :: b1 :: l) in *. rewrite (map_cons tree_height), list_max_cons. cbn [tree_height map list_max fold_right]. change (list_max []) with 0%nat. lia.
Qed.
Lemma tree_branches_height : forall nc e, (forall b a, In b e -> In a b -> forall n, (tree_height (fst (tree_atom nc n a)) <= 1 + 3 * nest a)%nat) ->
  forall n, (list_max (map seq_height (fst (tree_branches nc n e))) <= 1 + 3 * nest_expr e)%nat.
Proof.
  assert (S : forall nc b, (forall a, In a b -> forall n, (tree_height (fst (tree_atom nc n a)) <= 1 + 3 * nest a)%nat) ->
    forall n, (seq_height (fst (tree_seq nc n b)) <= 1 + 3 * list_max (map nest b))%nat).
  { intros nc b. induction b as [|a b IH]; intros H n; [cbn; lia|]. unfold tree_seq in *. cbn [mapacc]. pose proof (H a (or_introl eq_refl) n) as Ha.
    destruct (tree_atom nc n a) as [c n1]. specialize (IH (fun x I => H x (or_intror I)) n1). destruct (mapacc (tree_atom nc) n1 b) as [l n2].
    cbn [fst map] in *. unfold seq_height in *. cbn [map]. rewrite !list_max_cons. lia. }
  intros nc e. induction e as [|b e IH]; intros H n; [cbn; lia|]. unfold tree_branches, nest_expr in *. cbn [mapacc].
  pose proof (S nc b (fun a I => H b a (or_introl eq_refl) I) n) as Hb.
  destruct (tree_seq nc n b) as [c n1]. specialize (IH (fun x a I => H x a (or_intror I)) n1). destruct (mapacc (tree_seq nc) n1 e) as [l n2].
  cbn [fst map] in *. rewrite !list_max_cons. lia.
Qed.
Lemma tree_atom_height : forall nc a n, (tree_height (fst (tree_atom nc n a)) <= 1 + 3 * nest a)%nat.
Proof.
  intros nc a. induction a as [c|bs IH] using atom_ind'; intro n.
  - cbn. lia.
  - rewrite tree_atom_grp. cbv zeta. match goal with |- (tree_height (fst ?x) <= _)%nat => assert (Q : fst x = CSequence (seq_of (Some n) (fst (tree_branches nc (next_index n) bs)))) by (destruct (tree_branches nc (next_index n) bs); reflexivity) end.
    rewrite Q. clear Q. pose proof (seq_of_height (Some n) (fst (tree_branches nc (next_index n) bs))). assert (B : (list_max (map seq_height (fst (tree_branches nc (next_index n) bs))) <= 1 + 3 * nest_expr bs)%nat).
    { apply tree_branches_height. rewrite Forall_forall in IH. intros b a Ib Ia. specialize (IH b Ib). rewrite Forall_forall in IH. apply IH. exact Ia. }
    change (nest (Grp bs)) with (S (nest_expr bs)). lia.
Qed.
Lemma tree_height_ok : forall nc e, wf_expr e -> (tree_height (tree nc e) <= 4 + 3 * deepest 0 (text e))%nat.
Proof.
  intros nc e W. rewrite deepest_expr by exact W. unfold tree. pose proof (seq_of_height (Some 0) (fst (tree_branches nc 1 e))).
  assert ((list_max (map seq_height (fst (tree_branches nc 1 e))) <= 1 + 3 * nest_expr e)%nat) by (apply tree_branches_height; intros; apply tree_atom_height). lia.
Qed.
