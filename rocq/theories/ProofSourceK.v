(** Runs of the source text: fill_bitvector. *)
From Verif Require Import Base ModelUtil ModelBitField ModelCharReach ModelRust ModelInterp ModelDump ModelSource SpecSource SpecSet ProofBitField ProofBitField2.
From Verif Require Import ProofSourceA ProofSourceB ProofSourceC ProofSourceD ProofSourceE ProofSourceF.
Local Open Scope string_scope.
Local Open Scope N_scope.
Local Open Scope list_scope.
Lemma nthN_map : forall l n, nthN (map (VInt U8) l) n = option_map (VInt U8) (nth_error l (N.to_nat n)).
Proof.
  induction l as [|x l IH]; intro n; [destruct (N.to_nat n); reflexivity|]. cbn [map nthN]. destruct (N.eqb_spec n 0) as [->|H]; [reflexivity|].
  rewrite IH. replace (N.to_nat n) with (S (N.to_nat (N.pred n))) by lia. reflexivity.
Qed.
Lemma updN_map : forall l n u, (N.to_nat n < List.length l)%nat -> updN (map (VInt U8) l) n (VInt U8 u) = Some (map (VInt U8) (list_upd l (N.to_nat n) (fun _ => u))).
Proof.
  induction l as [|x l IH]; intros n u H; [cbn in H; lia|]. cbn [map updN]. destruct (N.eqb_spec n 0) as [->|Hn]; [reflexivity|].
  cbn in H. rewrite IH by lia. replace (N.to_nat n) with (S (N.to_nat (N.pred n))) by lia. reflexivity.
Qed.
Lemma upd_length : forall A (l : list A) i f, List.length (list_upd l i f) = List.length l.
Proof. induction l as [|x l IH]; intros [|i] f; cbn; congruence. Qed.
Lemma turn_formut : forall p g own cf lf x pl i j b s, loop p g own cf (S lf) (WForMut x pl i j b) s =
    if i <? j then
      match read_place pl s with
      | Some (VList l) =>
        match nthN l i with
        | Some v => bind (eval p g own cf (loop p g own cf lf) (EBlock b) ((x, v) :: s)) (fun r => turned s (loop p g own cf lf (WForMut x pl (i + 1) j b)) (put_back x pl i s r))
        | None => ModelInterp.stuck
        end
      | _ => ModelInterp.stuck
      end
    else val_ VUnit s.
Proof. reflexivity. Qed.
Lemma zeroing : forall p g own cf s0 n i lf pre l, (n < lf)%nat -> N.to_nat i = List.length pre -> (n <= List.length l)%nat ->
  loop p g own cf lf (WForMut "b" ("bits", []) i (i + N.of_nat n) [SExpr (EAssign None (EUn UDeref (EPath ["b"])) (ENum 0 ""))]) (("cr", s0) :: ("bits", v_bytes (pre ++ l)) :: nil) =
  val_ VUnit (("cr", s0) :: ("bits", v_bytes (pre ++ repeat 0 n ++ skipn n l)) :: nil).
Proof.
  induction n as [|n IH]; intros i lf pre l Hlf Hi Hl; (destruct lf as [|lf]; [lia|]); rewrite turn_formut.
  - replace (i + N.of_nat 0) with i by lia. rewrite N.ltb_irrefl. reflexivity.
  - rewrite (proj2 (N.ltb_lt i (i + N.of_nat (S n)))) by lia.
    destruct l as [|x l]; [cbn in Hl; lia|].
    change (read_place ("bits", []) (("cr", s0) :: ("bits", v_bytes (pre ++ x :: l)) :: nil)) with (Some (VList (map (VInt U8) (pre ++ x :: l)))). cbv iota beta.
    rewrite nthN_map, Hi, nth_error_app2, Nat.sub_diag by lia. cbn [nth_error option_map].
    match goal with |- bind ?m ?k = _ => change (k (Some (FVal VUnit, [("b", VInt U8 0); ("cr", s0); ("bits", v_bytes (pre ++ x :: l))])) = val_ VUnit (("cr", s0) :: ("bits", v_bytes (pre ++ repeat 0 (S n) ++ skipn (S n) (x :: l))) :: nil)) end.
    cbv beta.
    assert (E : put_back "b" ("bits", []) i (("cr", s0) :: ("bits", v_bytes (pre ++ x :: l)) :: nil) (Some (FVal VUnit, [("b", VInt U8 0); ("cr", s0); ("bits", v_bytes (pre ++ x :: l))])) =
      Some (FVal VUnit, ("cr", s0) :: ("bits", v_bytes ((pre ++ [0]) ++ l)) :: nil)).
    { unfold put_back. change (leave (("b", VUnit) :: ("cr", s0) :: ("bits", v_bytes (pre ++ x :: l)) :: nil) [("b", VInt U8 0); ("cr", s0); ("bits", v_bytes (pre ++ x :: l))]) with [("b", VInt U8 0); ("cr", s0); ("bits", v_bytes (pre ++ x :: l))]. cbv iota beta.
      change (read_place ("bits", []) (("cr", s0) :: ("bits", v_bytes (pre ++ x :: l)) :: nil)) with (Some (VList (map (VInt U8) (pre ++ x :: l)))). cbv iota beta.
      rewrite updN_map by (rewrite app_length; cbn; lia). cbn [write_place]. unfold v_bytes.
      assert (F : list_upd (pre ++ x :: l) (N.to_nat i) (fun _ => 0) = (pre ++ [0]) ++ l).
      { rewrite Hi. clear. induction pre as [|y pre IH]; [reflexivity|]. cbn. rewrite IH. reflexivity. }
      rewrite F. reflexivity. }
    rewrite E. unfold turned.
    change (leave (("cr", s0) :: ("bits", v_bytes (pre ++ x :: l)) :: nil) (("cr", s0) :: ("bits", v_bytes ((pre ++ [0]) ++ l)) :: nil)) with (("cr", s0) :: ("bits", v_bytes ((pre ++ [0]) ++ l)) :: nil).
    replace (i + N.of_nat (S n)) with (i + 1 + N.of_nat n) by lia.
    rewrite IH; [|lia|rewrite app_length; cbn; lia|cbn in Hl; lia].
    rewrite <- app_assoc. reflexivity.
Qed.
Strategy 500 [v_bytes index set_index].
Lemma r_fill : forall p lf d b l, (300 <= lf)%nat -> wf b -> call p G lf (S (S (S (S (S d))))) None "fill_bitvector" [v_cr b; v_bytes l] =
  (let! l' := fill_bitvector p b l in Ret (Some (VUnit, [v_cr b; v_bytes l']))).
Proof.
  enter. unfold fill_bitvector, LOOP_FUEL.
  repeat lhs.
  match goal with |- context C [match v_bytes l with VList l0 => @?f l0 | _ => _ end] => let r := eval cbv beta in (f (map (VInt U8) l)) in let t := context C [r] in change t end.
  rewrite map_length. change (0 <=? 32) with true. cbn [andb].
  destruct (Nat.ltb_spec (List.length l) 32) as [Hs|Hs].
  { rewrite (proj2 (N.leb_gt 32 (N.of_nat (List.length l)))) by lia. reflexivity. }
  rewrite (proj2 (N.leb_le 32 (N.of_nat (List.length l)))) by lia.
  change 32 with (0 + N.of_nat 32) at 1. rewrite (zeroing p G None _ (v_cr b) 32 0 lf [] l) by (first [lia|reflexivity|exact Hs]).
  change (nil ++ ?x) with x. set (l0 := repeat 0 32 ++ skipn 32 l).
  assert (H1 : (32 <= List.length l0)%nat) by (unfold l0; rewrite app_length, repeat_length; lia).
  clearbody l0. generalize l0 at 3. intro lz. clear Hs.
  auto_.
  apply turns_first in Heqo; [|exact H0].
  match goal with |- ?L = ?R => match L with context C [loop ?p ?g ?o ?cf _ ?w _] => match R with context D [iter_loop _ _ ?b ?body _ _] =>
    enough (A : forall f k next acc, (f <= k)%nat -> enough_turns f next -> (32 <= List.length acc)%nat ->
      ltac:(let t := context C [loop p g o cf k w [("next", v_opt next); ("cr", v_cr b); ("bits", v_bytes acc)]] in exact t) =
      ltac:(let t := context D [iter_loop p f b body next acc] in exact t)); [apply (A 257%nat lf a l0); [lia|exact Heqo|exact H1]|] end end end.
  clear H1 Heqo a l0.
  intro f; induction f as [|f IH]; intros k next acc Hk He Hl; [exfalso; destruct next; cbn in He; lia|].
  destruct k as [|k]; [lia|]. rewrite il_S, turn_whilelet. destruct next as [pos|]; cbn [v_opt]; [|auto_].
  assert (Hp : pos / 8 < 32) by (destruct He as [He _]; apply N.div_lt_upper_bound; lia).
  destruct (nth_error acc (N.to_nat (pos / 8))) as [x|] eqn:Ex; [|apply nth_error_None in Ex; lia].
  unfold slice_upd at 1. rewrite Ex.
  auto_.
  rewrite nthN_map, Ex. cbn [option_map].
  auto_.
  rewrite updN_map by (apply nth_error_Some; congruence).
  auto_.
  rewrite adopt_opt. apply IH; [lia|eapply turns_next; eassumption|rewrite upd_length; exact Hl].
Qed.
