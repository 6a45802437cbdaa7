(** Runs of the source text: literals. *)
From Verif Require Import Base ModelUtil ModelBitField ModelCharReach ModelLiteral ModelReport ModelPetgraph ModelParser ModelNfa ModelSmallWrite ModelCompiler
  ModelRust ModelInterp ModelDump ModelSource SpecSource SpecSourceCrate.
From Verif Require Import ProofSourceA ProofSourceB ProofSourceC ProofSourceD ProofSourceE ProofSourceF ProofSourceL ProofSourceR ProofBase.
Local Open Scope string_scope.
Local Open Scope N_scope.
Local Open Scope list_scope.
Lemma t_len : forall p lf d l, call p G lf (S d) (Some "Ue2Literal") "len" [v_lit l] = Ret (Some (VInt Usize (lit_len l), [v_lit l])).
Proof. enter. auto_. unfold lit_len. rewrite map_length. reflexivity. Qed.
Lemma t_is_empty : forall p lf d l, call p G lf (S d) (Some "Ue2Literal") "is_empty" [v_lit l] = Ret (Some (VBool (lit_is_empty l), [v_lit l])).
Proof. enter. destruct l as [[|a l] nc]; unfold v_lit; cbn [lit_s lit_nocase map]; auto_. Qed.
Lemma any_bits : forall l, existsb (fun b => match b with VBool true => true | _ => false end) (map VBool l) = existsb (fun b => b) l.
Proof. induction l as [|[] l IH]; [reflexivity|reflexivity|exact IH]. Qed.
Lemma t_any : forall p lf d l, call p G lf (S d) (Some "Ue2Literal") "any_nocase" [v_lit l] = Ret (Some (VBool (lit_any_nocase l), [v_lit l])).
Proof. enter. auto_. rewrite any_bits. reflexivity. Qed.
Lemma t_iter : forall p lf d l, call p G lf (S d) (Some "Ue2Literal") "iter" [v_lit l] = Ret (Some (v_iter l 0, [v_lit l])).
Proof. enter. auto_. Qed.
#[export] Hint Rewrite t_len t_is_empty t_any t_iter : calls.
Lemma t_into_iter : forall p lf d l, call p G lf (S (S d)) (Some "Ue2Literal") "into_iter" [v_lit l] = Ret (Some (v_iter l 0, [v_lit l])).
Proof. enter. auto_. Qed.
#[export] Hint Rewrite t_into_iter : calls.
Lemma t_push : forall p lf d l c n, call p G lf (S (S (S (S d)))) (Some "Ue2Literal") "push" [v_lit l; VInt U8 c; VBool n] =
  Ret (Some (VUnit, [v_lit (lit_push l c n); VInt U8 (if n then mytoupper c else c); VBool n])).
Proof. enter. unfold v_lit, lit_push. auto_; cbn [lit_s lit_nocase]; rewrite !map_app; reflexivity. Qed.
#[export] Hint Rewrite t_push : calls.
Lemma t_next : forall p lf d l i, N.of_nat (List.length (lit_s l)) < 2 ^ usize_bits p -> call p G lf (S d) (Some "Ue2LiteralIter") "next" [v_iter l (N.of_nat i)] =
  Ret (Some (match lit_iter_next l i with Some (e, i') => (some_ (v_elem e), [v_iter l (N.of_nat i')]) | None => (none_, [v_iter l (N.of_nat i)]) end)).
Proof.
  enter. unfold lit_iter_next. auto_. rewrite Nat2N.id, nth_error_map. destruct (nth_error (lit_s l) i) as [c|] eqn:E; cbn [option_map opt_]; [|auto_].
  repeat lhs. rewrite Nat2N.id, nth_error_map. destruct (nth_error (lit_nocase l) i) as [c'|]; cbn [option_map opt_]; [|auto_].
  assert (Hi : (i < List.length (lit_s l))%nat) by (apply nth_error_Some; rewrite E; discriminate).
  repeat lhs. rewrite chk_add_ok by lia. repeat lhs. replace (N.of_nat i + 1) with (N.of_nat (S i)) by lia. reflexivity.
Qed.
Lemma lists_eq : forall l m, (fix all (l m : list val) {struct l} : bool :=
              match l with
              | [] => match m with [] => true | _ :: _ => false end
              | x :: l' => match m with [] => false | y :: m' => val_eqb x y && all l' m' end
              end) (map (VInt U8) l) (map (VInt U8) m) = listN_eqb l m.
Proof. induction l as [|a l IH]; intros [|b m]; try reflexivity. cbn [map listN_eqb]. rewrite <- IH. reflexivity. Qed.
Lemma t_eq : forall p lf d a b, call p G lf (S d) (Some "Ue2Literal") "eq" [v_lit a; v_lit b] = Ret (Some (VBool (lit_eq a b), [v_lit a; v_lit b])).
Proof. enter. auto_. unfold lit_eq. rewrite lists_eq. reflexivity. Qed.
Lemma compare_bytes : forall l m, compare_lists (map (VInt U8) l) (map (VInt U8) m) = Some (lex_cmp N.compare l m).
Proof. induction l as [|a l IH]; intros [|b m]; try reflexivity. cbn [map compare_lists lex_cmp]. rewrite IH. destruct (a ?= b); reflexivity. Qed.
Lemma compare_bits : forall l m, compare_lists (map VBool l) (map VBool m) = Some (lex_cmp bool_cmp l m).
Proof. induction l as [|a l IH]; intros [|b m]; try reflexivity. cbn [map compare_lists lex_cmp]. rewrite IH. destruct a, b; reflexivity. Qed.
Lemma t_cmp : forall p lf d a b, call p G lf (S d) (Some "Ue2Literal") "cmp" [v_lit a; v_lit b] = Ret (Some (ordering (lit_cmp a b), [v_lit a; v_lit b])).
Proof.
  enter. unfold lit_cmp. auto_. rewrite compare_bytes. destruct (lex_cmp N.compare (lit_s a) (lit_s b)); [|auto_|auto_].
  repeat lhs. rewrite compare_bits. auto_.
Qed.
#[export] Hint Rewrite t_eq t_cmp : calls.
Lemma t_pcmp : forall p lf d a b, call p G lf (S (S d)) (Some "Ue2Literal") "partial_cmp" [v_lit a; v_lit b] = Ret (Some (some_ (ordering (lit_cmp a b)), [v_lit a; v_lit b])).
Proof. enter. auto_. Qed.
Lemma turn_iter : forall p lf d k own q b l i s, N.of_nat (List.length (lit_s l)) < 2 ^ usize_bits p ->
  loop p G own (call p G lf (S d)) (S k) (WForIter q (v_iter l (N.of_nat i)) b) s =
  match lit_iter_next l i with
  | Some (e, i') =>
    match pmatch q (v_elem e) s with
    | Some s3 => bind (eval p G own (call p G lf (S d)) (loop p G own (call p G lf (S d)) k) (EBlock b) s3) (turned s (loop p G own (call p G lf (S d)) k (WForIter q (v_iter l (N.of_nat i')) b)))
    | None => stuck
    end
  | None => val_ VUnit s
  end.
Proof.
  intros. cbn [loop turn]. repeat lhs. rewrite t_next by assumption. destruct (lit_iter_next l i) as [[e i']|]; repeat lhs; reflexivity.
Qed.
Lemma next_end : forall l i, (List.length (lit_s l) <= i)%nat -> lit_iter_next l i = None.
Proof. intros l i H. unfold lit_iter_next. apply nth_error_None in H. rewrite H. reflexivity. Qed.
Lemma t_mixed_loop : forall p lf d l, N.of_nat (List.length (lit_s l)) < 2 ^ usize_bits p -> forall f k i cs nc, (f < k)%nat -> (List.length (lit_s l) <= f + i)%nat ->
  loop p G None (call p G lf (S (S (S (S d))))) k
    (WForIter (PVar "e") (v_iter l (N.of_nat i))
                  [SExpr (EIf (EUn UNot (ECall ["ourisalpha"] [EField (EPath ["e"]) "c"])) [SExpr EContinue] None);
                   SLast (EIf (EField (EPath ["e"]) "nocase") [SExpr (EAssign None (EPath ["nc"]) (EBool true))] (Some [SExpr (EAssign None (EPath ["cs"]) (EBool true))]))])
               [("nc", VBool nc); ("cs", VBool cs); ("it", v_lit l)] =
  (let (cs', nc') := mixed_loop (lit_iter_from (S f) l i) cs nc in val_ VUnit [("nc", VBool nc'); ("cs", VBool cs'); ("it", v_lit l)]).
Proof.
  intros p lf d l Hl f. induction f as [|f IH]; intros k i cs nc Hk Hi.
  - destruct k as [|k]; [lia|]. rewrite turn_iter by exact Hl. cbn [lit_iter_from]. rewrite next_end by lia. reflexivity.
  - destruct k as [|k]; [lia|]. rewrite turn_iter by exact Hl. remember (S f) as f'. cbn [lit_iter_from]. destruct (lit_iter_next l i) as [[e i']|] eqn:E; [|reflexivity].
    assert (i' = S i) by (unfold lit_iter_next in E; destruct (nth_error (lit_s l) i); [|discriminate]; destruct (nth_error (lit_nocase l) i); inversion E; reflexivity).
    subst f' i'. cbn [mixed_loop]. repeat lhs.
    destruct e as [c n]. cbn [el_c el_nocase].
    destruct (negb (ourisalpha c)); repeat lhs; [apply IH; lia|]. destruct n; repeat lhs; apply IH; lia.
Qed.
Lemma t_mixed : forall p lf d l, (300 <= lf)%nat -> (List.length (lit_s l) < lf)%nat -> N.of_nat (List.length (lit_s l)) < 2 ^ usize_bits p ->
  call p G lf (S (S (S (S (S d))))) None "mixed_sensitivity" [v_lit l] = Ret (Some (VBool (mixed_sensitivity (lit_iter l)), [v_lit l])).
Proof.
  enter. repeat lhs. change 0 with (N.of_nat 0). rewrite (t_mixed_loop p lf d l H1 (List.length (lit_s l))) by lia.
  unfold mixed_sensitivity, lit_iter. destruct (mixed_loop _ _ _) as [[] []]; auto_.
Qed.
#[export] Hint Rewrite t_mixed using first [lia|assumption] : calls.
