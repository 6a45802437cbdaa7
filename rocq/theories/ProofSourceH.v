(** Runs of the source text: extract_mnemonic and contiguous_range. *)
From Verif Require Import Base ModelUtil ModelBitField ModelCharReach ModelDump ModelRust ModelInterp ModelSource SpecSource SpecSet ProofBitField ProofBitField2 ProofDump.
From Verif Require Import ProofSourceA ProofSourceB ProofSourceC ProofSourceD ProofSourceE ProofSourceF ProofSourceG.
Local Open Scope string_scope.
Local Open Scope N_scope.
Local Open Scope list_scope.
Notation "'frombytes' l" := (ltac:(let v := eval vm_compute in (map (VInt U8) l) in exact (forall p lf d, (100 <= lf)%nat -> call p G lf (S (S (S (S (S (S d)))))) CRo "from_bytes" [VList v] = (let! b := cr_from_bytes p l in Ret (Some (v_cr b, [v_bytes l]))))) ) (at level 10, only parsing).
Lemma d_words : frombytes WORD_BYTES.
Proof. intros. change (VList _) with (v_bytes WORD_BYTES). apply r_from_bytes. match goal with |- (List.length ?l < _)%nat => let n := eval vm_compute in (List.length l) in change (List.length l) with n end. lia. Qed.
Lemma d_digits : frombytes DIGIT_BYTES.
Proof. intros. change (VList _) with (v_bytes DIGIT_BYTES). apply r_from_bytes. match goal with |- (List.length ?l < _)%nat => let n := eval vm_compute in (List.length l) in change (List.length l) with n end. lia. Qed.
Lemma d_spaces : frombytes SPACE_BYTES.
Proof. intros. change (VList _) with (v_bytes SPACE_BYTES). apply r_from_bytes. match goal with |- (List.length ?l < _)%nat => let n := eval vm_compute in (List.length l) in change (List.length l) with n end. lia. Qed.
#[export] Hint Rewrite d_words d_digits d_spaces using lia : calls.
#[export] Hint Rewrite r_is_subset_of : calls.
Lemma d_mnemonic : forall p lf d out b o, (300 <= lf)%nat -> call p G lf (S (S (S (S (S (S (S d))))))) None "extract_mnemonic" [VStr out; v_cr b; v_out o] =
  (let! r := extract_mnemonic p b o in Ret (Some (ok_ (match r with Some (_, c) => some_ (v_cr c) | None => none_ end), [VStr (out ++ match r with Some (s, _) => s | None => [] end); v_cr b; v_out o]))).
Proof.
  enter. unfold extract_mnemonic, backslash. destruct o; unfold v_out; auto_.
  all: cbn [app]; rewrite <- ?app_assoc, ?app_nil_r; reflexivity.
Qed.
#[export] Hint Rewrite d_mnemonic using lia : calls.
Arguments extract_mnemonic : simpl never.
Arguments contiguous_range : simpl never.
Arguments describe_class_int : simpl never.
Strategy 500 [extract_mnemonic contiguous_range describe_class_int].
Lemma cl_S : forall p f cr last, contiguous_loop p (S f) cr last =
    (let! next := cr_find_next p cr last in
    match next with
    | None => Ret (Some last)
    | Some c =>
      let! l1 := chk_add p 8 last 1 in
      if negb (c =? l1) then Ret None else contiguous_loop p f cr c
    end).
Proof. reflexivity. Qed.
Lemma d_contiguous : forall p lf d b, (300 <= lf)%nat -> wf b -> call p G lf (S (S (S (S (S d))))) None "contiguous_range" [v_cr b] =
  (let! r := contiguous_range p b in Ret (Some (v_pair r, [v_cr b]))).
Proof.
  enter. unfold contiguous_range, LOOP_FUEL. auto2.
  assert (Hn : n < 256) by exact (first_lt p b n H0 Heqo).
  match goal with |- ?L = ?R => match L with context C [loop ?p ?g ?o1 ?cf _ ?w _] => match R with context D [contiguous_loop _ _ _ _] =>
    enough (A : forall f k c, (f <= k)%nat -> c < 256 -> 256 <= c + N.of_nat f ->
      ltac:(let t := context C [loop p g o1 cf k w [("last", VInt U8 c); ("first", VInt U8 n); ("cr", v_cr b)]] in exact t) =
      ltac:(let t := context D [contiguous_loop p f b c] in exact t)) end end end;
    [ apply (A 257%nat); [lia|exact Hn|change (N.of_nat 257) with 257; lia]| ].
  induction f as [|f IH]; intros k c Hk Hc Hf; [lia|]. destruct k as [|k]; [lia|]. rewrite turn_whilelet, cl_S. auto2.
  destruct (next_gt p b c n0 H0 Hc Heqo0). apply IH; lia.
Qed.
#[export] Hint Rewrite d_contiguous using (assumption || lia) : calls.
