(** Runs of the source text: none, all, any and the searches. *)
From Verif Require Import Base ModelUtil ModelBitField ModelRust ModelInterp ModelDump ModelSource SpecSource ProofBitField.
From Verif Require Import ProofSourceA.
Local Open Scope string_scope.
Local Open Scope N_scope.
Local Open Scope list_scope.
Lemma c_none : forall p lf d b, call p G lf (S d) BFo "none" [v_bf b] = Ret (Some (VBool (bf_none b), [v_bf b])).
Proof. enter. unfold bf_none. auto_. Qed.
Lemma c_all : forall p lf d b, call p G lf (S (S d)) BFo "all" [v_bf b] = Ret (Some (VBool (bf_all b), [v_bf b])).
Proof. enter. unfold bf_all. auto_. Qed.
#[export] Hint Rewrite c_none c_all : calls.
Lemma c_any : forall p lf d b, call p G lf (S (S d)) BFo "any" [v_bf b] = Ret (Some (VBool (bf_any b), [v_bf b])).
Proof. pure_. Qed.
#[export] Hint Rewrite c_any : calls.
Lemma turn_for : forall p g own cf lf q v t b s, loop p g own cf (S lf) (WFor q (v :: t) b) s =
  match pmatch q v s with Some s1 => bind (eval p g own cf (loop p g own cf lf) (EBlock b) s1) (turned s (loop p g own cf lf (WFor q t b))) | None => stuck end.
Proof. reflexivity. Qed.
Lemma turn_end : forall p g own cf lf q b s, loop p g own cf (S lf) (WFor q [] b) s = val_ VUnit s.
Proof. reflexivity. Qed.
Lemma turn_while : forall p g own cf lf c b s, loop p g own cf (S lf) (WWhile c b) s =
    bindv (eval p g own cf (loop p g own cf lf) c s) (fun v s1 =>
      match v with
      | VBool true => bind (eval p g own cf (loop p g own cf lf) (EBlock b) s1) (turned s (loop p g own cf lf (WWhile c b)))
      | VBool false => val_ VUnit s1
      | _ => stuck
      end).
Proof. reflexivity. Qed.

Ltac turn := first [rewrite turn_for|rewrite turn_end|rewrite turn_while].
Ltac runs := auto_; try (turn; runs).
Ltac fuel lf := match goal with H : (S _ <= lf)%nat |- _ => destruct lf as [|lf]; [exfalso; inversion H|apply le_S_n in H; try fuel lf] end.
Lemma c_find_first : forall p lf d b, (5 <= lf)%nat -> call p G lf (S (S d)) BFo "find_first" [v_bf b] = (let! r := bf_find_first p b in Ret (Some (v_opt r, [v_bf b]))).
Proof. intros. fuel lf. enter. unfold bf_find_first, words, first_nonzero, bit_index, BLOCK_SIZE. runs. Qed.
Lemma c_find_last : forall p lf d b, (5 <= lf)%nat -> call p G lf (S (S d)) BFo "find_last" [v_bf b] = (let! r := bf_find_last p b in Ret (Some (v_opt r, [v_bf b]))).
Proof. intros. fuel lf. enter. unfold bf_find_last, words, last_nonzero, bit_index, BLOCK_SIZE. runs. Qed.

Lemma c_find_next : forall p lf d b n, (5 <= lf)%nat -> call p G lf (S (S (S d))) BFo "find_next" [v_bf b; VInt U8 n] = (let! r := bf_find_next p b n in Ret (Some (v_opt r, [v_bf b; VInt U8 n]))).
Proof.
  intros. fuel lf. enter. destruct b as [b0 b1 b2 b3]. unfold bf_find_next, words, bit_index, BLOCK_SIZE. exe.
  destruct (four (get_word n)) as [E|[E|[E|[E|E]]]]; [rewrite E; runs..|]. rewrite get_block_big by exact E. runs.
Qed.
