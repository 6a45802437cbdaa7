(** Runs of the source text: the functions of CharReach that wrap those of BitField256. *)
From Verif Require Import Base ModelUtil ModelBitField ModelCharReach ModelRust ModelInterp ModelDump ModelSource SpecSource ProofBitField.
From Verif Require Import ProofSourceA ProofSourceB ProofSourceC ProofSourceD.
Local Open Scope string_scope.
Local Open Scope N_scope.
Local Open Scope list_scope.
Ltac opt_ := match goal with |- context [v_opt ?a] => destruct a; reflexivity end.
Ltac ucr := unfold cr_reset, cr_set, cr_flip, cr_test, cr_find_first, cr_find_last, cr_find_next, cr_find_nth, cr_set_range, cr_none, cr_any, cr_all, cr_count.
#[export] Hint Rewrite c_set_range using lia : calls.
Lemma r_reset_all : forall p lf d b, call p G lf (S (S (S d))) CRo "reset_all" [v_cr b] = Ret (Some (VUnit, [v_cr (cr_reset_all b)])).
Proof. enter. ucr. auto_; try opt_. Qed.
Lemma r_set_all : forall p lf d b, call p G lf (S (S (S d))) CRo "set_all" [v_cr b] = Ret (Some (VUnit, [v_cr (cr_set_all b)])).
Proof. enter. ucr. auto_; try opt_. Qed.
Lemma r_flip_all : forall p lf d b, call p G lf (S (S (S d))) CRo "flip_all" [v_cr b] = Ret (Some (VUnit, [v_cr (cr_flip_all b)])).
Proof. enter. ucr. auto_; try opt_. Qed.
Lemma r_reset : forall p lf d b n, call p G lf (S (S (S (S d)))) CRo "reset" [v_cr b; VInt U8 n] = (let! b' := cr_reset p b n in Ret (Some (VUnit, [v_cr b'; VInt U8 n]))).
Proof. enter. ucr. auto_; try opt_. Qed.
Lemma r_set : forall p lf d b n, call p G lf (S (S (S (S d)))) CRo "set" [v_cr b; VInt U8 n] = (let! b' := cr_set p b n in Ret (Some (VUnit, [v_cr b'; VInt U8 n]))).
Proof. enter. ucr. auto_; try opt_. Qed.
Lemma r_flip : forall p lf d b n, call p G lf (S (S (S (S d)))) CRo "flip" [v_cr b; VInt U8 n] = (let! b' := cr_flip p b n in Ret (Some (VUnit, [v_cr b'; VInt U8 n]))).
Proof. enter. ucr. auto_; try opt_. Qed.
Lemma r_test : forall p lf d b n, call p G lf (S (S (S (S d)))) CRo "test" [v_cr b; VInt U8 n] = (let! t := cr_test p b n in Ret (Some (VBool t, [v_cr b; VInt U8 n]))).
Proof. enter. ucr. auto_; try opt_. Qed.
Lemma r_none : forall p lf d b, call p G lf (S (S (S d))) CRo "none" [v_cr b] = Ret (Some (VBool (cr_none b), [v_cr b])).
Proof. enter. ucr. auto_; try opt_. Qed.
Lemma r_any : forall p lf d b, call p G lf (S (S (S d))) CRo "any" [v_cr b] = Ret (Some (VBool (cr_any b), [v_cr b])).
Proof. enter. ucr. auto_; try opt_. Qed.
Lemma r_all : forall p lf d b, call p G lf (S (S (S d))) CRo "all" [v_cr b] = Ret (Some (VBool (cr_all b), [v_cr b])).
Proof. enter. ucr. auto_; try opt_. Qed.
Lemma r_count : forall p lf d b, call p G lf (S (S (S (S d)))) CRo "count" [v_cr b] = Ret (Some (VInt U32 (cr_count b), [v_cr b])).
Proof. enter. ucr. auto_; try opt_. Qed.
Lemma r_find_first : forall p lf d b, (5 <= lf)%nat -> call p G lf (S (S (S d))) CRo "find_first" [v_cr b] = (let! r := cr_find_first p b in Ret (Some (v_opt r, [v_cr b]))).
Proof. enter. ucr. auto_; try opt_. Qed.
Lemma r_find_last : forall p lf d b, (5 <= lf)%nat -> call p G lf (S (S (S d))) CRo "find_last" [v_cr b] = (let! r := cr_find_last p b in Ret (Some (v_opt r, [v_cr b]))).
Proof. enter. ucr. auto_; try opt_. Qed.
Lemma r_find_next : forall p lf d b n, (5 <= lf)%nat -> call p G lf (S (S (S (S d)))) CRo "find_next" [v_cr b; VInt U8 n] = (let! r := cr_find_next p b n in Ret (Some (v_opt r, [v_cr b; VInt U8 n]))).
Proof. enter. ucr. auto_; try opt_. Qed.
Lemma r_find_nth : forall p lf d b n, (300 <= lf)%nat -> n < 256 -> call p G lf (S (S (S (S (S d))))) CRo "find_nth" [v_cr b; VInt U8 n] = (let! r := cr_find_nth p b n in Ret (Some (v_opt r, [v_cr b; VInt U8 n]))).
Proof. enter. ucr. auto_; try opt_. Qed.
Lemma r_set_range : forall p lf d b x y, x < 256 -> y < 256 -> (20 <= lf)%nat -> call p G lf (S (S (S (S d)))) CRo "set_range" [v_cr b; VInt U8 x; VInt U8 y] = (let! b' := cr_set_range p b x y in Ret (Some (VUnit, [v_cr b'; VInt U8 x; VInt U8 y]))).
Proof. enter. ucr. auto_; try opt_. Qed.
#[export] Hint Rewrite r_reset_all r_set_all r_flip_all r_reset r_set r_flip r_test r_none r_any r_all : calls.
#[export] Hint Rewrite r_count r_find_first r_find_last r_find_next r_find_nth r_set_range using first [lia|assumption] : calls.
Lemma r_and_assign : forall p lf d b a, call p G lf (S (S d)) CRo "bitand_assign" [v_cr b; v_cr a] = Ret (Some (VUnit, [v_cr (cr_and_assign b a); v_cr a])).
Proof. enter. ucr. auto_; try opt_. Qed.
Lemma r_or_assign : forall p lf d b a, call p G lf (S (S d)) CRo "bitor_assign" [v_cr b; v_cr a] = Ret (Some (VUnit, [v_cr (cr_or_assign b a); v_cr a])).
Proof. enter. ucr. auto_; try opt_. Qed.
Lemma r_xor_assign : forall p lf d b a, call p G lf (S (S d)) CRo "bitxor_assign" [v_cr b; v_cr a] = Ret (Some (VUnit, [v_cr (cr_xor_assign b a); v_cr a])).
Proof. enter. ucr. auto_; try opt_. Qed.
Lemma r_not : forall p lf d b, call p G lf (S (S d)) CRo "not" [v_cr b] = Ret (Some (v_cr (cr_not b), [v_cr (cr_not b)])).
Proof. enter. ucr. auto_; try opt_. Qed.
#[export] Hint Rewrite r_and_assign r_or_assign r_xor_assign r_not : calls.
Lemma r_and : forall p lf d a b, call p G lf (S (S (S d))) CRo "bitand" [v_cr a; v_cr b] = Ret (Some (v_cr (cr_and a b), [v_cr a; v_cr b])).
Proof. enter. ucr. auto_; try opt_. Qed.
Lemma r_or : forall p lf d a b, call p G lf (S (S (S d))) CRo "bitor" [v_cr a; v_cr b] = Ret (Some (v_cr (cr_or a b), [v_cr a; v_cr b])).
Proof. enter. ucr. auto_; try opt_. Qed.
Lemma r_xor : forall p lf d a b, call p G lf (S (S (S d))) CRo "bitxor" [v_cr a; v_cr b] = Ret (Some (v_cr (cr_xor a b), [v_cr a; v_cr b])).
Proof. enter. ucr. auto_; try opt_. Qed.
#[export] Hint Rewrite r_and r_or r_xor : calls.
