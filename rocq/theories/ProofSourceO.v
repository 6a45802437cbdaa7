(** Runs of the source text: one step of the parser. *)
From Verif Require Import Base ModelUtil ModelBitField ModelCharReach ModelParser ModelRust ModelInterp ModelDump ModelSource SpecSource.
From Verif Require Import ProofSourceA ProofSourceB ProofSourceC ProofSourceD ProofSourceE ProofSourceF ProofSourceL ProofSourceM ProofSourceN.
Local Open Scope string_scope.
Local Open Scope N_scope.
Local Open Scope list_scope.
Definition v_main (cx : context) (ts : str) (r : result compile_error context) : val * list val :=
  match r with
  | ROk cx' => (Ok_ VUnit, [v_cx cx'; VStr ts])
  | RErr e => (Err_ (v_err e), [v_cx cx; VStr ts])
  end.
Ltac chars_ := exe; rewrite ?parser_char_cons.
Ltac raw_ := cbv beta iota delta [v_cx v_mode cx_ptr cx_p cx_mode cx_sequences cx_group_index cx_current caseless dotall ignore_space multiline ucp utf8].
Lemma rda_true : forall p, rs_debug_assert p true = Ret tt.
Proof. intros p. unfold rs_debug_assert. destruct (debug_assertions p); reflexivity. Qed.
Ltac done_ := unfold v_main, v_cx, alt_append; rewrite ?app_nil_r; cbn [bind cx_ptr cx_p cx_mode cx_sequences cx_group_index cx_current rev add_component v_seqn]; rewrite ?map_app; cbn [map v_comp v_seqn]; rewrite ?map_app; cbn [map v_comp v_seqn]; try reflexivity.
Lemma l_main : forall p lf d cx x t, (300 <= lf)%nat ->
  call p G lf (S (S (S (S (S (S (S (S (S (S d)))))))))) (Some "Context") "main" [v_cx cx; VStr (x :: t)] =
  (let! r := cx_main p cx (x :: t) in Ret (Some (v_main cx (x :: t) r))).
Proof.
  enter. destruct cx as [ptr q m l gi [ch a ci cn]].
  unfold cx_main, nom_char, enter_capturing_group, push_sequence, exit_group, pop_sequence, take_any, add_literal, get_literal_component_class, class_add, ac_add, cx_advance, cx_set_current.
  destruct m as [c0 d0 i0 m0 u0 t0].
  raw_. cbn [v_seqn].
  destruct (x =? 40) eqn:E40; [|destruct (x =? 41) eqn:E41; [|destruct (x =? 124) eqn:E124]].
  - chars_. rewrite E40. auto_. done_.
  - chars_. rewrite E40. chars_. rewrite E41. destruct l as [|[[ch2 a2 ci2 cn2] o [c1 d1 i1 m1 u1 t1]] l].
    + auto_.
    + cbn [rev]. rewrite map_app. cbn [map]. unfold v_es at 2. unfold v_mode. cbn [es_seq es_offset es_mode caseless dotall ignore_space multiline ucp utf8 v_seqn].
      destruct a as [br|]; unfold finalize; cbn [sq_alternation sq_children sq_capture_index sq_capture_name add_alternation]; rewrite ?rda_true.
      * auto_. all: done_. all: match goal with |- ?g => idtac g end.
      * auto_. all: done_. all: match goal with |- ?g => idtac g end.
  - chars_. rewrite E40. chars_. rewrite E41. chars_. rewrite E124. unfold add_alternation. destruct a as [br|]; auto_.
    all: done_. all: match goal with |- ?g => idtac g end.
  - chars_. rewrite E40. chars_. rewrite E41. chars_. rewrite E124. auto_.
    all: done_. all: match goal with |- ?g => idtac g end.
Qed.
#[export] Hint Rewrite l_main using lia : calls.
