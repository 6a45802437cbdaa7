(** Runs of the source text: [Ng]. *)
From Verif Require Import Base ModelUtil ModelBitField ModelCharReach ModelLiteral ModelReport ModelPetgraph ModelParser ModelNfa ModelSmallWrite ModelCompiler
  ModelRust ModelInterp ModelDump ModelSource SpecSource SpecSourceCrate.
From Verif Require Import ProofBase ProofSourceA ProofSourceB ProofSourceC ProofSourceD ProofSourceE ProofSourceF ProofSourceL ProofSourceR ProofSourceS ProofSourceT ProofSourceU.
Local Open Scope string_scope.
Local Open Scope N_scope.
Local Open Scope list_scope.
Lemma v_mode_new : forall p lf d f, call p G lf (S (S d)) (Some "ParseMode") "new" [v_flags f] = Ret (Some (v_mode (mode_new f), [v_flags f])).
Proof. enter. auto_. Qed.
Lemma v_ng_new : forall p lf d c n k, call p G lf (S (S (S (S d)))) (Some "Ng") "new" [v_ctx c; VInt Usize n; VInt Usize k] = Ret (Some (v_ng (ng_new c n k), [v_ctx c; VInt Usize n; VInt Usize k])).
Proof. enter. auto_. Qed.
Lemma v_add_graph : forall p lf d n e h, call p G lf (S d) (Some "Ng") "add_graph" [v_ng n; v_info e; v_holder h] = Ret (Some (VUnit, [v_ng (add_graph n e h); v_info e; v_holder h])).
Proof. enter. unfold add_graph. repeat lhs. destruct (ex_som e) eqn:E; unfold v_som; auto_. Qed.
#[export] Hint Rewrite v_mode_new v_ng_new v_add_graph : calls.
Opaque lit_iter.
Lemma register_limit : forall r id e r' x, register_ext_report r id e = (r', x) -> rm_limit r' = rm_limit r.
Proof. intros r id e r' x. unfold register_ext_report. repeat (destruct (assoc _ _ _) || destruct (negb _) || destruct (ei_highlander _)); intro H; injection H as <- <-; reflexivity. Qed.
Lemma key_limit : forall r a r' k, get_exhaustible_key r a = Ret (r', k) -> rm_limit r' = rm_limit r.
Proof. intros r a r' k. unfold get_exhaustible_key. repeat (destruct (assoc _ _ _) || destruct (_ <? _)); cbn [bind]; intro H; inversion H; reflexivity. Qed.
Lemma internal_limit : forall r a r' k, get_internal_id r a = Ret (r', k) -> rm_limit r' = rm_limit r.
Proof. intros r a r' k. unfold get_internal_id. repeat (destruct (assoc _ _ _) || destruct (_ <? _) || destruct (_ <=? _)); cbn [bind]; intro H; inversion H; reflexivity. Qed.
Lemma rose_add_id : forall b x y l s, rose_add b x y l s = b.
Proof. intros. unfold rose_add. destruct (flood_as_puffette _); reflexivity. Qed.
Ltac ending id l := repeat lhs; try change (VStruct "RoseBuild" [("cc", v_ctx ?c); ("has_som", VBool true)]) with (v_rose (RoseBuild c true)); change (VCtor "HashSet" (set_add [] (VInt U32 id))) with (v_ids [id]); auto_;
  destruct (depth_try_from_usize (lit_len l)) as [dd|[]]; cbn [v_deep]; auto_; rewrite ?rose_add_id; try reflexivity; unfold depth_min; destruct (depth_cmp _ _); reflexivity.
Lemma v_add_literal : forall p lf d n l i r hl som q, one_grey n -> (300 <= lf)%nat -> (List.length (lit_s l) < lf)%nat -> N.of_nat (List.length (lit_s l)) < 2 ^ usize_bits p ->
  call p G lf (S (S (S (S (S (S d)))))) (Some "Ng") "add_literal" [v_ng n; v_lit l; VInt U32 i; VInt U32 r; VBool hl; v_som som; VBool q] =
  (let! (n', x) := ng_add_literal p n l i r hl som q in Ret (Some (v_res VBool x, [v_ng n'; v_lit l; VInt U32 i; VInt U32 r; VBool hl; v_som som; VBool q]))).
Proof.
  enter. unfold ng_add_literal, rs_debug_assert. destruct H as [G1 G2]. auto_.
  all: cbn [andb negb bind].
  all: destruct (register_ext_report (ng_rm n) r {| ei_highlander := hl; ei_first_index := i |}) as [rm1 [u|e]] eqn:R; [|repeat lhs; auto_].
  all: assert (L1 : rm_limit rm1 = limit_report_count (cc_grey (ng_cc n))) by (rewrite (register_limit _ _ _ _ _ R); exact G1).
  all: unfold literal_report_id; destruct som; [destruct hl|].
  1,4: cbn [ng_set_rm ng_rm bind]; repeat lhs; auto_; destruct a as [rm2 k];
    assert (L : rm_limit rm2 = limit_report_count (cc_grey (ng_cc n))) by (rewrite (key_limit _ _ _ _ Heqo); exact L1);
    repeat lhs; auto_; change (make_e_callback _ _ _ _) with (Report 0); rewrite ?Heqo0; try reflexivity; destruct a as [rm3 [id|e]]; auto_; ending id l.
  1,3: cbn [ng_set_rm ng_rm bind]; change (make_e_callback _ _ _ _) with (Report 0); repeat lhs; auto_; destruct a as [rm3 [id|e]]; auto_; ending id l.
  all: unfold rs_debug_assert; cbn [ng_set_rm ng_rm bind]; auto_.
  all: destruct a as [rm3 [id|e]]; auto_; ending id l.
Qed.

#[export] Hint Rewrite v_add_literal using first [lia|assumption] : calls.
