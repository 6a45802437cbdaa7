(** Runs of the source text: [add_expression] and [compile]. *)
From Verif Require Import Base ModelUtil ModelBitField ModelCharReach ModelLiteral ModelReport ModelPetgraph ModelParser ModelNfa ModelSmallWrite ModelCompiler
  ModelRust ModelInterp ModelDump ModelSource SpecSource SpecSourceCrate.
From Verif Require Import ProofBase ProofSourceA ProofSourceB ProofSourceC ProofSourceD ProofSourceE ProofSourceF ProofSourceL ProofSourceR ProofSourceS ProofSourceT ProofSourceU ProofSourceW ProofSourceX ProofSourceV ProofSourceY ProofSourceZ.
Local Open Scope string_scope.
Local Open Scope N_scope.
Local Open Scope list_scope.
Lemma adopt_builder : forall a b, adopt (v_builder a) (v_builder b) = v_builder b.
Proof. reflexivity. Qed.
Lemma a_build_graph : forall p lf d pe, (7 <= d)%nat -> (size (pe_component pe) <= d)%nat -> (300 + size (pe_component pe) <= lf)%nat ->
  call p G lf (S d) None "build_graph" [v_pexpr pe] = (let! x := build_graph p pe in Ret (Some (v_built x, [v_pexpr pe]))).
Proof.
  intros p lf d pe H7 Hd Hl. pose proof (z_notes p (size (pe_component pe)) (pe_component pe) lf d (bs0 (pe_expr pe)) (Nat.le_refl _) Hd Hl) as E. do 7 (destruct d as [|d]; [lia|]).
  destruct pe as [e c]. cbn [pe_expr pe_component] in *.
  enter. unfold build_graph, make_nfa_builder. rewrite h0_is. cbn [bind pe_expr pe_component]. rewrite bs0_is. cbn [bind]. repeat lhs. cbn [pe_expr pe_component].
  destruct c as [l|k|s].
  1: change (v_comp (CAlternation l)) with (VCtor "Component::Alternation" [v_alt l]) in *.
  2: change (v_comp (CClass k)) with (VCtor "Component::Class" [v_cc k]) in *.
  3: change (v_comp (CSequence s)) with (VCtor "Component::Sequence" [v_seqn s]) in *.
  all: repeat lhs; rewrite E; clear E; destruct (note_positions (bs0 e) _) as [b'| |]; [|reflexivity|reflexivity]; cbn [bind]; repeat lhs; rewrite adopt_builder; auto_.
Qed.
#[export] Hint Rewrite a_build_graph using lia : calls.
Lemma a_prefilter : forall p lf d c, call p G lf (S d) None "prefilter_tree" [v_comp c] = Ret (Some (VUnit, [v_comp c])).
Proof. enter. auto_. Qed.
#[export] Hint Rewrite a_prefilter : calls.
Lemma a_add : forall p lf d n i s f id, one_grey n -> (13 <= d)%nat -> (300 + S (List.length s) <= lf)%nat ->
  (forall pe, str_len s <= limit_pattern_length (cc_grey (ng_cc n)) -> parsed_expression_new p i s f id = Ret (ROk pe) -> (S (need (pe_component pe)) <= d /\ S (size (pe_component pe)) <= d /\ 300 + need (pe_component pe) <= lf /\ 300 + size (pe_component pe) <= lf)%nat /\
     (forall m, walk_component p (construct_literal_visitor p) lit_default (pe_component pe) = Ret (ROk m) -> N.of_nat (List.length (lit_s m)) < 2 ^ usize_bits p)) ->
  call p G lf (S d) None "add_expression" [v_ng n; VInt Usize i; VStr s; v_flags f; VInt U32 id] =
  (let! (n', r) := add_expression p n i s f id in Ret (Some (v_res (fun _ => VUnit) r, [v_ng n'; VInt Usize i; VStr s; v_flags f; VInt U32 id]))).
Proof.
  intros p lf d n i s f id Hg Hd Hl HP. do 13 (destruct d as [|d]; [lia|]). enter. unfold add_expression. repeat lhs.
  destruct (_ <? str_len s) eqn:L; [auto_|]. apply N.ltb_ge in L. repeat lhs.
  destruct (parsed_expression_new p i s f id) as [[pe|e]| |] eqn:P; [|cbn [bind v_res]; auto_; reflexivity|reflexivity|reflexivity]. cbn [bind v_res]. destruct (HP pe L eq_refl) as [(B1 & B2 & B3 & B4) B5]. clear HP.
  repeat lhs. destruct (ex_prefilter (pe_expr pe)); repeat lhs.
  all: rewrite (y_shortcut p lf _ n pe Hg) by (assumption || lia).
  all: destruct (shortcut_literal p n pe) as [[n1 [[]|e]]| |]; [| | |reflexivity|reflexivity]; cbn [bind v_res].
  1,4: auto_.
  2,4: auto_.
  all: repeat lhs.
  all: destruct (build_graph p pe) as [[ei g]| |]; [|reflexivity|reflexivity]; cbn [bind]; repeat lhs.
  all: reflexivity.
Qed.
