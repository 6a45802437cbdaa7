(** C72: what each option does. *)
From Verif Require Import Base ModelUtil ModelBitField ModelCharReach ModelLiteral ModelReport ModelPetgraph ModelParser ModelNfa ModelSmallWrite ModelCompiler
  SpecSet SpecGrammar SpecTree SpecGraph SpecCompile SpecFlags ProofBase ProofBitField ProofGrammar ProofParser ProofTree ProofVerb ProofGraph ProofCompile.
Local Open Scope N_scope.
Local Open Scope list_scope.

Lemma starts_read_with : forall s f body m', starts s (mode_new f) body m' -> read_with s f m'.
Proof.
  intros s f body m' St.
  assert (M : mode_new f = ParseMode (N.testbit f 0) (N.testbit f 1) false (N.testbit f 2) (N.testbit f 6) (N.testbit f 5)).
  { unfold mode_new. change CASELESS with (2 ^ 0). change DOTALL with (2 ^ 1). change MULTILINE with (2 ^ 2). change UCP with (2 ^ 6). change UTF8 with (2 ^ 5). rewrite !contains_bit. reflexivity. }
  rewrite M in St. inversion St as [s0 m0 Nv|s0 m0 rest V|s0 m0 v rest V W]; subst; constructor; cbn [caseless dotall ignore_space multiline ucp utf8]; try reflexivity.
  - split; [auto|]. intros [H|(r & V)]; [exact H|]. destruct (Nv _ _ V).
  - split; [auto|]. intros [H|[(r & V)|(r & V)]]; [exact H| |]; destruct (Nv _ _ V).
  - split; [right; exists body; exact V|reflexivity].
  - split; [auto|]. intros [H|[(r & V')|(r & V')]]; [exact H| |]; destruct (verb_unique _ _ _ _ _ V V') as [X _]; discriminate X.
  - split; [auto|]. intros [H|(r & V')]; [exact H|]. destruct (verb_unique _ _ _ _ _ V V') as [X _]. destruct W as [->| ->]; discriminate X.
  - split; [|reflexivity]. intros _. right. destruct W as [->| ->]; [left|right]; exists body; exact V.
Qed.
(** The bits of the options, and the complement. *)
Theorem C72_bits : forall f,
  contains f CASELESS = N.testbit f 0 /\ contains f DOTALL = N.testbit f 1 /\ contains f MULTILINE = N.testbit f 2 /\ contains f SINGLEMATCH = N.testbit f 3 /\
  contains f ALLOWEMPTY = N.testbit f 4 /\ contains f UTF8 = N.testbit f 5 /\ contains f UCP = N.testbit f 6 /\ contains f PREFILTER = N.testbit f 7 /\
  contains f SOM_LEFTMOST = N.testbit f 8 /\ contains f COMBINATION = N.testbit f 9 /\ contains f QUIET = N.testbit f 10 /\
  contains f (N.lor QUIET SOM_LEFTMOST) = N.testbit f 10 && N.testbit f 8 /\
  forall k, N.testbit (flags_not f) k = negb (N.testbit f k) && (k <? 11).
Proof.
  intro f. change CASELESS with (2 ^ 0). change DOTALL with (2 ^ 1). change MULTILINE with (2 ^ 2). change SINGLEMATCH with (2 ^ 3). change ALLOWEMPTY with (2 ^ 4).
  change UTF8 with (2 ^ 5). change UCP with (2 ^ 6). change PREFILTER with (2 ^ 7). change SOM_LEFTMOST with (2 ^ 8). change COMBINATION with (2 ^ 9). change QUIET with (2 ^ 10).
  rewrite contains_two, !contains_bit. conjs; try reflexivity. intro k. unfold flags_not, bnot. rewrite N.land_spec. change ALL_FLAGS with (N.ones 11).
  destruct (N.ltb_spec k 11) as [L|L].
  - rewrite N.ones_spec_low by exact L. rewrite !andb_true_r, N.lxor_spec, N.ones_spec_low by lia. destruct (N.testbit f k); reflexivity.
  - rewrite N.ones_spec_high by exact L. rewrite !andb_false_r. reflexivity.
Qed.
(** What the parser and the compiler note about an expression. *)
Theorem C72_read : forall p s f t m', parse p s (mode_new f) = Ret (ROk (t, m')) -> read_with s f m'.
Proof.
  intros p s f t m' E. pose proof (parse_cases p s (mode_new f)) as C. rewrite E in C. inversion C as [|body m1 e St A Gk We T| | | |]; subst. eapply starts_read_with. exact St.
Qed.
Theorem C72_noted : forall p index s f id x, parsed_expression_new p index s f id = Ret (ROk x) -> noted index s f id (pe_expr x).
Proof.
  intros p index s f id x E. unfold parsed_expression_new in E. destruct (contains f (N.lor QUIET SOM_LEFTMOST)) eqn:Q; [discriminate E|].
  pose proof (flags_mode (Item s f id)) as M. cbn [it_flags] in M. rewrite M in E.
  destruct (parse p s (item_mode (Item s f id))) as [[[t m']|?]|?|] eqn:P; cbn [bindr] in E; try discriminate E. injection E as <-. cbn [pe_expr].
  assert (R : read_with s f m').
  { assert (M' : mode_new f = item_mode (Item s f id)).
    { unfold mode_new, item_mode. cbn [it_flags]. change CASELESS with (2 ^ 0). change DOTALL with (2 ^ 1). change MULTILINE with (2 ^ 2). change UCP with (2 ^ 6). change UTF8 with (2 ^ 5).
      rewrite !contains_bit. reflexivity. }
    rewrite <- M' in P. pose proof (parse_cases p s (mode_new f)) as C. rewrite P in C. inversion C as [|body m1 e St A Gk We T| | | |]; subst. eapply starts_read_with. exact St. }
  constructor; cbn [ex_index ex_report ex_allow_vacuous ex_highlander ex_utf8 ex_prefilter ex_som ex_quiet]; try reflexivity.
  - change SINGLEMATCH with (2 ^ 3). apply contains_bit.
  - apply (rw_utf8 _ _ _ R).
  - change PREFILTER with (2 ^ 7). apply contains_bit.
  - change QUIET with (2 ^ 10). apply contains_bit.
Qed.
(** Only CASELESS, SINGLEMATCH and the forbidden pair have an effect. *)
Lemma parse_same_tree : forall p s m m', caseless m = caseless m' ->
  match parse p s m, parse p s m' with
  | Ret (ROk (t, _)), Ret (ROk (t', _)) => t = t'
  | Ret (RErr e), Ret (RErr e') => e = e'
  | Panic w, Panic w' => w = w'
  | _, _ => False
  end.
Proof.
  intros p s m m' Cl. pose proof (parse_cases p s m) as C. destruct C as [v rest what V Na W|body m1 e St A G We T|body m1 a b St A G N L E B|body m1 a b St E G C|body m1 a c b St E G C|body m1 a b St Oc E G C].
  all: try (assert (St' : exists m2, starts s m' body m2) by (apply body_starts, (body_starts _ _ m); eauto); destruct St' as (m2 & St')).
  - rewrite (parse_outcome_fun p s m' _ (po_verb p s m' v rest what V Na W)). reflexivity.
  - rewrite (parse_outcome_fun p s m' _ (po_ok p s m' body m2 e St' A G We T)). rewrite Cl. reflexivity.
  - rewrite (parse_outcome_fun p s m' _ (po_missing p s m' body m2 a b St' A G N L E B)). reflexivity.
  - rewrite (parse_outcome_fun p s m' _ (po_unmatched p s m' body m2 a b St' E G C)). reflexivity.
  - rewrite (parse_outcome_fun p s m' _ (po_assert p s m' body m2 a c b St' E G C)). reflexivity.
  - rewrite (parse_outcome_fun p s m' _ (po_overflow p s m' body m2 a b St' Oc E G C)). reflexivity.
Qed.
Lemma same_request_add : forall p n i s f f' d, same_request f f' -> add_expression p n i s f d = add_expression p n i s f' d.
Proof.
  intros p n i s f f' d (B0 & B3 & B8). unfold add_expression. destruct (_ <? _); [reflexivity|]. unfold parsed_expression_new.
  pose proof (C72_bits f) as (_ & _ & _ & S & _ & _ & _ & _ & _ & _ & _ & Q & _). pose proof (C72_bits f') as (_ & _ & _ & S' & _ & _ & _ & _ & _ & _ & _ & Q' & _).
  rewrite Q, Q', S, S', B3, B8. destruct (N.testbit f' 10 && N.testbit f' 8); [reflexivity|].
  pose proof (flags_mode (Item s f d)) as M. pose proof (flags_mode (Item s f' d)) as M'. cbn [it_flags] in M, M'. rewrite M, M'.
  pose proof (parse_same_tree p s (item_mode (Item s f d)) (item_mode (Item s f' d)) B0) as T.
  destruct (parse p s (item_mode (Item s f d))) as [[[t m1]|e]|w|], (parse p s (item_mode (Item s f' d))) as [[[t' m2]|e']|w'|]; try contradiction T; cbn [bindr bind]; [|rewrite T; reflexivity|rewrite T; reflexivity].
  rewrite <- T. change (let _ := _ in ?k) with k.
  assert (Sl : forall u1 u2 q1 q2 r1 r2 h, shortcut_literal p n (ParsedExpression (ExpressionInfo i d false h u1 r1 SomNone q1) t) = shortcut_literal p n (ParsedExpression (ExpressionInfo i d false h u2 r2 SomNone q2) t)) by reflexivity.
  rewrite (Sl (utf8 m1) (utf8 m2) (contains f QUIET) (contains f' QUIET) (contains f PREFILTER) (contains f' PREFILTER)).
  match goal with |- bind ?a _ = _ => destruct a as [[n1 [[|]|e]]|w|]; cbn [bind]; try reflexivity end.
  rewrite !build_graph_ok. destruct (_ <=? _); reflexivity.
Qed.
Theorem C72_same : forall p es fs fs' ids m g, Forall2 same_request fs fs' -> compile_multi_int p es fs ids m g = compile_multi_int p es fs' ids m g.
Proof.
  intros p es fs fs' ids m g H. unfold compile_multi_int. destruct es as [|e0 es0] eqn:Ees; [reflexivity|]. cbv zeta. rewrite <- Ees. clear e0 es0 Ees. destruct (_ <? _); [reflexivity|].
  match goal with |- bindr ?a _ = bindr ?b _ => enough (X : a = b) by (rewrite X; reflexivity) end.
  generalize (ng_new (CompileContext (is_streaming m) (is_vectored m) g) (N.of_nat (List.length es)) (som_precision m)) as n. generalize 0 as i. revert es ids.
  induction H as [|f f' fs fs' Hf H IH]; intros es ids i n; [reflexivity|]. destruct es as [|e es]; [reflexivity|]. destruct ids as [|d ids]; [reflexivity|]. cbn [zip3 add_all].
  rewrite (same_request_add p n i e f f' d Hf). destruct (add_expression p n i e f' d) as [[n1 [u|er]]|w|]; cbn [bind]; try reflexivity. apply IH.
Qed.
Theorem C72_engine : forall p es fs fs' ids m, Forall2 same_request fs fs' -> engine p es fs ids m = engine p es fs' ids m.
Proof.
  intros p es fs fs' ids m H. unfold engine. generalize (ng_new (CompileContext (is_streaming m) (is_vectored m) grey_default) (N.of_nat (List.length es)) (som_precision m)) as n. generalize 0 as i. revert es ids.
  induction H as [|f f' fs fs' Hf H IH]; intros es ids i n; [reflexivity|]. destruct es as [|e es]; [reflexivity|]. destruct ids as [|d ids]; [reflexivity|]. cbn [zip3 add_all].
  rewrite (same_request_add p n i e f f' d Hf). destruct (add_expression p n i e f' d) as [[n1 [u|er]]|w|]; cbn [bind]; try reflexivity. apply IH.
Qed.
(** Each of the three does have an effect. *)
Theorem C72_each_matters :
  (exists e, engine release [e] [0] [0] Block <> engine release [e] [1] [0] Block) /\
  (exists e, engine release [e] [0] [0] Block <> engine release [e] [8] [0] Block) /\
  (exists e f, N.testbit f 10 = true /\ engine release [e] [f] [0] Block <> engine release [e] [f + 256] [0] Block) /\
  (exists e f, N.testbit f 8 = true /\ engine release [e] [f] [0] Block <> engine release [e] [f + 1024] [0] Block).
Proof.
  split; [exists (lit "a"); vm_compute; discriminate|]. split; [exists (lit "a"); vm_compute; discriminate|]. split; [exists (lit "a"), 1024|exists (lit "a"), 256]; split; try reflexivity; vm_compute; discriminate.
Qed.
Example C72_case : Forall2 same_request [0; 9; 1024] [256 + 2 + 4 + 16 + 32 + 64 + 128 + 512; 11 + 1024; 2047 - 256 - 1 - 8] /\
  (exists n, engine release [lit "ab"; lit "c|d"; lit "e"] [0; 9; 1024] [3; 4; 5] Block = Ret (ROk n)) /\
  (exists x, parsed_expression_new release 2 (lit "(*UTF)a") 192 7 = Ret (ROk x) /\ pe_expr x = ExpressionInfo 2 7 false false true true SomNone false) /\
  flags_not QUIET = 1023.
Proof.
  split; [repeat constructor|]. split; [eexists; vm_compute; reflexivity|]. split; [eexists; split; [vm_compute; reflexivity|reflexivity]|reflexivity].
Qed.

Print Assumptions C72_bits. Print Assumptions C72_read. Print Assumptions C72_noted. Print Assumptions C72_same. Print Assumptions C72_engine. Print Assumptions C72_each_matters.
