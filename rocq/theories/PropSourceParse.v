(** C92, C93: the text of the parser's source files, read by the parser of ModelRust.v and run by
    the interpreter of ModelInterp.v. *)
From Verif Require Import Base ModelRust ModelInterp ModelSource ModelUtil ModelBitField ModelCharReach ModelParser SpecSource SpecSet SpecGrammar
  ProofGrammar ProofVerb ProofSourceA ProofSourceL ProofSourceM ProofSourceP ProofSourceQ PropSource PropParser.
Local Open Scope string_scope.
Local Open Scope N_scope.
Local Open Scope list_scope.

Ltac deep H := intros; intros turns depth Hturns Hdepth; rewrite program_is; do 12 (destruct depth as [|depth]; [lia|]); rewrite H by lia; try reflexivity.

(** ** C92 *)
(** compile_error.rs *)
Theorem C92_errors : forall p,
  (forall k s, runs p 300 (Some "CompileError") "new" [v_kind k; VStr s] (Ret (Some (v_err (error_new k s), [v_kind k; VStr s])))) /\
  (forall i s, runs p 300 (Some "CompileError") "with_index" [VInt U32 i; VStr s] (Ret (Some (v_err (error_with_index i s), [VInt U32 i; VStr s])))) /\
  (forall e i, runs p 300 (Some "CompileError") "set_expression_index" [v_err e; VInt U32 i]
     (let! e' := set_expression_index p e i in Ret (Some (VUnit, [v_err e'; VInt U32 i])))) /\
  (forall e out, runs p 300 (Some "CompileError") "fmt" [v_err e; VStr out] (Ret (Some (ok_ VUnit, [v_err e; VStr (out ++ error_display e)])))).
Proof. intro p. split; [deep m_err_new|]. split; [deep l_with_index|]. split; [deep l_set_index|]. deep m_fmt. Qed.
(** ascii_component_class.rs and component_class.rs *)
Theorem C92_classes : forall p,
  (forall m, runs p 300 (Some "AsciiComponentClass") "new" [v_mode m] (Ret (Some (v_ac (ac_new m), [v_mode m])))) /\
  (forall cc c, runs p 300 (Some "AsciiComponentClass") "add" [v_ac cc; VInt U8 c]
     (let! cc' := ac_add p cc c in Ret (Some (VUnit, [v_ac cc'; VInt U8 c])))) /\
  (forall m, runs p 300 None "get_component_class" [v_mode m] (Ret (Some (v_cc (get_component_class m), [v_mode m])))) /\
  (forall cc c, runs p 300 (Some "ComponentClass") "add" [v_cc cc; VChar c]
     (let! r := class_add p cc c in Ret (Some (v_res (fun _ => VUnit) r, [v_cc (match r with ROk cc' => cc' | RErr _ => cc end); VChar c])))) /\
  (forall c nocase, runs p 300 None "get_literal_component_class" [VChar c; VBool nocase]
     (let! r := get_literal_component_class p c nocase in Ret (Some (v_res v_cc r, [VChar c; VBool nocase])))).
Proof. intro p. split; [deep m_ac_new|]. split; [deep m_ac_add|]. split; [deep m_get_cc|]. split; [deep m_cc_add|]. deep m_lit. Qed.
(** component_alternation.rs, component_sequence.rs and component.rs *)
Theorem C92_sequences : forall p,
  (forall l s, runs p 300 (Some "ComponentAlternation") "append" [v_alt l; v_seqn s] (Ret (Some (VUnit, [v_alt (alt_append l s); v_seqn s])))) /\
  (forall s, runs p 300 (Some "ComponentSequence") "add_alternation" [v_seqn s] (Ret (Some (VUnit, [v_seqn (add_alternation s)])))) /\
  (forall s, runs p 300 (Some "ComponentSequence") "finalize" [v_seqn s] (let! s' := finalize p s in Ret (Some (VUnit, [v_seqn s'])))) /\
  (forall s c, runs p 300 (Some "ComponentSequence") "add_component" [v_seqn s; v_comp c] (Ret (Some (VUnit, [v_seqn (add_component s c); v_comp c])))) /\
  (forall c, runs p 300 (Some "Component") "from<ComponentClass>" [v_cc c] (Ret (Some (v_comp (CClass c), [v_cc c])))) /\
  (forall s, runs p 300 (Some "Component") "from<ComponentSequence>" [v_seqn s] (Ret (Some (v_comp (CSequence s), [v_seqn s])))).
Proof.
  intro p. split; [deep m_append|]. split; [deep m_add_alt|]. split; [deep m_fin|]. split; [deep m_add_comp|]. split; [deep m_from_class|]. deep m_from_seq.
Qed.
(** control_verbs.rs *)
Theorem C92_verbs : forall p,
  (forall s, runs p 300 None "control_verb" [VStr s]
     (Ret (Some (match control_verb s with Some (rest, verb) => ok_ (VTuple [VStr rest; VStr verb]) | None => VCtor "Err" [VUnit] end, [VStr s])))) /\
  (forall s start m, runs p 300 None "read_control_verbs" [VStr s; VInt Usize start; v_mode m]
     (let! r := read_control_verbs p s start m in
      Ret (Some (v_res (fun x => VStr (fst x)) r, [VStr s; VInt Usize start; v_mode (match r with ROk x => snd x | RErr _ => m end)])))).
Proof. intro p. split; [deep l_control_verb|]. deep m_verbs. Qed.
(** parser.rs, up to one step of the parser: a step that fails leaves the context as it was *)
Theorem C92_context : forall p,
  (forall s o m, runs p 300 (Some "ExprState") "new" [v_seqn s; VInt Usize o; v_mode m] (Ret (Some (v_es (ExprState s o m), [v_seqn s; VInt Usize o; v_mode m])))) /\
  (forall s c m, runs p 300 None "add_literal" [v_seqn s; VChar c; v_mode m]
     (let! r := add_literal p s c m in Ret (Some (v_res (fun _ => VUnit) r, [v_seqn (match r with ROk s' => s' | RErr _ => s end); VChar c; v_mode m])))) /\
  (forall s, runs p 300 None "take_any" [VStr s]
     (Ret (Some (match take_any s with Some (rest, c) => ok_ (VTuple [VStr rest; VChar c]) | None => VCtor "Err" [VUnit] end, [VStr s])))) /\
  (forall a b m, runs p 300 (Some "Context") "new" [VStr a; VStr b; v_mode m] (Ret (Some (v_cx (context_new a b m), [VStr a; VStr b; v_mode m])))) /\
  (forall cx ts, runs p 300 (Some "Context") "push_sequence" [v_cx cx; VStr ts] (let! cx' := push_sequence p cx ts in Ret (Some (VUnit, [v_cx cx'; VStr ts])))) /\
  (forall cx, runs p 300 (Some "Context") "pop_sequence" [v_cx cx]
     (let! r := pop_sequence p cx in Ret (Some (v_res (fun _ => VUnit) r, [v_cx (match r with ROk c => c | RErr _ => cx end)])))) /\
  (forall cx ts, runs p 300 (Some "Context") "enter_capturing_group" [v_cx cx; VStr ts]
     (let! cx' := enter_capturing_group p cx ts in Ret (Some (VUnit, [v_cx cx'; VStr ts])))) /\
  (forall cx, runs p 300 (Some "Context") "exit_group" [v_cx cx]
     (let! r := exit_group p cx in Ret (Some (v_res (fun _ => VUnit) r, [v_cx (match r with ROk c => c | RErr _ => cx end)])))) /\
  (forall cx ts, runs p 300 (Some "Context") "main" [v_cx cx; VStr ts]
     (let! r := cx_main p cx ts in Ret (Some (v_res (fun _ => VUnit) r, [v_cx (match r with ROk c => c | RErr _ => cx end); VStr ts])))).
Proof.
  intro p. split; [deep m_es_new|]. split; [deep m_add_lit|]. split; [deep l_take_any; destruct s; reflexivity|]. split; [deep m_cx_new|]. split; [deep m_push|].
  split; [deep m_pop|]. split; [deep m_enter|]. split; [deep m_exit|]. deep m_main.
Qed.
(** parser.rs: [Context::parse] takes its context by value, and what is left of it is of no account *)
Theorem C92_parse : forall p,
  (forall cx, exists left, runs p (300 + List.length (cx_p cx)) (Some "Context") "parse" [v_cx cx]
     (let! r := cx_parse p cx in Ret (Some (v_res v_seqn r, [left])))) /\
  (forall s m, runs p (300 + List.length s) None "parse" [VStr s; v_mode m]
     (let! r := ModelParser.parse p s m in
      Ret (Some (v_res (fun x => v_comp (fst x)) r,
        [VStr s; v_mode (match read_control_verbs p s 0 m with Ret (ROk x) => snd x | _ => m end)])))).
Proof.
  intro p. split.
  - intro cx. exists (v_cx (parsed p cx)). deep m_cx_parse.
  - deep m_parse.
Qed.
(** A sequence with a branch behind it, and the texts run on it. *)
Definition two_branches : seqn := Seqn [CClass (AsciiClass mode_default (BF 0 (2 ^ 33) 0 0))] (Some [Seqn [] None None None]) (Some 7) None.
Example C92_case :
  call dev util_program 300 20 (Some "ComponentSequence") "finalize" [v_seqn two_branches] =
    Ret (Some (VUnit, [v_seqn (Seqn [CAlternation [Seqn [] None None None; Seqn [CClass (AsciiClass mode_default (BF 0 (2 ^ 33) 0 0))] None None None]] None (Some 7) None)])) /\
  call dev util_program 300 20 None "read_control_verbs" [VStr (lit "(*UTF)a"); VInt Usize 5; v_mode mode_default] =
    Ret (Some (ok_ (VStr (lit "a")), [VStr (lit "(*UTF)a"); VInt Usize 5; v_mode (ParseMode false false false false false true)])) /\
  call release util_program 300 20 None "parse" [VStr (lit "(*UCP)a(b)"); v_mode mode_default] =
    (let! r := ModelParser.parse release (lit "(*UCP)a(b)") mode_default in
     Ret (Some (v_res (fun x => v_comp (fst x)) r, [VStr (lit "(*UCP)a(b)"); v_mode (ParseMode false false false false true false)]))) /\
  call dev util_program 300 20 None "parse" [VStr (lit "(*UCP)a(b)"); v_mode mode_default] = Panic POverflow.
Proof. rewrite program_is. vm_compute. repeat split. Qed.

(** ** C93 *)
(** Running the text of [parse] on [s], in mode [m], comes to [r]. *)
Definition text_parse (p : profile) (s : str) (m : parse_mode) : outcome (option (val * list val)) -> Prop :=
  runs p (300 + List.length s) None "parse" [VStr s; v_mode m].
(** what [parse] gives back: a tree or an error, and the mode it leaves behind *)
Definition tree_back (s : str) (t : component) (m' : parse_mode) : outcome (option (val * list val)) := Ret (Some (ok_ (v_comp t), [VStr s; v_mode m'])).
Definition error_back (s : str) (e : compile_error) (m' : parse_mode) : outcome (option (val * list val)) := Ret (Some (VCtor "Err" [v_err e], [VStr s; v_mode m'])).
Lemma text_is : forall p s m r, text_parse p s m r <->
  r = (let! r := ModelParser.parse p s m in Ret (Some (v_res (fun x => v_comp (fst x)) r, [VStr s; v_mode (mode_after p s m)]))).
Proof.
  intros p s m r. split.
  - intro H. specialize (H (300 + List.length s)%nat 20%nat (Nat.le_refl _) (Nat.le_refl _)). rewrite <- H.
    rewrite program_is, (m_parse p _ 8 s m) by lia. reflexivity.
  - intros ->. unfold text_parse. deep m_parse.
Qed.
Lemma tree_is : forall p s m t m', text_parse p s m (tree_back s t m') <-> ModelParser.parse p s m = Ret (ROk (t, m')).
Proof.
  intros p s m t m'. rewrite text_is. unfold tree_back. split.
  - intro H. pose proof (parse_cases p s m) as C. inversion C as [v rest what V Na W E|body m1 e St A Gr We T E|body m1 a b St A Gr N L Eb B E|body m1 a b St Eb Gp Cl E|body m1 a c b St Eb Gp Hc E|body m1 a b St Oc Eb Gp X E]; rewrite <- E in H; cbn [bind v_res fst] in H; try discriminate H.
    rewrite (mode_starts p _ _ _ _ St) in H. injection H as Ht Hm.
    assert (m' = m1) by (apply v_mode_inj; unfold v_mode; congruence). subst m1.
    assert (X : v_comp t = v_comp (tree (caseless m) e)) by (cbn [tree v_comp]; congruence). apply v_comp_inj in X. subst t. reflexivity.
  - intro E. rewrite E. cbn [bind v_res fst]. apply C13_tree_iff in E. destruct E as (body & e & St & _). rewrite (mode_starts p _ _ _ _ St). reflexivity.
Qed.
Lemma error_is : forall p s m e, (exists m', text_parse p s m (error_back s e m')) <-> ModelParser.parse p s m = Ret (RErr e).
Proof.
  intros p s m e. split.
  - intros (m' & H). apply text_is in H. unfold error_back in H. destruct (ModelParser.parse p s m) as [[[t m1]|e']| |]; cbn [bind v_res] in H; try discriminate H.
    assert (X : v_err e = v_err e') by congruence. apply v_err_inj in X. subst. reflexivity.
  - intro E. exists (mode_after p s m). apply text_is. rewrite E. reflexivity.
Qed.
Lemma panic_is : forall p s m w, text_parse p s m (Panic w) <-> ModelParser.parse p s m = Panic w.
Proof.
  intros p s m w. rewrite text_is. split.
  - intro H. destruct (ModelParser.parse p s m) as [r| |]; cbn [bind] in H; try discriminate H. injection H as ->. reflexivity.
  - intros ->. reflexivity.
Qed.
(** The text accepts what the grammar derives, with the tree the grammar gives it. *)
Theorem C93_tree : forall p s m t m', text_parse p s m (tree_back s t m') <->
  exists body e, starts s m body m' /\ ascii_text body /\ groups_ok p s body body /\ wf_expr e /\ SpecGrammar.text e = body /\ t = tree (caseless m) e.
Proof. intros. rewrite tree_is. apply C13_tree_iff. Qed.
Theorem C93_accepts : forall p s m body m', starts s m body m' ->
  ((exists t, text_parse p s m (tree_back s t m')) <-> ascii_text body /\ balanced body /\ groups_ok p s body body).
Proof.
  intros p s m body m' St. rewrite <- (C12_accepts_balanced p s m body m' St). split; intros (t & H); exists t; apply tree_is; exact H.
Qed.
Theorem C93_language : forall p s m t m', text_parse p s m (tree_back s t m') ->
  forall body e, starts s m body m' -> wf_expr e -> SpecGrammar.text e = body -> forall w, tree_matches t w <-> lang (caseless m) e w.
Proof. intros p s m t m' H. apply tree_is in H. exact (C14_language p s m t m' H). Qed.
(** Errors of the text. *)
Theorem C93_unmatched : forall p s m, (exists m', text_parse p s m (error_back s unmatched_error m')) <->
  exists body m' a b, starts s m body m' /\ body = a ++ 41 :: b /\ ascii_text a /\ balanced a /\ groups_ok p s body a.
Proof. intros. rewrite error_is. apply C16_unmatched_iff. Qed.
Theorem C93_missing : forall p s m, (exists i m', text_parse p s m (error_back s (missing_error i) m')) <->
  exists body m', starts s m body m' /\ ascii_text body /\ groups_ok p s body body /\ never_negative body /\ (closes body < opens body)%nat.
Proof. intros. rewrite <- C16_missing_iff. split; intros (i & H); exists i; apply error_is; exact H. Qed.
Theorem C93_verbs : forall p s m v rest, verb_then s v rest -> ~ accepted_verb v ->
  (unsupported_verb v -> text_parse p s m (error_back s (verb_error (lit "Unsupported control verb ") v 0) m)) /\
  (~ unsupported_verb v -> text_parse p s m (error_back s (verb_error (lit "Unknown control verb ") v 0) m)).
Proof.
  intros p s m v rest V Na. destruct (C18_parse_uses_verb p s m) as (H1 & H2 & _).
  split; intro U; apply text_is; rewrite (mode_rejected p s m v rest V Na).
  - rewrite (H1 v rest V U). reflexivity.
  - rewrite (H2 v rest V Na U). reflexivity.
Qed.
(** Panics of the text. *)
Theorem C93_asserts : forall p s m, text_parse p s m (Panic PAssert) <->
  exists body m' a c b, starts s m body m' /\ body = a ++ c :: b /\ 128 <= c /\ ascii_text a /\ never_negative a /\ groups_ok p s body a.
Proof. intros. rewrite panic_is. apply C07_assert_iff. Qed.
Theorem C93_overflows : forall p s m, text_parse p s m (Panic POverflow) <->
  overflow_checks p = true /\ exists body m' a b, starts s m body m' /\ body = a ++ 40 :: b /\
    ascii_text a /\ never_negative a /\ groups_ok p s body a /\ ~ (a = [] /\ body = s).
Proof. intros. rewrite panic_is. apply C06_overflow_iff. Qed.
(** Nothing else happens: no run is without a rule, and none goes on for ever. *)
Theorem C93_nothing_else : forall p s m r, text_parse p s m r ->
  (exists t m', r = tree_back s t m') \/ (exists m', r = error_back s unmatched_error m') \/ (exists i m', r = error_back s (missing_error i) m') \/
  (exists v rest what, verb_then s v rest /\ ~ accepted_verb v /\ r = error_back s (verb_error what v 0) m) \/ r = Panic PAssert \/ r = Panic POverflow.
Proof.
  intros p s m r H. apply text_is in H. pose proof (parse_cases p s m) as C.
  inversion C as [v rest what V Na W E|body m1 e St A Gr We T E|body m1 a b St A Gr N L Eb B E|body m1 a b St Eb Gp Cl E|body m1 a c b St Eb Gp Hc E|body m1 a b St Oc Eb Gp X E]; rewrite <- E in H; cbn [bind v_res fst] in H.
  - right. right. right. left. exists v, rest, what. rewrite (mode_rejected p s m v rest V Na) in H. auto.
  - left. rewrite H. unfold tree_back. eauto.
  - right. right. left. rewrite H. unfold error_back. eauto.
  - right. left. rewrite H. unfold error_back. eauto.
  - auto 6.
  - auto 6.
Qed.
Theorem C93_ends : forall p s m, exists r, text_parse p s m r.
Proof. intros p s m. eexists. apply text_is. reflexivity. Qed.
Example C93_case : text_parse release (lit "a(b|()c)|d") mode_default (tree_back (lit "a(b|()c)|d") (tree false sample_expr) mode_default) /\
  text_parse dev (lit "a(b|()c)|d") mode_default (Panic POverflow) /\
  (exists m', text_parse release (lit "ab)c(") mode_default (error_back (lit "ab)c(") unmatched_error m')) /\
  text_parse release [97; 233] mode_default (Panic PAssert).
Proof.
  split; [apply tree_is; vm_compute; reflexivity|]. split; [apply panic_is; vm_compute; reflexivity|].
  split; [apply error_is; vm_compute; reflexivity|apply panic_is; vm_compute; reflexivity].
Qed.

Print Assumptions C92_errors. Print Assumptions C92_classes. Print Assumptions C92_sequences. Print Assumptions C92_verbs.
Print Assumptions C92_context. Print Assumptions C92_parse.
Print Assumptions C93_tree. Print Assumptions C93_accepts. Print Assumptions C93_language. Print Assumptions C93_unmatched. Print Assumptions C93_missing.
Print Assumptions C93_verbs. Print Assumptions C93_asserts. Print Assumptions C93_overflows. Print Assumptions C93_nothing_else. Print Assumptions C93_ends.
