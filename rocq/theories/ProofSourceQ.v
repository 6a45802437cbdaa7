(** Runs of the source text: the functions of the parser in terms of the model. *)
From Verif Require ProofVerb.
From Verif Require Import Base ModelUtil ModelBitField ModelCharReach ModelParser ModelRust ModelInterp ModelDump ModelSource SpecSource.
From Verif Require Import ProofSourceA ProofSourceB ProofSourceC ProofSourceD ProofSourceE ProofSourceF ProofSourceL ProofSourceM ProofSourceN ProofSourceO ProofSourceP.
Local Open Scope string_scope.
Local Open Scope N_scope.
Local Open Scope list_scope.
Lemma m_err_new : forall p lf d k s, call p G lf (S d) (Some "CompileError") "new" [v_kind k; VStr s] = Ret (Some (v_err (error_new k s), [v_kind k; VStr s])).
Proof. intros. unfold v_kind. rewrite l_err_new. reflexivity. Qed.
Lemma m_fmt : forall p lf d e out, call p G lf (S d) (Some "CompileError") "fmt" [v_err e; VStr out] = Ret (Some (ok_ VUnit, [v_err e; VStr (out ++ error_display e)])).
Proof. enter. destruct e as [k r [j|]]; unfold v_err, error_display; cbn [err_kind err_reason err_index v_u32]; auto_. all: cbn [app]; rewrite ?app_nil_r; reflexivity. Qed.
Lemma m_ac_new : forall p lf d m, call p G lf (S d) (Some "AsciiComponentClass") "new" [v_mode m] = Ret (Some (v_ac (ac_new m), [v_mode m])).
Proof. intros. unfold v_mode. rewrite l_ac_new. reflexivity. Qed.
Lemma m_ac_add : forall p lf d cc c, (300 <= lf)%nat ->
  call p G lf (S (S (S (S (S (S d)))))) (Some "AsciiComponentClass") "add" [v_ac cc; VInt U8 c] =
  (let! cc' := ac_add p cc c in Ret (Some (VUnit, [v_ac cc'; VInt U8 c]))).
Proof.
  intros p lf d [[nc d0 i0 m0 u0 t0] b] c H. unfold v_ac, v_mode. rewrite l_ac_add by assumption. unfold ac_add. destruct (cr_from_char p c); cbn [bind]; try reflexivity.
  destruct nc; [cbn [ac_mode caseless]; destruct (make_caseless p a)|]; reflexivity.
Qed.
Lemma m_get_cc : forall p lf d m, call p G lf (S (S d)) None "get_component_class" [v_mode m] = Ret (Some (v_cc (get_component_class m), [v_mode m])).
Proof. intros. unfold v_mode. rewrite l_get_cc. reflexivity. Qed.
Lemma m_cc_add : forall p lf d cc c, (300 <= lf)%nat ->
  call p G lf (S (S (S (S (S (S (S d))))))) (Some "ComponentClass") "add" [v_cc cc; VChar c] =
  (let! r := class_add p cc c in Ret (Some (v_res (fun _ => VUnit) r, [v_cc (match r with ROk cc' => cc' | RErr _ => cc end); VChar c]))).
Proof.
  intros p lf d [[nc d0 i0 m0 u0 t0] b] c H. unfold v_cc at 1, v_ac, v_mode. rewrite l_cc_add by assumption. unfold class_add, ac_add. destruct (255 <? c); [reflexivity|].
  destruct (cr_from_char p (cast 8 c)); cbn [bind]; try reflexivity.
  destruct nc; cbn [ac_mode caseless]; [destruct (make_caseless p a)|]; reflexivity.
Qed.
Lemma m_lit : forall p lf d nc c, (300 <= lf)%nat ->
  call p G lf (S (S (S (S (S (S (S (S d)))))))) None "get_literal_component_class" [VChar c; VBool nc] =
  (let! r := get_literal_component_class p c nc in Ret (Some (v_res v_cc r, [VChar c; VBool nc]))).
Proof.
  intros. rewrite l_lit by assumption. unfold get_literal_component_class, class_add, ac_add. destruct (255 <? c); [reflexivity|].
  destruct (cr_from_char p (cast 8 c)); cbn [bind]; try reflexivity.
  destruct nc; cbn [get_component_class ac_new ac_mode caseless]; [destruct (make_caseless p a)|]; reflexivity.
Qed.
Lemma m_append : forall p lf d l s, call p G lf (S d) (Some "ComponentAlternation") "append" [v_alt l; v_seqn s] = Ret (Some (VUnit, [v_alt (alt_append l s); v_seqn s])).
Proof. intros. destruct s. unfold v_alt. cbn [v_seqn]. rewrite l_append. unfold alt_append. rewrite map_app. reflexivity. Qed.
Lemma m_add_alt : forall p lf d s, call p G lf (S (S d)) (Some "ComponentSequence") "add_alternation" [v_seqn s] = Ret (Some (VUnit, [v_seqn (add_alternation s)])).
Proof.
  intros p lf d [ch [l|] ci cn]; cbn [v_seqn]; [unfold some_; rewrite l_add_alt_some|unfold none_; rewrite l_add_alt_none];
  cbn [add_alternation v_seqn]; unfold alt_append; rewrite ?map_app; reflexivity.
Qed.
Lemma m_fin : forall p lf d s, call p G lf (S (S (S d))) (Some "ComponentSequence") "finalize" [v_seqn s] = (let! s' := finalize p s in Ret (Some (VUnit, [v_seqn s']))).
Proof.
  intros p lf d [ch [l|] ci cn]; cbn [v_seqn]; [unfold some_; rewrite l_fin_some|unfold none_; rewrite l_fin_none];
  unfold finalize; cbn [sq_alternation]; [|reflexivity]. cbn [add_alternation sq_children sq_alternation expect sq_capture_index sq_capture_name app]. rewrite rda_true. cbn [bind v_seqn map v_comp]. unfold alt_append; rewrite ?map_app; reflexivity.
Qed.
Lemma v_comp_ctor : forall c, exists x l, v_comp c = VCtor x l.
Proof. intros [l|k|s]; cbn [v_comp]; eauto. Qed.
Lemma m_add_comp : forall p lf d s c, call p G lf (S d) (Some "ComponentSequence") "add_component" [v_seqn s; v_comp c] = Ret (Some (VUnit, [v_seqn (add_component s c); v_comp c])).
Proof. intros p lf d [ch a ci cn] c. destruct (v_comp_ctor c) as (x & l & E). cbn [v_seqn]. rewrite E, l_add_comp, <- E. cbn [add_component v_seqn]. rewrite map_app. reflexivity. Qed.
Lemma m_from_class : forall p lf d c, call p G lf (S d) (Some "Component") "from<ComponentClass>" [v_cc c] = Ret (Some (v_comp (CClass c), [v_cc c])).
Proof. intros. unfold v_cc. rewrite l_from_class. reflexivity. Qed.
Lemma m_from_seq : forall p lf d s, call p G lf (S d) (Some "Component") "from<ComponentSequence>" [v_seqn s] = Ret (Some (v_comp (CSequence s), [v_seqn s])).
Proof. intros p lf d [ch a ci cn]. cbn [v_seqn]. rewrite l_from_seq. reflexivity. Qed.
Lemma m_es_new : forall p lf d s o m, call p G lf (S d) (Some "ExprState") "new" [v_seqn s; VInt Usize o; v_mode m] = Ret (Some (v_es (ExprState s o m), [v_seqn s; VInt Usize o; v_mode m])).
Proof. intros p lf d [ch a ci cn] o m. cbn [v_seqn]. unfold v_mode. rewrite l_es_new. reflexivity. Qed.
Lemma m_add_lit : forall p lf d s c m, (300 <= lf)%nat ->
  call p G lf (S (S (S (S (S (S (S (S (S d))))))))) None "add_literal" [v_seqn s; VChar c; v_mode m] =
  (let! r := add_literal p s c m in Ret (Some (v_res (fun _ => VUnit) r, [v_seqn (match r with ROk s' => s' | RErr _ => s end); VChar c; v_mode m]))).
Proof.
  intros p lf d [ch a ci cn] c [nc d0 i0 m0 u0 t0] H. cbn [v_seqn]. unfold v_mode. rewrite l_add_lit by assumption.
  unfold add_literal, get_literal_component_class, class_add, ac_add. destruct (255 <? c); [reflexivity|].
  destruct (cr_from_char p (cast 8 c)) as [n| |]; cbn [bind bindr]; try reflexivity.
  cbn [get_component_class ac_new ac_mode caseless]. destruct nc; [destruct (make_caseless p n)|]; cbn [bind bindr add_component v_seqn]; rewrite ?map_app; reflexivity.
Qed.
Lemma m_cx_new : forall p lf d a b m, call p G lf (S (S d)) (Some "Context") "new" [VStr a; VStr b; v_mode m] = Ret (Some (v_cx (context_new a b m), [VStr a; VStr b; v_mode m])).
Proof. intros. unfold v_mode. rewrite l_cx_new. reflexivity. Qed.
Lemma m_push : forall p lf d cx ts, call p G lf (S (S d)) (Some "Context") "push_sequence" [v_cx cx; VStr ts] = (let! cx' := push_sequence p cx ts in Ret (Some (VUnit, [v_cx cx'; VStr ts]))).
Proof.
  intros p lf d [ptr q m l gi [ch a ci cn]] ts. unfold v_cx at 1, v_mode. cbn [cx_ptr cx_p cx_mode cx_sequences cx_group_index cx_current v_seqn]. rewrite l_push.
  unfold push_sequence. cbn [cx_ptr cx_p cx_mode cx_sequences cx_group_index cx_current].
  destruct (chk_add p 32 gi 1); cbn [bind]; try reflexivity. destruct (chk_sub p (usize_bits p) (str_len ts) (str_len ptr)); cbn [bind]; try reflexivity.
  unfold v_cx. cbn [cx_ptr cx_p cx_mode cx_sequences cx_group_index cx_current rev]. rewrite map_app. reflexivity.
Qed.
Lemma m_enter : forall p lf d cx ts, call p G lf (S (S (S d))) (Some "Context") "enter_capturing_group" [v_cx cx; VStr ts] = (let! cx' := enter_capturing_group p cx ts in Ret (Some (VUnit, [v_cx cx'; VStr ts]))).
Proof.
  intros p lf d [ptr q m l gi [ch a ci cn]] ts. unfold v_cx at 1, v_mode. cbn [cx_ptr cx_p cx_mode cx_sequences cx_group_index cx_current v_seqn]. rewrite l_enter.
  unfold enter_capturing_group, push_sequence. cbn [cx_ptr cx_p cx_mode cx_sequences cx_group_index cx_current].
  destruct (chk_add p 32 gi 1); cbn [bind]; try reflexivity. destruct (chk_sub p (usize_bits p) (str_len ts) (str_len ptr)); cbn [bind]; try reflexivity.
  unfold v_cx. cbn [cx_ptr cx_p cx_mode cx_sequences cx_group_index cx_current rev]. rewrite map_app. reflexivity.
Qed.
Ltac popped L0 L1 L2 := intros p lf d [ptr q m l gi [ch a ci cn]]; unfold v_cx at 1, v_mode, pop_sequence; cbn [cx_ptr cx_p cx_mode cx_sequences cx_group_index cx_current v_seqn];
  destruct l as [|[[ch2 a2 ci2 cn2] o m2] l]; cbn [rev]; rewrite ?map_app; cbn [map]; [rewrite L0; reflexivity|];
  unfold v_es at 2, v_mode; cbn [es_seq es_offset es_mode v_seqn];
  destruct a as [br|]; unfold finalize; cbn [sq_alternation sq_children sq_capture_index sq_capture_name add_alternation]; rewrite ?rda_true; cbn [bind expect bindr];
  [unfold some_; rewrite L2|unfold none_ at 1; rewrite L1]; unfold v_cx, alt_append; cbn [v_res bind bindr cx_ptr cx_p cx_mode cx_sequences cx_group_index cx_current rev add_component v_seqn app]; rewrite ?map_app; cbn [map v_comp v_seqn]; rewrite ?map_app; reflexivity.
Lemma m_pop : forall p lf d cx, call p G lf (S (S (S (S d)))) (Some "Context") "pop_sequence" [v_cx cx] =
  (let! r := pop_sequence p cx in Ret (Some (v_res (fun _ => VUnit) r, [v_cx (match r with ROk c => c | RErr _ => cx end)]))).
Proof. popped l_pop_empty l_pop_none l_pop_some. Qed.
Lemma m_exit : forall p lf d cx, call p G lf (S (S (S (S (S d))))) (Some "Context") "exit_group" [v_cx cx] =
  (let! r := exit_group p cx in Ret (Some (v_res (fun _ => VUnit) r, [v_cx (match r with ROk c => c | RErr _ => cx end)]))).
Proof. unfold exit_group. popped l_exit_empty l_exit_none l_exit_some. Qed.
Lemma m_main : forall p lf d cx ts, (300 <= lf)%nat ->
  call p G lf (S (S (S (S (S (S (S (S (S (S d)))))))))) (Some "Context") "main" [v_cx cx; VStr ts] =
  (let! r := cx_main p cx ts in Ret (Some (v_res (fun _ => VUnit) r, [v_cx (match r with ROk c => c | RErr _ => cx end); VStr ts]))).
Proof.
  intros p lf d cx [|x t] H; [rewrite l_main_nil; reflexivity|]. rewrite l_main by exact H.
  destruct (cx_main p cx (x :: t)) as [[]| |]; reflexivity.
Qed.
Lemma m_cx_parse : forall p lf d cx, (300 <= lf)%nat -> (List.length (cx_p cx) < lf)%nat ->
  call p G lf (S (S (S (S (S (S (S (S (S (S (S d))))))))))) (Some "Context") "parse" [v_cx cx] =
  (let! r := cx_parse p cx in Ret (Some (v_res v_seqn r, [v_cx (parsed p cx)]))).
Proof. intros. rewrite l_cx_parse by assumption. destruct (cx_parse p cx) as [[]| |]; reflexivity. Qed.
Lemma m_verbs : forall p lf d s start m, call p G lf (S (S d)) None "read_control_verbs" [VStr s; VInt Usize start; v_mode m] =
  (let! r := read_control_verbs p s start m in Ret (Some (v_res (fun x => VStr (fst x)) r, [VStr s; VInt Usize start; v_mode (match r with ROk x => snd x | RErr _ => m end)]))).
Proof. intros. rewrite l_verbs. destruct (read_control_verbs p s start m) as [[[]|]| |]; reflexivity. Qed.
Lemma m_parse : forall p lf d s m, (300 <= lf)%nat -> (List.length s < lf)%nat ->
  call p G lf (S (S (S (S (S (S (S (S (S (S (S (S d)))))))))))) None "parse" [VStr s; v_mode m] =
  (let! r := ModelParser.parse p s m in Ret (Some (v_res (fun x => v_comp (fst x)) r, [VStr s; v_mode (mode_after p s m)]))).
Proof. intros. rewrite l_parse by assumption. destruct (ModelParser.parse p s m) as [[[]|]| |]; reflexivity. Qed.

(** values determine what they stand for *)
Lemma v_mode_inj : forall m m', v_mode m = v_mode m' -> m = m'.
Proof. intros [] [] H. injection H. intros. subst. reflexivity. Qed.
Lemma v_cr_inj : forall b b', v_cr b = v_cr b' -> b = b'.
Proof. intros [] [] H. injection H. intros. cbn in *. subst. reflexivity. Qed.
Lemma v_cc_inj : forall c c', v_cc c = v_cc c' -> c = c'.
Proof. intros [m b] [m' b'] H. unfold v_cc, v_ac in H. injection H. intros. cbn [ac_mode ac_cr] in *. f_equal; [apply v_mode_inj; unfold v_mode; congruence|destruct b, b'; cbn in *; congruence]. Qed.
Lemma v_u32_inj : forall a b, v_u32 a = v_u32 b -> a = b.
Proof. intros [a|] [b|] H; try discriminate H; [injection H as ->|]; reflexivity. Qed.
Lemma v_text_inj : forall a b, v_text a = v_text b -> a = b.
Proof. intros [a|] [b|] H; try discriminate H; [injection H as ->|]; reflexivity. Qed.
Lemma v_kind_inj : forall a b, v_kind a = v_kind b -> a = b.
Proof. intros [] [] H; try discriminate H; reflexivity. Qed.
Lemma v_err_inj : forall a b, v_err a = v_err b -> a = b.
Proof. intros [k r i] [k' r' i'] H. unfold v_err in H. cbn [err_kind err_reason err_index] in H. injection H as Hk Hr Hi. f_equal; [|exact Hr|apply v_u32_inj; exact Hi]. apply v_kind_inj. unfold v_kind. congruence. Qed.
Lemma map_inj : forall {A B} (f : A -> B) (l l' : list A), Forall (fun a => forall b, f a = f b -> a = b) l -> map f l = map f l' -> l = l'.
Proof.
  intros A B f l. induction l as [|a l IH]; intros [|b l'] F E; try discriminate E; [reflexivity|]. injection E as E1 E2. inversion F; subst. f_equal; auto.
Qed.
Section TreeInd.
  Context (P : component -> Prop) (Q : seqn -> Prop)
    (Ha : forall bs, Forall Q bs -> P (CAlternation bs)) (Hc : forall k, P (CClass k)) (Hs : forall s, Q s -> P (CSequence s))
    (Hq : forall ch alt ci cn, Forall P ch -> match alt with Some l => Forall Q l | None => True end -> Q (Seqn ch alt ci cn)).
  Fixpoint tree_ind (c : component) : P c :=
    match c with
    | CAlternation bs => Ha bs ((fix go (l : list seqn) : Forall Q l :=
        match l with [] => Forall_nil _ | s :: t => Forall_cons _ (branch_ind s) (go t) end) bs)
    | CClass k => Hc k
    | CSequence s => Hs s (branch_ind s)
    end
  with branch_ind (s : seqn) : Q s :=
    match s with
    | Seqn ch alt ci cn => Hq ch alt ci cn ((fix go (l : list component) : Forall P l :=
        match l with [] => Forall_nil _ | c :: t => Forall_cons _ (tree_ind c) (go t) end) ch)
        (match alt with
         | Some bs => (fix go (l : list seqn) : Forall Q l :=
             match l with [] => Forall_nil _ | s :: t => Forall_cons _ (branch_ind s) (go t) end) bs
         | None => I
         end)
    end.
End TreeInd.
Lemma v_comp_inj : forall c c', v_comp c = v_comp c' -> c = c'.
Proof.
  apply (tree_ind (fun c => forall c', v_comp c = v_comp c' -> c = c') (fun s => forall s', v_seqn s = v_seqn s' -> s = s')).
  - intros bs F [bs'|k|s] E; cbn [v_comp] in E; try discriminate E. injection E as E. f_equal. apply (map_inj v_seqn); assumption.
  - intros k [bs'|k'|s] E; cbn [v_comp] in E; try discriminate E. f_equal. apply v_cc_inj. injection E as E. unfold v_cc, v_ac, v_cr, v_bf, v_mode. congruence.
  - intros s IH [bs'|k'|s'] E; cbn [v_comp] in E; try discriminate E. f_equal. apply IH. assert (X : [v_seqn s] = [v_seqn s']) by congruence. congruence.
  - intros ch alt ci cn F A [ch' alt' ci' cn'] E. cbn [v_seqn] in E.
    assert (E1 : map v_comp ch = map v_comp ch') by congruence.
    assert (E3 : v_u32 ci = v_u32 ci') by congruence. assert (E4 : v_text cn = v_text cn') by congruence.
    apply (map_inj v_comp) in E1; [|exact F]. apply v_u32_inj in E3. apply v_text_inj in E4.
    assert (E2 : alt = alt').
    { destruct alt as [l|], alt' as [l'|]; try (unfold some_, none_ in E; discriminate E); [|reflexivity]. f_equal. apply (map_inj v_seqn); [exact A|]. unfold some_ in E. congruence. }
    congruence.
Qed.
Lemma mode_starts : forall p s m body m', SpecGrammar.starts s m body m' -> mode_after p s m = m'.
Proof.
  intros p s m body m' H. assert (Z : 0 + 2 < 2 ^ usize_bits p) by (pose proof (ProofBase.usize_at_least p); lia).
  unfold mode_after. rewrite (proj1 (ProofVerb.read_verbs_ok p s 0 m Z) _ _ H). reflexivity.
Qed.
Lemma mode_rejected : forall p s m v rest, SpecGrammar.verb_then s v rest -> ~ SpecGrammar.accepted_verb v -> mode_after p s m = m.
Proof.
  intros p s m v rest V Na. assert (Z : 0 + 2 < 2 ^ usize_bits p) by (pose proof (ProofBase.usize_at_least p); lia).
  destruct (ProofVerb.read_verbs_ok p s 0 m Z) as (_ & R1 & R2). unfold mode_after.
  destruct (ProofVerb.unsupported_dec v) as [U|U]; [rewrite (R1 _ _ V U Na)|rewrite (R2 _ _ V U Na)]; reflexivity.
Qed.
