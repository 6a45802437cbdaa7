(** C89: the [Debug] text of a parse tree. *)
From Verif Require Import Base ModelUtil ModelBitField ModelCharReach ModelParser ModelDump ModelDebug ModelFmt SpecGrammar SpecText SpecDebug SpecFmt
  ProofBase ProofText ProofFmt PropDebug PropParser.
Local Open Scope N_scope.
Local Open Scope list_scope.

(** On one line the printer writes a text of the tree, and a text is that of one tree. *)
Theorem C89_line : forall x c, shows c (debug_line x (dv_component c)).
Proof. exact line_shows. Qed.
Theorem C89_reads_back : forall c c' t, shows c t -> shows c' t -> c = c'.
Proof. intros c c' t H H'. destruct (shows_one c c' t t [] [] H H' I I eq_refl) as [E _]. exact E. Qed.
(** On several lines it writes the outline. *)
Theorem C89_lines : forall x c, exists quote digits, (forall s, literal (quote s) s /\ ~ In 10 (quote s)) /\ (forall n, is_decimal (digits n) n) /\
  debug_lines x (dv_component c) = by_lines (outline quote digits 0 c []).
Proof.
  intros x c. exists (debug_str x), show. split; [intro s; split; [apply (proj1 C81_literal)|apply str_flat]|]. split; [apply show_decimal|].
  rewrite (lines_deep x _ (component_fine c)). unfold by_lines. pose proof (ended_outline x c 0 []) as E. rewrite join_ended in E by apply outline_some. cbn [app] in E. change (sp 0) with (@nil N) in E. cbn [app] in E.
  apply app_inv_tail in E. symmetry. exact E.
Qed.
Theorem C89_determines : forall x x' c c',
  (debug_line x (dv_component c) = debug_line x' (dv_component c') -> c = c') /\ (debug_lines x (dv_component c) = debug_lines x' (dv_component c') -> c = c').
Proof.
  intros x x' c c'. split; intro E.
  - pose proof (line_shows x c) as H. rewrite E in H. exact (C89_reads_back _ _ _ H (line_shows x' c')).
  - rewrite (lines_deep x _ (component_fine c)), (lines_deep x' _ (component_fine c')) in E. apply component_one.
    destruct (deep_read x x' (dv_component c) 0 (component_fine c) (dv_component c') [] [] (component_fine c') I I) as [D _]; [rewrite !app_nil_r; exact E|exact D].
Qed.
(** The other types that derive it: their texts, and that these too are of one value each. *)
Theorem C89_values : forall x,
  (forall m, shows_mode m (debug_line x (dv_mode m))) /\ (forall k, shows_class k (debug_line x (dv_class k))) /\
  (forall c, exists ws, listed decimal (words_of c) ws /\ debug_line x (dv_reach c) = lit "CharReach { bits: BitField256 { bits: [" ++ ws ++ lit "] } }") /\
  (forall n, exists t, is_decimal t n /\ debug_line x (dv_depth (Depth n)) = lit "Depth { val: " ++ t ++ lit " }" /\
     debug_lines x (dv_depth (Depth n)) = by_lines [lit "Depth {"; lit "    val: " ++ t ++ lit ","; lit "}"]) /\
  (debug_line x (dv_output Text) = lit "Text" /\ debug_line x (dv_output Dot) = lit "Dot" /\ debug_lines x (dv_output Text) = lit "Text" /\ debug_lines x (dv_output Dot) = lit "Dot").
Proof.
  intro x. split; [apply line_mode|]. split; [apply line_class|]. split; [|split].
  - intro c. exists (separated (map (fun n => debug_line x (dv_number n)) (words_of c))). split; [apply separated_listed; intros n _; apply show_decimal|].
    destruct c as [a b c d]. unfold dv_reach, dv_field. cbn [map debug_line separated fst snd words_of]. rewrite <- ?app_assoc. reflexivity.
  - intro n. exists (show n). split; [apply show_decimal|]. split; [unfold dv_depth; cbn [depth_val debug_line map separated fst snd]; rewrite <- ?app_assoc; reflexivity|].
    assert (F : fine_dv (dv_depth (Depth n)) = true) by (unfold dv_depth, dv_number; cbn [fine_dv forallb fst snd depth_val]; rewrite show_name; reflexivity).
    rewrite (lines_deep x _ F). unfold dv_depth, by_lines, dv_number. cbn [depth_val deep flat_map fst snd join]. cbn [app]. rewrite <- ?app_assoc. reflexivity.
  - repeat split.
Qed.
Definition told_by (f : dv -> str) (g : dv -> str) : Prop :=
  (forall c c' : charreach, f (dv_reach c) = g (dv_reach c') -> c = c') /\
  (forall m m' : parse_mode, f (dv_mode m) = g (dv_mode m') -> m = m') /\
  (forall d d' : depth, f (dv_depth d) = g (dv_depth d') -> d = d') /\
  (forall o o' : cc_output, f (dv_output o) = g (dv_output o') -> o = o') /\
  (forall k k' : ascii_class, f (dv_class k) = g (dv_class k') -> k = k').
Theorem C89_values_determined : forall x x', told_by (debug_line x) (debug_line x') /\ told_by (debug_lines x) (debug_lines x').
Proof.
  intros x x'. assert (Q : forall f g, (forall d d', fine_dv d = true -> fine_dv d' = true -> f d = g d' -> d = d') -> told_by f g).
  { intros f g T. assert (Fm : forall m, fine_dv (dv_mode m) = true) by (intros [[|] [|] [|] [|] [|] [|]]; reflexivity).
    assert (Fr : forall c, fine_dv (dv_reach c) = true) by (intros [a b c d]; unfold dv_reach, dv_field, dv_number; cbn [map fine_dv forallb fst snd]; rewrite !show_name; reflexivity).
    assert (Fc : forall k, fine_dv (dv_class k) = true).
    { intro k0. pose proof (component_fine (CClass k0)) as F. cbn [dv_component] in F. remember (dv_class k0) as v eqn:Ev. cbn [fine_dv forallb] in F. destruct (fine_dv v); [reflexivity|]. rewrite andb_false_r in F. exact F. }
    assert (Fd : forall n, fine_dv (dv_depth (Depth n)) = true) by (intro n; unfold dv_depth, dv_number; cbn [fine_dv forallb fst snd depth_val]; rewrite show_name; reflexivity).
    split; [|split; [|split; [|split]]].
    - intros c c' E. apply reach_one. apply T; auto.
    - intros m m' E. apply mode_one. apply T; auto.
    - intros [d] [d'] E. apply T in E; auto. unfold dv_depth, dv_number in E. cbn [depth_val] in E. injection E as E. f_equal. apply show_one. exact E.
    - intros o o' E. apply T in E; [destruct o, o'; try reflexivity; discriminate E|destruct o; reflexivity|destruct o'; reflexivity].
    - intros k k' E. apply class_one. apply T; auto. }
  split; apply Q; intros d d' F F' E.
  - destruct (spelt_told d F _ _ _ [] [] F' (line_spelt x d F) (line_spelt x' d' F') I I) as [D _]; [rewrite !app_nil_r; exact E|exact D].
  - rewrite (lines_deep x _ F), (lines_deep x' _ F') in E. destruct (deep_read x x' d 0 F d' [] [] F' I I) as [D _]; [rewrite !app_nil_r; exact E|exact D].
Qed.
(** The texts of errors in C81 are by the same printer. *)
Theorem C89_errors : forall x e, debug_line x (dv_error e) = debug_error x e /\ debug_lines x (dv_error e) = debug_error_pretty x e.
Proof.
  intros x [k s i]. assert (Fk : fine_dv (dv_error (CompileError k s i)) = true).
  { unfold dv_error, dv_option, dv_number. cbn [err_kind err_reason err_index]. destruct i as [i|], k; cbn [fine_dv forallb fst snd]; rewrite ?show_name; reflexivity. }
  split; [|rewrite (lines_deep x _ Fk)]; unfold dv_error, debug_error, debug_error_pretty, line; cbn [err_kind err_reason err_index];
    (destruct i as [i|]; cbn [dv_option dv_number debug_line deep map separated flat_map fst snd]; unfold dv_number; cbn [debug_line deep]; rewrite <- ?app_assoc; cbn [app]; rewrite <- ?app_assoc; reflexivity).
Qed.
(** The tree's text stands for the expression. *)
Theorem C89_expression : forall p p' s s' m m' t t' n n' x x', caseless m = false -> caseless m' = false ->
  parse p s m = Ret (ROk (t, n)) -> parse p' s' m' = Ret (ROk (t', n')) ->
  debug_line x (dv_component t) = debug_line x' (dv_component t') \/ debug_lines x (dv_component t) = debug_lines x' (dv_component t') ->
  exists body, starts s m body n /\ starts s' m' body n'.
Proof.
  intros p p' s s' m m' t t' n n' x x' C C' E E' D. assert (t = t') as <- by (destruct D as [D|D]; apply C89_determines in D; exact D). exact (C13_injective _ _ _ _ _ _ _ _ _ C C' E E').
Qed.

Example C89_case : let x := Escapes true (fun c => (32 <=? c) && (c <? 127)) in
  (exists t m, parse release (lit "a()") mode_default = Ret (ROk (t, m)) /\
     debug_line x (dv_component t) = lit "Sequence(ComponentSequence { children: [Class(Ascii(AsciiComponentClass { mode: ParseMode { caseless: false, dotall: false, ignore_space: false, multiline: false, ucp: false, utf8: false }, cr: CharReach { bits: BitField256 { bits: [0, 8589934592, 0, 0] } } })), Sequence(ComponentSequence { children: [], alternation: None, capture_index: Some(1), capture_name: None })], alternation: None, capture_index: Some(0), capture_name: None })") /\
  debug_lines x (dv_component (CAlternation [Seqn [] (Some []) (Some 7) (Some [34; 10])])) =
    lit "Alternation(" ++ [10] ++ lit "    ComponentAlternation {" ++ [10] ++ lit "        children: [" ++ [10] ++ lit "            ComponentSequence {" ++ [10] ++
    lit "                children: []," ++ [10] ++ lit "                alternation: Some(" ++ [10] ++ lit "                    ComponentAlternation {" ++ [10] ++
    lit "                        children: []," ++ [10] ++ lit "                    }," ++ [10] ++ lit "                )," ++ [10] ++
    lit "                capture_index: Some(" ++ [10] ++ lit "                    7," ++ [10] ++ lit "                )," ++ [10] ++
    lit "                capture_name: Some(" ++ [10] ++ lit "                    " ++ [34; 92; 34; 92; 110; 34; 44; 10] ++ lit "                )," ++ [10] ++
    lit "            }," ++ [10] ++ lit "        ]," ++ [10] ++ lit "    }," ++ [10] ++ lit ")".
Proof. split; [do 2 eexists; split; vm_compute; reflexivity|vm_compute; reflexivity]. Qed.
Print Assumptions C89_line. Print Assumptions C89_reads_back. Print Assumptions C89_lines. Print Assumptions C89_determines. Print Assumptions C89_values. Print Assumptions C89_values_determined. Print Assumptions C89_errors. Print Assumptions C89_expression.
