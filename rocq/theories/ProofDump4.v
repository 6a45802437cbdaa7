(** The dump of a tree. *)
From Verif Require Import Base ModelUtil ModelBitField ModelCharReach ModelParser ModelDump SpecSet SpecGrammar SpecTree SpecVisit SpecDump SpecGraph
  ProofBase ProofBitField ProofBitField2 ProofCharReach ProofGrammar ProofTree ProofVerb ProofShortcut ProofGraph ProofVisit ProofDump ProofDump2 ProofDump3.
Local Open Scope N_scope.
Local Open Scope list_scope.

(** ** What is written *)
Section Tree.
  Context (txt : ascii_class -> str).
  Fixpoint tree_text (d : nat) (c : component) : str :=
    match c with
    | CClass k => block txt d (NClass k)
    | CAlternation bs => block txt d (NAlternation bs) ++ flat_map (seqn_text (S d)) bs
    | CSequence s => seqn_text d s
    end
  with seqn_text (d : nat) (s : seqn) : str :=
    match s with Seqn ch alt ci cn => block txt d (NSequence (Seqn ch alt ci cn)) ++ flat_map (tree_text (S d)) ch end.
End Tree.
Lemma walk_list_end : forall {A} (walk1 : dump_state -> A -> outcome (result unit dump_state)) (text : A -> str) (good : A -> bool) p (lvl : N) l out,
  (forall x, In x l -> forall out, walk1 (DumpState out lvl) x = if good x then Ret (ROk (DumpState (out ++ text x) lvl)) else stopped p) ->
  walk_list walk1 (fun v => v) (DumpState out lvl) l = if forallb good l then Ret (ROk (DumpState (out ++ flat_map text l) lvl)) else stopped p.
Proof.
  intros A walk1 text good p lvl l; induction l as [|x l IH]; intros out H; cbn [walk_list forallb flat_map].
  - rewrite app_nil_r. reflexivity.
  - rewrite (H x (or_introl eq_refl)). destruct (good x); cbn [andb bindr].
    + replace (match l with [] => DumpState (out ++ text x) lvl | _ :: _ => DumpState (out ++ text x) lvl end) with (DumpState (out ++ text x) lvl) by (destruct l; reflexivity).
      rewrite IH by (intros y I; apply H; right; exact I). rewrite <- app_assoc. reflexivity.
    + unfold stopped. destruct (overflow_checks p); reflexivity.
Qed.
Lemma fill_repeat : forall (d : nat) out, filler (DumpState out (N.of_nat d)) = repeat 32 (2 * d).
Proof. intros d out. unfold filler. cbn [ds_level]. f_equal. lia. Qed.
Lemma fill_S : forall d, repeat 32 (2 * S d) = repeat 32 (2 * d) ++ [32; 32].
Proof. intro d. replace (2 * S d)%nat with (2 * d + 2)%nat by lia. apply repeat_app. Qed.
Lemma outdent_ok : forall p out d, outdent p (DumpState out (N.of_nat (S d))) = Ret (DumpState out (N.of_nat d)).
Proof.
  intros p out d. unfold outdent, rs_debug_assert. cbn [ds_level ds_out]. replace (0 <? N.of_nat (S d)) with true by lia. cbn [negb]. rewrite andb_false_r. cbn [bind]. unfold chk_sub. replace (1 <=? N.of_nat (S d)) with true by lia. cbn [bind]. do 2 f_equal. lia.
Qed.
Definition good (p : profile) (k : ascii_class) : bool := match describe_class p (ac_cr k) 256 Text with Ret _ => true | _ => false end.
Definition written_as (p : profile) (k : ascii_class) : str := match describe_class p (ac_cr k) 256 Text with Ret s => s | _ => [] end.
Lemma class_good : forall p k, wf (ac_cr k) -> describe_class p (ac_cr k) 256 Text = if good p k then Ret (written_as p k) else stopped p.
Proof.
  intros p k W. unfold good, written_as. pose proof (describe_class_ok p (ac_cr k) 256 Text W) as E. destruct (class_text_ok p Text (ac_cr k)) as [H1 H2].
  destruct (describe_class p (ac_cr k) 256 Text) as [s|w|] eqn:D; [reflexivity| |]; rewrite <- E in *; symmetry in E.
  all: assert (St : ~ ~ stuck (ac_cr k)) by (intro N; specialize (H2 N); discriminate H2).
  all: unfold stopped in *.
  - destruct (overflow_checks p) eqn:O; [|exfalso; apply St; intro X; specialize (H1 X); discriminate H1]. destruct w; try reflexivity; exfalso; apply St; intro X; specialize (H1 X); discriminate H1.
  - destruct (overflow_checks p) eqn:O; [exfalso; apply St; intro X; specialize (H1 X); discriminate H1|reflexivity].
Qed.
Definition seqn_leaves (s : seqn) : list ascii_class := match s with Seqn ch _ _ _ => flat_map leaves ch end.
Lemma forallb_flat_map : forall {A B} (f : B -> bool) (g : A -> list B) l, forallb f (flat_map g l) = forallb (fun x => forallb f (g x)) l.
Proof. intros A B f g l. induction l as [|x l IH]; [reflexivity|]. cbn. rewrite forallb_app, IH. reflexivity. Qed.
Lemma dump_walk : forall p c, finalized c -> forall d out, walk_component p (dump_visitor p) (DumpState out (N.of_nat d)) c =
  if forallb (good p) (leaves c) then Ret (ROk (DumpState (out ++ tree_text (written_as p) d c) (N.of_nat d))) else stopped p.
Proof.
  intro p. apply (component_ind' (fun c => finalized c -> forall d out, walk_component p (dump_visitor p) (DumpState out (N.of_nat d)) c =
      if forallb (good p) (leaves c) then Ret (ROk (DumpState (out ++ tree_text (written_as p) d c) (N.of_nat d))) else stopped p)
    (fun s => finalized_seqn s -> forall d out, walk_seqn p (dump_visitor p) (DumpState out (N.of_nat d)) s =
      if forallb (good p) (seqn_leaves s) then Ret (ROk (DumpState (out ++ seqn_text (written_as p) d s) (N.of_nat d))) else stopped p)).
  - intros bs H F d out. inversion F as [|? Fb|]; subst. cbn [walk_component leaves tree_text pre_alternation dump_visitor]. unfold dump_pre_alternation. cbn [bindr]. unfold indent, ds_write. cbn [ds_out ds_level]. rewrite fill_repeat.
    replace (N.of_nat d + 1) with (N.of_nat (S d)) by lia. cbn [during_alternation dump_visitor].
    rewrite (walk_list_end _ (seqn_text (written_as p) (S d)) (fun s => forallb (good p) (seqn_leaves s)) p).
    + rewrite forallb_flat_map. change (fun x : seqn => forallb (good p) match x with Seqn ch _ _ _ => flat_map leaves ch end) with (fun s => forallb (good p) (seqn_leaves s)).
      destruct (forallb _ bs); cbn [bindr]; [|unfold stopped; destruct (overflow_checks p); reflexivity]. cbn [post_alternation dump_visitor]. rewrite outdent_ok. cbn [bind]. unfold block, line. rewrite <- !app_assoc. reflexivity.
    + intros s I out'. rewrite Forall_forall in H, Fb. apply H; [exact I|apply Fb; exact I].
  - intros k F d out. inversion F as [? W| |]; subst. cbn [walk_component leaves forallb tree_text]. unfold walk_class. cbn [pre_class dump_visitor]. unfold dump_pre_class. rewrite class_good by exact W. rewrite andb_true_r.
    destruct (good p k); cbn [bind bindr]; [|unfold stopped; destruct (overflow_checks p); reflexivity]. cbn [during_class dump_visitor post_class]. unfold indent, ds_write. cbn [ds_out ds_level]. rewrite fill_repeat. replace (N.of_nat d + 1) with (N.of_nat (S d)) by lia.
    rewrite outdent_ok. cbn [bind]. unfold block, line. rewrite fill_S. change (lit "  ") with [32; 32]. rewrite <- !app_assoc. reflexivity.
  - intros s H F d out. inversion F; subst. cbn [walk_component leaves tree_text]. rewrite H by assumption. destruct s; reflexivity.
  - intros ch alt ci cn H F d out. inversion F as [? ? ? Fc]; subst. cbn [walk_seqn seqn_text seqn_leaves]. unfold rs_debug_assert. cbn [negb]. rewrite andb_false_r. cbn [bind pre_sequence dump_visitor]. unfold dump_pre_sequence. cbn [bindr sq_capture_index sq_capture_name sq_children].
    assert (St : match ch with
        | [] => ds_write (indent (ds_write (ds_write (ds_write (DumpState out (N.of_nat d)) (filler (DumpState out (N.of_nat d)) ++ lit "SEQUENCE"))
                 match ci with Some i => lit " (capture index " ++ show i ++ lit ")" | None => lit " (not captured)" end)
                 match cn with Some n => lit " (capture name '" ++ n ++ lit "')" ++ [10] | None => [10] end))
                 (filler (indent (ds_write (ds_write (ds_write (DumpState out (N.of_nat d)) (filler (DumpState out (N.of_nat d)) ++ lit "SEQUENCE"))
                 match ci with Some i => lit " (capture index " ++ show i ++ lit ")" | None => lit " (not captured)" end)
                 match cn with Some n => lit " (capture name '" ++ n ++ lit "')" ++ [10] | None => [10] end)) ++ lit " <empty>" ++ [10])
        | _ :: _ => indent (ds_write (ds_write (ds_write (DumpState out (N.of_nat d)) (filler (DumpState out (N.of_nat d)) ++ lit "SEQUENCE"))
                 match ci with Some i => lit " (capture index " ++ show i ++ lit ")" | None => lit " (not captured)" end)
                 match cn with Some n => lit " (capture name '" ++ n ++ lit "')" ++ [10] | None => [10] end)
        end = DumpState (out ++ block (written_as p) d (NSequence (Seqn ch None ci cn))) (N.of_nat (S d))).
    { unfold ds_write, indent. cbn [ds_out ds_level]. replace (N.of_nat d + 1) with (N.of_nat (S d)) by lia. rewrite !fill_repeat. cbn [block sq_capture_index sq_capture_name]. unfold line, captured, named.
      assert (Em : children (NSequence (Seqn ch None ci cn)) = map node_of ch) by reflexivity. rewrite Em.
      destruct ch as [|c ch]; cbn [map]; f_equal; destruct cn as [n|]; rewrite <- ?app_assoc, ?app_nil_r; rewrite <- ?app_assoc; reflexivity. }
    rewrite St. clear St. cbn [during_sequence dump_visitor].
    rewrite (walk_list_end _ (tree_text (written_as p) (S d)) (fun c => forallb (good p) (leaves c)) p).
    + rewrite forallb_flat_map. destruct (forallb _ ch); cbn [bindr]; [|unfold stopped; destruct (overflow_checks p); reflexivity]. cbn [post_sequence dump_visitor]. rewrite outdent_ok. cbn [bind]. rewrite <- app_assoc. reflexivity.
    + intros c I out'. rewrite Forall_forall in H, Fc. apply H; [exact I|apply Fc; exact I].
Qed.
Lemma dump_tree_ok : forall p c, finalized c -> dump_tree p c = if forallb (good p) (leaves c) then Ret (ROk (tree_text (written_as p) 0 c)) else stopped p.
Proof.
  intros p c F. unfold dump_tree. change (DumpState [] 0) with (DumpState [] (N.of_nat 0)). rewrite dump_walk by exact F. destruct (forallb (good p) (leaves c)); [reflexivity|]. unfold stopped. destruct (overflow_checks p); reflexivity.
Qed.

(** ** Positions *)
Definition is_pre (e : event) : bool := match ev_hook e with Pre => true | _ => false end.
Definition pres (tr : list event) : list (list nat) := map ev_pos (filter is_pre tr).
Lemma pres_app : forall a b, pres (a ++ b) = pres a ++ pres b.
Proof. intros a b. unfold pres. rewrite filter_app, map_app. reflexivity. Qed.
Lemma tree_blocks : forall txt root c pos, node_at root pos = Some (node_of c) -> tree_text txt (List.length pos) c = blocks txt root (pres (trace pos c)).
Proof.
  intros txt root.
  assert (Weave : forall {A} (f : A -> str) (tr : nat -> A -> list event) pos l i, (forall j x, nth_error l j = Some x -> f x = blocks txt root (pres (tr (i + j)%nat x))) ->
    flat_map f l = blocks txt root (pres (weave tr pos i l))).
  { intros A f tr pos. induction l as [|x l IH]; intros i H; [reflexivity|]. cbn [flat_map weave]. rewrite pres_app. unfold blocks at 1. rewrite flat_map_app.
    pose proof (H 0%nat x eq_refl) as H0. rewrite Nat.add_0_r in H0. rewrite H0. f_equal.
    assert (X : flat_map f l = blocks txt root (pres (weave tr pos (S i) l))) by (apply IH; intros j y Hy; replace (S i + j)%nat with (i + S j)%nat by lia; apply H; exact Hy).
    rewrite X. destruct l as [|y l]; reflexivity. }
  apply (component_ind' (fun c => forall pos, node_at root pos = Some (node_of c) -> tree_text txt (List.length pos) c = blocks txt root (pres (trace pos c)))
    (fun s => forall pos, node_at root pos = Some (NSequence s) -> seqn_text txt (List.length pos) s = blocks txt root (pres (trace_seqn pos s)))).
  - intros bs H pos Hn. cbn [tree_text trace]. change (Event Pre pos :: weave (fun i s => trace_seqn (pos ++ [i]) s) pos 0 bs ++ [Event Post pos]) with ([Event Pre pos] ++ weave (fun i s => trace_seqn (pos ++ [i]) s) pos 0 bs ++ [Event Post pos]).
    rewrite !pres_app. unfold blocks. rewrite !flat_map_app. cbn [pres filter is_pre ev_hook map ev_pos flat_map]. rewrite Hn, !app_nil_r. cbn [node_of]. f_equal. apply Weave. intros j s Es. rewrite Forall_forall in H.
    replace (S (List.length pos)) with (List.length (pos ++ [0 + j]%nat)) by (rewrite app_length; cbn; lia). apply H; [eapply nth_error_In; exact Es|]. rewrite node_at_app, Hn. cbn [node_at node_of children]. rewrite nth_error_map, Nat.add_0_l, Es. reflexivity.
  - intros k pos Hn. cbn [tree_text trace]. unfold pres, blocks. cbn [filter is_pre ev_hook map ev_pos flat_map]. rewrite Hn, app_nil_r. reflexivity.
  - intros s H pos Hn. cbn [tree_text trace]. apply H. exact Hn.
  - intros ch alt ci cn H pos Hn. cbn [seqn_text trace_seqn]. change (Event Pre pos :: weave (fun i c => trace (pos ++ [i]) c) pos 0 ch ++ [Event Post pos]) with ([Event Pre pos] ++ weave (fun i c => trace (pos ++ [i]) c) pos 0 ch ++ [Event Post pos]).
    rewrite !pres_app. unfold blocks. rewrite !flat_map_app. cbn [pres filter is_pre ev_hook map ev_pos flat_map]. rewrite Hn, !app_nil_r. f_equal. apply Weave. intros j c Ec. rewrite Forall_forall in H.
    replace (S (List.length pos)) with (List.length (pos ++ [0 + j]%nat)) by (rewrite app_length; cbn; lia). apply H; [eapply nth_error_In; exact Ec|]. rewrite node_at_app, Hn. cbn [node_at children sq_children]. rewrite nth_error_map, Nat.add_0_l, Ec. reflexivity.
Qed.
Lemma pres_preorder : forall c, preorder (node_of c) (pres (trace [] c)).
Proof.
  intro c. destruct (trace_complete c) as [S I]. split.
  - unfold pres. clear I. induction S as [|e tr S IH F]; cbn; [constructor|]. destruct (is_pre e) eqn:P; [|exact IH]. cbn [map]. constructor; [exact IH|]. rewrite Forall_forall in *. intros pos J. apply in_map_iff in J. destruct J as (e' & <- & J). apply filter_In in J. destruct J as [J P'].
    specialize (F e' J). destruct e as [h pos], e' as [h' pos']. unfold is_pre in P, P'. cbn [ev_hook ev_pos] in *. destruct h; try discriminate P. destruct h'; try discriminate P'. inversion F; subst.
    + apply e_left. assumption.
    + destruct a as [|i a]; [destruct (H1 eq_refl)|]. apply e_above.
  - intro pos. unfold pres. rewrite in_map_iff. split.
    + intros (e & <- & J). apply filter_In in J. destruct J as [J _]. apply I in J. destruct J as (n & J & _). eauto.
    + intros (n & J). exists (Event Pre pos). split; [reflexivity|]. apply filter_In. split; [|reflexivity]. apply I. exists n. split; [exact J|]. cbn. exact Logic.I.
Qed.

(** ** Reading a dump back *)
Inductive mark := MClass (d : nat) (s : str) | MAlternation (d : nat) | MSequence (d : nat) (ci : option N) | MEmpty (d : nat).
Definition mark_text (m : mark) : str :=
  match m with
  | MClass d s => line d (lit "ASCII CLASS") ++ line (S d) s
  | MAlternation d => line d (lit "ALTERNATION")
  | MSequence d ci => line d (lit "SEQUENCE" ++ captured ci)
  | MEmpty d => line (S d) (lit " <empty>")
  end.
Definition mark_ok (m : mark) : Prop := match m with MClass _ s => ~ In 10 s | _ => True end.
Lemma spaces_inj : forall n m a b r r', a <> 32 -> b <> 32 -> repeat 32 n ++ a :: r = repeat 32 m ++ b :: r' -> n = m /\ a = b /\ r = r'.
Proof.
  induction n as [|n IH]; intros [|m] a b r r' Ha Hb E; cbn in E.
  - injection E as -> ->. auto.
  - injection E as E _. contradiction.
  - injection E as E _. congruence.
  - injection E as E. destruct (IH m a b r r' Ha Hb E) as (-> & -> & ->). auto.
Qed.
Lemma stop_inj : forall (x : N) a b r r', ~ In x a -> ~ In x b -> a ++ x :: r = b ++ x :: r' -> a = b /\ r = r'.
Proof.
  intros x a; induction a as [|y a IH]; intros [|z b] r r' Ha Hb E; cbn in E.
  - injection E as ->. auto.
  - injection E as <- _. destruct Hb. left. reflexivity.
  - injection E as -> _. destruct Ha. left. reflexivity.
  - injection E as -> E. destruct (IH b r r') as [-> ->]; [intro X; apply Ha; right; exact X|intro X; apply Hb; right; exact X|exact E|]. auto.
Qed.
Lemma digits_only : forall u c, In c (lit (DecimalString.NilEmpty.string_of_uint u)) -> 48 <= c <= 57.
Proof.
  induction u as [|u IH|u IH|u IH|u IH|u IH|u IH|u IH|u IH|u IH|u IH]; intros c I; [destruct I|..];
    unfold lit in I; cbn [DecimalString.NilEmpty.string_of_uint list_ascii_of_string map] in I; (destruct I as [I|I]; [vm_compute in I; lia|apply IH; exact I]).
Qed.
Lemma show_no_newline : forall i, ~ In 10 (show i).
Proof.
  intros i I. unfold show in I. assert (X : forall u c, In c (lit (DecimalString.NilZero.string_of_uint u)) -> 48 <= c <= 57).
  { intros u c J. unfold DecimalString.NilZero.string_of_uint in J. destruct u; [vm_compute in J; lia|apply digits_only in J; exact J..]. }
  apply X in I. lia.
Qed.
Lemma captured_no_newline : forall ci, ~ In 10 (captured ci).
Proof.
  intros [i|] I; unfold captured in I.
  - apply in_app_or in I. destruct I as [I|I]; [vm_compute in I; lia|]. apply in_app_or in I. destruct I as [I|I]; [exact (show_no_newline i I)|vm_compute in I; lia].
  - vm_compute in I. lia.
Qed.
Lemma captured_inj : forall ci ci', captured ci = captured ci' -> ci = ci'.
Proof.
  intros [i|] [j|] E; unfold captured in E; [|discriminate E..|reflexivity]. apply app_inv_head in E. apply app_inv_tail in E. apply show_inj in E. subst. reflexivity.
Qed.
Lemma mark_prefix : forall m m' r r', mark_ok m -> mark_ok m' -> mark_text m ++ r = mark_text m' ++ r' -> m = m'.
Proof.
  set (head := fun m => match m with
    | MClass d s => ((2 * d)%nat, 65, lit "SCII CLASS" ++ [10] ++ line (S d) s)
    | MAlternation d => ((2 * d)%nat, 65, lit "LTERNATION" ++ [10])
    | MSequence d ci => ((2 * d)%nat, 83, lit "EQUENCE" ++ captured ci ++ [10])
    | MEmpty d => ((2 * S d + 1)%nat, 60, lit "empty>" ++ [10]) end).
  assert (Hd : forall m r, mark_text m ++ r = let '(n, a, t) := head m in repeat 32 n ++ a :: t ++ r).
  { intros [d s|d|d ci|d] r; unfold head, mark_text, line; rewrite <- ?app_assoc; cbn [app]; try reflexivity.
    - rewrite repeat_app. rewrite <- app_assoc. reflexivity. }
  intros m m' r r' K K' E. rewrite !Hd in E.
  destruct m as [d s|d|d ci|d], m' as [d' s'|d'|d' ci'|d']; unfold head in E; apply spaces_inj in E; try discriminate; destruct E as (E1 & E2 & E3); try discriminate E2; try discriminate E3.
  - assert (d = d') by lia. subst d'. f_equal. rewrite <- !app_assoc in E3. apply app_inv_head in E3. cbn [app] in E3. injection E3 as E3. unfold line in E3. rewrite <- !app_assoc in E3. apply app_inv_head in E3. apply stop_inj in E3; [apply E3|exact K|exact K'].
  - f_equal. lia.
  - assert (d = d') by lia. subst d'. f_equal. rewrite <- !app_assoc in E3. apply app_inv_head in E3. apply stop_inj in E3; [apply captured_inj, E3|apply captured_no_newline..].
  - f_equal. lia.
Qed.
Lemma mark_nonempty : forall m, mark_ok m -> mark_text m <> [].
Proof. intros [d s|d|d ci|d] _ E; unfold mark_text, line in E; repeat (apply app_eq_nil in E; destruct E as [? E]); try discriminate. all: vm_compute in *; discriminate. Qed.
Lemma marks_inj : forall l l', Forall mark_ok l -> Forall mark_ok l' -> flat_map mark_text l = flat_map mark_text l' -> l = l'.
Proof. apply code_inj; [apply mark_prefix|apply mark_nonempty]. Qed.
Lemma tok_no_newline : forall o t, tok_ok t -> ~ In 10 (tok_text o t).
Proof.
  assert (T : forall o, forallb (fun t => negb (existsb (N.eqb 10) (tok_text o t))) tokens = true) by (intros []; vm_compute; reflexivity).
  intros o t H I. specialize (T o). rewrite forallb_forall in T. specialize (T t (in_tokens t H)). apply negb_true_iff in T. apply not_true_iff_false in T. apply T. apply existsb_exists. exists 10. split; [exact I|reflexivity].
Qed.
Lemma form_no_newline : forall o f, form_ok f -> ~ In 10 (form_text o f).
Proof.
  intros o f H I. rewrite <- form_toks_text in I by exact H. apply in_flat_map in I. destruct I as (t & J & I). pose proof (form_toks_ok f H) as F. rewrite Forall_forall in F. exact (tok_no_newline o t (F t J) I).
Qed.
Lemma class_no_newline : forall p b o s, wf b -> describe_class p b 256 o = Ret s -> ~ In 10 s.
Proof.
  intros p b o s W E. rewrite describe_class_ok in E by exact W. destruct (class_text_ok p o b) as [H1 H2].
  assert (N : ~ stuck b) by (intro St; rewrite H1 in E by exact St; unfold stopped in E; destruct (overflow_checks p); discriminate E). rewrite H2 in E by exact N. injection E as <-.
  destruct (text_form o b) as (f & Hf & -> & _). apply form_no_newline. exact Hf.
Qed.

(** *** The marks of a tree *)
Section Marks.
  Context (txt : ascii_class -> str).
  Fixpoint marks (d : nat) (c : component) : list mark :=
    match c with
    | CClass k => [MClass d (txt k)]
    | CAlternation bs => MAlternation d :: flat_map (seqn_marks (S d)) bs
    | CSequence s => seqn_marks d s
    end
  with seqn_marks (d : nat) (s : seqn) : list mark :=
    match s with Seqn ch _ ci _ => MSequence d ci :: (match ch with [] => [MEmpty d] | _ => [] end) ++ flat_map (marks (S d)) ch end.
  Lemma flat_map_flat_map : forall {A B C} (f : B -> list C) (g : A -> list B) l, flat_map f (flat_map g l) = flat_map (fun x => flat_map f (g x)) l.
  Proof. intros A B C f g l. induction l as [|x l IH]; [reflexivity|]. cbn. rewrite flat_map_app, IH. reflexivity. Qed.
  Lemma flat_map_ext_in : forall {A B} (f g : A -> list B) l, (forall x, In x l -> f x = g x) -> flat_map f l = flat_map g l.
  Proof. intros A B f g l H. induction l as [|x l IH]; [reflexivity|]. cbn. rewrite (H x (or_introl eq_refl)), IH by (intros y I; apply H; right; exact I). reflexivity. Qed.
  Lemma marks_text : forall c, unnamed c -> forall d, flat_map mark_text (marks d c) = tree_text txt d c.
  Proof.
    apply (component_ind' (fun c => unnamed c -> forall d, flat_map mark_text (marks d c) = tree_text txt d c) (fun s => unnamed_seqn s -> forall d, flat_map mark_text (seqn_marks d s) = seqn_text txt d s)).
    - intros bs H U d. inversion U as [|? Ub|]; subst. cbn [marks tree_text flat_map mark_text block]. f_equal. rewrite flat_map_flat_map. apply flat_map_ext_in. intros s I. rewrite Forall_forall in H, Ub. apply H; [exact I|apply Ub; exact I].
    - intros k U d. cbn [marks tree_text flat_map mark_text block]. apply app_nil_r.
    - intros s H U d. inversion U; subst. apply H. assumption.
    - intros ch alt ci cn H U d. inversion U as [? ? ? Uc]; subst. cbn [seqn_marks seqn_text flat_map mark_text]. rewrite flat_map_app. cbn [block sq_capture_index sq_capture_name named]. change (children (NSequence (Seqn ch alt ci None))) with (map node_of ch).
      rewrite app_nil_r, <- app_assoc. f_equal. assert (X : flat_map mark_text (flat_map (marks (S d)) ch) = flat_map (tree_text txt (S d)) ch).
      { rewrite flat_map_flat_map. apply flat_map_ext_in. intros c I. rewrite Forall_forall in H, Uc. apply H; [exact I|apply Uc; exact I]. }
      rewrite X. f_equal. destruct ch; [|reflexivity]. cbn [map flat_map mark_text]. apply app_nil_r.
  Qed.
  Definition depth (m : mark) : nat := match m with MClass d _ => d | MAlternation d => d | MSequence d _ => d | MEmpty d => d end.
  Definition low (d : nat) (r : list mark) : Prop := match r with [] => True | MEmpty _ :: _ => False | m :: _ => (depth m <= d)%nat end.
  Lemma marks_head : forall c d, exists m r, marks d c = m :: r /\ depth m = d /\ match m with MEmpty _ => False | _ => True end.
  Proof. intros [bs|k|[ch alt ci cn]] d; cbn; do 2 eexists; (split; [reflexivity|]); cbn; auto. Qed.
  Lemma seqn_marks_head : forall s d, exists m r, seqn_marks d s = m :: r /\ depth m = d /\ match m with MEmpty _ => False | _ => True end.
  Proof. intros [ch alt ci cn] d; cbn; do 2 eexists; (split; [reflexivity|]); cbn; auto. Qed.
  Lemma list_marks_inj : forall {A} (mk : nat -> A -> list mark) (R : A -> A -> Prop) (un : A -> Prop),
    (forall x d, exists m r, mk d x = m :: r /\ depth m = d /\ match m with MEmpty _ => False | _ => True end) ->
    forall l, Forall (fun x => un x -> forall y d r r', un y -> low d r -> low d r' -> mk d x ++ r = mk d y ++ r' -> R x y /\ r = r') l -> Forall un l ->
    forall l' d r r', Forall un l' -> low d r -> low d r' -> flat_map (mk (S d)) l ++ r = flat_map (mk (S d)) l' ++ r' -> Forall2 R l l' /\ r = r'.
  Proof.
    intros A mk R un Hd.
    assert (Lw : forall l d r, low d r -> low (S d) (flat_map (mk (S d)) l ++ r)).
    { intros [|x l] d r L; cbn [flat_map app].
      - destruct r as [|[] r]; cbn in *; auto; lia.
      - destruct (Hd x (S d)) as (m & t & -> & E & Ne). cbn [app low]. destruct m; cbn in *; first [lia|contradiction]. }
    assert (No : forall x l d r r', low d r -> r <> flat_map (mk (S d)) (x :: l) ++ r').
    { intros x l d r r' L E. subst r. cbn [flat_map] in L. destruct (Hd x (S d)) as (m & t & H & D & Ne). rewrite H in L. cbn [app low] in L. destruct m; cbn in *; first [lia|contradiction]. }
    induction l as [|x l IH]; intros P U l' d r r' U' L L' E.
    - destruct l' as [|y l']; [cbn in E; auto|]. destruct (No y l' d r r' L E).
    - destruct l' as [|y l']; [symmetry in E; destruct (No x l d r' r L' E)|]. cbn [flat_map] in E. rewrite <- !app_assoc in E. inversion P as [|? ? Px Pl]; inversion U as [|? ? Ux Ul]; inversion U' as [|? ? Uy Ul']; subst.
      destruct (Px Ux y (S d) _ _ Uy (Lw l d r L) (Lw l' d r' L') E) as [Rx E']. destruct (IH Pl Ul l' d r r' Ul' L L' E') as [F ->]. split; [constructor; assumption|reflexivity].
  Qed.
  Lemma tree_marks_inj : forall c, unnamed c -> forall c' d r r', unnamed c' -> low d r -> low d r' -> marks d c ++ r = marks d c' ++ r' -> alike txt c c' /\ r = r'.
  Proof.
    apply (component_ind' (fun c => unnamed c -> forall c' d r r', unnamed c' -> low d r -> low d r' -> marks d c ++ r = marks d c' ++ r' -> alike txt c c' /\ r = r')
      (fun s => unnamed_seqn s -> forall s' d r r', unnamed_seqn s' -> low d r -> low d r' -> seqn_marks d s ++ r = seqn_marks d s' ++ r' -> alike_seqn txt s s' /\ r = r')).
    - intros bs H U c' d r r' U' L L' E. destruct c' as [bs'|k'|[ch' alt' ci' cn']]; cbn in E; try discriminate E. injection E as E. inversion U; inversion U'; subst.
      destruct (list_marks_inj seqn_marks (alike_seqn txt) unnamed_seqn seqn_marks_head bs H ltac:(assumption) bs' d r r' ltac:(assumption) L L' E) as [F ->]. split; [constructor; exact F|reflexivity].
    - intros k U c' d r r' U' L L' E. destruct c' as [bs'|k'|[ch' alt' ci' cn']]; cbn in E; try discriminate E. injection E as E ->. split; [constructor; exact E|reflexivity].
    - intros s H U c' d r r' U' L L' E. destruct c' as [bs'|k'|s']; cbn [marks] in E; [destruct s as [ch alt ci cn]; cbn in E; discriminate E..|]. inversion U; inversion U'; subst.
      destruct (H ltac:(assumption) s' d r r' ltac:(assumption) L L' E) as [A ->]. split; [constructor; exact A|reflexivity].
    - intros ch alt ci cn H U [ch' alt' ci' cn'] d r r' U' L L' E. cbn [seqn_marks app] in E. injection E as -> E. inversion U as [? ? ? Uc]; inversion U' as [? ? ? Uc']; subst. rewrite <- !app_assoc in E.
      assert (X : flat_map (marks (S d)) ch ++ r = flat_map (marks (S d)) ch' ++ r').
      { destruct ch as [|c ch], ch' as [|c' ch']; cbn [app] in E; [injection E as E; exact E| | |exact E].
        - cbn [flat_map] in E. destruct (marks_head c' (S d)) as (m & t & Em & _ & Ne). rewrite Em in E. cbn in E. injection E as E _. subst m. destruct Ne.
        - cbn [flat_map] in E. destruct (marks_head c (S d)) as (m & t & Em & _ & Ne). rewrite Em in E. cbn in E. injection E as E _. subst m. destruct Ne. }
      destruct (list_marks_inj marks (alike txt) unnamed marks_head ch H Uc ch' d r r' Uc' L L' X) as [F ->]. split; [constructor; exact F|reflexivity].
  Qed.
  Lemma marks_mark_ok : forall c, (forall k, In k (leaves c) -> ~ In 10 (txt k)) -> forall d, Forall mark_ok (marks d c).
  Proof.
    apply (component_ind' (fun c => (forall k, In k (leaves c) -> ~ In 10 (txt k)) -> forall d, Forall mark_ok (marks d c)) (fun s => (forall k, In k (seqn_leaves s) -> ~ In 10 (txt k)) -> forall d, Forall mark_ok (seqn_marks d s))).
    - intros bs H N d. cbn [marks]. constructor; [exact I|]. apply Forall_forall. intros m J. apply in_flat_map in J. destruct J as (s & Is & J). rewrite Forall_forall in H. assert (X : Forall mark_ok (seqn_marks (S d) s)).
      { apply H; [exact Is|]. intros k Ik. apply N. cbn [leaves]. apply in_flat_map. exists s. split; [exact Is|]. destruct s; exact Ik. }
      rewrite Forall_forall in X. apply X. exact J.
    - intros k N d. cbn [marks]. constructor; [|constructor]. apply N. left. reflexivity.
    - intros s H N d. cbn [marks]. apply H. intros k Ik. apply N. destruct s; exact Ik.
    - intros ch alt ci cn H N d. cbn [seqn_marks]. constructor; [exact I|]. apply Forall_app. split; [destruct ch; repeat constructor|]. apply Forall_forall. intros m J. apply in_flat_map in J. destruct J as (c & Ic & J). rewrite Forall_forall in H. assert (X : Forall mark_ok (marks (S d) c)).
      { apply H; [exact Ic|]. intros k Ik. apply N. cbn [seqn_leaves]. apply in_flat_map. eauto. }
      rewrite Forall_forall in X. apply X. exact J.
  Qed.
  Lemma tree_text_inj : forall c c', unnamed c -> unnamed c' -> (forall k, In k (leaves c) -> ~ In 10 (txt k)) -> (forall k, In k (leaves c') -> ~ In 10 (txt k)) ->
    tree_text txt 0 c = tree_text txt 0 c' -> alike txt c c'.
  Proof.
    intros c c' U U' N N' E. rewrite <- !marks_text in E by assumption. apply marks_inj in E; [|apply marks_mark_ok; assumption..].
    apply (tree_marks_inj c U c' 0%nat [] [] U' I I). rewrite !app_nil_r. exact E.
  Qed.
  Lemma alike_text : forall c c', alike txt c c' -> forall d, tree_text txt d c = tree_text txt d c'.
  Proof.
    apply (component_ind' (fun c => forall c', alike txt c c' -> forall d, tree_text txt d c = tree_text txt d c') (fun s => forall s', alike_seqn txt s s' -> forall d, seqn_text txt d s = seqn_text txt d s')).
    - intros bs H c' A d. inversion A as [|? bs' F|]; subst. cbn [tree_text block]. f_equal. clear A. induction F as [|x y l l' Hxy F IH]; [reflexivity|]. inversion H; subst. cbn [flat_map]. f_equal; auto.
    - intros k c' A d. inversion A as [? ? E| |]; subst. cbn. rewrite E. reflexivity.
    - intros s H c' A d. inversion A; subst. cbn [tree_text]. apply H. assumption.
    - intros ch alt ci cn H s' A d. inversion A as [? ch' ? ? ? ? F]; subst. cbn [seqn_text block sq_capture_index sq_capture_name children sq_children]. 
      assert (X : flat_map (tree_text txt (S d)) ch = flat_map (tree_text txt (S d)) ch') by (clear A; induction F as [|x y l l' Hxy F IH]; [reflexivity|]; inversion H; subst; cbn [flat_map]; f_equal; auto).
      f_equal; [|exact X]. f_equal. destruct F; reflexivity.
  Qed.
  Lemma alike_eq : forall c, finalized c -> forall c', finalized c' -> (forall k k', In k (leaves c) -> In k' (leaves c') -> txt k = txt k' -> k = k') -> alike txt c c' -> c = c'.
  Proof.
    apply (component_ind' (fun c => finalized c -> forall c', finalized c' -> (forall k k', In k (leaves c) -> In k' (leaves c') -> txt k = txt k' -> k = k') -> alike txt c c' -> c = c')
      (fun s => finalized_seqn s -> forall s', finalized_seqn s' -> (forall k k', In k (seqn_leaves s) -> In k' (seqn_leaves s') -> txt k = txt k' -> k = k') -> alike_seqn txt s s' -> s = s')).
    - intros bs H Fc c' Fc' J A. inversion A as [|? bs' F|]; subst. inversion Fc as [|? Fb|]; inversion Fc' as [|? Fb'|]; subst. f_equal. cbn [leaves] in J. clear A Fc Fc'.
      induction F as [|x y l l' Hxy F IH]; [reflexivity|]. inversion H as [|? ? Hx Hl]; inversion Fb; inversion Fb'; subst. f_equal.
      + apply Hx; [assumption..| |exact Hxy]. intros k k' I1 I2. apply J; cbn [flat_map]; apply in_or_app; left; [destruct x; exact I1|destruct y; exact I2].
      + apply IH; try assumption. intros k k' I1 I2. apply J; cbn [flat_map]; apply in_or_app; right; assumption.
    - intros k Fc c' Fc' J A. inversion A as [? k' E| |]; subst. f_equal. apply J; [left; reflexivity..|exact E].
    - intros s H Fc c' Fc' J A. inversion A as [| |? s' As]; subst. inversion Fc; inversion Fc'; subst. f_equal. apply H; [assumption..| |exact As]. intros k k' I1 I2. apply J; [destruct s; exact I1|destruct s'; exact I2].
    - intros ch alt ci cn H Fc s' Fc' J A. inversion A as [? ch' ? ? ? ? F]; subst. inversion Fc as [? ? ? Fb]; inversion Fc' as [? ? ? Fb']; subst. f_equal. cbn [seqn_leaves] in J. clear A Fc Fc'.
      induction F as [|x y l l' Hxy F IH]; [reflexivity|]. inversion H as [|? ? Hx Hl]; inversion Fb; inversion Fb'; subst. f_equal.
      + apply Hx; [assumption..| |exact Hxy]. intros k k' I1 I2. apply J; cbn [flat_map]; apply in_or_app; left; assumption.
      + apply IH; try assumption. intros k k' I1 I2. apply J; cbn [flat_map]; apply in_or_app; right; assumption.
  Qed.
End Marks.

(** ** Trees made by the parser *)
Lemma seq_of_unnamed : forall i bs, (forall b c, In b bs -> In c b -> unnamed c) -> unnamed_seqn (seq_of i bs).
Proof.
  intros i l H. assert (X : unnamed_seqn (Seqn [CAlternation (map branch l)] None i None)).
  { constructor. constructor; [|constructor]. constructor. apply Forall_forall. intros s I. apply in_map_iff in I. destruct I as (b & <- & I).
    constructor. apply Forall_forall. intros c J. eapply H; eassumption. }
  destruct l as [|b [|b' l]]; try exact X. constructor. apply Forall_forall. intros c J. eapply H; [left; reflexivity|exact J].
Qed.
Lemma tree_atom_unnamed : forall nc a n, unnamed (fst (tree_atom nc n a)).
Proof.
  intro nc. induction a as [c|bs IH] using atom_ind'; intro n.
  - constructor.
  - rewrite tree_atom_grp. cbn [fst]. constructor. apply seq_of_unnamed. intros b c. apply tree_branches_forall. intros b' a Ib Ia k.
    rewrite Forall_forall in IH. specialize (IH b' Ib). rewrite Forall_forall in IH. apply IH. exact Ia.
Qed.
Lemma tree_unnamed : forall nc e, unnamed (tree nc e).
Proof.
  intros nc e. constructor. apply seq_of_unnamed. intros b c. apply tree_branches_forall. intros b' a _ _ k. apply tree_atom_unnamed.
Qed.
Definition ascii_chars : list N := map N.of_nat (List.seq 0 128).
Lemma in_ascii : forall c, c < 128 -> In c ascii_chars.
Proof. intros c H. unfold ascii_chars. replace c with (N.of_nat (N.to_nat c)) by apply N2Nat.id. apply in_map, in_seq. lia. Qed.
Lemma ascii_map : forall {A} (f g : N -> A), map f ascii_chars = map g ascii_chars -> forall c, c < 128 -> f c = g c.
Proof. intros A f g H c Hc. apply in_ascii in Hc. induction ascii_chars as [|x l IH]; [destruct Hc|]. cbn in H. inversion H. destruct Hc as [<-|Hc]; [assumption|]. apply IH; assumption. Qed.
Lemma class_of_text : forall nc c, c < 128 -> text_of Text (ac_cr (class_of nc c)) = describe_char (stored nc c) Text.
Proof. intros nc. apply (ascii_map (fun c => text_of Text (ac_cr (class_of nc c))) (fun c => describe_char (stored nc c) Text)). destruct nc; vm_compute; reflexivity. Qed.
Lemma class_of_high : forall nc c, c < 128 -> map (mem (ac_cr (class_of nc c))) [251; 252; 253; 254; 255] = [false; false; false; false; false].
Proof. intros nc. apply (ascii_map (fun c => map (mem (ac_cr (class_of nc c))) [251; 252; 253; 254; 255]) (fun _ => [false; false; false; false; false])). destruct nc; vm_compute; reflexivity. Qed.
Lemma class_of_stored : forall nc c, c < 128 -> class_of nc c = class_of nc (stored nc c).
Proof. intros nc. apply (ascii_map (class_of nc) (fun c => class_of nc (stored nc c))). destruct nc; vm_compute; reflexivity. Qed.
Lemma stored_least : forall nc c, c < 128 -> hd 0 (elements (ac_cr (class_of nc c))) = stored nc c.
Proof. intros nc. apply (ascii_map (fun c => hd 0 (elements (ac_cr (class_of nc c)))) (stored nc)). destruct nc; vm_compute; reflexivity. Qed.
Lemma stored_byte : forall nc c, c < 128 -> byte (stored nc c).
Proof. intros nc c H. rewrite <- stored_least by exact H. unfold byte. assert (X : (hd 0 (elements (ac_cr (class_of nc c))) <? 256) = true).
  { revert c H. apply (ascii_map (fun c => hd 0 (elements (ac_cr (class_of nc c))) <? 256) (fun _ => true)). destruct nc; vm_compute; reflexivity. } lia. Qed.
Lemma class_of_written : forall p nc c, c < 128 -> describe_class p (ac_cr (class_of nc c)) 256 Text = Ret (describe_char (stored nc c) Text).
Proof.
  intros p nc c H. rewrite describe_class_ok by apply class_of_wf. rewrite <- class_of_text by exact H. apply class_text_ok. intros (_ & _ & _ & X). apply X.
  pose proof (class_of_high nc c H) as Y. cbn [map] in Y. inversion Y. repeat split; congruence.
Qed.
Lemma finalized_leaves : forall c, finalized c -> forall k, In k (leaves c) -> wf (ac_cr k).
Proof.
  apply (component_ind' (fun c => finalized c -> forall k, In k (leaves c) -> wf (ac_cr k)) (fun s => finalized_seqn s -> forall k, In k (seqn_leaves s) -> wf (ac_cr k))).
  - intros bs H F k I. inversion F as [|? Fb|]; subst. cbn [leaves] in I. apply in_flat_map in I. destruct I as (s & Is & I). rewrite Forall_forall in H, Fb. destruct s as [ch alt ci cn]. apply (H _ Is (Fb _ Is)). exact I.
  - intros k F k' I. inversion F; subst. destruct I as [<-|[]]. assumption.
  - intros s H F k I. inversion F; subst. destruct s as [ch alt ci cn]. apply H; assumption.
  - intros ch alt ci cn H F k I. inversion F as [? ? ? Fc]; subst. cbn [seqn_leaves] in I. apply in_flat_map in I. destruct I as (c & Ic & I). rewrite Forall_forall in H, Fc. apply (H c Ic (Fc c Ic)). exact I.
Qed.
Lemma tree_text_ext : forall txt txt' c, (forall k, In k (leaves c) -> txt k = txt' k) -> forall d, tree_text txt d c = tree_text txt' d c.
Proof.
  intros txt txt'. apply (component_ind' (fun c => (forall k, In k (leaves c) -> txt k = txt' k) -> forall d, tree_text txt d c = tree_text txt' d c)
    (fun s => (forall k, In k (seqn_leaves s) -> txt k = txt' k) -> forall d, seqn_text txt d s = seqn_text txt' d s)).
  - intros bs H F d. cbn [tree_text]. f_equal. apply flat_map_ext_in. intros s Is. rewrite Forall_forall in H. apply (H s Is). intros k I. apply F. cbn [leaves]. apply in_flat_map. exists s. split; [exact Is|]. destruct s. exact I.
  - intros k F d. cbn [tree_text block]. rewrite F by (left; reflexivity). reflexivity.
  - intros s H F d. cbn [tree_text]. apply H. intros k I. apply F. destruct s. exact I.
  - intros ch alt ci cn H F d. cbn [seqn_text]. f_equal. apply flat_map_ext_in. intros c Ic. rewrite Forall_forall in H. apply (H c Ic). intros k I. apply F. cbn [seqn_leaves]. apply in_flat_map. eauto.
Qed.
