(** C80: dumps to writers that may refuse. *)
From Verif Require Import Base ModelUtil ModelBitField ModelCharReach ModelParser ModelDump ModelWriter SpecSet SpecGrammar SpecTree SpecWriter
  ProofBase ProofParser ProofTree ProofShortcut ProofVisit.
Local Open Scope N_scope.
Local Open Scope list_scope.

(** ** Replaying pieces *)
Definition give {W} (w : writer W) (f : W) (q : piece) : result W W :=
  match q with PStr t => write_str w f t | PChr c => write_char w f c end.
Fixpoint feed {W} (w : writer W) (f : W) (ps : list piece) : result W W :=
  match ps with [] => ROk f | q :: t => and_then (give w f q) (fun f => feed w f t) end.
Lemma give_cases : forall {W} (w : writer W) f q, (exists f', give w f q = ROk f' /\ takes w f q f') \/ (exists f', give w f q = RErr f' /\ refuses w f q f').
Proof.
  intros W w f [t|c]; cbn [give]; unfold write_str, write_char;
    [destruct (w_str w f t) as [f' [|]] eqn:E|destruct (w_char w f c) as [f' [|]] eqn:E];
    [left|right|left|right]; exists f'; (split; [reflexivity|]); constructor; exact E.
Qed.
Lemma feed_app : forall {W} (w : writer W) ps qs f, feed w f (ps ++ qs) = and_then (feed w f ps) (fun f => feed w f qs).
Proof. intros W w ps qs. induction ps as [|q ps IH]; intro f; cbn [app feed]; [reflexivity|]. destruct (give w f q); cbn [and_then]; [apply IH|reflexivity]. Qed.
Lemma feed_cases : forall {W} (w : writer W) ps f, (exists f', feed w f ps = ROk f' /\ takes_all w f ps f') \/ (exists f', feed w f ps = RErr f' /\ stops w f ps f').
Proof.
  intros W w ps. induction ps as [|q ps IH]; intro f; cbn [feed].
  - left. exists f. split; [reflexivity|constructor].
  - destruct (give_cases w f q) as [(f1 & -> & T)|(f1 & -> & R)]; cbn [and_then].
    + destruct (IH f1) as [(f2 & -> & A)|(f2 & -> & (b & x & a & f3 & -> & A & R))].
      * left. exists f2. split; [reflexivity|econstructor; eauto].
      * right. exists f2. split; [reflexivity|]. exists (q :: b), x, a, f3. split; [reflexivity|]. split; [econstructor; eauto|exact R].
    + right. exists f1. split; [reflexivity|]. exists [], q, ps, f. split; [reflexivity|]. split; [constructor|exact R].
Qed.
Lemma text_app : forall a b, text (a ++ b) = text a ++ text b.
Proof. intros. unfold text. apply flat_map_app. Qed.

(** A trail: the pieces, and how the computation ends after the last of them. *)
Definition trail (A : Type) : Type := list piece * outcome A.
Definition tbind {A B} (t : trail A) (k : A -> trail B) : trail B :=
  match snd t with Ret a => (fst t ++ fst (k a), snd (k a)) | Panic x => (fst t, Panic x) | Diverge => (fst t, Diverge) end.
Definition replay {A W V} (mk : W -> A -> V) (w : writer W) (f : W) (t : trail A) : outcome (result W V) :=
  match feed w f (fst t) with ROk f' => let! a := snd t in Ret (ROk (mk f' a)) | RErr f' => Ret (RErr f') end.
Lemma replay_bind : forall {A B W V U} (mk : W -> A -> V) (mk' : W -> B -> U) (w : writer W) f t (k : A -> trail B) (K : V -> outcome (result W U)),
  (forall f a, K (mk f a) = replay mk' w f (k a)) -> bindr (replay mk w f t) K = replay mk' w f (tbind t k).
Proof.
  intros A B W V U mk mk' w f [ps o] k K H. unfold replay, tbind. cbn [fst snd]. destruct o as [a|x|]; cbn [fst snd].
  - rewrite feed_app. destruct (feed w f ps) as [f1|f1]; cbn [and_then bind bindr]; [|reflexivity]. rewrite H. reflexivity.
  - destruct (feed w f ps); reflexivity.
  - destruct (feed w f ps); reflexivity.
Qed.
(** ** One class *)
Lemma char_trail : forall c o, exists ps, describe_char c o = text ps /\ forall W (w : writer W) f, describe_char_to w f c o = feed w f ps.
Proof.
  intros c o. assert (One : forall W (w : writer W) f q, feed w f [q] = give w f q) by (intros W w f q; cbn [feed]; destruct (give w f q); reflexivity).
  assert (Two : forall W (w : writer W) f q r, feed w f [q; r] = and_then (give w f q) (fun f => give w f r)).
  { intros W w f q r. cbn [feed]. destruct (give w f q) as [f1|f1]; cbn [and_then]; [|reflexivity]. destruct (give w f1 r); reflexivity. }
  unfold describe_char, describe_char_to. destruct (_ && negb (c =? 92)).
  - destruct (existsb (N.eqb c) ESCAPED).
    { exists [PStr (backslash o); PChr c]. split; [reflexivity|]. intros W w f. rewrite Two. reflexivity. }
    destruct (is_dot o && existsb (N.eqb c) DOT_SINGLE_ESCAPED).
    { exists [PChr 92; PChr c]. split; [reflexivity|]. intros W w f. rewrite Two. reflexivity. }
    exists [PChr c]. split; [reflexivity|]. intros W w f. rewrite One. reflexivity.
  - destruct (c =? 9). { exists [PStr (backslash o); PChr 116]. split; [reflexivity|]. intros W w f. rewrite Two. reflexivity. }
    destruct (c =? 10). { exists [PStr (backslash o); PChr 110]. split; [reflexivity|]. intros W w f. rewrite Two. reflexivity. }
    destruct (c =? 13). { exists [PStr (backslash o); PChr 114]. split; [reflexivity|]. intros W w f. rewrite Two. reflexivity. }
    exists [PStr (backslash o ++ lit "x" ++ show_hex2 c)]. split; [cbn [text flat_map piece_text]; rewrite app_nil_r; reflexivity|]. intros W w f. rewrite One. reflexivity.
Qed.
Lemma class_trail : forall p cr k o, exists ps e, describe_class p cr k o = (let! _ := (e : outcome unit) in Ret (text ps)) /\
  forall W (w : writer W) f, describe_class_to w p f cr k o = replay (fun f _ => f) w f (ps, e).
Proof.
  intros p cr k o. unfold describe_class, describe_class_to, replay. cbn [fst snd].
  assert (Pr : forall W (w : writer W) f q, give w f q = feed w f [q]) by (intros W w f q; cbn [feed]; destruct (give w f q); reflexivity).
  assert (Fin : forall ps (m : outcome str), m = Ret (text ps) -> forall (g : forall W, writer W -> W -> outcome (result W W)), (forall W (w : writer W) f, g W w f = Ret (feed w f ps)) ->
     exists ps' e, m = (let! _ := (e : outcome unit) in Ret (text ps')) /\ forall W (w : writer W) f, g W w f = match feed w f ps' with ROk f' => let! _ := e in Ret (ROk f') | RErr f' => Ret (RErr f') end).
  { intros ps m E g G. exists ps, (Ret tt). split; [exact E|]. intros W w f. rewrite G. destruct (feed w f ps); reflexivity. }
  assert (Bad : forall ps e (m : outcome str), (forall u : unit, e <> Ret u) -> m = (let! _ := e in Ret []) -> forall (g : forall W, writer W -> W -> outcome (result W W)),
     (forall W (w : writer W) f, g W w f = match feed w f ps with ROk f' => let! _ := e in Ret (ROk f') | RErr f' => Ret (RErr f') end) ->
     exists ps' e, m = (let! _ := (e : outcome unit) in Ret (text ps')) /\ forall W (w : writer W) f, g W w f = match feed w f ps' with ROk f' => let! _ := e in Ret (ROk f') | RErr f' => Ret (RErr f') end).
  { intros ps e m Ne E g G. exists ps, e. split; [|exact G]. rewrite E. destruct e as [u|x|]; [destruct (Ne u eq_refl)|reflexivity..]. }
  destruct (cr_all cr).
  { apply (Fin [PStr (lit "<any>")] (Ret (lit "<any>")) eq_refl (fun W w f => Ret (write_str w f (lit "<any>")))). intros W w f. rewrite <- Pr. reflexivity. }
  destruct (cr_none cr).
  { apply (Fin [PStr (lit "<empty>")] (Ret (lit "<empty>")) eq_refl (fun W w f => Ret (write_str w f (lit "<empty>")))). intros W w f. rewrite <- Pr. reflexivity. }
  destruct (cr_count cr =? 1).
  { destruct (cr_find_first p cr) as [x|x|]; cbn [bind].
    - destruct (expect x) as [c|y|]; cbn [bind].
      + destruct (char_trail c o) as (ps & E & G). apply (Fin ps (Ret (describe_char c o)) (f_equal Ret E) (fun W w f => Ret (describe_char_to w f c o))). intros W w f. rewrite G. reflexivity.
      + apply (Bad [] (Panic y) (Panic y) ltac:(discriminate) eq_refl (fun W w f => Panic y)). reflexivity.
      + apply (Bad [] Diverge Diverge ltac:(discriminate) eq_refl (fun W w f => Diverge)). reflexivity.
    - apply (Bad [] (Panic x) (Panic x) ltac:(discriminate) eq_refl (fun W w f => Panic x)). reflexivity.
    - apply (Bad [] Diverge Diverge ltac:(discriminate) eq_refl (fun W w f => Diverge)). reflexivity. }
  destruct (cr_count (cr_not cr) =? 1).
  { destruct (cr_find_first p (cr_not cr)) as [x|x|]; cbn [bind].
    - destruct (expect x) as [c|y|]; cbn [bind].
      + destruct (char_trail c o) as (ps & E & G).
        apply (Fin (PStr (lit "[^") :: ps ++ [PChr 93]) (Ret (lit "[^" ++ describe_char c o ++ lit "]")) ltac:(cbn [text flat_map piece_text]; fold (text (ps ++ [PChr 93])); rewrite text_app, E; reflexivity)
          (fun W w f => let? f1 := Ret (write_str w f (lit "[^")) in let? f2 := Ret (describe_char_to w f1 c o) in Ret (write_char w f2 93))).
        intros W w f. cbn [feed give]. destruct (write_str w f (lit "[^")) as [f1|f1]; cbn [bindr bind and_then]; [|reflexivity].
        rewrite G, feed_app. destruct (feed w f1 ps) as [f2|f2]; cbn [bindr bind and_then feed give]; [|reflexivity]. destruct (write_char w f2 93); reflexivity.
      + apply (Bad [PStr (lit "[^")] (Panic y) (Panic y) ltac:(discriminate) eq_refl (fun W w f => let? f1 := Ret (write_str w f (lit "[^")) in Panic y)).
        intros W w f. rewrite <- Pr. cbn [give]. destruct (write_str w f (lit "[^")); reflexivity.
      + apply (Bad [PStr (lit "[^")] Diverge Diverge ltac:(discriminate) eq_refl (fun W w f => let? f1 := Ret (write_str w f (lit "[^")) in Diverge)).
        intros W w f. rewrite <- Pr. cbn [give]. destruct (write_str w f (lit "[^")); reflexivity.
    - apply (Bad [PStr (lit "[^")] (Panic x) (Panic x) ltac:(discriminate) eq_refl (fun W w f => let? f1 := Ret (write_str w f (lit "[^")) in Panic x)).
      intros W w f. rewrite <- Pr. cbn [give]. destruct (write_str w f (lit "[^")); reflexivity.
    - apply (Bad [PStr (lit "[^")] Diverge Diverge ltac:(discriminate) eq_refl (fun W w f => let? f1 := Ret (write_str w f (lit "[^")) in Diverge)).
      intros W w f. rewrite <- Pr. cbn [give]. destruct (write_str w f (lit "[^")); reflexivity. }
  destruct (describe_class_int p cr k o) as [[out n]|x|]; cbn [bind].
  - destruct (describe_class_int p (cr_not cr) k o) as [[neg n']|x|]; cbn [bind].
    + destruct (str_len out <=? str_len neg).
      * destruct (1 <? n).
        { apply (Fin [PChr 91; PStr out; PChr 93] (Ret (lit "[" ++ out ++ lit "]")) eq_refl
            (fun W w f => Ret (and_then (write_char w f 91) (fun f => and_then (write_str w f out) (fun f => write_char w f 93))))).
          intros W w f. cbn [feed give]. destruct (write_char w f 91) as [f1|f1]; cbn [and_then]; [|reflexivity]. destruct (write_str w f1 out) as [f2|f2]; cbn [and_then]; [|reflexivity].
          destruct (write_char w f2 93); reflexivity. }
        { apply (Fin [PStr out] (Ret out) ltac:(cbn [text flat_map piece_text]; rewrite app_nil_r; reflexivity) (fun W w f => Ret (write_str w f out))). intros W w f. rewrite <- Pr. reflexivity. }
      * apply (Fin [PStr (lit "[^" ++ neg ++ lit "]")] (Ret (lit "[^" ++ neg ++ lit "]")) ltac:(cbn [text flat_map piece_text]; rewrite app_nil_r; reflexivity) (fun W w f => Ret (write_str w f (lit "[^" ++ neg ++ lit "]")))).
        intros W w f. rewrite <- Pr. reflexivity.
    + apply (Bad [] (Panic x) (Panic x) ltac:(discriminate) eq_refl (fun W w f => Panic x)). reflexivity.
    + apply (Bad [] Diverge Diverge ltac:(discriminate) eq_refl (fun W w f => Diverge)). reflexivity.
  - apply (Bad [] (Panic x) (Panic x) ltac:(discriminate) eq_refl (fun W w f => Panic x)). reflexivity.
  - apply (Bad [] Diverge Diverge ltac:(discriminate) eq_refl (fun W w f => Diverge)). reflexivity.
Qed.
(** ** Trees *)
Definition in_memory (out : str) (t : trail N) : outcome (result unit dump_state) :=
  let! l := snd t in Ret (ROk (DumpState (out ++ text (fst t)) l)).
(** The step to memory and the step to a writer follow one trail. *)
Definition follow (l : N) (m : dump_state -> outcome (result unit dump_state)) (g : forall W, writer W -> @dump_to W -> outcome (result W (@dump_to W))) : Prop :=
  exists t : trail N, (forall out, m (DumpState out l) = in_memory out t) /\ forall W (w : writer W) f, g W w (DumpTo f l) = replay DumpTo w f t.
Lemma follow_bind : forall l m g m' g', follow l m g -> (forall l', follow l' m' g') ->
  follow l (fun d => bindr (m d) m') (fun W w d => bindr (g W w d) (g' W w)).
Proof.
  intros l m g m' g' ([ps o] & M & G) H. destruct o as [l'|x|].
  - destruct (H l') as (t2 & M2 & G2). exists (tbind (ps, Ret l') (fun _ => t2)). split.
    + intro out. rewrite M. unfold in_memory, tbind. cbn [fst snd bind bindr]. rewrite M2. unfold in_memory. destruct (snd t2); cbn [bind]; [|reflexivity..]. rewrite text_app, app_assoc. reflexivity.
    + intros W w f. rewrite G. unfold replay, tbind. cbn [fst snd]. rewrite feed_app. destruct (feed w f ps) as [f1|f1]; cbn [and_then bind bindr]; [|reflexivity]. rewrite G2. reflexivity.
  - exists (ps, Panic x). split; [intro out; rewrite M; reflexivity|]. intros W w f. rewrite G. unfold replay. cbn [fst snd]. destruct (feed w f ps); reflexivity.
  - exists (ps, Diverge). split; [intro out; rewrite M; reflexivity|]. intros W w f. rewrite G. unfold replay. cbn [fst snd]. destruct (feed w f ps); reflexivity.
Qed.
Lemma follow_ext : forall l m g m' g', (forall out, m (DumpState out l) = m' (DumpState out l)) -> (forall W (w : writer W) f, g W w (DumpTo f l) = g' W w (DumpTo f l)) -> follow l m g -> follow l m' g'.
Proof. intros l m g m' g' Em Eg (t & M & G). exists t. split; intros; [rewrite <- Em; apply M|rewrite <- Eg; apply G]. Qed.
Lemma follow_outdent : forall p l, follow l (fun d => let! v := outdent p d in Ret (ROk v)) (fun W w d => let! v := outdent_to p d in Ret (ROk v)).
Proof.
  intros p l. exists ([], let! _ := rs_debug_assert p (0 <? l) in chk_sub p (usize_bits p) l 1). unfold in_memory, replay. cbn [fst snd feed text flat_map].
  split; intros; unfold outdent, outdent_to; cbn [ds_level ds_out dt_level dt_out]; rewrite ?app_nil_r;
    (destruct (rs_debug_assert p (0 <? l)); cbn [bind]; [|reflexivity..]); (destruct (chk_sub p (usize_bits p) l 1); reflexivity).
Qed.
Lemma follow_here : forall l, follow l (fun d => Ret (ROk d)) (fun W w d => Ret (ROk d)).
Proof. intro l. exists ([], Ret l). split; intros; [unfold in_memory; cbn [fst snd text flat_map bind]; rewrite app_nil_r|]; reflexivity. Qed.
(** A step that only writes and then goes one level down. *)
Lemma follow_writes : forall l ps m g, (forall out, m (DumpState out l) = Ret (ROk (DumpState (out ++ text ps) (l + 1)))) ->
  (forall W (w : writer W) f, g W w (DumpTo f l) = match feed w f ps with ROk f' => Ret (ROk (DumpTo f' (l + 1))) | RErr f' => Ret (RErr f') end) -> follow l m g.
Proof. intros l ps m g M G. exists (ps, Ret (l + 1)). split; intros; [rewrite M|rewrite G]; reflexivity. Qed.
Lemma follow_pre_class : forall p l k, follow l (fun d => dump_pre_class p d k) (fun W w d => pre_class_to w p d k).
Proof.
  intros p l k. destruct (class_trail p (ac_cr k) 256 Text) as (ps & e & M & G).
  set (fill := repeat 32 (N.to_nat (l * 2)) ++ lit "ASCII CLASS" ++ [10] ++ repeat 32 (N.to_nat (l * 2)) ++ lit "  ").
  assert (Gen : forall W (w : writer W) f, pre_class_to w p (DumpTo f l) k =
    match feed w f (PStr fill :: ps) with ROk f1 => let! _ := e in (let? f3 := Ret (write_char w f1 10) in Ret (ROk (DumpTo f3 (l + 1)))) | RErr f1 => Ret (RErr f1) end).
  { intros W w f. unfold pre_class_to, filler_to. cbn [dt_level dt_out feed give]. fold fill. destruct (write_str w f fill) as [f1|f1]; cbn [bindr bind and_then]; [|reflexivity].
    rewrite G. unfold replay. cbn [fst snd]. destruct (feed w f1 ps) as [f2|f2]; cbn [bindr bind]; [|reflexivity]. destruct e; reflexivity. }
  destruct e as [u|x|].
  - exists (PStr fill :: ps ++ [PChr 10], Ret (l + 1)). split.
    + intro out. unfold dump_pre_class. rewrite M. cbn [bind]. unfold in_memory, indent, ds_write, filler. cbn [ds_out ds_level fst snd bind text flat_map piece_text]. fold fill.
      fold (text (ps ++ [PChr 10])). rewrite text_app, <- !app_assoc. reflexivity.
    + intros W w f. rewrite Gen. unfold replay. cbn [fst snd feed give]. destruct (write_str w f fill) as [f1|f1]; cbn [and_then]; [|reflexivity]. rewrite feed_app. destruct (feed w f1 ps) as [f2|f2]; cbn [and_then bind]; [|reflexivity].
      cbn [feed give]. destruct (write_char w f2 10); reflexivity.
  - exists (PStr fill :: ps, Panic x). split; [intro out; unfold dump_pre_class; rewrite M; reflexivity|]. intros W w f. rewrite Gen. reflexivity.
  - exists (PStr fill :: ps, Diverge). split; [intro out; unfold dump_pre_class; rewrite M; reflexivity|]. intros W w f. rewrite Gen. reflexivity.
Qed.
Lemma follow_pre_alternation : forall l bs, follow l (fun d => dump_pre_alternation d bs) (fun W w d => pre_alternation_to w d bs).
Proof.
  intros l bs. apply (follow_writes l [PStr (repeat 32 (N.to_nat (l * 2)) ++ lit "ALTERNATION" ++ [10])]).
  - intro out. cbn [text flat_map piece_text]. rewrite app_nil_r. reflexivity.
  - intros W w f. unfold pre_alternation_to, filler_to. cbn [dt_level dt_out feed give]. destruct (write_str w f _); reflexivity.
Qed.
Lemma follow_pre_sequence : forall l s, follow l (fun d => dump_pre_sequence d s) (fun W w d => pre_sequence_to w d s).
Proof.
  intros l s.
  set (p1 := PStr (repeat 32 (N.to_nat (l * 2)) ++ lit "SEQUENCE")).
  set (p2 := PStr (match sq_capture_index s with Some i => lit " (capture index " ++ show i ++ lit ")" | None => lit " (not captured)" end)).
  set (p3 := match sq_capture_name s with Some n => PStr (lit " (capture name '" ++ n ++ lit "')" ++ [10]) | None => PChr 10 end).
  set (p4 := match sq_children s with [] => [PStr (repeat 32 (N.to_nat ((l + 1) * 2)) ++ lit " <empty>" ++ [10])] | _ :: _ => [] end).
  apply (follow_writes l (p1 :: p2 :: p3 :: p4)).
  - intro out. unfold dump_pre_sequence, indent, ds_write, filler. cbn [ds_out ds_level]. unfold text. cbn [flat_map]. subst p1 p2 p3 p4. cbn [piece_text].
    destruct (sq_capture_name s) as [n|], (sq_children s) as [|c t]; cbn [piece_text flat_map]; rewrite ?app_nil_r; do 3 f_equal; rewrite <- ?app_assoc; reflexivity.
  - intros W w f. unfold pre_sequence_to, filler_to. cbn [dt_level dt_out feed]. subst p1 p2. cbn [give].
    destruct (write_str w f _) as [f1|f1]; cbn [bindr and_then]; [|reflexivity].
    destruct (sq_capture_index s) as [i|];
      (destruct (write_str w f1 _) as [f2|f2]; cbn [bindr and_then]; [|reflexivity]);
      subst p3; (destruct (sq_capture_name s) as [n|]; cbn [give]; [destruct (write_str w f2 _) as [f3|f3]|destruct (write_char w f2 10) as [f3|f3]]; cbn [bindr and_then]; try reflexivity);
      subst p4; destruct (sq_children s) as [|c t]; cbn [feed give]; try reflexivity; destruct (write_str w f3 _); reflexivity.
Qed.
Lemma follow_list : forall {A} (m1 : dump_state -> A -> outcome (result unit dump_state)) (g1 : forall W, writer W -> @dump_to W -> A -> outcome (result W (@dump_to W))) xs,
  Forall (fun x => forall l, follow l (fun d => m1 d x) (fun W w d => g1 W w d x)) xs ->
  forall l, follow l (fun d => walk_list m1 (fun v => v) d xs) (fun W w d => walk_list (g1 W w) (fun v => v) d xs).
Proof.
  intros A m1 g1 xs F. induction F as [|x xs H F IH]; intro l; cbn [walk_list]; [apply follow_here|].
  eapply follow_ext; [| |apply (follow_bind l _ _ _ _ (H l) IH)]; intros; cbv beta; [destruct (m1 _ x) as [[v|e]|y|]|destruct (g1 W w _ x) as [[v|e]|y|]]; cbn [bindr]; try reflexivity; destruct xs; reflexivity.
Qed.
Lemma follow_walk : forall p c l, follow l (fun d => walk_component p (dump_visitor p) d c) (fun W w d => walk_component p (dump_visitor_to w p) d c).
Proof.
  intro p. apply (component_ind' (fun c => forall l, follow l (fun d => walk_component p (dump_visitor p) d c) (fun W w d => walk_component p (dump_visitor_to w p) d c))
    (fun s => forall l, follow l (fun d => walk_seqn p (dump_visitor p) d s) (fun W w d => walk_seqn p (dump_visitor_to w p) d s))).
  - intros bs H l. cbn [walk_component].
    apply (follow_bind l _ _ _ _ (follow_pre_alternation l bs)). intro l1.
    apply (follow_bind l1 _ _ _ _ (follow_list (walk_seqn p (dump_visitor p)) (fun W w => walk_seqn p (dump_visitor_to w p)) bs H l1)). intro l2. apply follow_outdent.
  - intros k l. cbn [walk_component]. unfold walk_class.
    apply (follow_bind l _ _ _ _ (follow_pre_class p l k)). intro l1. apply follow_outdent.
  - intros s H l. cbn [walk_component]. apply H.
  - intros ch alt ci cn H l. cbn [walk_seqn].
    apply (follow_ext l (fun d => bindr (let! _ := rs_debug_assert p (match alt with None => true | Some _ => false end) in Ret (ROk d)) (fun d => bindr (dump_pre_sequence d (Seqn ch alt ci cn)) (fun v1 => bindr (walk_list (fun v c => walk_component p (dump_visitor p) v c) (fun v => v) v1 ch) (fun v2 => let! v := outdent p v2 in Ret (ROk v)))))
      (fun W w d => bindr (let! _ := rs_debug_assert p (match alt with None => true | Some _ => false end) in Ret (ROk d)) (fun d => bindr (pre_sequence_to w d (Seqn ch alt ci cn)) (fun v1 => bindr (walk_list (fun v c => walk_component p (dump_visitor_to w p) v c) (fun v => v) v1 ch) (fun v2 => let! v := outdent_to p v2 in Ret (ROk v)))))).
    + intro out. destruct (rs_debug_assert p (match alt with None => true | Some _ => false end)); reflexivity.
    + intros W w f. destruct (rs_debug_assert p (match alt with None => true | Some _ => false end)); reflexivity.
    + apply follow_bind.
      * exists ([], let! _ := rs_debug_assert p (match alt with None => true | Some _ => false end) in Ret l). unfold in_memory, replay. cbn [fst snd feed text flat_map].
        split; intros; rewrite ?app_nil_r; destruct (rs_debug_assert p (match alt with None => true | Some _ => false end)); reflexivity.
      * intro l0. apply (follow_bind l0 _ _ _ _ (follow_pre_sequence l0 _)). intro l1.
        apply (follow_bind l1 _ _ _ _ (follow_list (walk_component p (dump_visitor p)) (fun W w => walk_component p (dump_visitor_to w p)) ch H l1)). intro l2. apply follow_outdent.
Qed.

(** ** The theorems *)
Lemma feed_takes : forall {W} (w : writer W) ps f f', takes_all w f ps f' -> feed w f ps = ROk f'.
Proof.
  intros W w ps f f' H. induction H as [|f q f1 ps f2 T _ IH]; [reflexivity|]. cbn [feed].
  assert (E : give w f q = ROk f1) by (destruct T as [t f1 T|c f1 T]; cbn [give]; unfold write_str, write_char; rewrite T; reflexivity). rewrite E. exact IH.
Qed.
Lemma feed_stops : forall {W} (w : writer W) ps f f', stops w f ps f' -> feed w f ps = RErr f'.
Proof.
  intros W w ps f f' (b & q & a & f1 & -> & T & R). rewrite feed_app, (feed_takes _ _ _ _ T). cbn [and_then feed].
  assert (E : give w f1 q = RErr f') by (destruct R as [t f2 R|c f2 R]; cbn [give]; unfold write_str, write_char; rewrite R; reflexivity). rewrite E. reflexivity.
Qed.
Lemma replay_pieces : forall ps e (run : forall W, writer W -> W -> outcome (result W W)), (forall W (w : writer W) f, run W w f = replay (fun f (_ : unit) => f) w f (ps, e)) -> in_pieces run ps e.
Proof.
  intros ps e run H W w f. split; [|split].
  - intros f' T. rewrite H. unfold replay. cbn [fst snd]. rewrite (feed_takes _ _ _ _ T). reflexivity.
  - intros f' T. rewrite H. unfold replay. cbn [fst snd]. rewrite (feed_stops _ _ _ _ T). reflexivity.
  - destruct (feed_cases w ps f) as [(f' & _ & T)|(f' & _ & T)]; exists f'; auto.
Qed.
(** The dump of a class: the text is cut into pieces that do not depend on the writer. *)
Theorem C80_class : forall p k max o, exists ps e,
  describe_class p k max o = (let! _ := e in Ret (text ps)) /\ in_pieces (fun W w f => describe_class_to w p f k max o) ps e.
Proof. intros p k max o. destruct (class_trail p k max o) as (ps & e & M & G). exists ps, e. split; [exact M|]. apply replay_pieces. exact G. Qed.
(** The dump of a tree. *)
Theorem C80_dump : forall p root, exists ps e,
  dump_tree p root = (let! _ := e in Ret (ROk (text ps))) /\ in_pieces (fun W w f => dump_tree_to w p f root) ps e.
Proof.
  intros p root. destruct (follow_walk p root 0) as ([ps o] & M & G). exists ps, (let! _ := o in Ret tt). split.
  - unfold dump_tree. rewrite M. unfold in_memory. cbn [fst snd]. destruct o; reflexivity.
  - apply replay_pieces. intros W w f. unfold dump_tree_to. rewrite G. unfold replay. cbn [fst snd]. destruct (feed w f ps); [|reflexivity]. destruct o; reflexivity.
Qed.
(** A [String] takes everything. *)
Theorem C80_string : forall p out,
  (forall root, dump_tree_to string_writer p out root = (let! r := dump_tree p root in match r with ROk t => Ret (ROk (out ++ t)) | RErr _ => Ret (RErr out) end)) /\
  (forall k max o, describe_class_to string_writer p out k max o = (let! t := describe_class p k max o in Ret (ROk (out ++ t)))).
Proof.
  intros p out.
  assert (T : forall ps out, takes_all string_writer out ps (out ++ text ps)).
  { induction ps as [|q ps IH]; intro o1; [cbn; rewrite app_nil_r; constructor|]. econstructor; [|unfold text; cbn [flat_map]; rewrite app_assoc; apply IH]. destruct q; constructor; reflexivity. }
  split.
  - intro root. destruct (C80_dump p root) as (ps & e & M & H). destruct (H _ string_writer out) as (A & _). rewrite (A _ (T ps out)), M. destruct e; reflexivity.
  - intros k max o. destruct (C80_class p k max o) as (ps & e & M & H). destruct (H _ string_writer out) as (A & _). rewrite (A _ (T ps out)), M. destruct e; reflexivity.
Qed.
(** A writer that keeps a text: what it has at the end is a beginning of the dump, and
    all of it exactly when no error came back. *)
Lemma kept_takes : forall {W} (w : writer W) kept ps f f', keeps_text w kept -> takes_all w f ps f' -> kept f' = kept f ++ text ps.
Proof.
  intros W w kept ps f f' (K & _) H. induction H as [f|f q f1 ps f2 T _ IH]; [cbn; rewrite app_nil_r; reflexivity|].
  rewrite IH, (K _ _ _ T). unfold text. cbn [flat_map]. rewrite app_assoc. reflexivity.
Qed.
Theorem C80_prefix : forall p root t, dump_tree p root = Ret (ROk t) -> forall W (w : writer W) kept f, keeps_text w kept ->
  (exists f', dump_tree_to w p f root = Ret (ROk f') /\ kept f' = kept f ++ t) \/
  (exists f' a b, dump_tree_to w p f root = Ret (RErr f') /\ t = a ++ b /\ kept f' = kept f ++ a).
Proof.
  intros p root t Ht W w kept f K. destruct (C80_dump p root) as (ps & e & M & H). rewrite Ht in M.
  destruct e as [u|x|]; cbn [bind] in M; [|discriminate M..]. injection M as ->. destruct (H W w f) as (A & B & (f' & [T|S0])).
  - left. exists f'. split; [apply (A _ T)|]. apply (kept_takes w kept ps f f' K T).
  - right. pose proof (B _ S0) as E. destruct S0 as (b & q & a & f1 & -> & T & R). destruct K as (K1 & K2). destruct (K2 _ _ _ R) as (x & y & Eq & Ek).
    exists f', (text b ++ x), (y ++ text a). split; [exact E|]. split.
    + rewrite text_app. unfold text at 2. cbn [flat_map]. rewrite Eq. fold (text a). rewrite <- !app_assoc. reflexivity.
    + rewrite Ek, (kept_takes w kept b f f1 (conj K1 K2) T), <- app_assoc. reflexivity.
Qed.
(** A buffer with room for so many bytes gets all of the dump, or an error. *)
Theorem C80_room : forall p root t room, dump_tree p root = Ret (ROk t) ->
  if str_len t <=? room then dump_tree_to (bounded room) p [] root = Ret (ROk t) else exists f, dump_tree_to (bounded room) p [] root = Ret (RErr f).
Proof.
  intros p root t room Ht.
  assert (Put : forall f q f', takes (bounded room) f q f' -> f' = f ++ piece_text q /\ str_len f' <= room).
  { intros f q f' [u g E|u g E]; cbn [bounded w_str w_char] in E; cbv zeta in E; (match type of E with context [?x <=? ?y] => destruct (N.leb_spec x y) end); try discriminate E; injection E as <-; split; (reflexivity || assumption). }
  assert (Non : forall f q f', refuses (bounded room) f q f' -> f' = f /\ room < str_len (f ++ piece_text q)).
  { intros f q f' [u g E|u g E]; cbn [bounded w_str w_char] in E; cbv zeta in E; (match type of E with context [?x <=? ?y] => destruct (N.leb_spec x y) end); try discriminate E; injection E as <-; split; (reflexivity || assumption). }
  assert (K : keeps_text (bounded room) (fun f => f)).
  { split; [intros f q f' T; apply (Put _ _ _ T)|]. intros f q f' R. exists [], (piece_text q). split; [reflexivity|]. rewrite app_nil_r. apply (Non _ _ _ R). }
  destruct (C80_dump p root) as (ps & e & M & H). rewrite Ht in M. destruct e as [u|x|]; cbn [bind] in M; [|discriminate M..]. injection M as ->.
  destruct (H _ (bounded room) []) as (A & B & (f' & [T|S0])).
  - pose proof (kept_takes _ _ _ _ _ K T) as E. cbn [app] in E. subst f'. pose proof (A _ T) as E. cbn [bind] in E.
    assert (L : ps = [] \/ str_len (text ps) <= room).
    { clear -Put T. revert T. generalize (@nil N) at 1. generalize (text ps). intros f f0 T. induction T as [f|f q f1 ps f2 T1 T2 IH]; [auto|]. right. destruct IH as [->|IH]; [|exact IH]. inversion T2; subst. apply (Put _ _ _ T1). }
    destruct (N.leb_spec (str_len (text ps)) room) as [_|G]; [exact E|]. destruct L as [->|L]; [|lia]. cbn in G. lia.
  - pose proof (B _ S0) as E. destruct S0 as (b & q & a & f1 & -> & T & R). destruct (Non _ _ _ R) as (-> & G). pose proof (kept_takes _ _ _ _ _ K T) as Ek. cbn [app] in Ek. subst f1.
    rewrite text_app. unfold text at 2. cbn [flat_map]. rewrite app_assoc, str_len_app. destruct (N.leb_spec (str_len (text b ++ piece_text q) + str_len (flat_map piece_text a)) room) as [F|_]; [lia|]. exists (text b). exact E.
Qed.

(** A tree with a class, an alternation and a named group: the whole dump, a buffer
    that is just large enough, and one that lacks a byte. *)
Definition case_tree : component :=
  CSequence (Seqn [CAlternation [Seqn [CClass (AsciiClass mode_default cr_default)] None (Some 1) (Some (lit "n")); Seqn [] None None None]] None (Some 0) None).
Example C80_case : (exists t, dump_tree dev case_tree = Ret (ROk t) /\ str_len t = 168 /\ dump_tree_to (bounded 168) dev [] case_tree = Ret (ROk t)) /\
  (exists f, dump_tree_to (bounded 167) dev [] case_tree = Ret (RErr f)) /\
  dump_tree_to (bounded 40) dev [] case_tree = Ret (RErr (lit "SEQUENCE (capture index 0)" ++ [10])) /\
  dump_tree_to (bounded 41) dev [] case_tree = Ret (RErr (lit "SEQUENCE (capture index 0)" ++ [10] ++ lit "  ALTERNATION" ++ [10])) /\
  describe_class_to (bounded 2) dev [] (BF 0 2 0 0) 256 Text = Ret (ROk (lit "A")) /\ describe_class_to (bounded 2) dev [] (cr_not (BF 0 2 0 0)) 256 Text = Ret (RErr (lit "[^")).
Proof.
  split; [eexists; split; [vm_compute; reflexivity|split; vm_compute; reflexivity]|]. split; [eexists; vm_compute; reflexivity|]. vm_compute. repeat split; reflexivity.
Qed.
Print Assumptions C80_class.
Print Assumptions C80_dump.
Print Assumptions C80_string.
Print Assumptions C80_prefix.
Print Assumptions C80_room.
