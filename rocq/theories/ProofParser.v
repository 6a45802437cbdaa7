(** Lemmas about the parser: what it does on the text of a derivation. *)
From Verif Require Import Base ModelUtil ModelBitField ModelCharReach ModelParser SpecSet SpecGrammar
  ProofBase ProofBitField ProofCharReach ProofGrammar.
Local Open Scope N_scope.
Local Open Scope list_scope.

(** ** Strings *)
Lemma str_eqb_eq : forall a b, str_eqb a b = true <-> a = b.
Proof.
  induction a as [|x a IH]; intros [|y b]; simpl; try (split; [discriminate|intro; discriminate]); [tauto|].
  rewrite andb_true_iff, IH, N.eqb_eq. split; [intros [-> ->]; reflexivity|intro E; injection E; auto].
Qed.
Lemma char_len_pos : forall c, 1 <= char_len c.
Proof. intro c. unfold char_len. ifs; lia. Qed.
Lemma str_len_app : forall a b, str_len (a ++ b) = str_len a + str_len b.
Proof. induction a as [|c a IH]; intro b; cbn [app str_len]; [lia|]. rewrite IH. lia. Qed.
Lemma str_len_ascii : forall s, ascii_text s -> str_len s = N.of_nat (List.length s).
Proof.
  induction s as [|c s IH]; intro H; [reflexivity|]. cbn [str_len List.length]. rewrite IH.
  - unfold char_len. replace (c <? 128) with true; [lia|]. specialize (H c (or_introl eq_refl)). lia.
  - intros x I. apply H. right. exact I.
Qed.
Lemma str_len_zero : forall s, str_len s = 0 -> s = [].
Proof. intros [|c s] H; [reflexivity|]. cbn [str_len] in H. pose proof (char_len_pos c). lia. Qed.

Lemma ascii_app : forall a b, ascii_text (a ++ b) <-> ascii_text a /\ ascii_text b.
Proof.
  intros a b. unfold ascii_text. split.
  - intro H. split; intros c I; apply H, in_or_app; auto.
  - intros [Ha Hb] c I. apply in_app_or in I. destruct I; auto.
Qed.
Lemma ascii_cons : forall c b, ascii_text (c :: b) <-> c < 128 /\ ascii_text b.
Proof.
  intros c b. unfold ascii_text. split.
  - intro H. split; [apply H; left; reflexivity|]. intros x I; apply H; right; exact I.
  - intros [Ha Hb] x [<-|I]; auto.
Qed.

(** ** Classes of literal characters *)
Lemma literal_class_ok : forall p c nc, c < 128 -> get_literal_component_class p c nc = Ret (ROk (class_of nc c)).
Proof.
  intros p c nc Hc. unfold get_literal_component_class, class_add, get_component_class, ac_new, ac_add.
  replace (255 <? c) with false by lia. replace (cast 8 c) with c by (unfold cast; change (2 ^ 8) with 256; lia).
  cbn [ac_mode ac_cr caseless].
  destruct (cr_from_char_ok p c) as (b & E & W & M); [unfold byte; lia|]. rewrite E. cbn [bind].
  assert (X : exists b', (if nc then make_caseless p b else Ret b) = Ret b' /\ wf b' /\ forall x, byte x -> mem b' x = char_matches nc c x).
  { destruct nc.
    - destruct (make_caseless_ok p b W) as (b' & E' & W' & M'). exists b'. split; [exact E'|]. split; [exact W'|].
      intros x Hx. rewrite M' by exact Hx. unfold caseless_mem, char_matches. rewrite M by exact Hx.
      assert (Ho : byte (other_case x)) by (unfold byte, other_case in *; ifs; lia).
      rewrite M by exact Ho. unfold other_case in *. ifs; lia.
    - exists b. split; [reflexivity|]. split; [exact W|]. intros x Hx. rewrite M by exact Hx. unfold char_matches. cbn. rewrite orb_false_r. reflexivity. }
  destruct X as (b' & -> & W' & M'). cbn [bind]. unfold class_of. do 3 f_equal.
  destruct (bf_or_ok cr_default b' wf_default W') as [W2 M2]. unfold cr_or_assign. apply field_of_unique; [exact W2|].
  intros x Hx. rewrite M2 by exact Hx. rewrite M' by exact Hx. unfold cr_default. rewrite mem_default. reflexivity.
Qed.

(** ** The loop, one unit of fuel per character *)
Definition run (p : profile) (cx : context) : outcome (result compile_error context) :=
  cx_loop p (List.length (cx_p cx)) cx.
Lemma run_nil : forall p ptr m K n cur, run p (Context ptr [] m K n cur) = Ret (ROk (Context ptr [] m K n cur)).
Proof. reflexivity. Qed.
Lemma run_open : forall p ptr s m K n cur,
  run p (Context ptr (40 :: s) m K n cur) =
  let! gi := chk_add p 32 n 1 in
  let! off := chk_sub p (usize_bits p) (str_len (40 :: s)) (str_len ptr) in
  run p (Context ptr s m (ExprState cur off m :: K) gi (Seqn [] None (Some n) None)).
Proof.
  intros. unfold run. cbn [cx_p List.length cx_loop]. unfold cx_main. cbn [nom_char]. change (40 =? 40) with true. cbv iota.
  unfold enter_capturing_group, push_sequence. cbn [cx_group_index cx_ptr cx_p cx_mode cx_current cx_sequences].
  destruct (chk_add p 32 n 1) as [gi|w|]; cbn [bind bindr]; [|reflexivity|reflexivity].
  destruct (chk_sub p (usize_bits p) (str_len (40 :: s)) (str_len ptr)) as [off|w|]; cbn [bind bindr]; reflexivity.
Qed.
Lemma run_close : forall p ptr s m K n cur,
  run p (Context ptr (41 :: s) m K n cur) =
  match K with
  | [] => Ret (RErr (error_new ELocatedParse (lit "Unmatched parentheses")))
  | v :: rest => let! seq := finalize p cur in
    run p (Context ptr s (es_mode v) rest n (add_component (es_seq v) (CSequence seq)))
  end.
Proof.
  intros. unfold run. cbn [cx_p List.length cx_loop]. unfold cx_main. cbn [nom_char]. change (41 =? 40) with false. change (41 =? 41) with true. cbv iota.
  unfold exit_group, pop_sequence. cbn [cx_group_index cx_ptr cx_p cx_mode cx_current cx_sequences].
  destruct K as [|v rest]; [reflexivity|]. destruct (finalize p cur); cbn [bind bindr]; reflexivity.
Qed.
Lemma run_bar : forall p ptr s m K n cur,
  run p (Context ptr (124 :: s) m K n cur) = run p (Context ptr s m K n (add_alternation cur)).
Proof. reflexivity. Qed.
Lemma run_char : forall p ptr c s m K n cur, plain c -> c < 128 ->
  run p (Context ptr (c :: s) m K n cur) = run p (Context ptr s m K n (add_component cur (CClass (class_of (caseless m) c)))).
Proof.
  intros p ptr c s m K n cur (N0 & N1 & N2) Hc. unfold run. cbn [cx_p List.length cx_loop]. unfold cx_main. cbn [nom_char].
  replace (c =? 40) with false by lia. replace (c =? 41) with false by lia. replace (c =? 124) with false by lia.
  cbn [take_any]. unfold is_ascii_char. replace (c <? 128) with true by lia. cbn [rs_assert bind].
  unfold add_literal. cbn [cx_current cx_mode]. rewrite literal_class_ok by exact Hc. reflexivity.
Qed.
Lemma run_nonascii : forall p ptr c s m K n cur, 128 <= c -> run p (Context ptr (c :: s) m K n cur) = Panic PAssert.
Proof.
  intros p ptr c s m K n cur Hc. unfold run. cbn [cx_p List.length cx_loop]. unfold cx_main. cbn [nom_char].
  replace (c =? 40) with false by lia. replace (c =? 41) with false by lia. replace (c =? 124) with false by lia.
  cbn [take_any]. unfold is_ascii_char. replace (c <? 128) with false by lia. reflexivity.
Qed.

(** ** Derivations *)

(** With overflow checks, every group of [t] (followed by [rest]) can be opened
    starting from counter [n]. *)
Definition fits (p : profile) (ptr : str) (n : N) (t rest : str) : Prop :=
  overflow_checks p = true ->
  n + N.of_nat (opens t) < 2 ^ 32 /\
  forall x y, t = x ++ 40 :: y -> str_len ptr <= str_len (40 :: y ++ rest).
Lemma fits_app_l : forall p ptr n t u rest, fits p ptr n (t ++ u) rest -> fits p ptr n t (u ++ rest).
Proof.
  intros p ptr n t u rest H C. destruct (H C) as [H1 H2]. split.
  - rewrite opens_app in H1. lia.
  - intros x y E. specialize (H2 x (y ++ u)). rewrite E, <- !app_assoc in H2. apply H2. reflexivity.
Qed.
Lemma fits_app_r : forall p ptr n n' t u rest, fits p ptr n (t ++ u) rest -> n' <= n + N.of_nat (opens t) -> fits p ptr n' u rest.
Proof.
  intros p ptr n n' t u rest H L C. destruct (H C) as [H1 H2]. split.
  - rewrite opens_app in H1. lia.
  - intros x y E. apply (H2 (t ++ x) y). rewrite E, app_assoc. reflexivity.
Qed.
Lemma next_index_le : forall n, next_index n <= n + 1.
Proof. intro n. unfold next_index. apply N.mod_le. discriminate. Qed.
(** [ts.len() - ptr.len()] without overflow checks *)
Definition sub_wrapped (p : profile) (a b : N) : N := if b <=? a then a - b else (2 ^ usize_bits p + a - b) mod 2 ^ usize_bits p.
Lemma run_open_fits : forall p ptr m K n cur u rest, fits p ptr n (40 :: u) rest ->
  run p (Context ptr (40 :: u ++ rest) m K n cur) =
  run p (Context ptr (u ++ rest) m (ExprState cur (sub_wrapped p (str_len (40 :: u ++ rest)) (str_len ptr)) m :: K) (next_index n) (Seqn [] None (Some n) None)).
Proof.
  intros p ptr m K n cur u rest F. rewrite run_open.
  assert (E1 : chk_add p 32 n 1 = Ret (next_index n)).
  { unfold chk_add, next_index. destruct (n + 1 <? 2 ^ 32) eqn:B.
    - rewrite N.mod_small by lia. reflexivity.
    - destruct (overflow_checks p) eqn:C; [|reflexivity]. destruct (F C) as [H1 _]. cnt. }
  rewrite E1. cbn [bind].
  assert (E2 : chk_sub p (usize_bits p) (str_len (40 :: u ++ rest)) (str_len ptr) = Ret (sub_wrapped p (str_len (40 :: u ++ rest)) (str_len ptr))).
  { unfold chk_sub, sub_wrapped. destruct (str_len ptr <=? str_len (40 :: u ++ rest)) eqn:B; [reflexivity|].
    destruct (overflow_checks p) eqn:C; [|reflexivity]. destruct (F C) as [_ H2]. specialize (H2 [] u eq_refl). lia. }
  rewrite E2. reflexivity.
Qed.

Definition children_added (cur : seqn) (l : list component) : seqn :=
  let (ch, alt, ci, cn) := cur in Seqn (ch ++ l) alt ci cn.
(** The sequence under construction after the branches [done] and the children
    [last] of the current branch. *)
Definition open_seq (ci : option N) (done : list (list component)) (last : list component) : seqn :=
  Seqn last (match done with [] => None | _ => Some (map branch done) end) ci None.
Definition atom_runs (p : profile) (a : atom) : Prop :=
  forall ptr rest m K n cur, ascii_text (text_atom a) -> fits p ptr n (text_atom a) rest ->
  forall c n', tree_atom (caseless m) n a = (c, n') ->
  run p (Context ptr (text_atom a ++ rest) m K n cur) = run p (Context ptr rest m K n' (add_component cur c))
  /\ n' <= n + N.of_nat (opens (text_atom a)).
Lemma run_seq : forall p b, Forall (atom_runs p) b ->
  forall ptr rest m K n cur, ascii_text (text_seq b) -> fits p ptr n (text_seq b) rest ->
  forall l n', tree_seq (caseless m) n b = (l, n') ->
  run p (Context ptr (text_seq b ++ rest) m K n cur) = run p (Context ptr rest m K n' (children_added cur l))
  /\ n' <= n + N.of_nat (opens (text_seq b)).
Proof.
  intros p b H; induction H as [|a b Ha Hb IH]; intros ptr rest m K n cur A F l n' E.
  - cbn in E. injection E as <- <-. split; [|cnt]. destruct cur as [ch alt ci cn]. cbn. rewrite app_nil_r. reflexivity.
  - rewrite text_seq_cons in *. apply ascii_app in A. destruct A as [A1 A2].
    unfold tree_seq in E. cbn [mapacc] in E. destruct (tree_atom (caseless m) n a) as [c n1] eqn:Ea.
    destruct (mapacc (tree_atom (caseless m)) n1 b) as [l' n2] eqn:El. injection E as <- <-.
    destruct (Ha ptr (text_seq b ++ rest) m K n cur A1 (fits_app_l _ _ _ _ _ _ F) _ _ Ea) as [R1 L1].
    assert (F2 : fits p ptr n1 (text_seq b) rest) by (eapply fits_app_r; [exact F|exact L1]).
    destruct (IH ptr rest m K n1 (add_component cur c) A2 F2 _ _ El) as [R2 L2]. split.
    + rewrite <- app_assoc, R1, R2. destruct cur as [ch alt ci cn]. cbn. rewrite <- app_assoc. reflexivity.
    + cnt.
Qed.
Lemma run_branches : forall p e, Forall (Forall (atom_runs p)) e -> e <> [] ->
  forall ptr rest m K n ci done, ascii_text (text e) -> fits p ptr n (text e) rest ->
  forall l n', tree_branches (caseless m) n e = (l, n') ->
  run p (Context ptr (text e ++ rest) m K n (open_seq ci done [])) =
  run p (Context ptr rest m K n' (open_seq ci (done ++ removelast l) (List.last l [])))
  /\ n' <= n + N.of_nat (opens (text e)).
Proof.
  intros p e H; induction H as [|b e Hb He IH]; intros Ne ptr rest m K n ci done A F l n' E; [contradiction|].
  unfold tree_branches in E. cbn [mapacc] in E. destruct (tree_seq (caseless m) n b) as [t n1] eqn:Eb.
  destruct (mapacc (tree_seq (caseless m)) n1 e) as [ts n2] eqn:Ee. injection E as <- <-.
  destruct e as [|b' e].
  - cbn in Ee. injection Ee as <- <-. rewrite text_one in *.
    destruct (run_seq p b Hb ptr rest m K n (open_seq ci done []) A F _ _ Eb) as [R L]. split; [|exact L].
    rewrite R. cbn. rewrite app_nil_r. reflexivity.
  - rewrite text_cons in *. apply ascii_app in A. destruct A as [A1 A2]. apply ascii_cons in A2. destruct A2 as [_ A2].
    destruct (run_seq p b Hb ptr ((124 :: text (b' :: e)) ++ rest) m K n (open_seq ci done []) A1 (fits_app_l _ _ _ _ _ _ F) _ _ Eb) as [R L].
    assert (F2 : fits p ptr n1 (text (b' :: e)) rest).
    { change (text_seq b ++ 124 :: text (b' :: e)) with (text_seq b ++ [124] ++ text (b' :: e)) in F. rewrite app_assoc in F.
      eapply fits_app_r; [exact F|]. rewrite opens_app. change (opens [124]) with 0%nat. lia. }
    destruct (IH ltac:(discriminate) ptr rest m K n1 ci (done ++ [t]) A2 F2 _ _ Ee) as [R2 L2]. split.
    + rewrite <- app_assoc, R. cbn [app]. rewrite run_bar.
      replace (add_alternation (children_added (open_seq ci done []) t)) with (open_seq ci (done ++ [t]) []).
      * rewrite R2. do 2 f_equal. destruct ts as [|t2 ts]; [cbn in Ee; destruct (tree_seq (caseless m) n1 b'); destruct (mapacc (tree_seq (caseless m)) n0 e); discriminate|].
        rewrite <- app_assoc. reflexivity.
      * unfold open_seq, add_alternation, children_added, alt_append, branch. cbn [app].
        destruct done as [|d done]; [reflexivity|]. cbn [app map]. rewrite map_app. reflexivity.
    + rewrite opens_app, opens_cons. change (124 =? 40) with false. cnt.
Qed.
Lemma mapacc_length : forall {A B} (f : N -> A -> B * N) l n, List.length (fst (mapacc f n l)) = List.length l.
Proof.
  intros A B f l; induction l as [|x l IH]; intro n; [reflexivity|]. cbn [mapacc]. destruct (f n x) as [y n1].
  specialize (IH n1). destruct (mapacc f n1 l) as [ys n2]. cbn [fst List.length] in *. f_equal. exact IH.
Qed.
Lemma finalize_open : forall p ci l, l <> [] -> finalize p (open_seq ci (removelast l) (List.last l [])) = Ret (seq_of ci l).
Proof.
  intros p ci l Ne. pose proof (app_removelast_last [] Ne) as E. unfold finalize, open_seq, seq_of. cbn [sq_alternation].
  destruct (removelast l) as [|d done] eqn:R.
  - rewrite E. cbn. reflexivity.
  - cbn [add_alternation sq_children rs_debug_assert]. unfold rs_debug_assert. rewrite andb_false_r. cbn [bind sq_alternation expect sq_capture_index sq_capture_name sq_children app].
    destruct l as [|a [|b l]]; [contradiction|discriminate|]. unfold alt_append. do 4 f_equal.
    transitivity (map branch ((d :: done) ++ [List.last (a :: b :: l) []])); [rewrite map_app; reflexivity|]. rewrite <- E. reflexivity.
Qed.
Lemma atoms_run : forall p a, wf_atom a -> atom_runs p a.
Proof.
  intros p. induction a as [c|bs IH] using atom_ind'; intro W; inversion W as [? Pl|? Ne Wb]; subst; intros ptr rest m K n cur A F k n' E.
  - cbn in E. injection E as <- <-. split.
    + cbn [text_atom app]. apply run_char; [exact Pl|]. apply A. left. reflexivity.
    + lia.
  - rewrite text_grp in *. cbn [tree_atom] in E. fold (tree_seq (caseless m)) in E. fold (tree_branches (caseless m)) in E.
    change (mapacc (fun i b => mapacc (fun j a => tree_atom (caseless m) j a) i b) (next_index n) bs) with (tree_branches (caseless m) (next_index n) bs) in E.
    destruct (tree_branches (caseless m) (next_index n) bs) as [l n1] eqn:El. injection E as <- <-.
    apply ascii_cons in A. destruct A as [_ A]. apply ascii_app in A. destruct A as [A _].
    change (40 :: text bs ++ [41]) with ([40] ++ text bs ++ [41]) in F. rewrite app_assoc in F.
    pose proof (fits_app_l _ _ _ _ _ _ F) as F1. cbn [app] in F1.
    assert (F2 : fits p ptr (next_index n) (text bs) (41 :: rest)).
    { eapply fits_app_r with (t := [40]); [exact F1|]. rewrite opens_open. apply next_index_le. }
    assert (Hb : Forall (Forall (atom_runs p)) bs).
    { rewrite Forall_forall in IH. apply Forall_forall. intros b Ib. specialize (IH b Ib). rewrite Forall_forall in *.
      intros a Ia. apply IH; [exact Ia|]. eapply Wb; eassumption. }
    cbn [app]. rewrite <- app_assoc. cbn [app]. rewrite (run_open_fits _ _ _ _ _ _ _ _ F1).
    destruct (run_branches p bs Hb Ne ptr (41 :: rest) m (ExprState cur (sub_wrapped p (str_len (40 :: text bs ++ 41 :: rest)) (str_len ptr)) m :: K)
                (next_index n) (Some n) [] A F2 _ _ El) as [R L].
    split.
    + change (Seqn [] None (Some n) None) with (open_seq (Some n) [] []). rewrite R. cbn [app]. rewrite run_close.
      rewrite finalize_open; [reflexivity|]. intro Z. pose proof (mapacc_length (tree_seq (caseless m)) bs (next_index n)) as Le.
      unfold tree_branches in El. rewrite El, Z in Le. destruct bs; [contradiction|discriminate].
    + rewrite opens_cons, opens_app. change (opens [41]) with 0%nat. pose proof (next_index_le n). cnt.
Qed.
Lemma expr_runs : forall p e, wf_expr e -> Forall (Forall (atom_runs p)) e.
Proof.
  intros p e [_ W]. apply Forall_forall. intros b Ib. apply wf_seq_forall; [apply atoms_run|]. intros a Ia. eapply W; eassumption.
Qed.
Lemma tree_branches_nonempty : forall nc n e l n', e <> [] -> tree_branches nc n e = (l, n') -> l <> [].
Proof.
  intros nc n e l n' Ne E Z. pose proof (mapacc_length (tree_seq nc) e n) as Le. unfold tree_branches in E. rewrite E, Z in Le.
  destruct e; [contradiction|discriminate].
Qed.
(** Running a chain of open groups from the initial context. *)
Definition root_seq : seqn := Seqn [] None (Some 0) None.
Lemma run_chain : forall p ptr m f outer rest,
  Forall wf_frame (f :: outer) -> ascii_text (chain_text (f :: outer)) -> fits p ptr 1 (chain_text (f :: outer)) rest ->
  exists K n cur, run p (Context ptr (chain_text (f :: outer) ++ rest) m [] 1 root_seq) = run p (Context ptr rest m K n cur) /\
    n <= 1 + N.of_nat (opens (chain_text (f :: outer))) /\
    List.length K = List.length outer /\
    (forall v K', K = v :: K' -> es_offset v = sub_wrapped p (str_len (40 :: text (frame_expr f) ++ rest)) (str_len ptr)).
Proof.
  intros p ptr m f outer. revert f. induction outer as [|g outer IH]; intros f rest W A F; inversion W as [|? ? Wf Wo]; subst.
  - cbn [chain_text] in *. destruct (tree_branches (caseless m) 1 (frame_expr f)) as [l n'] eqn:E.
    destruct (run_branches p _ (expr_runs p _ Wf) (frame_nonempty f) ptr rest m [] 1 (Some 0) [] A F _ _ E) as [R L].
    do 3 eexists. split; [exact R|]. split; [exact L|]. split; [reflexivity|]. intros v K' Z; discriminate.
  - rewrite chain_cons in *. apply ascii_app in A. destruct A as [A1 A2]. apply ascii_cons in A2. destruct A2 as [_ A2].
    pose proof (fits_app_l _ _ _ _ _ _ F) as F1.
    destruct (IH g ((40 :: text (frame_expr f)) ++ rest) Wo A1 F1) as (K & n & cur & R & L & LK & _).
    assert (F2 : fits p ptr n (40 :: text (frame_expr f)) rest) by (eapply fits_app_r; [exact F|exact L]).
    assert (F3 : fits p ptr (next_index n) (text (frame_expr f)) rest).
    { eapply fits_app_r with (t := [40]); [exact F2|]. rewrite opens_open. apply next_index_le. }
    rewrite <- app_assoc, R. cbn [app]. rewrite (run_open_fits _ _ _ _ _ _ _ _ F2).
    destruct (tree_branches (caseless m) (next_index n) (frame_expr f)) as [l n'] eqn:E.
    destruct (run_branches p _ (expr_runs p _ Wf) (frame_nonempty f) ptr rest m
       (ExprState cur (sub_wrapped p (str_len (40 :: text (frame_expr f) ++ rest)) (str_len ptr)) m :: K) (next_index n) (Some n) [] A2 F3 _ _ E) as [R2 L2].
    do 3 eexists. split; [exact R2|]. split; [|split].
    + rewrite opens_app, opens_cons. pose proof (next_index_le n). cnt.
    + cbn [List.length]. f_equal. exact LK.
    + intros v K' Z. injection Z as <- <-. reflexivity.
Qed.

(** ** The whole body *)
Lemma groups_ok_fits : forall p s body a rest, groups_ok p s body a -> body = a ++ rest -> fits p s 1 a rest.
Proof.
  intros p s body a rest G E C. specialize (G C). split.
  - assert (Le : (opens a <= 1)%nat).
    { destruct (in_dec N.eq_dec 40 a) as [I|I].
      - apply in_split in I. destruct I as (x & y & Ea). destruct (G x y Ea) as [-> _]. rewrite Ea. cbn [app].
        destruct (in_dec N.eq_dec 40 y) as [J|J].
        + apply in_split in J. destruct J as (x' & y' & Ey). destruct (G (40 :: x') y') as [Z _]; [rewrite Ea, Ey; reflexivity|discriminate].
        + apply (count_occ_not_In N.eq_dec) in J. fold (opens y) in J. cnt.
      - apply (count_occ_not_In N.eq_dec) in I. fold (opens a) in I. cnt. }
    assert (2 < 2 ^ 32) by reflexivity. lia.
  - intros x y Ea. destruct (G x y Ea) as [-> Eb]. cbn [app] in Ea. rewrite Ea in E. cbn [app] in E. rewrite <- Eb, E. lia.
Qed.
Lemma groups_ok_snoc : forall p s body a c, groups_ok p s body a -> (c = 40 -> overflow_checks p = true -> a = [] /\ body = s) ->
  groups_ok p s body (a ++ [c]).
Proof.
  intros p s body a c G H C x y E. destruct y as [|y0 y] using rev_ind.
  - apply app_inj_tail in E. destruct E as [<- ->]. auto.
  - clear IHy. change (x ++ 40 :: y ++ [y0]) with (x ++ (40 :: y) ++ [y0]) in E. rewrite app_assoc in E.
    apply app_inj_tail in E. destruct E as [-> _]. apply (G C x y eq_refl).
Qed.
Lemma groups_ok_prefix : forall p s body a b, groups_ok p s body (a ++ b) -> groups_ok p s body a.
Proof. intros p s body a b G C x y E. apply (G C x (y ++ b)). rewrite E, <- app_assoc. reflexivity. Qed.

Section Body.
  Context (p : profile) (s body pre : str) (m : parse_mode) (Hs : s = pre ++ body).
  Let start := context_new s body m.

  Lemma start_eq : start = Context s body m [] 1 root_seq.
  Proof. reflexivity. Qed.
  Lemma parse_run : cx_parse p start = let? cx := run p start in
    match cx_sequences cx with
    | seq :: _ => Ret (RErr (error_new EParse (lit "Missing close parenthesis for group started at index " ++ show (es_offset seq) ++ lit ".")))
    | [] => let! t := finalize p (cx_current cx) in Ret (ROk t)
    end.
  Proof. reflexivity. Qed.

  Lemma parse_ok : forall e, wf_expr e -> body = text e -> ascii_text body -> groups_ok p s body body ->
    cx_parse p start = Ret (ROk (seq_of (Some 0) (fst (tree_branches (caseless m) 1 e)))).
  Proof.
    intros e W E A G. rewrite parse_run, start_eq.
    assert (F : fits p s 1 (text e) []) by (apply (groups_ok_fits _ _ body); [rewrite <- E; exact G|rewrite app_nil_r; exact E]).
    destruct (tree_branches (caseless m) 1 e) as [l n'] eqn:T.
    destruct (run_branches p e (expr_runs p e W) (proj1 W) s [] m [] 1 (Some 0) []) with (l := l) (n' := n') as [R _].
    - rewrite <- E. exact A.
    - exact F.
    - exact T.
    - rewrite app_nil_r in R. rewrite E. change root_seq with (open_seq (Some 0) [] []). rewrite R, run_nil. cbn [bindr cx_sequences cx_current app].
      rewrite finalize_open; [reflexivity|]. eapply tree_branches_nonempty; [|exact T]. apply W.
  Qed.
  Lemma parse_missing : forall a b, body = a ++ 40 :: b -> balanced b -> ascii_text body -> never_negative body -> groups_ok p s body body ->
    cx_parse p start = Ret (RErr (error_new EParse (lit "Missing close parenthesis for group started at index "
      ++ show (sub_wrapped p (str_len (40 :: b)) (str_len s)) ++ lit "."))).
  Proof.
    intros a b E B A N G. rewrite parse_run, start_eq.
    assert (Na : never_negative a) by (rewrite E in N; apply nn_prefix in N; exact N).
    destruct (nn_decompose a Na) as (st & Ne & W & Ea). apply balanced_derivation in B. destruct B as (e & We & Eb).
    destruct st as [|g outer]; [contradiction|].
    assert (X : exists f, frame_expr f = e).
    { destruct We as [Ne' _]. exists (removelast e, List.last e []). symmetry. apply app_removelast_last. exact Ne'. }
    destruct X as (f & Ee).
    assert (Ch : body = chain_text (f :: g :: outer)).
    { rewrite chain_cons, E, Ea, Ee, Eb. reflexivity. }
    assert (F : fits p s 1 body []) by (apply (groups_ok_fits _ _ body); [exact G|symmetry; apply app_nil_r]).
    rewrite Ch in F, A. destruct (run_chain p s m f (g :: outer) []) as (K & n & cur & R & _ & LK & Off).
    - constructor; [|exact W]. unfold wf_frame. rewrite Ee. exact We.
    - exact A.
    - exact F.
    - rewrite app_nil_r in R. rewrite Ch, R, run_nil. cbn [bindr cx_sequences]. destruct K as [|v K]; [discriminate|].
      rewrite (Off v K eq_refl), Ee, Eb, app_nil_r. reflexivity.
  Qed.
  (** a prefix read without incident *)
  Lemma parse_prefix : forall a rest, body = a ++ rest -> good_prefix p s body a ->
    exists K n cur, run p start = run p (Context s rest m K n cur) /\ n <= 1 + N.of_nat (opens a) /\ (List.length K + closes a = opens a)%nat.
  Proof.
    intros a rest E (A & N & G). destruct (nn_decompose a N) as (st & Ne & W & Ea). destruct (chain_counts st Ne W) as [_ C].
    destruct st as [|f outer]; [contradiction|].
    assert (F : fits p s 1 a rest) by (apply (groups_ok_fits _ _ body); assumption). rewrite Ea in F, A.
    destruct (run_chain p s m f outer rest W A F) as (K & n & cur & R & L & LK & _).
    exists K, n, cur. rewrite start_eq, E, Ea. split; [exact R|]. split; [exact L|]. rewrite LK. cbn [List.length] in C. lia.
  Qed.
  Lemma parse_unmatched : forall a b, body = a ++ 41 :: b -> good_prefix p s body a -> closes a = opens a ->
    cx_parse p start = Ret (RErr (error_new ELocatedParse (lit "Unmatched parentheses"))).
  Proof.
    intros a b E Gp Cl. destruct (parse_prefix a (41 :: b) E Gp) as (K & n & cur & R & _ & C). rewrite parse_run, R, run_close.
    destruct K; [reflexivity|]. cbn [List.length] in C. lia.
  Qed.
  Lemma parse_assert : forall a c b, body = a ++ c :: b -> good_prefix p s body a -> 128 <= c -> cx_parse p start = Panic PAssert.
  Proof.
    intros a c b E Gp Hc. destruct (parse_prefix a (c :: b) E Gp) as (K & n & cur & R & _ & _). rewrite parse_run, R, run_nonascii by exact Hc. reflexivity.
  Qed.
  Lemma opens_two : forall a, groups_ok p s body a -> overflow_checks p = true -> (opens a <= 1)%nat.
  Proof.
    intros a G C. destruct (in_dec N.eq_dec 40 a) as [I|I].
    - apply in_split in I. destruct I as (x & y & Ea). destruct (G C x y Ea) as [-> _]. rewrite Ea. cbn [app].
      destruct (in_dec N.eq_dec 40 y) as [J|J].
      + apply in_split in J. destruct J as (x' & y' & Ey). destruct (G C (40 :: x') y') as [Z _]; [rewrite Ea, Ey; reflexivity|discriminate].
      + apply (count_occ_not_In N.eq_dec) in J. fold (opens y) in J. cnt.
    - apply (count_occ_not_In N.eq_dec) in I. fold (opens a) in I. cnt.
  Qed.
  Lemma parse_overflow : forall a b, overflow_checks p = true -> body = a ++ 40 :: b -> good_prefix p s body a -> ~ (a = [] /\ body = s) ->
    cx_parse p start = Panic POverflow.
  Proof.
    intros a b Oc E Gp Bad. destruct (parse_prefix a (40 :: b) E Gp) as (K & n & cur & R & L & _). rewrite parse_run, R, run_open.
    pose proof (opens_two a (proj2 (proj2 Gp)) Oc) as O2. assert (2 ^ 32 = 4294967296) by reflexivity.
    rewrite chk_add_ok by lia. cbn [bind]. unfold chk_sub. rewrite Oc.
    assert (Lt : str_len (40 :: b) < str_len s).
    { rewrite Hs, E. rewrite !str_len_app. assert (X : 1 <= str_len pre + str_len a); [|lia].
      destruct (N.eq_dec (str_len pre + str_len a) 0) as [Z|Z]; [exfalso|lia]. apply Bad.
      assert (Ea : a = []) by (apply str_len_zero; lia). split; [exact Ea|]. assert (Ep : pre = []) by (apply str_len_zero; lia).
      rewrite Hs, Ep. reflexivity. }
    replace (str_len s <=? str_len (40 :: b)) with false by lia. reflexivity.
  Qed.

  Inductive events : Prop :=
  | ev_ok : ascii_text body -> groups_ok p s body body -> balanced body -> events
  | ev_missing : ascii_text body -> groups_ok p s body body -> never_negative body -> (closes body < opens body)%nat -> events
  | ev_unmatched : forall a b, body = a ++ 41 :: b -> good_prefix p s body a -> closes a = opens a -> events
  | ev_assert : forall a c b, body = a ++ c :: b -> good_prefix p s body a -> 128 <= c -> events
  | ev_overflow : forall a b, overflow_checks p = true -> body = a ++ 40 :: b -> good_prefix p s body a -> ~ (a = [] /\ body = s) -> events.
  Lemma str_dec : forall a b : str, {a = b} + {a <> b}.
  Proof. apply list_eq_dec. apply N.eq_dec. Qed.
  Lemma exhaustive : events.
  Proof.
    assert (X : forall rest a, body = a ++ rest -> good_prefix p s body a -> events).
    { induction rest as [|c rest IH]; intros a E Gp.
      - rewrite app_nil_r in E. subst a. destruct Gp as (A & N & G). pose proof (nn_count _ N) as Le.
        destruct (Nat.eq_dec (closes body) (opens body)) as [Q|Q].
        + apply ev_ok; try assumption. split; assumption.
        + apply ev_missing; try assumption. lia.
      - destruct (N.lt_ge_cases c 128) as [Lc|Gc]; [|eapply ev_assert; eassumption].
        assert (Next : (c = 41 -> (closes a < opens a)%nat) -> (c = 40 -> overflow_checks p = true -> a = [] /\ body = s) -> events).
        { intros H1 H2. apply (IH (a ++ [c])).
          - rewrite <- app_assoc. exact E.
          - destruct Gp as (A & N & G). split; [|split].
            + apply ascii_app. split; [exact A|]. apply ascii_cons. split; [exact Lc|]. intros x [].
            + apply nn_snoc; assumption.
            + apply groups_ok_snoc; assumption. }
        destruct (N.eq_dec c 41) as [->|N41].
        { pose proof (nn_count _ (proj1 (proj2 Gp))) as Le. destruct (Nat.eq_dec (closes a) (opens a)) as [Q|Q].
          - eapply ev_unmatched; eassumption.
          - apply Next; [lia|discriminate]. }
        destruct (N.eq_dec c 40) as [->|N40]; [|apply Next; contradiction].
        destruct (overflow_checks p) eqn:Oc; [|apply Next; discriminate].
        destruct (str_dec a []) as [->|Na]; [destruct (str_dec body s) as [Eb|Nb]|].
        + apply Next; [discriminate|auto].
        + eapply ev_overflow; try eassumption. intros [_ Z]; contradiction.
        + eapply ev_overflow; try eassumption. intros [Z _]; contradiction. }
    apply (X body []); [reflexivity|]. split; [intros c []|]. split; [apply nn_nil|].
    intros _ x y Z. destruct x; discriminate.
  Qed.
End Body.

(** the innermost group left open *)
Lemma innermost : forall a, never_negative a -> (closes a < opens a)%nat -> exists x y, a = x ++ 40 :: y /\ balanced y.
Proof.
  intros a N L. destruct (nn_decompose a N) as (st & Ne & W & E). destruct (chain_counts st Ne W) as [_ C]. rewrite <- E in C.
  destruct st as [|f [|g outer]]; [contradiction|cbn in C; lia|]. rewrite chain_cons in E. inversion W; subst.
  do 2 eexists. split; [reflexivity|]. apply text_balanced. assumption.
Qed.
