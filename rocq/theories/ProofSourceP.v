(** Runs of the source text: the loop of the parser and parse. *)
From Verif Require ProofBytes.
From Verif Require Import Base ModelUtil ModelBitField ModelCharReach ModelParser ModelRust ModelInterp ModelDump ModelSource SpecSource.
From Verif Require Import ProofSourceA ProofSourceB ProofSourceC ProofSourceD ProofSourceE ProofSourceF ProofSourceL ProofSourceM ProofSourceN ProofSourceO.
Local Open Scope string_scope.
Local Open Scope N_scope.
Local Open Scope list_scope.
Lemma main_advances : forall p cx x t cx', cx_main p cx (x :: t) = Ret (ROk cx') -> cx_p cx' = t.
Proof.
  intros p cx x t cx'. unfold cx_main, nom_char, exit_group, enter_capturing_group.
  destruct (x =? 40). { destruct (push_sequence p cx (x :: t)); cbn [bind]; intro H; inversion H; reflexivity. }
  destruct (x =? 41). { destruct (pop_sequence p cx) as [[|]| |]; cbn [bind bindr]; intro H; inversion H; reflexivity. }
  destruct (x =? 124). { intro H; inversion H; reflexivity. }
  cbn [take_any]. destruct (rs_assert _) as [?| |]; cbn [bind]; [|discriminate|discriminate].
  destruct (add_literal _ _ _ _) as [[]| |]; cbn [bind]; [| |discriminate|discriminate].
  - intro H; inversion H; reflexivity.
  - destruct (chk_sub _ _ _ _); discriminate.
Qed.

(** the context where the loop stops *)
Fixpoint stop (p : profile) (f : nat) (cx : context) : context :=
  match cx_p cx with
  | [] => cx
  | _ :: _ =>
    match f with
    | O => cx
    | S f' => match cx_main p cx (cx_p cx) with Ret (ROk cx') => stop p f' cx' | _ => cx end
    end
  end.
Definition Wp : work := WWhile (EUn UNot (EMethod (EField (EPath ["self"]) "p") "is_empty" []))
  [SExpr (ETry (EMethod (EPath ["self"]) "main" [EField (EPath ["self"]) "p"]))].
Definition v_loop (c : context) (r : result compile_error context) : M :=
  match r with
  | ROk cx' => val_ VUnit [("self", v_cx cx')]
  | RErr e => Ret (Some (FRet (Err_ (v_err e)), [("self", v_cx c)]))
  end.
Lemma l_loop : forall p lf d rest, (300 <= lf)%nat -> forall k cx, cx_p cx = rest -> (List.length rest < k)%nat ->
  loop p G (Some "Context") (call p G lf (S (S (S (S (S (S (S (S (S (S d))))))))))) k Wp [("self", v_cx cx)] =
  (let! r := cx_loop p (List.length rest) cx in v_loop (stop p (List.length rest) cx) r).
Proof.
  intros p lf d rest Hlf. induction rest as [|x t IH]; intros k cx E Hk; (destruct k as [|k]; [cbn [List.length] in Hk; lia|]).
  - unfold Wp. rewrite turn_while. cbn [List.length cx_loop stop]. rewrite E.
    assert (X : v_cx cx = cx_ (cx_ptr cx) [] (v_mode (cx_mode cx)) (map v_es (rev (cx_sequences cx))) (cx_group_index cx) (v_seqn (cx_current cx))) by (unfold v_cx; rewrite E; reflexivity).
    rewrite X. unfold v_loop. cbn [bind]. rewrite X. exe. reflexivity.
  - unfold Wp. rewrite turn_while. cbn [List.length cx_loop stop]. rewrite E.
    assert (X : v_cx cx = cx_ (cx_ptr cx) (x :: t) (v_mode (cx_mode cx)) (map v_es (rev (cx_sequences cx))) (cx_group_index cx) (v_seqn (cx_current cx))) by (unfold v_cx; rewrite E; reflexivity).
    rewrite X. repeat lhs. rewrite <- X.
    rewrite l_main by lia. destruct (cx_main p cx (x :: t)) as [[cx'|e]|w|] eqn:M; cbn [bind bindr v_main]; [| |exe; reflexivity|exe; reflexivity].
    + repeat lhs. apply IH; [apply (main_advances p cx x t); exact M|cbn [List.length] in Hk; lia].
    + repeat lhs. reflexivity.
Qed.
Definition parsed (p : profile) (cx : context) : context :=
  match cx_loop p (List.length (cx_p cx)) cx with
  | Ret (ROk c) => match cx_sequences c with [] => match finalize p (cx_current c) with Ret s => cx_set_current c s | _ => c end | _ :: _ => c end
  | _ => stop p (List.length (cx_p cx)) cx
  end.
Definition v_parsed (c : context) (r : result compile_error seqn) : val * list val :=
  match r with
  | ROk s => (Ok_ (v_seqn s), [v_cx c])
  | RErr e => (Err_ (v_err e), [v_cx c])
  end.
Lemma l_cx_parse : forall p lf d cx, (300 <= lf)%nat -> (List.length (cx_p cx) < lf)%nat ->
  call p G lf (S (S (S (S (S (S (S (S (S (S (S d))))))))))) (Some "Context") "parse" [v_cx cx] =
  (let! r := cx_parse p cx in Ret (Some (v_parsed (parsed p cx) r))).
Proof.
  enter. unfold cx_parse, parsed. pose proof (l_loop p lf d (cx_p cx) H lf cx eq_refl H0) as L. unfold Wp in L.
  repeat lhs. rewrite L. clear L. destruct (cx_loop p (List.length (cx_p cx)) cx) as [[c|e]|w|]; cbn [bind bindr v_loop]; [|exe; reflexivity|exe; reflexivity|exe; reflexivity].
  destruct c as [ptr q m l gi [ch a ci cn]]. cbn [cx_sequences cx_current]. unfold v_cx at 1. cbn [cx_ptr cx_p cx_mode cx_sequences cx_group_index cx_current].
  destruct m as [c0 d0 i0 m0 u0 t0]. unfold v_mode at 1. cbn [caseless dotall ignore_space multiline ucp utf8 v_seqn].
  destruct l as [|[q2 o m2] l].
  - destruct a as [br|]; unfold finalize; cbn [sq_alternation sq_children sq_capture_index sq_capture_name add_alternation map rev]; rewrite ?rda_true; cbn [bind expect].
    + auto_. unfold v_parsed, cx_set_current, v_cx, alt_append; cbn [cx_ptr cx_p cx_mode cx_sequences cx_group_index cx_current app v_seqn map v_comp]; rewrite ?map_app; reflexivity.
    + auto_. 
  - cbn [rev]. rewrite map_app. cbn [map]. repeat lhs. rewrite rev_app_distr. cbn [rev app]. unfold v_es at 2. cbn [es_seq es_offset es_mode].
    auto_. unfold v_parsed, v_cx, v_err, error_new; cbn [cx_ptr cx_p cx_mode cx_sequences cx_group_index cx_current app v_seqn map v_comp rev err_reason err_kind err_index]; rewrite ?map_app; reflexivity.
Qed.
Lemma l_verbs_lit : forall p lf d s n m, call p G lf (S d) None "read_control_verbs" [VStr s; VLit n; v_mode m] = call p G lf (S d) None "read_control_verbs" [VStr s; VInt Usize n; v_mode m].
Proof. args. Qed.
#[export] Hint Rewrite l_cx_parse l_verbs_lit l_verbs using lia : calls.
Definition v_tree (r : result compile_error (component * parse_mode)) : val :=
  match r with ROk (c, _) => Ok_ (v_comp c) | RErr e => Err_ (v_err e) end.
Definition mode_after (p : profile) (s : str) (m : parse_mode) : parse_mode :=
  match read_control_verbs p s 0 m with Ret (ROk (_, m')) => m' | _ => m end.
Lemma l_parse : forall p lf d s m, (300 <= lf)%nat -> (List.length s < lf)%nat ->
  call p G lf (S (S (S (S (S (S (S (S (S (S (S (S d)))))))))))) None "parse" [VStr s; v_mode m] =
  (let! r := ModelParser.parse p s m in Ret (Some (v_tree r, [VStr s; v_mode (mode_after p s m)]))).
Proof.
  enter. unfold ModelParser.parse, mode_after. repeat lhs.
  destruct (read_control_verbs p s 0 m) as [[[rest m']|e]|w|] eqn:V; cbn [bind bindr v_verbs]; [|exe; reflexivity|exe; reflexivity|exe; reflexivity].
  assert (R : (List.length rest <= List.length s)%nat) by (apply ProofBytes.read_suffix in V; destruct V as [pre V]; rewrite V, app_length; lia).
  unfold v_mode. repeat lhs.
  match goal with |- context [call _ G _ _ (Some "Context") "parse" [?v]] => change v with (v_cx (context_new s rest m')) end.
  rewrite l_cx_parse by (cbn [cx_p context_new]; lia).
  destruct (cx_parse p (context_new s rest m')) as [[q|e]|w|]; cbn [bind bindr v_parsed]; exe; reflexivity.
Qed.
