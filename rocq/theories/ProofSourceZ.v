(** Runs of the source text: the graph of an expression. *)
From Verif Require Import Base ModelUtil ModelBitField ModelCharReach ModelLiteral ModelReport ModelPetgraph ModelParser ModelNfa ModelSmallWrite ModelCompiler
  ModelRust ModelInterp ModelDump ModelSource SpecSource SpecSourceCrate.
From Verif Require Import ProofBase ProofSourceA ProofSourceB ProofSourceC ProofSourceD ProofSourceE ProofSourceF ProofSourceL ProofSourceR ProofSourceS ProofSourceT ProofSourceU ProofSourceW ProofSourceX ProofSourceV.
Local Open Scope string_scope.
Local Open Scope N_scope.
Local Open Scope list_scope.
Lemma co_ix : forall ty0 v, coerce ty0 (ix_ v) = ix_ v.
Proof.
  intro t. induction t; intros; cbn [coerce]; try reflexivity; try apply IHt; unfold ix_;
  repeat (match goal with |- match ?l with _ => _ end = _ => is_var l; destruct l; try reflexivity end).
Qed.
Lemma co_posflags : forall ty0 v, coerce ty0 (v_posflags v) = v_posflags v.
Proof. intros. apply co_struct. Qed.
Lemma co_props : forall ty0 v, coerce ty0 (v_props v) = v_props v.
Proof. intros. apply co_struct. Qed.
#[export] Hint Rewrite co_ix co_posflags co_props : coerced.
Lemma weight_nth : forall (g : graph vertex_props) v, nth_error (map v_props (nodes g)) (N.to_nat v) = option_map v_props (node_weight g v).
Proof.
  intros g v. rewrite nth_error_map. unfold node_weight, node_count. destruct (v <? _) eqn:E; [reflexivity|]. apply N.ltb_ge in E.
  assert (N : nth_error (nodes g) (N.to_nat v) = None) by (apply nth_error_None; lia). rewrite N. reflexivity.
Qed.
Lemma z_new : forall p lf d, call p G lf (S (S (S (S (S d))))) (Some "NgHolder") "new" [] = (let! h := ng_holder_new in Ret (Some (v_holder h, []))).
Proof. intros. vm_compute. reflexivity. Qed.
Definition h0 : ng_holder := match ng_holder_new with Ret h => h | _ => NgHolder graph_new 0 0 0 0 end.
Lemma h0_is : ng_holder_new = Ret h0.
Proof. reflexivity. Qed.
Lemma z_builder_new : forall p lf d pe, call p G lf (S (S (S (S (S (S d)))))) (Some "NfaBuilder") "new" [v_pexpr pe] = Ret (Some (v_builder (NfaBuilder h0 (pe_expr pe)), [v_pexpr pe])).
Proof. intros. vm_compute. reflexivity. Qed.
Lemma z_make_builder : forall p lf d pe, call p G lf (S (S (S (S (S (S (S d))))))) None "make_nfa_builder" [v_pexpr pe] = Ret (Some (v_builder (NfaBuilder h0 (pe_expr pe)), [v_pexpr pe])).
Proof. intros. vm_compute. reflexivity. Qed.
Definition bs0 (e : expression_info) : build_state := match make_glushkov_build_state (Profile true true W64) (NfaBuilder h0 e) with Ret b => b | _ => BuildState 0 0 0 0 (NfaBuilder h0 e) [] end.
Lemma bs0_is : forall p e, make_glushkov_build_state p (NfaBuilder h0 e) = Ret (bs0 e).
Proof. intros [[] [] []] e; vm_compute; reflexivity. Qed.
Lemma z_make_state : forall p lf d e, (300 <= lf)%nat -> call p G lf (S (S (S (S (S (S (S d))))))) None "make_glushkov_build_state" [v_builder (NfaBuilder h0 e)] =
  Ret (Some (v_bs (bs0 e), [v_builder (bs_builder (bs0 e))])).
Proof. intros [[] [] []] lf d e H; do 10 (destruct lf as [|lf]; [lia|]); vm_compute; reflexivity. Qed.
#[export] Hint Rewrite z_new z_builder_new z_make_builder : calls.
#[export] Hint Rewrite z_make_state using lia : calls.
Lemma z_add_vertex : forall p lf d h, call p G lf (S (S d)) (Some "NgHolder") "add_vertex" [v_holder h] = (let! (h', v) := ngh_add_vertex h in Ret (Some (ix_ v, [v_holder h']))).
Proof.
  enter. unfold ngh_add_vertex, add_node. repeat lhs. rewrite map_length. destruct (_ =? _); [reflexivity|]. cbn [bind]. repeat lhs.
  unfold v_holder, v_graph. cbn [inner start start_ds accept accept_eod nodes edges]. rewrite map_app. reflexivity.
Qed.
#[export] Hint Rewrite z_add_vertex : calls.
Lemma z_b_add_vertex : forall p lf d b, call p G lf (S (S (S d))) (Some "NfaBuilder") "add_vertex" [v_builder b] = (let! (b', v) := make_position b in Ret (Some (ix_ v, [v_builder b']))).
Proof. enter. unfold make_position. repeat lhs. destruct (ngh_add_vertex (nb_graph b)) as [[h v]| |]; [|reflexivity|reflexivity]. auto_. Qed.
#[export] Hint Rewrite z_b_add_vertex : calls.
Lemma z_make_position : forall p lf d b, call p G lf (S (S (S (S d)))) (Some "NfaBuilder") "make_position" [v_builder b] = (let! (b', v) := make_position b in Ret (Some (ix_ v, [v_builder b']))).
Proof. enter. repeat lhs. destruct (make_position b) as [[h v]| |]; [|reflexivity|reflexivity]. auto_. Qed.
#[export] Hint Rewrite z_make_position : calls.
Lemma z_start : forall p lf d b, call p G lf (S d) (Some "NfaBuilder") "get_start" [v_builder b] = Ret (Some (ix_ (get_start b), [v_builder b])).
Proof. intros. vm_compute. reflexivity. Qed.
Lemma z_start_ds : forall p lf d b, call p G lf (S d) (Some "NfaBuilder") "get_start_dot_star" [v_builder b] = Ret (Some (ix_ (get_start_dot_star b), [v_builder b])).
Proof. intros. vm_compute. reflexivity. Qed.
Lemma z_accept : forall p lf d b, call p G lf (S d) (Some "NfaBuilder") "get_accept" [v_builder b] = Ret (Some (ix_ (get_accept b), [v_builder b])).
Proof. intros. vm_compute. reflexivity. Qed.
Lemma z_accept_eod : forall p lf d b, call p G lf (S d) (Some "NfaBuilder") "get_accept_eod" [v_builder b] = Ret (Some (ix_ (get_accept_eod b), [v_builder b])).
Proof. intros. vm_compute. reflexivity. Qed.
#[export] Hint Rewrite z_start z_start_ds z_accept z_accept_eod : calls.
Lemma z_num_vertices : forall p lf d h, call p G lf (S d) (Some "NgHolder") "num_vertices" [v_holder h] = Ret (Some (VInt Usize (ngh_num_vertices h), [v_holder h])).
Proof. enter. repeat lhs. unfold ngh_num_vertices, node_count. auto_. rewrite map_length. reflexivity. Qed.
#[export] Hint Rewrite z_num_vertices : calls.
Lemma z_b_num_vertices : forall p lf d b, call p G lf (S (S d)) (Some "NfaBuilder") "num_vertices" [v_builder b] = Ret (Some (VInt Usize (num_vertices b), [v_builder b])).
Proof. enter. auto_. Qed.
Lemma z_get_graph : forall p lf d b, call p G lf (S d) (Some "NfaBuilder") "get_graph" [v_builder b] = Ret (Some (v_built (nb_expr b, nb_graph b), [v_builder b])).
Proof. enter. auto_. Qed.
#[export] Hint Rewrite z_get_graph : calls.
Lemma z_index : forall p lf d h v, call p G lf (S d) (Some "NgHolder") "index" [v_holder h; ix_ v] = (let! x := ngh_index h v in Ret (Some (v_props x, [v_holder h; ix_ v]))).
Proof.
  enter. unfold ngh_index. repeat lhs. rewrite weight_nth. destruct (node_weight (inner h) v); auto_.
Qed.
#[export] Hint Rewrite z_index : calls.
Lemma z_get_assert_flag : forall p lf d b v, call p G lf (S (S d)) (Some "NfaBuilder") "get_assert_flag" [v_builder b; ix_ v] = (let! x := get_assert_flag b v in Ret (Some (v_posflags x, [v_builder b; ix_ v]))).
Proof. enter. unfold get_assert_flag. repeat lhs. auto_. Qed.
#[export] Hint Rewrite z_get_assert_flag : calls.
Lemma put_holder : forall b v (h : vertex_props -> vertex_props) x u w, node_weight (inner (nb_graph b)) v = Some x -> set_path (v_props x) ["char_reach"] u = Some (v_props (h x)) ->
  put_elem G ("self", ["graph"], "pos", ["char_reach"]) u [("self", v_builder b); ("pos", ix_ v); ("cr", w)] =
  Some [("self", v_builder (NfaBuilder (NgHolder (ModelPetgraph.Graph (list_upd (nodes (inner (nb_graph b))) (N.to_nat v) h) (edges (inner (nb_graph b)))) (start (nb_graph b)) (start_ds (nb_graph b)) (accept (nb_graph b)) (accept_eod (nb_graph b))) (nb_expr b)));
    ("pos", ix_ v); ("cr", w)].
Proof.
  intros b v h x u w E H.
  transitivity (match set_weight (v_graph v_props (inner (nb_graph b))) (ix_ v) ["char_reach"] u with
    Some v' => write_place ("self", ["graph"; "inner"]) v' [("self", v_builder b); ("pos", ix_ v); ("cr", w)] | None => None end); [reflexivity|].
  rewrite (set_weight_is v_props h _ v x _ u E H). reflexivity.
Qed.
Lemma z_add_char_reach : forall p lf d b v c, call p G lf (S (S (S (S (S d))))) (Some "NfaBuilder") "add_char_reach" [v_builder b; ix_ v; v_cr c] = (let! b' := add_char_reach b v c in Ret (Some (VUnit, [v_builder b'; ix_ v; v_cr c]))).
Proof.
  enter. unfold add_char_reach, ngh_update. repeat lhs. unfold ngh_index. destruct (node_weight (inner (nb_graph b)) v) as [x|] eqn:E; [|reflexivity]. cbn [expect bind]. repeat lhs.
  rewrite (put_holder b v (fun x0 => VertexProps (cr_or_assign (char_reach x0) c) (reports x0) (assert_flags x0)) x); [|exact E|reflexivity].
  unfold node_update. rewrite E. cbn [bind]. auto_.
Qed.
#[export] Hint Rewrite z_add_char_reach : calls.
Lemma z_bs_mut : forall p lf d b, call p G lf (S d) (Some "GlushkovBuildState") "get_builder_mut" [v_bs b] = Ret (Some (v_builder (bs_builder b), [v_bs b])).
Proof. enter. auto_. Qed.
#[export] Hint Rewrite z_bs_mut : calls.
Lemma z_note_ac : forall p lf d c b, call p G lf (S (S (S (S (S (S d)))))) (Some "AsciiComponentClass") "note_positions" [v_ac c; v_bs b] = (let! b' := ac_note_positions b c in Ret (Some (VUnit, [v_ac c; v_bs b']))).
Proof.
  enter. unfold ac_note_positions. repeat lhs. destruct (make_position (bs_builder b)) as [[b1 v]| |]; [|reflexivity|reflexivity]. cbn [bind]. repeat lhs.
  destruct (add_char_reach b1 v (ac_cr c)) as [b2| |]; [|reflexivity|reflexivity]. cbn [bind]. auto_. 
Qed.
#[export] Hint Rewrite z_note_ac : calls.
Lemma z_note_cc : forall p lf d c b, call p G lf (S (S (S (S (S (S (S d))))))) (Some "ComponentClass") "note_positions" [v_cc c; v_bs b] = (let! b' := ac_note_positions b c in Ret (Some (VUnit, [v_cc c; v_bs b']))).
Proof. enter. auto_. Qed.
#[export] Hint Rewrite z_note_cc : calls.
Fixpoint size (c : component) : nat := match c with CSequence s => S (size_s s) | CAlternation l => S (S (fold_right (fun s m => S (size_s s + m)) 0%nat l)) | CClass _ => 8 end
with size_s (s : seqn) : nat := match s with Seqn ch _ _ _ => S (S (fold_right (fun c m => S (size c + m)) 0%nat ch)) end.
Definition notes (p : profile) (n : nat) : Prop := forall c lf d b, (size c <= n)%nat -> (size c <= d)%nat -> (300 + size c <= lf)%nat ->
  call p G lf d (Some "Component") "note_positions" [v_comp c; v_bs b] = (let! b' := note_positions b c in Ret (Some (VUnit, [v_comp c; v_bs b']))).
Lemma updN_mid : forall a (x u : val) b, updN (a ++ x :: b) (N.of_nat (List.length a)) u = Some (a ++ u :: b).
Proof.
  induction a as [|y a IH]; intros x u b; [reflexivity|]. cbn [app updN]. destruct (N.eqb_spec (N.of_nat (List.length (y :: a))) 0) as [E|E]; [cbn [List.length] in E; lia|].
  replace (N.pred (N.of_nat (List.length (y :: a)))) with (N.of_nat (List.length a)) by (cbn [List.length]; lia). rewrite IH. reflexivity.
Qed.
Definition Wn : list stmt := [SExpr (EMethod (EPath ["c"]) "note_positions" [EPath ["bs"]])].
Lemma z_step_comp : forall p lf d own lp x b S0, call p G lf d (Some "Component") "note_positions" [v_comp x; v_bs b] = (let! b' := note_positions b x in Ret (Some (VUnit, [v_comp x; v_bs b']))) ->
  eval p G own (call p G lf d) lp (EBlock Wn) [("c", v_comp x); ("self", S0); ("bs", v_bs b)] =
  (let! b' := note_positions b x in val_ VUnit [("c", v_comp x); ("self", S0); ("bs", v_bs b')]).
Proof.
  intros p lf d own lp x b S0 H. unfold Wn.
  destruct x as [l|k|s].
  1: change (v_comp (CAlternation l)) with (VCtor "Component::Alternation" [v_alt l]) in *.
  2: change (v_comp (CClass k)) with (VCtor "Component::Class" [v_cc k]) in *.
  3: change (v_comp (CSequence s)) with (VCtor "Component::Sequence" [v_seqn s]) in *.
  all: repeat lhs; rewrite H; destruct (note_positions b _) as [b'| |]; [|reflexivity|reflexivity]; cbn [bind]; auto_; reflexivity.
Qed.
Lemma z_step_seqn : forall p lf d own lp x b S0, call p G lf d (Some "ComponentSequence") "note_positions" [v_seqn x; v_bs b] = (let! b' := seqn_note_positions b x in Ret (Some (VUnit, [v_seqn x; v_bs b']))) ->
  eval p G own (call p G lf d) lp (EBlock Wn) [("c", v_seqn x); ("self", S0); ("bs", v_bs b)] =
  (let! b' := seqn_note_positions b x in val_ VUnit [("c", v_seqn x); ("self", S0); ("bs", v_bs b')]).
Proof.
  intros p lf d own lp x b S0 H. unfold Wn.
  destruct x as [ch o ci cn]. change (v_seqn (Seqn ch o ci cn)) with (seq_ (map v_comp ch) (v_alts o) (v_u32 ci) (v_text cn)) in *.
  repeat lhs; rewrite H; destruct (seqn_note_positions b _) as [b'| |]; [|reflexivity|reflexivity]; cbn [bind]; auto_; reflexivity.
Qed.
Lemma z_loop_comp : forall p lf d own o ci cn r a k b, (forall x b, In x r -> call p G lf d (Some "Component") "note_positions" [v_comp x; v_bs b] = (let! b' := note_positions b x in Ret (Some (VUnit, [v_comp x; v_bs b'])))) ->
  (List.length r < k)%nat ->
  loop p G own (call p G lf d) k (WForMut "c" ("self", ["children"]) (N.of_nat (List.length a)) (N.of_nat (List.length (a ++ r))) Wn)
    [("self", seq_ (map v_comp (a ++ r)) o ci cn); ("bs", v_bs b)] =
  (let! b' := note_list (fun b c => note_positions b c) b r in val_ VUnit [("self", seq_ (map v_comp (a ++ r)) o ci cn); ("bs", v_bs b')]).
Proof.
  intros p lf d own o ci cn r. induction r as [|x r IH]; intros a k b H Hk; (destruct k as [|k]; [cbn in Hk; lia|]); cbn [loop turn note_list].
  - rewrite app_nil_r, N.ltb_irrefl. reflexivity.
  - assert (L : N.of_nat (List.length a) <? N.of_nat (List.length (a ++ x :: r)) = true) by (apply N.ltb_lt; rewrite app_length; cbn [List.length]; lia). rewrite L.
    change (read_place ("self", ["children"]) [("self", seq_ (map v_comp (a ++ x :: r)) o ci cn); ("bs", v_bs b)]) with (Some (VList (map v_comp (a ++ x :: r)))).
    cbv beta iota. rewrite map_app. cbn [map]. rewrite <- (map_length v_comp a) at 1. rewrite nthN_mid.
    rewrite z_step_comp by (apply H; left; reflexivity). destruct (note_positions b x) as [b'| |]; [|reflexivity|reflexivity]. cbn [bind].
    transitivity (turned [("self", seq_ (map v_comp a ++ v_comp x :: map v_comp r) o ci cn); ("bs", v_bs b)]
      (loop p G own (call p G lf d) k (WForMut "c" ("self", ["children"]) (N.of_nat (List.length a) + 1) (N.of_nat (List.length (a ++ x :: r))) Wn))
      (match updN (map v_comp a ++ v_comp x :: map v_comp r) (N.of_nat (List.length a)) (v_comp x) with
       | Some l' => Some (FVal VUnit, [("self", seq_ l' o ci cn); ("bs", v_bs b')]) | None => None end)); [reflexivity|].
    rewrite <- (map_length v_comp a) at 2. rewrite updN_mid. cbn [turned leave].
    replace (N.of_nat (List.length a) + 1) with (N.of_nat (List.length (a ++ [x]))) by (rewrite app_length; cbn [List.length]; lia).
    specialize (IH (a ++ [x]) k b'). rewrite <- !app_assoc in IH. cbn [app] in IH. rewrite map_app in IH. cbn [map] in IH.
    apply IH; [intros y b1 Hy; apply H; right; exact Hy|cbn in Hk; lia].
Qed.
Lemma z_loop_seqn : forall p lf d own r a k b, (forall x b, In x r -> call p G lf d (Some "ComponentSequence") "note_positions" [v_seqn x; v_bs b] = (let! b' := seqn_note_positions b x in Ret (Some (VUnit, [v_seqn x; v_bs b'])))) ->
  (List.length r < k)%nat ->
  loop p G own (call p G lf d) k (WForMut "c" ("self", ["children"]) (N.of_nat (List.length a)) (N.of_nat (List.length (a ++ r))) Wn)
    [("self", VStruct "ComponentAlternation" [("children", VList (map v_seqn (a ++ r)))]); ("bs", v_bs b)] =
  (let! b' := note_list (fun b c => seqn_note_positions b c) b r in val_ VUnit [("self", VStruct "ComponentAlternation" [("children", VList (map v_seqn (a ++ r)))]); ("bs", v_bs b')]).
Proof.
  intros p lf d own r. induction r as [|x r IH]; intros a k b H Hk; (destruct k as [|k]; [cbn in Hk; lia|]); cbn [loop turn note_list].
  - rewrite app_nil_r, N.ltb_irrefl. reflexivity.
  - assert (L : N.of_nat (List.length a) <? N.of_nat (List.length (a ++ x :: r)) = true) by (apply N.ltb_lt; rewrite app_length; cbn [List.length]; lia). rewrite L.
    change (read_place ("self", ["children"]) [("self", VStruct "ComponentAlternation" [("children", VList (map v_seqn (a ++ x :: r)))]); ("bs", v_bs b)]) with (Some (VList (map v_seqn (a ++ x :: r)))).
    cbv beta iota. rewrite map_app. cbn [map]. rewrite <- (map_length v_seqn a) at 1. rewrite nthN_mid.
    rewrite z_step_seqn by (apply H; left; reflexivity). destruct (seqn_note_positions b x) as [b'| |]; [|reflexivity|reflexivity]. cbn [bind].
    transitivity (turned [("self", VStruct "ComponentAlternation" [("children", VList (map v_seqn a ++ v_seqn x :: map v_seqn r))]); ("bs", v_bs b)]
      (loop p G own (call p G lf d) k (WForMut "c" ("self", ["children"]) (N.of_nat (List.length a) + 1) (N.of_nat (List.length (a ++ x :: r))) Wn))
      (match updN (map v_seqn a ++ v_seqn x :: map v_seqn r) (N.of_nat (List.length a)) (v_seqn x) with
       | Some l' => Some (FVal VUnit, [("self", VStruct "ComponentAlternation" [("children", VList l')]); ("bs", v_bs b')]) | None => None end)); [reflexivity|].
    rewrite <- (map_length v_seqn a) at 2. rewrite updN_mid. cbn [turned leave].
    replace (N.of_nat (List.length a) + 1) with (N.of_nat (List.length (a ++ [x]))) by (rewrite app_length; cbn [List.length]; lia).
    specialize (IH (a ++ [x]) k b'). rewrite <- !app_assoc in IH. cbn [app] in IH. rewrite map_app in IH. cbn [map] in IH.
    apply IH; [intros y b1 Hy; apply H; right; exact Hy|cbn in Hk; lia].
Qed.
Lemma z_note_seq : forall p n, notes p n -> forall s lf d b, (size_s s <= S n)%nat -> (size_s s <= S d)%nat -> (300 + size_s s <= lf)%nat ->
  call p G lf (S d) (Some "ComponentSequence") "note_positions" [v_seqn s; v_bs b] = (let! b' := seqn_note_positions b s in Ret (Some (VUnit, [v_seqn s; v_bs b']))).
Proof.
  intros p n IH s lf d b Hn Hd Hl. destruct s as [ch o ci cn]. enter. change (v_seqn (Seqn ch o ci cn)) with (seq_ (map v_comp ch) (v_alts o) (v_u32 ci) (v_text cn)). repeat lhs.
  rewrite map_length. fold Wn. pose proof (z_loop_comp p lf d (Some "ComponentSequence") (v_alts o) (v_u32 ci) (v_text cn) ch [] lf b) as L. cbn [List.length app] in L.
  assert (M : forall x, In x ch -> (S (size x) <= fold_right (fun c m => S (size c + m)) 0 ch)%nat) by (clear; induction ch as [|y ch IHch]; intros x Hx; [destruct Hx|destruct Hx as [->|Hx]; cbn [fold_right]; [lia|specialize (IHch x Hx); lia]]).
  assert (Q : (List.length ch <= fold_right (fun c m => S (size c + m)) 0 ch)%nat) by (clear; induction ch; cbn [List.length fold_right]; lia).
  cbn [size_s] in Hn, Hd, Hl. change (N.of_nat 0) with 0 in L. rewrite L; [|intros x b1 Hx; specialize (M x Hx); apply IH; lia|lia].
  cbn [seqn_note_positions]. destruct (note_list _ b ch) as [b'| |]; [|reflexivity|reflexivity]. cbn [bind]. auto_.
Qed.
Lemma z_note_alt : forall p n, notes p n -> forall l lf d b, (size (CAlternation l) <= S (S n))%nat -> (size (CAlternation l) <= S (S d))%nat -> (300 + size (CAlternation l) <= lf)%nat ->
  call p G lf (S d) (Some "ComponentAlternation") "note_positions" [v_alt l; v_bs b] = (let! b' := note_list (fun bs s => seqn_note_positions bs s) b l in Ret (Some (VUnit, [v_alt l; v_bs b']))).
Proof.
  intros p n IH l lf d b Hn Hd Hl. enter. change (v_alt l) with (VStruct "ComponentAlternation" [("children", VList (map v_seqn l))]). repeat lhs.
  rewrite map_length. fold Wn. pose proof (z_loop_seqn p lf d (Some "ComponentAlternation") l [] lf b) as L. cbn [List.length app] in L.
  assert (M : forall x, In x l -> (S (size_s x) <= fold_right (fun c m => S (size_s c + m)) 0 l)%nat) by (clear; induction l as [|y ch IHch]; intros x Hx; [destruct Hx|destruct Hx as [->|Hx]; cbn [fold_right]; [lia|specialize (IHch x Hx); lia]]).
  assert (Q : (List.length l <= fold_right (fun c m => S (size_s c + m)) 0 l)%nat) by (clear; induction l; cbn [List.length fold_right]; lia).
  cbn [size] in Hn, Hd, Hl. change (N.of_nat 0) with 0 in L. rewrite L; [|intros x b1 Hx; specialize (M x Hx); destruct d as [|d]; [lia|]; apply (z_note_seq p n IH); lia|lia].
  destruct (note_list _ b l) as [b'| |]; [|reflexivity|reflexivity]. cbn [bind]. auto_.
Qed.
Lemma z_notes : forall p n, notes p n.
Proof.
  intros p n. induction n as [|n IH]; intros c lf d b Hn Hd Hl; [destruct c; cbn in Hn; lia|]. destruct c as [l|k|s].
  - destruct d as [|[|d]]; [cbn in Hd; lia|cbn in Hd; lia|]. enter. change (v_comp (CAlternation l)) with (VCtor "Component::Alternation" [v_alt l]). repeat lhs.
    rewrite (z_note_alt p n IH) by (assumption || lia). cbn [note_positions]. destruct (note_list _ b l) as [b'| |]; [|reflexivity|reflexivity]. cbn [bind]. auto_.
  - cbn [size] in Hn, Hd, Hl. do 8 (destruct d as [|d]; [lia|]). enter. change (v_comp (CClass k)) with (VCtor "Component::Class" [v_cc k]). repeat lhs. cbn [note_positions].
    destruct (ac_note_positions b k) as [b'| |]; [|reflexivity|reflexivity]. cbn [bind]. auto_.
  - cbn [size] in Hn, Hd, Hl. destruct d as [|[|d]]; [destruct s; cbn in Hd; lia|destruct s; cbn in Hd; lia|]. pose proof (z_note_seq p n IH s lf d b) as E. destruct s as [ch o ci cn].
    enter. change (v_comp (CSequence (Seqn ch o ci cn))) with (VCtor "Component::Sequence" [seq_ (map v_comp ch) (v_alts o) (v_u32 ci) (v_text cn)]).
    change (v_seqn (Seqn ch o ci cn)) with (seq_ (map v_comp ch) (v_alts o) (v_u32 ci) (v_text cn)) in E. repeat lhs.
    rewrite E by lia. cbn [note_positions]. destruct (seqn_note_positions b _) as [b'| |]; [|reflexivity|reflexivity]. cbn [bind]. auto_.
Qed.
