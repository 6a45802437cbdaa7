(** Runs of the source text: what [compile] does not call of the graph and of the build state. *)
From Verif Require Import Base ModelUtil ModelBitField ModelCharReach ModelLiteral ModelReport ModelPetgraph ModelParser ModelNfa ModelSmallWrite ModelCompiler
  ModelRust ModelInterp ModelDump ModelSource SpecSource SpecSourceCrate.
From Verif Require Import ProofBase ProofSourceA ProofSourceB ProofSourceC ProofSourceD ProofSourceE ProofSourceF ProofSourceL ProofSourceR ProofSourceS ProofSourceT ProofSourceU ProofSourceW ProofSourceX ProofSourceV ProofSourceZ ProofSourceZF.
Local Open Scope string_scope.
Local Open Scope N_scope.
Local Open Scope list_scope.

Lemma eqb_pos : forall a b, val_eqb (v_pos a) (v_pos b) = pi_eqb a b.
Proof. intros [p f] [q g]. unfold v_pos, ix_, v_posflags, pi_eqb. cbn [val_eqb pi_pos pi_flags fst snd]. rewrite !andb_true_r. reflexivity. Qed.
Lemma add_pos : forall s x, set_add (map v_pos s) (v_pos x) = map v_pos (set_insert pi_eqb x s).
Proof.
  intros. unfold set_add, set_insert. replace (existsb (val_eqb (v_pos x)) (map v_pos s)) with (existsb (pi_eqb x) s).
  - destruct (existsb (pi_eqb x) s); [reflexivity|]. rewrite map_app. reflexivity.
  - induction s as [|y s IH]; [reflexivity|]. cbn [existsb map]. rewrite eqb_pos, IH. reflexivity.
Qed.
Fixpoint at_ (m : list (N * list position_info)) (k : N) : option (list position_info) :=
  match m with [] => None | (a, s) :: t => if k =? a then Some s else at_ t k end.
Notation enc := (fun x : N * list position_info => VTuple [ix_ (fst x); v_positions (snd x)]).
Lemma succ_get : forall m k, map_get (ix_ k) (map enc m) = option_map v_positions (at_ m k).
Proof. induction m as [|[a s] m IH]; intro k; [reflexivity|]. cbn [map map_get at_ fst snd]. rewrite val_eqb_ix, N.eqb_sym. destruct (k =? a); [reflexivity|apply IH]. Qed.
Lemma succ_set : forall m k xs, map_set (ix_ k) (v_positions (set_extend pi_eqb (match at_ m k with Some s => s | None => [] end) xs)) (map enc m) = map enc (succ_insert m k xs).
Proof.
  induction m as [|[a s] m IH]; intros k xs; [reflexivity|]. cbn [map map_set at_ fst snd succ_insert]. rewrite val_eqb_ix, (N.eqb_sym a k). destruct (k =? a); [reflexivity|].
  rewrite IH. reflexivity.
Qed.
Definition Accepts : expr := EBin BEq (EField (EPath ["e"]) "pos") (EField (EPath ["self"]) "accept_state").
Lemma y_position : forall p lf d own lp b i L l n,
  found (eval p G own (call p G lf d) lp) [PVar "e"] Accepts (map v_pos l) n [("self", v_bs b); ("from", v_pos i); ("tolist", L)]
    (fun o s1 => val_ (match o with Some (i, _) => some_ (VInt Usize i) | None => none_ end) s1) =
  val_ (match position_of (bs_accept b) l with Some j => some_ (VInt Usize (n + N.of_nat j)) | None => none_ end) [("self", v_bs b); ("from", v_pos i); ("tolist", L)].
Proof.
  intros p lf d own lp b i L l. induction l as [|x l IH]; intro n; [reflexivity|]. cbn [map position_of]. unfold Accepts. repeat lhs. rewrite eq_ix. destruct (pi_pos x =? bs_accept b).
  - repeat lhs. rewrite N.add_0_r. reflexivity.
  - repeat lhs. fold Accepts. rewrite IH. destruct (position_of (bs_accept b) l) as [j|]; [|reflexivity]. cbn [option_map]. replace (n + 1 + N.of_nat j) with (n + N.of_nat (S j)) by lia. reflexivity.
Qed.
Lemma position_lt : forall a l j, position_of a l = Some j -> (j < List.length l)%nat.
Proof. induction l as [|x l IH]; intros j; cbn [position_of List.length]; [discriminate|]. destruct (_ =? _); [intro H; injection H as <-; lia|]. destruct (position_of a l) as [k|]; [|discriminate]. cbn [option_map]. intro H. injection H as <-. specialize (IH k eq_refl). lia. Qed.
Definition Ws : list stmt := [SExpr (EMethod (EPath ["succ"]) "insert" [EUn UDeref (EPath ["to"])])].

Notation Ev p own C lf := (eval p G own C (loop p G own C lf)).
Definition We : list stmt := [SRefEntry "succ" (EField (EPath ["self"]) "successors") (EField (EPath ["from"]) "pos") (ECall ["HashSet"; "new"] []);
                SLast (EFor (PVar "to") (EUn URef (EPath ["tolist"])) Ws)].
Definition bs_parts (b : build_state) (m : val) : val :=
  VStruct "GlushkovBuildState" [("start_state", ix_ (bs_start b)); ("start_dot_star_state", ix_ (bs_start_ds b)); ("accept_state", ix_ (bs_accept b));
    ("accept_eod_state", ix_ (bs_accept_eod b)); ("builder", v_builder (bs_builder b)); ("successors", m)].
Lemma y_inserts : forall p lf d own e1 e2 e3 e4 t k s, (List.length t < k)%nat ->
  loop p G own (call p G lf d) k (WFor (PVar "to") (map v_pos t) Ws) (("succ", v_positions s) :: [e1; e2; e3; e4]) = val_ VUnit (("succ", v_positions (set_extend pi_eqb s t)) :: [e1; e2; e3; e4]).
Proof.
  intros p lf d own e1 e2 e3 e4 t. induction t as [|x t IH]; intros k s Hk; (destruct k as [|k]; [cbn in Hk; lia|]); [reflexivity|].
  cbn [map]. 
  transitivity (bind (eval p G own (call p G lf d) (loop p G own (call p G lf d) k) (EBlock Ws) (("to", v_pos x) :: ("succ", v_positions s) :: [e1; e2; e3; e4]))
     (turned (("succ", v_positions s) :: [e1; e2; e3; e4]) (loop p G own (call p G lf d) k (WFor (PVar "to") (map v_pos t) Ws)))); [reflexivity|].
  assert (E : eval p G own (call p G lf d) (loop p G own (call p G lf d) k) (EBlock Ws) (("to", v_pos x) :: ("succ", v_positions s) :: [e1; e2; e3; e4]) = 
    val_ VUnit (("to", v_pos x) :: ("succ", v_positions (set_insert pi_eqb x s)) :: [e1; e2; e3; e4])).
  { unfold Ws. repeat lhs. rewrite add_pos. reflexivity. }
  rewrite E. cbn [bind]. cbn [set_extend fold_left].
  repeat lhs. apply IH. cbn in Hk. lia.
Qed.
Lemma y_entry : forall p lf d own b i I t, (List.length t < lf)%nat ->
  exec (Ev p own (call p G lf d) lf) We [("i", I); ("self", v_bs b); ("from", v_pos i); ("tolist", VList (map v_pos t))] =
  val_ VUnit [("i", I); ("self", v_bs (BuildState (bs_start b) (bs_start_ds b) (bs_accept b) (bs_accept_eod b) (bs_builder b) (succ_insert (bs_successors b) (pi_pos i) t))); ("from", v_pos i); ("tolist", VList (map v_pos t))].
Proof.
  intros p lf d own b i I t Ht. unfold We.
  pose (put := fun u => write_place ("self", ["successors"]) (VCtor "HashMap" (map_set (ix_ (pi_pos i)) u (map enc (bs_successors b))))).
  pose (s2 := [("i", I); ("self", bs_parts b VBorrowed); ("from", v_pos i); ("tolist", VList (map v_pos t))]).
  transitivity (match map_get (ix_ (pi_pos i)) (map enc (bs_successors b)) with
    | Some u => bind (exec (Ev p own (call p G lf d) lf) [SLast (EFor (PVar "to") (EUn URef (EPath ["tolist"])) Ws)] (("succ", u) :: s2)) (lent "succ" put s2)
    | None => bind (exec (Ev p own (call p G lf d) lf) [SLast (EFor (PVar "to") (EUn URef (EPath ["tolist"])) Ws)] (("succ", v_positions []) :: s2)) (lent "succ" put s2) end).
  { reflexivity. }
  rewrite succ_get. 
  assert (E : forall s0, match at_ (bs_successors b) (pi_pos i) with Some s => s0 = s | None => s0 = [] end -> 
    bind (exec (Ev p own (call p G lf d) lf) [SLast (EFor (PVar "to") (EUn URef (EPath ["tolist"])) Ws)] (("succ", v_positions s0) :: s2)) (lent "succ" put s2) =
    val_ VUnit [("i", I); ("self", v_bs (BuildState (bs_start b) (bs_start_ds b) (bs_accept b) (bs_accept_eod b) (bs_builder b) (succ_insert (bs_successors b) (pi_pos i) t))); ("from", v_pos i); ("tolist", VList (map v_pos t))]).
  { intros s0 H0. unfold s2 at 1. repeat lhs. rewrite y_inserts by exact Ht. cbn [bind].
    transitivity (match put (v_positions (set_extend pi_eqb s0 t)) s2 with Some s' => val_ VUnit s' | None => stuck end); [reflexivity|].
    unfold put. replace s0 with (match at_ (bs_successors b) (pi_pos i) with Some s => s | None => [] end) by (destruct (at_ (bs_successors b) (pi_pos i)); symmetry; exact H0).
    rewrite succ_set. reflexivity. }
  destruct (at_ (bs_successors b) (pi_pos i)) as [s|]; cbn [option_map]; apply E; reflexivity.
Qed.
Lemma upd_pos : forall t j x, (j < List.length t)%nat -> updN (map v_pos t) (N.of_nat j) (v_pos x) = Some (map v_pos (list_upd t j (fun _ => x))).
Proof.
  induction t as [|y t IH]; intros j x Hj; [cbn in Hj; lia|]. cbn [map updN]. destruct j as [|j]; [reflexivity|]. destruct (N.eqb_spec (N.of_nat (S j)) 0); [lia|].
  replace (N.pred (N.of_nat (S j))) with (N.of_nat j) by lia. rewrite IH by (cbn in Hj; lia). reflexivity.
Qed.
Lemma nth_pos : forall t j, (j < List.length t)%nat -> exists x, nthN (map v_pos t) (N.of_nat j) = Some (v_pos x).
Proof.
  induction t as [|y t IH]; intros j Hj; [cbn in Hj; lia|]. cbn [map nthN]. destruct j as [|j]; [eexists; reflexivity|]. destruct (N.eqb_spec (N.of_nat (S j)) 0); [lia|].
  replace (N.pred (N.of_nat (S j))) with (N.of_nat j) by lia. apply IH. cbn in Hj. lia.
Qed.
Lemma y_from : forall p lf d v, call p G lf (S (S d)) (Some "PositionInfo") "from<NodeIndex>" [ix_ v] = Ret (Some (v_pos (pi_from v), [ix_ v])).
Proof. intros. vm_compute. reflexivity. Qed.
Definition after_filter : list stmt :=
               [SLet (PVar "i") None
                  (Some
                     (EWith (EMethod (EPath ["tolist"]) "iter" []) "position"
                        [] [PVar "e"] Accepts));
                SExpr
                  (EIfLet (PCtor ["Some"] [PVar "i"]) 
                     (EPath ["i"])
                     [SLet (PVar "fakedot") None
                        (Some
                           (EMethod (EField (EPath ["self"]) "builder")
                              "make_position" []));
                      SExpr
                        (EAssign None
                           (EIndex (EPath ["tolist"]) (EPath ["i"]))
                           (EMethod (EPath ["fakedot"]) "into" []))] None)] ++ We.
Lemma list_upd_length : forall {A} (l : list A) j f, List.length (list_upd l j f) = List.length l.
Proof. induction l as [|x l IH]; intros [|j] f; cbn; auto. Qed.
Definition replaced (b : build_state) (t : list position_info) : outcome (nfa_builder * list position_info) :=
  match position_of (bs_accept b) t with
  | Some i => let! (b', fakedot) := make_position (bs_builder b) in Ret (b', list_upd t i (fun _ => pi_from fakedot))
  | None => Ret (bs_builder b, t)
  end.
Lemma y_after : forall p lf d b i t, (List.length t < lf)%nat -> exists I,
  exec (Ev p (Some "GlushkovBuildState") (call p G lf (S (S (S (S (S d)))))) lf) after_filter [("self", v_bs b); ("from", v_pos i); ("tolist", VList (map v_pos t))] =
  (let! (b', t2) := replaced b t in
   val_ VUnit [("i", I); ("self", v_bs (BuildState (bs_start b) (bs_start_ds b) (bs_accept b) (bs_accept_eod b) b' (succ_insert (bs_successors b) (pi_pos i) t2))); ("from", v_pos i); ("tolist", VList (map v_pos t2))]).
Proof.
  intros p lf d b i t Ht. unfold after_filter, replaced. destruct (position_of (bs_accept b) t) as [j|] eqn:J.
  - exists (some_ (VInt Usize (0 + N.of_nat j))). cbn [app]. pose proof (position_lt _ _ _ J). unfold We. repeat lhs. rewrite y_position, J. repeat lhs.
    destruct (make_position (bs_builder b)) as [[b1 f]| |]; [|reflexivity|reflexivity]. cbn [bind]. repeat lhs.
    change ("from<" ++ "NodeIndex" ++ ">")%string with "from<NodeIndex>". rewrite y_from. destruct (nth_pos t j H) as [x X]. change (0 + N.of_nat j) with (N.of_nat j). repeat lhs. unfold index. rewrite X. repeat lhs. change (adopt (v_pos x) (v_pos (pi_from f))) with (v_pos (pi_from f)). unfold set_index.
    rewrite upd_pos by exact H. repeat lhs. fold Ws. 
    match goal with |- context [VStruct "GlushkovBuildState" _] => idtac end.
    pose proof (y_entry p lf (S (S (S (S (S d))))) (Some "GlushkovBuildState") (BuildState (bs_start b) (bs_start_ds b) (bs_accept b) (bs_accept_eod b) b1 (bs_successors b)) i (some_ (VInt Usize (N.of_nat j)))
      (list_upd t j (fun _ => pi_from f))) as Y. cbn [bs_start bs_start_ds bs_accept bs_accept_eod bs_builder bs_successors] in Y. apply Y. rewrite list_upd_length. exact Ht.
  - exists none_. cbn [app]. repeat lhs. rewrite y_position, J. unfold We. repeat lhs. apply y_entry. exact Ht.
Qed.

Lemma filter_le : forall {A} (f : A -> bool) l, (List.length (filter f l) <= List.length l)%nat.
Proof. intros A f l. induction l as [|x l IH]; cbn; [lia|]. destruct (f x); cbn; lia. Qed.
Lemma filter_edges_le : forall b i l t, filter_edges b i l = Ret t -> (List.length t <= List.length l)%nat.
Proof.
  intros b i l t. unfold filter_edges. destruct (get_assert_flag _ _) as [fl| |]; cbn [bind]; try discriminate. intro H. injection H as <-.
  set (t1 := if pi_pos i =? bs_start_ds b then _ else _). assert (L : (List.length t1 <= List.length l)%nat).
  { unfold t1. destruct (_ =? _); [destruct (contains _ _); [cbn; lia|apply filter_le]|]. destruct (_ =? _); [|lia]. eapply Nat.le_trans; [apply filter_le|apply filter_le]. }
  destruct (contains fl _); [|exact L]. eapply Nat.le_trans; [apply filter_le|exact L].
Qed.
Lemma y_connect : forall p lf d b i l, (List.length l < lf)%nat -> exists t, call p G lf (S (S (S (S (S (S d)))))) (Some "GlushkovBuildState") "connect_successors" [v_bs b; v_pos i; VList (map v_pos l)] =
  (let! b' := connect_successors p b i l in Ret (Some (VUnit, [v_bs b'; v_pos i; VList (map v_pos t)]))).
Proof.
  intros p lf d b i l Hl. unfold connect_successors, rs_debug_assert. destruct (filter_edges b i l) as [t1| |] eqn:F; cycle 1.
  1-2: exists []; enter; repeat lhs; destruct (debug_assertions p); repeat lhs; rewrite ?ne_ix; [destruct (pi_pos i =? pos_epsilon); [reflexivity|]|]; cbn [negb andb bind]; repeat lhs; rewrite F; reflexivity.
  cbn [bind]. pose proof (filter_edges_le _ _ _ _ F) as L. destruct (y_after p lf d b i t1) as [I A]; [lia|].
  change (match position_of (bs_accept b) t1 with
          | Some i0 => let! (b', fakedot) := make_position (bs_builder b) in Ret (b', list_upd t1 i0 (fun _ => pi_from fakedot))
          | None => Ret (bs_builder b, t1) end) with (replaced b t1).
  exists (match replaced b t1 with Ret (_, t2) => t2 | _ => [] end).
  enter. repeat lhs. destruct (debug_assertions p); repeat lhs; rewrite ?ne_ix; [destruct (pi_pos i =? pos_epsilon); [reflexivity|]|]; cbn [negb andb bind]; 
  repeat lhs; rewrite F; cbn [bind];
  repeat (lazymatch goal with |- context [exec _ (SLet (PVar "i") None _ :: _) [_; _; _]] => fail | _ => lhs end);
  (match goal with |- context [exec ?e (SLet (PVar "i") None ?q :: ?r) ?s] => change (exec e (SLet (PVar "i") None q :: r) s) with (exec e after_filter s) end);
  rewrite A; (destruct (replaced b t1) as [[b2 t2]| |]; [|reflexivity|reflexivity]); cbn [bind]; repeat lhs; reflexivity.
Qed.
