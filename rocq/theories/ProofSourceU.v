(** Runs of the source text: graphs and the small-write builder. *)
From Verif Require Import Base ModelUtil ModelBitField ModelCharReach ModelLiteral ModelReport ModelPetgraph ModelParser ModelNfa ModelSmallWrite ModelCompiler
  ModelRust ModelInterp ModelDump ModelSource SpecSource SpecSourceCrate.
From Verif Require Import ProofBase ProofSourceA ProofSourceB ProofSourceC ProofSourceD ProofSourceE ProofSourceF ProofSourceL ProofSourceR ProofSourceT.
Local Open Scope string_scope.
Local Open Scope N_scope.
Local Open Scope list_scope.
Lemma u_with_byte : forall p lf d c, call p G lf (S d) (Some "LitTrieVertexProps") "with_byte" [VInt U8 c] = Ret (Some (v_trie_props (tp_with_byte c), [VInt U8 c])).
Proof. enter. auto_. Qed.
Lemma u_props_default : forall p lf d, call p G lf (S d) (Some "LitTrieVertexProps") "default" [] = Ret (Some (v_trie_props tp_default, [])).
Proof. enter. auto_. Qed.
#[export] Hint Rewrite u_with_byte u_props_default : calls.
Lemma u_trie_default : forall p lf d, call p G lf (S (S d)) (Some "LitTrie") "default" [] = Ret (Some (v_trie trie_default, [])).
Proof. enter. auto_. Qed.
Lemma u_trie_empty : forall p lf d t, call p G lf (S d) (Some "LitTrie") "is_empty" [v_trie t] = Ret (Some (VBool (trie_is_empty t), [v_trie t])).
Proof. enter. auto_. unfold trie_is_empty, node_count. rewrite map_length. reflexivity. Qed.
Lemma u_MAX : forall p lf d, call p G lf (S d) None "MAX_TRIE_VERTICES" [] = Ret (Some (VInt Usize MAX_TRIE_VERTICES, [])).
Proof. enter. auto_. Qed.
#[export] Hint Rewrite u_trie_default u_MAX : calls.
Lemma u_smwr_new : forall p lf d n c, call p G lf (S (S (S d))) (Some "SmallWriteBuild") "new" [VInt Usize n; v_ctx c] =
  Ret (Some (v_smwr c (smwr_new n (cc_grey c)), [VInt Usize n; v_ctx c])).
Proof. enter. auto_; unfold v_smwr, smwr_new; rewrite Heqb; reflexivity. Qed.
#[export] Hint Rewrite u_smwr_new : calls.
Lemma rev_flat : forall {A B} (f : A -> list B) l, (forall x, f x = [] \/ exists y, f x = [y]) -> rev (flat_map f l) = flat_map f (rev l).
Proof.
  intros A B f l H. induction l as [|x l IH]; [reflexivity|]. cbn [flat_map rev]. rewrite rev_app_distr, IH, flat_map_app. cbn [flat_map]. rewrite app_nil_r. f_equal.
  destruct (H x) as [E|[y E]]; rewrite E; reflexivity.
Qed.
Definition v_edge (e : N * N) : val := VTuple [VInt U32 (fst e); VInt U32 (snd e)].
Lemma neighbours_out : forall {A} (g : graph A) v, neighbours true v (map v_edge (edges g)) = map ix_ (neighbors_out g v).
Proof.
  intros A g v. unfold neighbours, neighbors_out. rewrite rev_flat by (intro x; destruct (edge_ends x) as [a b]; destruct (a =? v); eauto).
  rewrite <- map_rev. induction (rev (edges g)) as [|[a b] l IH]; [reflexivity|]. cbn [map flat_map filter fst snd v_edge edge_ends]. destruct (a =? v); cbn [map app snd]; rewrite IH; reflexivity.
Qed.
Lemma neighbours_in : forall {A} (g : graph A) v, neighbours false v (map v_edge (edges g)) = map ix_ (neighbors_in g v).
Proof.
  intros A g v. unfold neighbours, neighbors_in. rewrite rev_flat by (intro x; destruct (edge_ends x) as [a b]; destruct (b =? v); eauto).
  rewrite <- map_rev. induction (rev (edges g)) as [|[a b] l IH]; [reflexivity|]. cbn [map flat_map filter fst snd v_edge edge_ends]. destruct (b =? v); cbn [map app fst]; rewrite IH; reflexivity.
Qed.
Definition Wt : list stmt := 
                  [SExpr
                     (EAssign None (EPath ["u"])
                        (EWith
                           (EWith
                              (EMethod (EField (EPath ["trie"]) "inner")
                                 "neighbors_directed"
                                 [EPath ["u"];
                                  EPath ["Direction"; "Outgoing"]]) "find" []
                              [PVar "v"]
                              (EBin BEq
                                 (EField
                                    (EIndex (EField (EPath ["trie"]) "inner")
                                       (EUn UDeref (EPath ["v"]))) "c")
                                 (EField (EPath ["c"]) "c")))
                           "unwrap_or_else" [] []
                           (EBlock
                              [SLet (PVar "next") None
                                 (Some
                                    (EMethod
                                       (EField (EPath ["trie"]) "inner")
                                       "add_node"
                                       [ECall
                                          ["LitTrieVertexProps"; "with_byte"]
                                          [EField (EPath ["c"]) "c"]]));
                               SExpr
                                 (EMethod (EField (EPath ["trie"]) "inner")
                                    "add_edge"
                                    [EPath ["u"]; 
                                     EPath ["next"];
                                     EStruct ["LitTrieEdgeProps"] []]);
                               SLast (EPath ["next"])])))].
Lemma nth_small : forall {A} (l : list A) n, (if n <? N.of_nat (List.length l) then nth_error l (N.to_nat n) else None) = nth_error l (N.to_nat n).
Proof. intros. destruct (N.ltb_spec n (N.of_nat (List.length l))); [reflexivity|]. symmetry. apply nth_error_None. lia. Qed.
Lemma nthN_weight : forall {A} (f : A -> val) (g : graph A) n, nthN (map f (nodes g)) n = option_map f (node_weight g n).
Proof.
  intros A f g n. unfold node_weight, node_count. rewrite nth_small. generalize (nodes g). intro l. revert n. induction l as [|x l IH]; intro n.
  - cbn. destruct (N.to_nat n); reflexivity.
  - cbn [map nthN]. destruct (N.eqb_spec n 0) as [->|E]; [reflexivity|]. rewrite IH. replace (N.to_nat n) with (S (N.to_nat (N.pred n))) by lia. reflexivity.
Qed.
Lemma updN_weight : forall {A} (f : A -> val) (h : A -> A) (g : graph A) n x, node_weight g n = Some x ->
  updN (map f (nodes g)) n (f (h x)) = Some (map f (list_upd (nodes g) (N.to_nat n) h)).
Proof.
  intros A f h g n x. unfold node_weight, node_count. rewrite nth_small. generalize (nodes g). intro l. revert n. induction l as [|y l IH]; intro n.
  - destruct (N.to_nat n); discriminate.
  - cbn [map updN]. destruct (N.eqb_spec n 0) as [->|E]; [intro H; injection H as ->; reflexivity|]. replace (N.to_nat n) with (S (N.to_nat (N.pred n))) by lia. cbn [nth_error]. intro H.
    rewrite (IH _ H). reflexivity.
Qed.
Lemma u_find : forall p lf d lp g root e u l r vs i,
  found (eval p G None (call p G lf (S d)) lp) [PVar "v"]
                 (EBin BEq
                    (EField
                       (EIndex (EField (EPath ["trie"]) "inner")
                          (EUn UDeref (EPath ["v"]))) "c")
                    (EField (EPath ["c"]) "c"))
                 (map ix_ vs) i
                 [("c", v_elem e); ("u", ix_ u); (
                  "literal", v_lit l); ("report", VInt U32 r);
                  ("trie",
                   VStruct "LitTrie"
                     [("inner", v_graph v_trie_props g); ("root", ix_ root)])]
                 (fun (o : option (N * val)) (s1 : env) =>
                  val_
                    match o with
                    | Some (_, v) => some_ v
                    | None => none_
                    end s1) =
  (let! r0 := find_child g (el_c e) vs in val_ (match r0 with Some v => some_ (ix_ v) | None => none_ end)
      [("c", v_elem e); ("u", ix_ u); ("literal", v_lit l); ("report", VInt U32 r); ("trie", VStruct "LitTrie" [("inner", v_graph v_trie_props g); ("root", ix_ root)])]).
Proof.
  intros p lf d lp g root e u l r vs. induction vs as [|v vs IH]; intro i; [reflexivity|]. cbn [map find_child]. repeat lhs.
  unfold node_index. rewrite nthN_weight. destruct (node_weight g v) as [x|]; cbn [option_map]; [|reflexivity]. repeat lhs. cbn [bind]. destruct (tp_c x =? el_c e); repeat lhs; [reflexivity|]. apply IH.
Qed.
Lemma max_lt : forall a b n, (N.max a b <? n) = ((a <? n) && (b <? n)).
Proof. intros. destruct (N.ltb_spec (N.max a b) n), (N.ltb_spec a n), (N.ltb_spec b n); cbn; lia. Qed.
Lemma u_step : forall p lf d lp g root e u l r,
  eval p G None (call p G lf (S d)) lp (EBlock Wt) [("c", v_elem e); ("u", ix_ u); ("literal", v_lit l); ("report", VInt U32 r); ("trie", v_trie (LitTrie g root))] =
  (let! (g', u') := trie_step g u (el_c e) in val_ VUnit [("c", v_elem e); ("u", ix_ u'); ("literal", v_lit l); ("report", VInt U32 r); ("trie", v_trie (LitTrie g' root))]).
Proof.
  intros. unfold Wt, trie_step. repeat lhs. change (fun e0 : N * N => VTuple [VInt U32 (fst e0); VInt U32 (snd e0)]) with v_edge. rewrite neighbours_out, u_find.
  destruct (find_child g (el_c e) (neighbors_out g u)) as [[v|]| |]; [repeat lhs; reflexivity| |reflexivity|reflexivity]. repeat lhs. unfold add_node, add_edge, node_count, IX_END.
  rewrite map_length. cbn [bind]. destruct (N.of_nat (List.length (nodes g)) =? 2 ^ 32 - 1); [reflexivity|]. cbn [bind nodes edges]. repeat lhs. rewrite !app_length, !map_length. cbn [bind List.length].
  destruct (N.of_nat (List.length (edges g)) =? 2 ^ 32 - 1); [reflexivity|]. rewrite max_lt. destruct (_ && _); [|reflexivity]. repeat lhs. cbn [bind]. unfold v_trie, v_graph. cbn [lt_inner lt_root nodes edges]. rewrite !map_app. reflexivity.
Qed.
Lemma u_loop : forall p lf d l, N.of_nat (List.length (lit_s l)) < 2 ^ usize_bits p -> forall f k i u g root r, (f < k)%nat -> (List.length (lit_s l) <= f + i)%nat ->
  loop p G None (call p G lf (S (S (S d)))) k (WForIter (PVar "c") (v_iter l (N.of_nat i)) Wt)
    [("u", ix_ u); ("literal", v_lit l); ("report", VInt U32 r); ("trie", v_trie (LitTrie g root))] =
  (let! (g', u') := trie_walk_insert g u (lit_iter_from (S f) l i) in
   val_ VUnit [("u", ix_ u'); ("literal", v_lit l); ("report", VInt U32 r); ("trie", v_trie (LitTrie g' root))]).
Proof.
  intros p lf d l Hl f. induction f as [|f IH]; intros k i u g root r Hk Hi.
  - destruct k as [|k]; [lia|]. rewrite turn_iter by exact Hl. cbn [lit_iter_from]. rewrite next_end by lia. reflexivity.
  - destruct k as [|k]; [lia|]. rewrite turn_iter by exact Hl. remember (S f) as f'. cbn [lit_iter_from]. destruct (lit_iter_next l i) as [[e i']|] eqn:E; [|reflexivity].
    assert (i' = S i) by (unfold lit_iter_next in E; destruct (nth_error (lit_s l) i); [|discriminate]; destruct (nth_error (lit_nocase l) i); inversion E; reflexivity).
    subst f' i'. cbn [trie_walk_insert pmatch]. rewrite u_step. destruct (trie_step g u (el_c e)) as [[g' u']| |]; [|reflexivity|reflexivity].
    cbn [bind]. repeat lhs. apply IH; lia.
Qed.
Lemma set_add_ids : forall s r, set_add (map (VInt U32) s) (VInt U32 r) = map (VInt U32) (set_insert N.eqb r s).
Proof.
  intros. unfold set_add, set_insert. replace (existsb (val_eqb (VInt U32 r)) (map (VInt U32) s)) with (existsb (N.eqb r) s).
  - destruct (existsb (N.eqb r) s); [reflexivity|]. rewrite map_app. reflexivity.
  - induction s as [|x s IH]; [reflexivity|]. cbn [map existsb]. rewrite IH. reflexivity.
Qed.
Lemma set_weight_is : forall {A} (f : A -> val) (h : A -> A) (g : graph A) n x fs u, node_weight g n = Some x -> set_path (f x) fs u = Some (f (h x)) ->
  set_weight (v_graph f g) (ix_ n) fs u = Some (v_graph f (ModelPetgraph.Graph (list_upd (nodes g) (N.to_nat n) h) (edges g))).
Proof.
  intros A f h g n x fs u E H. unfold set_weight, v_graph, graph_, ix_. rewrite nthN_weight, E. cbn [option_map]. rewrite H, (updN_weight f h g n x E). reflexivity.
Qed.
Lemma put_graph : forall {A} (f : A -> val) (h : A -> A) (g : graph A) pl i n x fs u s, read_place pl s = Some (v_graph f g) -> lookup i s = Some (ix_ n) ->
  node_weight g n = Some x -> set_path (f x) fs u = Some (f (h x)) ->
  put_elem G (pl, i, fs) u s = write_place pl (v_graph f (ModelPetgraph.Graph (list_upd (nodes g) (N.to_nat n) h) (edges g))) s.
Proof.
  intros. unfold put_elem. rewrite H0, H. transitivity (match set_weight (v_graph f g) (ix_ n) fs u with Some v => write_place pl v s | None => None end); [reflexivity|].
  rewrite (set_weight_is f h g n x fs u H1 H2). reflexivity.
Qed.
Lemma fold_add_ids : forall l s, fold_left set_add (map (VInt U32) l) (map (VInt U32) s) = map (VInt U32) (set_extend N.eqb s l).
Proof. induction l as [|x l IH]; intro s; [reflexivity|]. cbn [map fold_left]. rewrite set_add_ids, IH. reflexivity. Qed.
Lemma nthN_mid : forall a (x : val) b, nthN (a ++ x :: b) (N.of_nat (List.length a)) = Some x.
Proof.
  induction a as [|y a IH]; intros x b; [reflexivity|]. cbn [app nthN]. destruct (N.eqb_spec (N.of_nat (List.length (y :: a))) 0) as [E|E]; [cbn [List.length] in E; lia|].
  replace (N.pred (N.of_nat (List.length (y :: a)))) with (N.of_nat (List.length a)) by (cbn [List.length]; lia). apply IH.
Qed.
Lemma u_folded : forall p lf d lp root es b a s,
  folded (eval p G (Some "LitTrie") (call p G lf d) lp) [PVar "s"; PVar "v"]
            (EBlock [SExpr (EMethod (EPath ["s"]) "extend" [EUn URef (EField (EIndex (EField (EPath ["self"]) "inner") (EPath ["v"])) "reports")]); SLast (EPath ["s"])])
            (map ix_ (seqN (N.of_nat (List.length a)) (List.length b))) (VCtor "HashSet" (map (VInt U32) s))
            [("self", VStruct "LitTrie" [("inner", v_graph v_trie_props (ModelPetgraph.Graph (a ++ b) es)); ("root", root)])] =
  val_ (VCtor "HashSet" (map (VInt U32) (fold_left (fun s v => set_extend N.eqb s (tp_reports v)) b s)))
     [("self", VStruct "LitTrie" [("inner", v_graph v_trie_props (ModelPetgraph.Graph (a ++ b) es)); ("root", root)])].
Proof.
  intros p lf d lp root es b. induction b as [|x b IH]; intros a s; [reflexivity|]. cbn [List.length seqN map fold_left]. repeat lhs. cbn [nodes].
  rewrite map_app. cbn [map]. rewrite <- (map_length v_trie_props a), nthN_mid. repeat lhs. rewrite fold_add_ids. specialize (IH (a ++ [x]) (set_extend N.eqb s (tp_reports x))).
  rewrite app_length, <- app_assoc in IH. cbn [List.length app] in IH. rewrite map_length. replace (N.of_nat (List.length a + 1)) with (N.of_nat (List.length a) + 1) in IH by lia. exact IH.
Qed.
Lemma u_trie_reports : forall p lf d t, call p G lf (S d) (Some "LitTrie") "all_reports" [v_trie t] = Ret (Some (v_ids (trie_all_reports t), [v_trie t])).
Proof. enter. destruct t as [[ns es] root]. repeat lhs. cbn [lt_inner lt_root nodes]. rewrite map_length. rewrite (u_folded p lf d _ (ix_ root) es ns [] []). change (VCtor "HashSet" (map (VInt U32) ?l)) with (v_ids l). auto_. unfold trie_all_reports. cbn [lt_inner nodes]. destruct (fold_left _ ns []) as [|? [|]]; reflexivity. Qed.
Lemma u_add_to_trie : forall p lf d l r t, (300 <= lf)%nat -> (List.length (lit_s l) < lf)%nat -> N.of_nat (List.length (lit_s l)) < 2 ^ usize_bits p ->
  call p G lf (S (S (S (S d)))) None "add_to_trie" [v_lit l; VInt U32 r; v_trie t] =
  (let! (t', ok) := add_to_trie l r t in Ret (Some (VBool ok, [v_lit l; VInt U32 r; v_trie t']))).
Proof.
  enter. unfold add_to_trie. repeat lhs. destruct t as [g root]. fold Wt. change 0 with (N.of_nat 0). cbn [lt_root lt_inner]. rewrite (u_loop p lf d l H1 (List.length (lit_s l))) by lia. unfold lit_iter.
  destruct (trie_walk_insert g root (lit_iter_from _ l 0)) as [[g' u]| |]; [|reflexivity|reflexivity]. cbn [bind]. repeat lhs. rewrite nthN_weight. unfold node_update.
  destruct (node_weight g' u) as [x|] eqn:E; [|reflexivity]. cbn [option_map bind]. repeat lhs. rewrite set_add_ids.
  rewrite (put_graph v_trie_props (fun x => TrieProps (tp_c x) (set_insert N.eqb r (tp_reports x))) g' ("trie", ["inner"]) "u" u x ["reports"]); [|reflexivity|reflexivity|exact E|reflexivity].
  auto_. unfold node_count. rewrite map_length. reflexivity.
Qed.
#[export] Hint Rewrite u_add_to_trie using first [lia|assumption] : calls.
Lemma u_add_literal : forall p lf d c s l r, sw_grey s = cc_grey c -> (300 <= lf)%nat -> (List.length (lit_s l) < lf)%nat -> N.of_nat (List.length (lit_s l)) < 2 ^ usize_bits p ->
  call p G lf (S (S (S (S (S d))))) (Some "SmallWriteBuild") "add_literal" [v_smwr c s; v_lit l; VInt U32 r] =
  (let! s' := smwr_add_literal p s l r in Ret (Some (VUnit, [v_smwr c s'; v_lit l; VInt U32 r]))).
Proof.
  enter. destruct s as [gr t1 t2 n po]. cbn [sw_grey] in H. subst gr. unfold smwr_add_literal, smwr_poison. cbn [sw_grey sw_trie sw_trie_nocase sw_num_literals sw_poisoned]. auto_.
  - destruct a0 as [t' []]; auto_.
  - destruct a0 as [t' []]; auto_.
Qed.
#[export] Hint Rewrite u_add_literal using first [lia|assumption] : calls.
