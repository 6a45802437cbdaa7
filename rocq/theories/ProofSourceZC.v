(** Runs of the source text: [build], [compile_multi_int], [compile_multi] and [compile]. *)
From Verif Require Import Base ModelUtil ModelBitField ModelCharReach ModelLiteral ModelReport ModelPetgraph ModelParser ModelNfa ModelSmallWrite ModelCompiler
  ModelRust ModelInterp ModelDump ModelSource SpecSource SpecSourceCrate.
From Verif Require Import ProofBase ProofSourceA ProofSourceB ProofSourceC ProofSourceD ProofSourceE ProofSourceF ProofSourceL ProofSourceR ProofSourceS ProofSourceT ProofSourceU ProofSourceW ProofSourceX ProofSourceV ProofSourceY ProofSourceZ ProofSourceZA ProofSourceZB.
Local Open Scope string_scope.
Local Open Scope N_scope.
Local Open Scope list_scope.
Lemma b_generate : forall p lf d n, call p G lf (S (S (S (S (S d))))) None "generate_rose_engine" [v_ng n] = Ret (Some (v_engine (build_rose (ng_rose n)), [v_ng n])).
Proof. enter. auto_. Qed.
Lemma b_db : forall p lf d r, call p G lf (S (S d)) None "db_create" [v_engine r] = Ret (Some (v_db (Database r), [v_engine r])).
Proof. enter. auto_. Qed.
#[export] Hint Rewrite b_generate b_db : calls.
Lemma b_build : forall p lf d n, call p G lf (S (S (S (S (S (S d)))))) None "build" [v_ng n] = Ret (Some (v_db (build n), [v_ng n])).
Proof. enter. auto_. Qed.
#[export] Hint Rewrite b_build : calls.
Lemma b_block_is_streaming : forall p lf d, call p G lf (S d) (Some "Mode") "is_streaming" [(VCtor "Mode::Block" [])] = Ret (Some (VBool (is_streaming Block), [(VCtor "Mode::Block" [])])).
Proof. intros. exact (n_streaming p lf d Block). Qed.
Lemma b_block_is_vectored : forall p lf d, call p G lf (S d) (Some "Mode") "is_vectored" [(VCtor "Mode::Block" [])] = Ret (Some (VBool (is_vectored Block), [(VCtor "Mode::Block" [])])).
Proof. intros. exact (n_vectored p lf d Block). Qed.
Lemma b_block_som_precision : forall p lf d, call p G lf (S d) (Some "Mode") "som_precision" [(VCtor "Mode::Block" [])] = Ret (Some (VInt Usize (som_precision Block), [(VCtor "Mode::Block" [])])).
Proof. intros. exact (n_precision p lf d Block). Qed.
Lemma b_stream_is_streaming : forall p lf d h, call p G lf (S d) (Some "Mode") "is_streaming" [(VCtor "Mode::Stream" [match h with Some h => some_ (v_horizon h) | None => none_ end])] = Ret (Some (VBool (is_streaming (Stream h)), [(VCtor "Mode::Stream" [match h with Some h => some_ (v_horizon h) | None => none_ end])])).
Proof. intros. exact (n_streaming p lf d (Stream h)). Qed.
Lemma b_stream_is_vectored : forall p lf d h, call p G lf (S d) (Some "Mode") "is_vectored" [(VCtor "Mode::Stream" [match h with Some h => some_ (v_horizon h) | None => none_ end])] = Ret (Some (VBool (is_vectored (Stream h)), [(VCtor "Mode::Stream" [match h with Some h => some_ (v_horizon h) | None => none_ end])])).
Proof. intros. exact (n_vectored p lf d (Stream h)). Qed.
Lemma b_stream_som_precision : forall p lf d h, call p G lf (S d) (Some "Mode") "som_precision" [(VCtor "Mode::Stream" [match h with Some h => some_ (v_horizon h) | None => none_ end])] = Ret (Some (VInt Usize (som_precision (Stream h)), [(VCtor "Mode::Stream" [match h with Some h => some_ (v_horizon h) | None => none_ end])])).
Proof. intros. exact (n_precision p lf d (Stream h)). Qed.
Lemma b_vectored_is_streaming : forall p lf d, call p G lf (S d) (Some "Mode") "is_streaming" [(VCtor "Mode::Vectored" [])] = Ret (Some (VBool (is_streaming Vectored), [(VCtor "Mode::Vectored" [])])).
Proof. intros. exact (n_streaming p lf d Vectored). Qed.
Lemma b_vectored_is_vectored : forall p lf d, call p G lf (S d) (Some "Mode") "is_vectored" [(VCtor "Mode::Vectored" [])] = Ret (Some (VBool (is_vectored Vectored), [(VCtor "Mode::Vectored" [])])).
Proof. intros. exact (n_vectored p lf d Vectored). Qed.
Lemma b_vectored_som_precision : forall p lf d, call p G lf (S d) (Some "Mode") "som_precision" [(VCtor "Mode::Vectored" [])] = Ret (Some (VInt Usize (som_precision Vectored), [(VCtor "Mode::Vectored" [])])).
Proof. intros. exact (n_precision p lf d Vectored). Qed.
#[export] Hint Rewrite b_block_is_streaming b_block_is_vectored b_block_som_precision b_stream_is_streaming b_stream_is_vectored b_stream_som_precision b_vectored_is_streaming b_vectored_is_vectored b_vectored_som_precision : calls.
Definition Wc : list stmt := [SLast (EIfLet (PCtor ["Err"] [PVar "e"]) (ECall ["add_expression"] [EUn URefMut (EPath ["ng"]); EPath ["i"]; EPath ["exp"]; EPath ["fl"]; EPath ["id"]])
  [SExpr (EMethod (EPath ["e"]) "set_expression_index" [EMethod (ETryInto (EPath ["i"]) "u32") "unwrap" []]); SExpr (EReturn (Some (ECall ["Err"] [EPath ["e"]])))] None)].
Definition cenv (n : ng) c k v t e f i m g : env :=
  [("ng", v_ng n); ("cc", c); ("som_precision", k); ("is_vectored", v); ("is_streaming", t); ("expressions", e); ("flags", f); ("ids", i); ("mode", m); ("g", g)].
Definition roomy1 p lf d (n : ng) i s f id : Prop := (300 + S (List.length s) <= lf)%nat /\
  (forall pe, str_len s <= limit_pattern_length (cc_grey (ng_cc n)) -> parsed_expression_new p i s f id = Ret (ROk pe) -> (S (need (pe_component pe)) <= d /\ S (size (pe_component pe)) <= d /\ 300 + need (pe_component pe) <= lf /\ 300 + size (pe_component pe) <= lf)%nat /\
     (forall m, walk_component p (construct_literal_visitor p) lit_default (pe_component pe) = Ret (ROk m) -> N.of_nat (List.length (lit_s m)) < 2 ^ usize_bits p)).
Lemma b_step : forall p lf d lf0 n i s f id c k v t e f0 i0 m g, one_grey n -> (13 <= d)%nat -> roomy1 p lf d n i s f id ->
  eval p G None (call p G lf (S d)) (loop p G None (call p G lf (S d)) lf0) (EBlock Wc) (("id", VInt U32 id) :: ("fl", v_flags f) :: ("exp", VStr s) :: ("i", VInt Usize i) :: cenv n c k v t e f0 i0 m g) =
  (let! (n', r) := add_expression p n i s f id in
   match r with
   | ROk _ => val_ VUnit (("id", VInt U32 id) :: ("fl", v_flags f) :: ("exp", VStr s) :: ("i", VInt Usize i) :: cenv n' c k v t e f0 i0 m g)
   | RErr er => let! i32 := to_u32 i in let! e' := set_expression_index p er i32 in
     Ret (Some (FRet (Err_ (v_err e')), ("id", VInt U32 id) :: ("fl", v_flags f) :: ("exp", VStr s) :: ("i", VInt Usize i) :: cenv n' c k v t e f0 i0 m g))
   end).
Proof.
  intros p lf d lf0 n i s f id c k v t e f0 i0 m g Hg Hd [H1 H2]. unfold Wc, cenv. repeat lhs; rewrite (a_add p lf d n i s f id Hg Hd H1 H2);
  (destruct (add_expression p n i s f id) as [[n' [[]|er]]| |]; [| |reflexivity|reflexivity]); cbn [bind v_res]; repeat lhs.
  1: reflexivity.
  all: unfold to_u32; (destruct (i <? 2 ^ 32); repeat lhs; [|reflexivity]); cbn [bind]; rewrite l_set_index; (destruct (set_expression_index p er i) as [e'| |]; [|reflexivity|reflexivity]); repeat lhs; reflexivity.
Qed.
Definition item (x : str * flags * N) : val := VTuple [VStr (fst (fst x)); v_flags (snd (fst x)); VInt U32 (snd x)].
Definition Wq : pat := PTuple [PVar "i"; PTuple [PVar "exp"; PVar "fl"; PVar "id"]].
Fixpoint roomy (p : profile) (lf d : nat) (i : N) (l : list (str * flags * N)) : Prop :=
  match l with
  | [] => True
  | (s, f, id) :: t => ((300 + S (List.length s) <= lf)%nat /\ (forall pe, parsed_expression_new p i s f id = Ret (ROk pe) ->
      S (need (pe_component pe)) <= d /\ S (size (pe_component pe)) <= d /\ 300 + need (pe_component pe) <= lf /\ 300 + size (pe_component pe) <= lf)%nat) /\ roomy p lf d (i + 1) t
  end.
Lemma b_loop : forall p lf d l c k v t e f0 i0 m g, (13 <= d)%nat -> forall lf0 n i, one_grey n -> limit_pattern_length (cc_grey (ng_cc n)) < 2 ^ usize_bits p -> roomy p lf d i l -> (List.length l < lf0)%nat ->
  exists ne, loop p G None (call p G lf (S d)) lf0 (WFor Wq (enumerate_from i (map item l)) Wc) (cenv n c k v t e f0 i0 m g) =
  (let! r := add_all p n i l in
   match r with
   | ROk n' => val_ VUnit (cenv n' c k v t e f0 i0 m g)
   | RErr er => Ret (Some (FRet (Err_ (v_err er)), cenv ne c k v t e f0 i0 m g))
   end).
Proof.
  intros p lf d l c k v t e f0 i0 m g Hd. induction l as [|[[s f] id] l IH]; intros lf0 n i Hg Hu Hr Hl; (destruct lf0 as [|lf0]; [inversion Hl|]).
  - exists n. reflexivity.
  - cbn [map enumerate_from add_all item fst snd]. rewrite turn_for. destruct Hr as [[R1 R2] R3]. cbn [pmatch Wq].
    assert (R : roomy1 p lf d n i s f id).
    { split; [assumption|]. intros pe L P. split; [apply R2; assumption|]. intros l' W. apply (literal_short _ _ _ _ _ _ _ P) in W. lia. }
    pose proof (b_step p lf d lf0 n i s f id c k v t e f0 i0 m g Hg Hd R) as B.
    destruct (add_expression p n i s f id) as [[n' [[]|er]]| |] eqn:A; cbn [bind] in *.
    + destruct (IH lf0 n' (i + 1)) as [ne E]; [apply (keeps_grey n); [assumption|apply add_keeps in A; exact A]|apply add_keeps in A; destruct A as [-> _]; assumption|assumption|cbn [List.length] in Hl; lia|].
      exists ne. rewrite <- E. eapply eq_trans; [apply (f_equal (fun x => bind x _) B)|reflexivity].
    + exists n'. eapply eq_trans; [apply (f_equal (fun x => bind x _) B)|].
      destruct (to_u32 i) as [i32| |]; [|reflexivity|reflexivity]. cbn [bind]. destruct (set_expression_index p er i32) as [e'| |]; reflexivity.
    + exists n. eapply eq_trans; [apply (f_equal (fun x => bind x _) B)|reflexivity].
    + exists n. eapply eq_trans; [apply (f_equal (fun x => bind x _) B)|reflexivity].
Qed.
Lemma zipped : forall es fs ids, map (fun x : val * val * val => VTuple [fst (fst x); snd (fst x); snd x]) (combine (combine (map VStr es) (map v_flags fs)) (map (VInt U32) ids)) = map item (zip3 es fs ids).
Proof. induction es as [|e es IH]; intros [|f fs] [|i ids]; try reflexivity. cbn [map combine zip3 item fst snd]. rewrite IH. reflexivity. Qed.
Lemma new_grey : forall c n k, one_grey (ng_new c n k).
Proof. intros c n k. split; reflexivity. Qed.
Lemma b_multi_int : forall p lf d es fs ids m g, (15 <= d)%nat -> limit_pattern_length g < 2 ^ usize_bits p -> (300 + List.length es <= lf)%nat -> roomy p lf (pred d) 0 (zip3 es fs ids) ->
  call p G lf (S d) None "compile_multi_int" [VList (map VStr es); VList (map v_flags fs); VList (map (VInt U32) ids); v_scan m; v_grey g] =
  (let! r := compile_multi_int p es fs ids m g in Ret (Some (v_res v_db r, [VList (map VStr es); VList (map v_flags fs); VList (map (VInt U32) ids); v_scan m; v_grey g]))).
Proof.
  intros p lf d es fs ids m g Hd Hu Hl Hr. do 15 (destruct d as [|d]; [lia|]). cbn [pred] in Hr. enter. unfold compile_multi_int. repeat lhs. destruct es as [|e es]; [cbn [map]; auto_; reflexivity|]. cbn [map]. repeat lhs.
  cbn [List.length]. rewrite ?map_length. destruct (limit_pattern_count g <? _); [repeat lhs; reflexivity|]. repeat lhs.
  assert (Z : (List.length (zip3 (e :: es) fs ids) < lf)%nat).
  { assert (Q : forall es (fs : list flags) (ids : list N), (List.length (zip3 (A := str) es fs ids) <= List.length es)%nat) by (clear; induction es as [|x es IH]; intros [|f fs] [|i ids]; cbn [zip3 List.length]; try lia; specialize (IH fs ids); lia).
    specialize (Q (e :: es) fs ids). lia. }
  destruct m as [|h|]; unfold v_scan; repeat lhs; rewrite ?map_length;
  match goal with |- context[loop p G None (call p G lf ?dd) lf (WFor ?q (enumerate_from 0 ?x) ?bd) [("ng", v_ng ?n); ("cc", ?c); ("som_precision", ?k); ("is_vectored", ?v); ("is_streaming", ?t); ("expressions", ?e0); ("flags", ?f0); ("ids", ?i0); ("mode", ?m0); ("g", ?g0)]] =>
    let L := fresh "L" in let E := fresh "E" in let ne := fresh "ne" in
    destruct (b_loop p lf (pred dd) (zip3 (e :: es) fs ids) c k v t e0 f0 i0 m0 g0 ltac:(cbn [pred]; lia) lf n 0 (new_grey _ _ _) Hu Hr Z) as [ne L];
    rewrite <- zipped in L;
    assert (E : loop p G None (call p G lf dd) lf (WFor q (enumerate_from 0 x) bd) [("ng", v_ng n); ("cc", c); ("som_precision", k); ("is_vectored", v); ("is_streaming", t); ("expressions", e0); ("flags", f0); ("ids", i0); ("mode", m0); ("g", g0)] =
      (let! r := add_all p n 0 (zip3 (e :: es) fs ids) in
       match r with
       | ROk n' => val_ VUnit (cenv n' c k v t e0 f0 i0 m0 g0)
       | RErr er => Ret (Some (FRet (Err_ (v_err er)), cenv ne c k v t e0 f0 i0 m0 g0))
       end)) by exact L;
    rewrite E; clear L E; cbn [is_streaming is_vectored som_precision];
    destruct (add_all p n 0 (zip3 (e :: es) fs ids)) as [[n'|er]| |]; [| |reflexivity|reflexivity] end; cbn [bind bindr v_res]; unfold cenv; repeat lhs.
  all: reflexivity.
Qed.
