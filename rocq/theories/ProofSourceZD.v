(** Runs of the source text: [compile_multi] and [compile]. *)
From Verif Require Import Base ModelUtil ModelBitField ModelCharReach ModelLiteral ModelReport ModelPetgraph ModelParser ModelNfa ModelSmallWrite ModelCompiler
  ModelRust ModelInterp ModelDump ModelSource SpecSource SpecSourceCrate.
From Verif Require Import ProofBase ProofSourceA ProofSourceB ProofSourceC ProofSourceD ProofSourceE ProofSourceF ProofSourceL ProofSourceM ProofSourceP ProofSourceR ProofSourceS ProofSourceT ProofSourceU ProofSourceW ProofSourceX ProofSourceV ProofSourceY ProofSourceZ ProofSourceZA ProofSourceZB ProofSourceZC.
Local Open Scope string_scope.
Local Open Scope N_scope.
Local Open Scope list_scope.
Lemma default_limit : forall p, limit_pattern_length grey_default < 2 ^ usize_bits p.
Proof. intros [[] [] []]; vm_compute; reflexivity. Qed.
Lemma d_multi : forall p lf d es fs ids m, (15 <= d)%nat -> (300 + List.length es <= lf)%nat -> roomy p lf (pred d) 0 (zip3 es fs ids) ->
  call p G lf (S (S d)) None "compile_multi" [VList (map VStr es); VList (map v_flags fs); VList (map (VInt U32) ids); v_scan m] =
  (let! r := compile_multi p es fs ids m in Ret (Some (v_res v_db r, [VList (map VStr es); VList (map v_flags fs); VList (map (VInt U32) ids); v_scan m]))).
Proof.
  intros p lf d es fs ids m Hd Hl Hr. enter. unfold compile_multi. repeat lhs. rewrite (b_multi_int p lf d es fs ids m grey_default Hd (default_limit p) Hl Hr).
  destruct (compile_multi_int p es fs ids m grey_default) as [[db|e]| |]; [| |reflexivity|reflexivity]; cbn [bind v_res]; repeat lhs; reflexivity.
Qed.
Lemma d_compile : forall p lf d s f m, (15 <= d)%nat -> (300 + 1 <= lf)%nat -> roomy p lf (pred d) 0 [(s, f, 0)] ->
  call p G lf (S (S d)) None "compile" [VStr s; v_flags f; v_scan m] =
  (let! r := compile p s f m in Ret (Some (v_res v_db r, [VStr s; v_flags f; v_scan m]))).
Proof.
  intros p lf d s f m Hd Hl Hr. enter. unfold compile. repeat lhs. pose proof (b_multi_int p lf d [s] [f] [0] m grey_default Hd (default_limit p) Hl Hr) as E. cbn [map] in E. rewrite E.
  destruct (compile_multi_int p _ _ _ m grey_default) as [[db|e]| |]; [| |reflexivity|reflexivity]; cbn [bind v_res]; repeat lhs; reflexivity.
Qed.
Lemma roomy_more : forall p l i lf d lf' d', roomy p lf d i l -> (lf <= lf')%nat -> (d <= d')%nat -> roomy p lf' d' i l.
Proof.
  intros p l. induction l as [|[[s f] id] l IH]; intros i lf d lf' d' H Hl Hd; [exact I|]. destruct H as [[A B] C]. split; [split; [lia|]|apply (IH _ lf d); assumption].
  intros pe P. specialize (B pe P). lia.
Qed.
Lemma roomy_some : forall p l i, exists k, roomy p k k i l.
Proof.
  intros p l. induction l as [|[[s f] id] l IH]; intro i; [exists 0%nat; exact I|]. destruct (IH (i + 1)) as [k K].
  set (b := match parsed_expression_new p i s f id with Ret (ROk pe) => (need (pe_component pe) + size (pe_component pe))%nat | _ => 0%nat end).
  exists (302 + List.length s + b + k)%nat. split; [split; [lia|]|apply (roomy_more _ _ _ k k); [assumption|lia|lia]].
  intros pe P. unfold b. rewrite P. lia.
Qed.
