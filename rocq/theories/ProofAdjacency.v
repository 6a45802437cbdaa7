(** Lemmas about petgraph's vectors of nodes and edges. *)
From Verif Require Import Base ModelUtil ModelLiteral ModelPetgraph ModelParser ModelNfa ModelSmallWrite ModelAdjacency SpecAdjacency ProofBase.
Local Open Scope N_scope.
Local Open Scope list_scope.

(** ** The lists of edges *)
Fixpoint path (sel : ledge -> N) (es : list ledge) (ix : N) (l : list nat) : Prop :=
  match l with
  | [] => ix = IX_END
  | k :: t => ix = N.of_nat k /\ exists e, nth_error es k = Some e /\ path sel es (sel e) t
  end.
Definition holds (P : ledge -> bool) (es : list ledge) (k : nat) : bool := match nth_error es k with Some e => P e | None => false end.
Definition places (P : ledge -> bool) (es : list ledge) : list nat := filter (holds P es) (rev (seq 0 (List.length es))).
Lemma path_grows : forall sel es e l ix, path sel es ix l -> path sel (es ++ [e]) ix l.
Proof.
  intros sel es e l; induction l as [|k l IH]; intros ix H; [exact H|]. destruct H as (-> & x & E & H). split; [reflexivity|]. exists x. split; [|apply IH; exact H].
  rewrite nth_error_app1; [exact E|]. apply nth_error_Some. congruence.
Qed.
Lemma places_grow : forall P es e, places P (es ++ [e]) = (if P e then [List.length es] else []) ++ places P es.
Proof.
  intros P es e. unfold places. rewrite app_length, Nat.add_1_r, seq_S, rev_app_distr. cbn [rev app filter Nat.add]. unfold holds at 1. rewrite nth_error_app2, Nat.sub_diag by apply le_n. cbn [nth_error].
  replace (filter (holds P (es ++ [e])) (rev (seq 0 (List.length es)))) with (filter (holds P es) (rev (seq 0 (List.length es)))); [destruct (P e); reflexivity|].
  apply filter_ext_in. intros k I. apply in_rev, in_seq in I. unfold holds. rewrite nth_error_app1 by lia. reflexivity.
Qed.
Lemma places_length : forall P es, (List.length (places P es) <= List.length es)%nat.
Proof.
  intros P es. induction es as [|e es IH] using rev_ind; [apply le_n|]. rewrite places_grow, !app_length. destruct (P e); cbn [List.length]; lia.
Qed.
Definition ends (e : ledge) : N * N := (le_source e, le_target e).
Definition at_place {B} (f : ledge -> B) (d : B) (es : list ledge) (k : nat) : B := match nth_error es k with Some e => f e | None => d end.
Lemma places_map : forall {B} (f : ledge -> B) d (Q : N * N -> bool) (P : ledge -> bool) (F : N * N -> B) es, (forall e, P e = Q (ends e)) -> (forall e, f e = F (ends e)) ->
  map (at_place f d es) (places P es) = map F (filter Q (rev (map ends es))).
Proof.
  intros B f d Q P F es HP Hf. induction es as [|e es IH] using rev_ind; [reflexivity|]. rewrite places_grow, map_app, map_app, rev_app_distr. cbn [map rev app filter].
  assert (M : map (at_place f d (es ++ [e])) (places P es) = map (at_place f d es) (places P es)).
  { apply map_ext_in. intros k I. unfold places in I. apply filter_In in I. destruct I as [I _]. apply in_rev, in_seq in I. unfold at_place. rewrite nth_error_app1 by lia. reflexivity. }
  rewrite M, IH, <- HP. destruct (P e); cbn [map app]; [|reflexivity]. unfold at_place at 1. rewrite nth_error_app2, Nat.sub_diag by apply le_n. cbn [nth_error]. rewrite Hf. reflexivity.
Qed.

(** ** The invariant *)
Record linked {A} (g : lgraph A) : Prop := Linked {
  lk_edges : N.of_nat (List.length (l_edges g)) <= IX_END;
  lk_nodes : l_count g <= IX_END;
  lk_ends : forall e, In e (l_edges g) -> le_source e < l_count g /\ le_target e < l_count g;
  lk_paths : forall v n, nth_error (l_nodes g) v = Some n ->
    path le_out (l_edges g) (ln_out n) (places (fun e => le_source e =? N.of_nat v) (l_edges g)) /\
    path le_in (l_edges g) (ln_in n) (places (fun e => le_target e =? N.of_nat v) (l_edges g)) }.
Lemma linked_new : forall A, linked (@l_new A).
Proof. intro A. constructor; [discriminate|discriminate|contradiction|]. intros [|v] n E; discriminate E. Qed.
Lemma places_none : forall P es, (forall e, In e es -> P e = false) -> places P es = [].
Proof.
  intros P es. induction es as [|e es IH] using rev_ind; intro H; [reflexivity|]. rewrite places_grow, H by (apply in_or_app; right; left; reflexivity). cbn [app]. apply IH. intros x I. apply H, in_or_app. left. exact I.
Qed.
Lemma linked_add_node : forall {A} (g : lgraph A) x g' v, linked g -> l_add_node g x = Ret (g', v) -> linked g' /\ v = l_count g /\ l_count g' = l_count g + 1.
Proof.
  intros A g x g' v [Le Ln En Pa]. unfold l_add_node. destruct (N.eqb_spec (l_count g) IX_END) as [E|E]; [discriminate|]. intros [= <- <-].
  assert (C : l_count (LGraph (l_nodes g ++ [LNode x IX_END IX_END]) (l_edges g)) = l_count g + 1) by (unfold l_count; cbn [l_nodes]; rewrite app_length; cbn [List.length]; lia).
  split; [|split; [reflexivity|exact C]]. constructor; rewrite ?C; cbn [l_edges].
  - exact Le.
  - lia.
  - intros e I. apply En in I. lia.
  - cbn [l_nodes]. intros u n Eu. destruct (Nat.lt_ge_cases u (List.length (l_nodes g))) as [L|L].
    + rewrite nth_error_app1 in Eu by exact L. apply Pa. exact Eu.
    + rewrite nth_error_app2 in Eu by exact L. destruct (u - List.length (l_nodes g))%nat as [|d] eqn:Z; [|destruct d; discriminate Eu]. injection Eu as <-. cbn [ln_out ln_in].
      assert (u = List.length (l_nodes g)) by lia. subst u. rewrite !places_none; [split; reflexivity| |]; intros e I; apply En in I; unfold l_count in I; lia.
Qed.
Lemma nth_upd : forall {A} (l : list A) f k j, nth_error (list_upd l k f) j = if Nat.eqb j k then option_map f (nth_error l j) else nth_error l j.
Proof.
  intros A l f. induction l as [|x l IH]; intros k j; [destruct k, j; cbn; try reflexivity; destruct (Nat.eqb j k); reflexivity|].
  destruct k as [|k], j as [|j]; cbn; try reflexivity. apply IH.
Qed.
Lemma upd_length : forall {A} (l : list A) f k, List.length (list_upd l k f) = List.length l.
Proof. intros A l f. induction l as [|x l IH]; intros [|k]; cbn; try reflexivity. rewrite IH. reflexivity. Qed.
Lemma node_at_nth : forall {A} (g : lgraph A) v, node_at g v = nth_error (l_nodes g) (N.to_nat v).
Proof.
  intros A g v. unfold node_at, l_count. destruct (N.ltb_spec v (N.of_nat (List.length (l_nodes g)))) as [L|L]; [reflexivity|]. symmetry. apply nth_error_None. lia.
Qed.
Lemma edge_at_nth : forall {A} (g : lgraph A) k, edge_at g k = nth_error (l_edges g) (N.to_nat k).
Proof.
  intros A g v. unfold edge_at. destruct (N.ltb_spec v (N.of_nat (List.length (l_edges g)))) as [L|L]; [reflexivity|]. symmetry. apply nth_error_None. lia.
Qed.
Lemma linked_update : forall {A} (g : lgraph A) v f g', linked g -> l_update g v f = Ret g' -> linked g' /\ l_count g' = l_count g.
Proof.
  intros A g v f g' [Le Ln En Pa]. unfold l_update. destruct (node_at g v); [|discriminate]. intros [= <-].
  assert (C : forall ns : list (lnode A), List.length ns = List.length (l_nodes g) -> l_count (LGraph ns (l_edges g)) = l_count g) by (intros ns L; unfold l_count; cbn [l_nodes]; rewrite L; reflexivity).
  split; [|apply C, upd_length]. constructor; rewrite ?C by apply upd_length; cbn [l_edges l_nodes]; auto.
  intros u n. rewrite nth_upd. destruct (Nat.eqb u _); [|apply Pa]. destruct (nth_error (l_nodes g) u) as [m|] eqn:E; [|discriminate]. intros [= <-]. cbn [ln_out ln_in]. apply Pa. exact E.
Qed.
Lemma linked_add_edge : forall {A} (g : lgraph A) a b g', linked g -> l_add_edge g a b = Ret g' -> linked g' /\ l_count g' = l_count g.
Proof.
  intros A g a b g' [Le Ln En Pa]. unfold l_add_edge. destruct (N.eqb_spec (N.of_nat (List.length (l_edges g))) IX_END) as [E|E]; [discriminate|]. destruct (N.leb_spec (l_count g) (N.max a b)) as [M|M]; [discriminate|].
  rewrite !node_at_nth. destruct (nth_error (l_nodes g) (N.to_nat a)) as [an|] eqn:Ea; [|discriminate]. destruct (nth_error (l_nodes g) (N.to_nat b)) as [bn|] eqn:Eb; [|discriminate].
  set (k := N.of_nat (List.length (l_edges g))) in *.
  assert (Gen : forall (ns : list (lnode A)) e, e = LEdge (ln_out an) (ln_in bn) a b -> List.length ns = List.length (l_nodes g) ->
    (forall u n, nth_error ns u = Some n -> exists m, nth_error (l_nodes g) u = Some m /\ ln_out n = (if Nat.eqb u (N.to_nat a) then k else ln_out m) /\ ln_in n = (if Nat.eqb u (N.to_nat b) then k else ln_in m)) ->
    linked (LGraph ns (l_edges g ++ [e])) /\ l_count (LGraph ns (l_edges g ++ [e])) = l_count g).
  { intros ns e He L H. assert (C : l_count (LGraph ns (l_edges g ++ [e])) = l_count g) by (unfold l_count; cbn [l_nodes]; rewrite L; reflexivity). split; [|exact C].
    constructor; rewrite ?C; cbn [l_edges l_nodes].
    - rewrite app_length. cbn [List.length]. lia.
    - exact Ln.
    - intros x I. apply in_app_or in I. destruct I as [I|[<-|[]]]; [apply En; exact I|]. subst e. cbn [le_source le_target]. lia.
    - intros u n Eu. apply H in Eu. destruct Eu as (m & Em & O & I). destruct (Pa u m Em) as [P1 P2]. rewrite !places_grow, O, I. subst e. cbn [le_source le_target].
      replace (a =? N.of_nat u) with (Nat.eqb u (N.to_nat a)) by (destruct (Nat.eqb_spec u (N.to_nat a)), (N.eqb_spec a (N.of_nat u)); try reflexivity; lia).
      replace (b =? N.of_nat u) with (Nat.eqb u (N.to_nat b)) by (destruct (Nat.eqb_spec u (N.to_nat b)), (N.eqb_spec b (N.of_nat u)); try reflexivity; lia). split.
      + destruct (Nat.eqb_spec u (N.to_nat a)) as [Q|Q]; cbn [app path]; [|apply path_grows; exact P1]. split; [reflexivity|]. eexists. split; [rewrite nth_error_app2, Nat.sub_diag by apply le_n; reflexivity|]. cbn [le_out].
        apply path_grows. subst u. rewrite Ea in Em. injection Em as <-. exact P1.
      + destruct (Nat.eqb_spec u (N.to_nat b)) as [Q|Q]; cbn [app path]; [|apply path_grows; exact P2]. split; [reflexivity|]. eexists. split; [rewrite nth_error_app2, Nat.sub_diag by apply le_n; reflexivity|]. cbn [le_in].
        apply path_grows. subst u. rewrite Eb in Em. injection Em as <-. exact P2. }
  destruct (N.eqb_spec a b) as [Q|Q]; intros [= <-]; apply Gen.
  - subst b. rewrite Ea in Eb. injection Eb as <-. reflexivity.
  - apply upd_length.
  - intros u n. rewrite nth_upd. subst b. destruct (Nat.eqb u (N.to_nat a)) eqn:Z; [|intro Eu; exists n; rewrite Eu; auto]. destruct (nth_error (l_nodes g) u) as [m|]; [|discriminate]. intros [= <-]. exists m. auto.
  - reflexivity.
  - rewrite !upd_length. reflexivity.
  - intros u n. rewrite !nth_upd. destruct (Nat.eqb_spec u (N.to_nat b)) as [Zb|Zb], (Nat.eqb_spec u (N.to_nat a)) as [Za|Za]; [exfalso; lia| | |];
      destruct (nth_error (l_nodes g) u) as [m|]; cbn [option_map]; try discriminate; intros [= <-]; exists m; auto.
Qed.
Lemma linked_apply : forall {A} h (g g' : lgraph A), linked g -> l_apply_all g h = Ret g' -> linked g'.
Proof.
  intros A h; induction h as [|c h IH]; intros g g' H; cbn [l_apply_all]; [intros [= <-]; exact H|]. destruct (l_apply g c) as [g1|w|] eqn:E; cbn [bind]; try discriminate. apply IH. destruct c as [x|a b|v f]; cbn [l_apply] in E.
  - destruct (l_add_node g x) as [[g2 v]|w|] eqn:E2; cbn [bind] in E; try discriminate. injection E as <-. eapply linked_add_node; eassumption.
  - eapply linked_add_edge; eassumption.
  - eapply linked_update; eassumption.
Qed.

(** ** Walking *)
Lemma path_walk_out : forall {A} (g : lgraph A) l ix, N.of_nat (List.length (l_edges g)) <= IX_END -> path le_out (l_edges g) ix l ->
  yields g (Walk IX_END ix IX_END) (map (at_place le_target 0 (l_edges g)) l).
Proof.
  intros A g l; induction l as [|k l IH]; intros ix L H; cbn [path map] in *.
  - subst ix. apply yields_end. unfold walk_next. cbn [w_out w_in w_skip]. assert (X : edge_at g IX_END = None) by (unfold edge_at; replace (IX_END <? _) with false by lia; reflexivity). rewrite X.
    destruct (List.length (l_edges g)); cbn [walk_in]; rewrite X; reflexivity.
  - destruct H as (-> & e & E & H). eapply yields_more; [|apply IH; [exact L|exact H]]. unfold walk_next. cbn [w_out w_in w_skip]. rewrite edge_at_nth, Nat2N.id, E. unfold at_place. rewrite E. reflexivity.
Qed.
Lemma path_walk_in : forall {A} (g : lgraph A) l ix, linked g -> path le_in (l_edges g) ix l ->
  yields g (Walk IX_END IX_END ix) (map (at_place le_source 0 (l_edges g)) l).
Proof.
  intros A g l; induction l as [|k l IH]; intros ix L H; cbn [path map] in *;
    (assert (X : edge_at g IX_END = None) by (unfold edge_at; pose proof (lk_edges g L); replace (IX_END <? _) with false by lia; reflexivity)).
  - subst ix. apply yields_end. unfold walk_next. cbn [w_out w_in w_skip]. rewrite X. destruct (List.length (l_edges g)); cbn [walk_in]; rewrite X; reflexivity.
  - destruct H as (-> & e & E & H). eapply yields_more; [|apply IH; [exact L|exact H]]. unfold walk_next. cbn [w_out w_in w_skip]. rewrite X.
    assert (Y : edge_at g (N.of_nat k) = Some e) by (rewrite edge_at_nth, Nat2N.id; exact E). assert (Z : le_source e =? IX_END = false) by (apply nth_error_In in E; apply (lk_ends g L) in E; pose proof (lk_nodes g L); lia).
    destruct (List.length (l_edges g)); cbn [walk_in]; rewrite Y, Z; cbn [bind]; unfold at_place; rewrite E; reflexivity.
Qed.
Lemma plain_edges : forall {A} (g : lgraph A), edges (plain g) = map ends (l_edges g).
Proof. reflexivity. Qed.
Lemma walk_out_ok : forall {A} (g : lgraph A) v, linked g -> yields g (walk_new g true v) (neighbors_out (plain g) v).
Proof.
  intros A g v L. unfold walk_new, neighbors_out. rewrite node_at_nth, plain_edges. destruct (nth_error (l_nodes g) (N.to_nat v)) as [n|] eqn:E.
  - pose proof (lk_paths g L _ _ E) as [P _]. rewrite N2Nat.id in P. apply path_walk_out in P; [|apply (lk_edges g L)]. erewrite places_map in P; [exact P| |]; intro e; reflexivity.
  - apply nth_error_None in E. rewrite (filter_none (fun e : N * N => fst e =? v)).
    + apply (path_walk_out g [] IX_END); [apply (lk_edges g L)|reflexivity].
    + intros x I. apply in_rev, in_map_iff in I. destruct I as (e & <- & I). apply (lk_ends g L) in I. unfold ends, l_count in *. cbn [fst]. lia.
Qed.
Lemma walk_in_ok : forall {A} (g : lgraph A) v, linked g -> yields g (walk_new g false v) (neighbors_in (plain g) v).
Proof.
  intros A g v L. unfold walk_new, neighbors_in. rewrite node_at_nth, plain_edges. destruct (nth_error (l_nodes g) (N.to_nat v)) as [n|] eqn:E.
  - pose proof (lk_paths g L _ _ E) as [_ P]. rewrite N2Nat.id in P. apply path_walk_in in P; [|exact L]. erewrite places_map in P; [exact P| |]; intro e; reflexivity.
  - apply nth_error_None in E. rewrite (filter_none (fun e : N * N => snd e =? v)).
    + apply (path_walk_in g [] IX_END); [exact L|reflexivity].
    + intros x I. apply in_rev, in_map_iff in I. destruct I as (e & <- & I). apply (lk_ends g L) in I. unfold ends, l_count in *. cbn [snd]. lia.
Qed.
(** Folding and finding along a list. *)
Fixpoint list_fold {B} (f : B -> N -> outcome B) (acc : B) (l : list N) : outcome B :=
  match l with [] => Ret acc | v :: t => let! acc' := f acc v in list_fold f acc' t end.
Fixpoint list_find (f : N -> outcome bool) (l : list N) : outcome (option N) :=
  match l with [] => Ret None | v :: t => let! b := f v in if b : bool then Ret (Some v) else list_find f t end.
Lemma walk_fold_ok : forall {A B} (g : lgraph A) (f : B -> N -> outcome B) l w fuel acc, yields g w l -> (List.length l <= fuel)%nat -> walk_fold fuel g f acc w = list_fold f acc l.
Proof.
  intros A B g f l; induction l as [|v l IH]; intros w fuel acc Y L; inversion Y as [? E|? ? w' ? E Y']; subst; destruct fuel; cbn [walk_fold list_fold List.length] in *; try lia; rewrite E; cbn [bind]; try reflexivity.
  destruct (f acc v); cbn [bind]; try reflexivity. apply IH; [exact Y'|lia].
Qed.
Lemma walk_find_ok : forall {A} (g : lgraph A) f l w fuel, yields g w l -> (List.length l <= fuel)%nat -> walk_find fuel g f w = list_find f l.
Proof.
  intros A g f l; induction l as [|v l IH]; intros w fuel Y L; inversion Y as [? E|? ? w' ? E Y']; subst; destruct fuel; cbn [walk_find list_find List.length] in *; try lia; rewrite E; cbn [bind]; try reflexivity.
  destruct (f v) as [[]|w0|]; cbn [bind]; try reflexivity. apply IH; [exact Y'|lia].
Qed.
Lemma filter_short : forall {A} (f : A -> bool) l, (List.length (filter f l) <= List.length l)%nat.
Proof. intros A f l. induction l as [|x l IH]; [apply le_n|]. cbn. destruct (f x); cbn [List.length]; lia. Qed.
Lemma out_short : forall {A} (g : lgraph A) v, (List.length (neighbors_out (plain g) v) <= List.length (l_edges g))%nat.
Proof. intros A g v. unfold neighbors_out. rewrite map_length. eapply Nat.le_trans; [apply filter_short|]. rewrite rev_length, plain_edges, map_length. apply le_n. Qed.
Lemma in_short : forall {A} (g : lgraph A) v, (List.length (neighbors_in (plain g) v) <= List.length (l_edges g))%nat.
Proof. intros A g v. unfold neighbors_in. rewrite map_length. eapply Nat.le_trans; [apply filter_short|]. rewrite rev_length, plain_edges, map_length. apply le_n. Qed.
(** ** Finding an edge *)
Lemma find_path : forall {A} (g : lgraph A) b l fuel ix, N.of_nat (List.length (l_edges g)) <= IX_END -> path le_out (l_edges g) ix l -> (List.length l <= fuel)%nat ->
  find_from fuel g ix b = Ret (option_map N.of_nat (find (holds (fun e => le_target e =? b) (l_edges g)) l)).
Proof.
  intros A g b l; induction l as [|k l IH]; intros fuel ix L H F; cbn [path find option_map List.length] in *.
  - subst ix. assert (X : edge_at g IX_END = None) by (unfold edge_at; replace (IX_END <? _) with false by lia; reflexivity). destruct fuel; cbn [find_from]; rewrite X; reflexivity.
  - destruct H as (-> & e & E & H). destruct fuel as [|fuel]; [lia|]. cbn [find_from]. rewrite edge_at_nth, Nat2N.id, E. unfold holds at 1. rewrite E. destruct (le_target e =? b); [reflexivity|]. apply IH; [exact L|exact H|lia].
Qed.
Lemma find_edge_ok : forall {A} (g : lgraph A) a b, linked g -> l_find_edge g a b = Ret (option_map N.of_nat (find (holds (fun e => le_target e =? b) (l_edges g)) (places (fun e => le_source e =? a) (l_edges g)))).
Proof.
  intros A g a b L. unfold l_find_edge. rewrite node_at_nth. destruct (nth_error (l_nodes g) (N.to_nat a)) as [n|] eqn:E.
  - pose proof (lk_paths g L _ _ E) as [P _]. rewrite N2Nat.id in P. apply find_path; [apply (lk_edges g L)|exact P|apply places_length].
  - apply nth_error_None in E. rewrite places_none; [reflexivity|]. intros e I. apply (lk_ends g L) in I. unfold l_count in I. lia.
Qed.
Lemma places_down : forall P es, exists l, places P es = l /\ forall a k b j, l = a ++ k :: b -> In j b -> (j < k)%nat.
Proof.
  intros P es. eexists. split; [reflexivity|]. induction es as [|e es IH] using rev_ind; intros a k b j E I; [destruct a; discriminate E|]. rewrite places_grow in E. destruct (P e); cbn [app] in E; [|eapply IH; eassumption].
  destruct a as [|x a]; [|injection E as _ E; eapply IH; eassumption]. injection E as <- <-. unfold places in I. apply filter_In in I. destruct I as [I _]. apply in_rev, in_seq in I. lia.
Qed.
Lemma places_In : forall P es k, In k (places P es) <-> exists e, nth_error es k = Some e /\ P e = true.
Proof.
  intros P es k. unfold places. rewrite filter_In, <- in_rev, in_seq. unfold holds. split.
  - intros [_ H]. destruct (nth_error es k) as [e|]; [exists e; auto|discriminate].
  - intros (e & E & H). rewrite E. split; [|exact H]. assert (nth_error es k <> None) as Z by congruence. apply nth_error_Some in Z. lia.
Qed.
Lemma find_first : forall {B} (f : B -> bool) l k, find f l = Some k -> exists a b, l = a ++ k :: b /\ f k = true /\ forall j, In j a -> f j = false.
Proof.
  intros B f l; induction l as [|x l IH]; intros k E; [discriminate|]. cbn in E. destruct (f x) eqn:F.
  - injection E as <-. exists [], l. split; [reflexivity|]. split; [exact F|]. contradiction.
  - destruct (IH k E) as (a & b & -> & Fk & N). exists (x :: a), b. split; [reflexivity|]. split; [exact Fk|]. intros j [<-|I]; [exact F|apply N; exact I].
Qed.
(** The edge found is the last one with these ends. *)
Lemma find_edge_newest : forall {A} (g : lgraph A) a b k, linked g -> l_find_edge g a b = Ret (Some k) ->
  nth_error (map ends (l_edges g)) (N.to_nat k) = Some (a, b) /\ forall j, (N.to_nat k < j)%nat -> nth_error (map ends (l_edges g)) j <> Some (a, b).
Proof.
  intros A g a b k L. rewrite find_edge_ok by exact L. destruct (find _ _) as [i|] eqn:F; [|discriminate]. intros [= <-]. rewrite Nat2N.id. apply find_first in F. destruct F as (l1 & l2 & E & Fi & Nf).
  assert (I : In i (places (fun e => le_source e =? a) (l_edges g))) by (rewrite E; apply in_elt). apply places_In in I. destruct I as (e & Ee & Se). unfold holds in Fi. rewrite Ee in Fi. split.
  - erewrite map_nth_error by exact Ee. unfold ends. f_equal. f_equal; lia.
  - intros j Lj Ej. rewrite nth_error_map in Ej. destruct (nth_error (l_edges g) j) as [x|] eqn:Ex; [|discriminate Ej]. injection Ej as Es Et.
    assert (I : In j (places (fun e => le_source e =? a) (l_edges g))) by (apply places_In; exists x; split; [exact Ex|lia]). rewrite E in I. apply in_app_or in I. destruct (places_down (fun e => le_source e =? a) (l_edges g)) as (l & El & D).
    rewrite E in El. destruct I as [I|[I|I]].
    + apply Nf in I. unfold holds in I. rewrite Ex in I. lia.
    + lia.
    + specialize (D l1 i l2 j (eq_sym El) I). lia.
Qed.
Lemma find_edge_none : forall {A} (g : lgraph A) a b, linked g -> (l_find_edge g a b = Ret None <-> ~ In (a, b) (map ends (l_edges g))).
Proof.
  intros A g a b L. rewrite find_edge_ok by exact L. split.
  - destruct (find _ _) as [i|] eqn:F; [discriminate|]. intros _ I. apply in_map_iff in I. destruct I as (e & E & I). apply In_nth_error in I. destruct I as (k & Ek).
    assert (P : In k (places (fun e => le_source e =? a) (l_edges g))) by (apply places_In; exists e; split; [exact Ek|injection E; lia]). apply (find_none _ _ F) in P. unfold holds in P. rewrite Ek in P. injection E. lia.
  - intro Ni. destruct (find _ _) as [i|] eqn:F; [|reflexivity]. exfalso. apply Ni. apply find_some in F. destruct F as [I Fi]. apply places_In in I. destruct I as (e & Ee & Se). unfold holds in Fi. rewrite Ee in Fi.
    apply in_map_iff. exists e. split; [unfold ends; f_equal; lia|eapply nth_error_In; exact Ee].
Qed.
Lemma find_edge_some : forall {A} (g : lgraph A) a b, linked g -> exists o, l_find_edge g a b = Ret o /\ match o with Some _ => true | None => false end = has_edge (plain g) a b.
Proof.
  intros A g a b L. pose proof (find_edge_none g a b L) as H. destruct (l_find_edge g a b) as [o|w|] eqn:E; [|rewrite find_edge_ok in E by exact L; discriminate E|rewrite find_edge_ok in E by exact L; discriminate E]. exists o. split; [reflexivity|].
  unfold has_edge. rewrite plain_edges. destruct o as [k|].
  - apply find_edge_newest in E; [|exact L]. destruct E as [E _]. apply nth_error_In in E. symmetry. apply existsb_exists. exists (a, b). split; [exact E|]. cbn [fst snd]. lia.
  - destruct (existsb _ _) eqn:X; [|reflexivity]. exfalso. apply existsb_exists in X. destruct X as ([x y] & I & X). cbn [fst snd] in X. assert (x = a /\ y = b) as [-> ->] by lia. apply H; [reflexivity|exact I].
Qed.

(** ** The nodes and edges alone *)
Lemma plain_count : forall {A} (g : lgraph A), node_count (plain g) = l_count g.
Proof. intros A g. unfold node_count, l_count, plain. cbn [nodes]. rewrite map_length. reflexivity. Qed.
Lemma add_node_plain : forall {A} (g : lgraph A) x, add_node (plain g) x = seen (fun r => (plain (fst r), snd r)) (l_add_node g x).
Proof.
  intros A g x. unfold add_node, l_add_node. rewrite plain_count. destruct (_ =? _); [reflexivity|]. cbn [seen fst snd]. unfold plain at 3. cbn [l_nodes l_edges]. rewrite map_app. reflexivity.
Qed.
Lemma map_upd : forall {A B} (w : A -> B) (f : A -> A) (h : B -> B) l k, (forall x, w (f x) = h (w x)) -> map w (list_upd l k f) = list_upd (map w l) k h.
Proof. intros A B w f h l k H. revert k. induction l as [|x l IH]; intros [|k]; cbn; try reflexivity; [rewrite H; reflexivity|rewrite IH; reflexivity]. Qed.
Lemma upd_same : forall {A} (l : list A) k, list_upd l k (fun x => x) = l.
Proof. intros A l. induction l as [|x l IH]; intros [|k]; cbn; try reflexivity. rewrite IH. reflexivity. Qed.
Lemma add_edge_plain : forall {A} (g : lgraph A) a b, add_edge (plain g) a b = seen plain (l_add_edge g a b).
Proof.
  intros A g a b. unfold add_edge, l_add_edge. rewrite plain_count. unfold plain at 1. cbn [edges]. rewrite map_length. destruct (_ =? IX_END); [reflexivity|].
  destruct (N.leb_spec (l_count g) (N.max a b)) as [M|M].
  - destruct (N.ltb_spec a (l_count g)) as [La|La], (N.ltb_spec b (l_count g)) as [Lb|Lb]; cbn [andb seen]; try reflexivity; lia.
  - rewrite (proj2 (N.ltb_lt a _)), (proj2 (N.ltb_lt b _)) by lia. cbn [andb]. rewrite !node_at_nth. unfold l_count in M.
    destruct (nth_error (l_nodes g) (N.to_nat a)) as [an|] eqn:Ea; [|apply nth_error_None in Ea; lia]. destruct (nth_error (l_nodes g) (N.to_nat b)) as [bn|] eqn:Eb; [|apply nth_error_None in Eb; lia].
    destruct (a =? b); cbn [seen]; f_equal; unfold plain; cbn [nodes edges l_nodes l_edges]; rewrite map_app; cbn [map le_source le_target]; f_equal.
    + rewrite (map_upd ln_weight _ (fun x => x)) by reflexivity. symmetry. apply upd_same.
    + rewrite !(map_upd ln_weight _ (fun x => x)) by reflexivity. rewrite !upd_same. reflexivity.
Qed.
Lemma weight_plain : forall {A} (g : lgraph A) v, node_weight (plain g) v = l_weight g v.
Proof.
  intros A g v. unfold node_weight, l_weight, node_at. rewrite plain_count. destruct (v <? l_count g); [|reflexivity]. unfold plain. cbn [nodes]. rewrite nth_error_map. reflexivity.
Qed.
Lemma index_plain : forall {A} (g : lgraph A) v, node_index (plain g) v = l_index g v.
Proof. intros A g v. unfold node_index, l_index. rewrite weight_plain. reflexivity. Qed.
Lemma update_plain : forall {A} (g : lgraph A) v f, node_update (plain g) v f = seen plain (l_update g v f).
Proof.
  intros A g v f. unfold node_update, l_update. rewrite weight_plain. unfold l_weight. destruct (node_at g v); [|reflexivity]. cbn [option_map seen]. f_equal. unfold plain. cbn [nodes edges l_nodes l_edges]. f_equal.
  symmetry. apply map_upd. reflexivity.
Qed.

(** ** The crate's functions *)
Lemma union_fold : forall g (vs acc : list N), union_reports (plain g) vs acc = list_fold (fun acc v => let! x := l_index g v in Ret (set_extend N.eqb acc (reports x))) acc vs.
Proof.
  intros g vs; induction vs as [|v vs IH]; intro acc; [reflexivity|]. cbn [union_reports list_fold]. rewrite index_plain. destruct (l_index g v) as [x|w|]; cbn [bind]; try reflexivity. apply IH.
Qed.
Lemma all_reports_plain : forall h, linked (lh_inner h) -> all_reports (plain_holder h) = l_all_reports h.
Proof.
  intros h L. unfold all_reports, l_all_reports. cbv zeta. cbn [plain_holder inner accept accept_eod]. erewrite (walk_fold_ok _ _ _ (walk_new (lh_inner h) false (lh_accept h))); [|apply walk_in_ok; exact L|apply in_short].
  rewrite union_fold. destruct (list_fold _ _ _) as [r|w|]; cbn [bind]; try reflexivity. erewrite walk_fold_ok; [|apply walk_in_ok; exact L|apply in_short]. apply union_fold.
Qed.
Lemma is_vacuous_plain : forall h, linked (lh_inner h) -> l_is_vacuous h = Ret (is_vacuous (plain_holder h)).
Proof.
  intros h L. unfold is_vacuous, l_is_vacuous. cbv zeta. cbn [plain_holder inner start start_ds accept accept_eod].
  destruct (find_edge_some (lh_inner h) (lh_start h) (lh_accept h) L) as (o1 & -> & <-). cbn [bind]. destruct o1; [reflexivity|].
  destruct (find_edge_some (lh_inner h) (lh_start h) (lh_accept_eod h) L) as (o2 & -> & <-). cbn [bind]. destruct o2; [reflexivity|].
  destruct (find_edge_some (lh_inner h) (lh_start_ds h) (lh_accept h) L) as (o3 & -> & <-). cbn [bind]. destruct o3; [reflexivity|].
  destruct (find_edge_some (lh_inner h) (lh_start_ds h) (lh_accept_eod h) L) as (o4 & -> & <-). reflexivity.
Qed.
Lemma find_child_plain : forall g c vs, find_child (plain g) c vs = list_find (fun v => let! x := l_index g v in Ret (tp_c x =? c)) vs.
Proof.
  intros g c vs; induction vs as [|v vs IH]; [reflexivity|]. cbn [find_child list_find]. rewrite index_plain. destruct (l_index g v) as [x|w|]; cbn [bind]; try reflexivity. destruct (tp_c x =? c); [reflexivity|apply IH].
Qed.
Lemma trie_walk_plain : forall es g u, linked g -> trie_walk_insert (plain g) u es = seen (fun r => (plain (fst r), snd r)) (l_trie_walk g u es) /\
  forall g' u', l_trie_walk g u es = Ret (g', u') -> linked g'.
Proof.
  intros es; induction es as [|e es IH]; intros g u L; cbn [trie_walk_insert l_trie_walk]; [split; [reflexivity|intros g' u' [= <- <-]; exact L]|]. unfold trie_step. rewrite find_child_plain.
  erewrite walk_find_ok; [|apply walk_out_ok; exact L|apply out_short]. destruct (list_find _ _) as [[v|]|w|]; cbn [bind seen]; try (split; [reflexivity|discriminate]); [apply IH; exact L|].
  rewrite add_node_plain. destruct (l_add_node g (tp_with_byte (el_c e))) as [[g1 v]|w|] eqn:E1; cbn [bind seen fst snd]; try (split; [reflexivity|discriminate]). apply linked_add_node in E1; [|exact L]. destruct E1 as (L1 & _).
  rewrite add_edge_plain. destruct (l_add_edge g1 u v) as [g2|w|] eqn:E2; cbn [bind seen]; try (split; [reflexivity|discriminate]). apply linked_add_edge in E2; [|exact L1]. destruct E2 as (L2 & _). apply IH. exact L2.
Qed.
Lemma add_to_trie_plain : forall l r t, linked (ltr_inner t) -> add_to_trie l r (plain_trie t) = seen (fun x => (plain_trie (fst x), snd x)) (l_add_to_trie l r t) /\
  forall t' b, l_add_to_trie l r t = Ret (t', b) -> linked (ltr_inner t').
Proof.
  intros l r t L. unfold add_to_trie, l_add_to_trie. cbn [plain_trie lt_inner lt_root]. destruct (trie_walk_plain (lit_iter l) (ltr_inner t) (ltr_root t) L) as [-> K]. destruct (l_trie_walk _ _ _) as [[g u]|w|]; cbn [bind seen fst snd]; try (split; [reflexivity|discriminate]).
  specialize (K g u eq_refl). rewrite update_plain. destruct (l_update g u _) as [g'|w|] eqn:E; cbn [bind seen fst snd]; try (split; [reflexivity|discriminate]). apply linked_update in E; [|exact K]. destruct E as [L' _].
  split; [rewrite plain_count; reflexivity|]. intros t' b [= <- <-]. exact L'.
Qed.
Lemma insert_all_plain : forall h t, linked (ltr_inner t) -> insert_all (plain_trie t) h = seen (fun x => (plain_trie (fst x), snd x)) (l_insert_all t h).
Proof.
  intros h; induction h as [|[l r] h IH]; intros t L; cbn [insert_all l_insert_all]; [reflexivity|]. destruct (add_to_trie_plain l r t L) as [-> K]. destruct (l_add_to_trie l r t) as [[t1 b]|w|]; cbn [bind seen fst snd]; try reflexivity.
  rewrite IH by (eapply K; reflexivity). destruct (l_insert_all t1 h) as [[t2 bs]|w|]; reflexivity.
Qed.

(** ** Histories *)
Lemma edges_app : forall {A} (a b : list (change A)), edges_of (a ++ b) = edges_of a ++ edges_of b.
Proof. intros. apply flat_map_app. Qed.
Lemma nodes_app : forall {A} (a b : list (change A)), nodes_of (a ++ b) = (nodes_of a + nodes_of b)%nat.
Proof. intros. unfold nodes_of. rewrite flat_map_app, app_length. reflexivity. Qed.
Record made {A} (h : list (change A)) (g : lgraph A) : Prop := Made {
  md_linked : linked g;
  md_edges : map ends (l_edges g) = edges_of h;
  md_count : List.length (l_nodes g) = nodes_of h;
  md_weights : forall v, option_map ln_weight (nth_error (l_nodes g) v) = weight_of (rev h) v }.
Lemma made_new : forall A, made [] (@l_new A).
Proof. intro A. constructor; [apply linked_new|reflexivity|reflexivity|]. intros [|v]; reflexivity. Qed.
Lemma nodes_rev : forall {A} (h : list (change A)), nodes_of (rev h) = nodes_of h.
Proof. intros A h. induction h as [|c h IH]; [reflexivity|]. cbn [rev]. rewrite nodes_app, IH. change (c :: h) with ([c] ++ h). rewrite nodes_app. lia. Qed.
Lemma made_step : forall {A} (h : list (change A)) g c, made h g ->
  match l_apply g c with Ret g' => allowed h c /\ made (h ++ [c]) g' | Panic w => ~ allowed h c /\ (w = PCapacity \/ w = PIndex) | Diverge => False end.
Proof.
  intros A h g c [L E C W]. assert (Lc : l_count g = N.of_nat (nodes_of h)) by (unfold l_count; rewrite C; reflexivity). assert (Le : List.length (l_edges g) = List.length (edges_of h)) by (rewrite <- E, map_length; reflexivity).
  destruct c as [x|a b|v f]; cbn [l_apply allowed].
  - destruct (l_add_node g x) as [[g' v]|w|] eqn:R; cbn [bind].
    + pose proof R as R'. apply linked_add_node in R'; [|exact L]. destruct R' as (L' & _ & _). unfold l_add_node in R. destruct (N.eqb_spec (l_count g) IX_END) as [Q|Q]; [discriminate R|]. injection R as <- _. pose proof (lk_nodes g L) as K. unfold IX_END in *. split; [lia|].
      constructor; cbn [l_nodes l_edges]; [exact L'|rewrite edges_app, app_nil_r; exact E|rewrite app_length, nodes_app, C; reflexivity|]. intro u. rewrite rev_app_distr. cbn [rev app weight_of]. rewrite nodes_rev, <- C. destruct (Nat.eqb_spec u (List.length (l_nodes g))) as [->|Z].
      * rewrite nth_error_app2, Nat.sub_diag by apply le_n. reflexivity.
      * rewrite <- W. destruct (Nat.lt_ge_cases u (List.length (l_nodes g))) as [Z2|Z2]; [rewrite nth_error_app1 by exact Z2; reflexivity|]. rewrite (proj2 (nth_error_None (l_nodes g) u)) by exact Z2. rewrite (proj2 (nth_error_None _ u)); [reflexivity|]. rewrite app_length. cbn [List.length]. lia.
    + unfold l_add_node in R. destruct (N.eqb_spec (l_count g) IX_END) as [Q|Q]; [|discriminate R]. injection R as <-. unfold IX_END in Q. split; [lia|auto].
    + unfold l_add_node in R. destruct (_ =? _); discriminate R.
  - destruct (l_add_edge g a b) as [g'|w|] eqn:R.
    + pose proof R as R'. apply linked_add_edge in R'; [|exact L]. destruct R' as (L' & C'). pose proof (add_edge_plain g a b) as Pl. rewrite R in Pl. cbn [seen] in Pl. unfold add_edge in Pl. rewrite plain_count in Pl. rewrite plain_edges, map_length in Pl.
      destruct (N.eqb_spec (N.of_nat (List.length (l_edges g))) IX_END) as [Q|Q]; [discriminate Pl|]. pose proof (lk_edges g L) as K. destruct (N.ltb_spec a (l_count g)) as [La|La]; [|discriminate Pl]. destruct (N.ltb_spec b (l_count g)) as [Lb|Lb]; [|discriminate Pl]. cbn [andb] in Pl. unfold IX_END in *.
      split; [lia|]. injection Pl as Pn Pe. constructor.
      * exact L'.
      * rewrite edges_app. cbn [edges_of flat_map app]. rewrite <- E. symmetry. exact Pe.
      * rewrite nodes_app. cbn. unfold l_count in C'. rewrite <- C. lia.
      * intro u. rewrite rev_app_distr. cbn [rev app weight_of]. rewrite <- W, <- !nth_error_map. cbn [plain nodes] in Pn. rewrite <- Pn. reflexivity.
    + unfold l_add_edge in R. destruct (N.eqb_spec (N.of_nat (List.length (l_edges g))) IX_END) as [Q|Q]; [injection R as <-; unfold IX_END in Q; split; [lia|auto]|]. destruct (N.leb_spec (l_count g) (N.max a b)) as [M|M]; [injection R as <-; split; [lia|auto]|].
      rewrite !node_at_nth in R. unfold l_count in M. destruct (nth_error (l_nodes g) (N.to_nat a)) eqn:Ea; [|apply nth_error_None in Ea; lia]. destruct (nth_error (l_nodes g) (N.to_nat b)) eqn:Eb; [|apply nth_error_None in Eb; lia]. destruct (a =? b); discriminate R.
    + unfold l_add_edge in R. destruct (_ =? IX_END); [discriminate R|]. destruct (_ <=? _); [discriminate R|]. destruct (node_at g a), (node_at g b); try discriminate R. destruct (a =? b); discriminate R.
  - destruct (l_update g v f) as [g'|w|] eqn:R.
    + pose proof R as R'. apply linked_update in R'; [|exact L]. destruct R' as (L' & C'). unfold l_update in R. rewrite node_at_nth in R. destruct (nth_error (l_nodes g) (N.to_nat v)) as [n|] eqn:En; [|discriminate R]. injection R as <-.
      assert (nth_error (l_nodes g) (N.to_nat v) <> None) as Z by congruence. apply nth_error_Some in Z. split; [lia|]. constructor; cbn [l_nodes l_edges].
      * exact L'.
      * rewrite edges_app, app_nil_r. exact E.
      * rewrite upd_length, nodes_app. cbn. lia.
      * intro u. rewrite rev_app_distr. cbn [rev app weight_of]. rewrite <- W, nth_upd. replace (N.of_nat u =? v) with (Nat.eqb u (N.to_nat v)) by (destruct (Nat.eqb_spec u (N.to_nat v)), (N.eqb_spec (N.of_nat u) v); try reflexivity; lia).
        destruct (Nat.eqb u (N.to_nat v)); [|reflexivity]. destruct (nth_error (l_nodes g) u); reflexivity.
    + unfold l_update in R. rewrite node_at_nth in R. destruct (nth_error (l_nodes g) (N.to_nat v)) as [n|] eqn:En; [discriminate R|]. injection R as <-. apply nth_error_None in En. split; [lia|auto].
    + unfold l_update in R. destruct (node_at g v); discriminate R.
Qed.
Lemma made_all : forall {A} (h2 h : list (change A)) g, made h g ->
  match l_apply_all g h2 with
  | Ret g' => (forall a c b, h2 = a ++ c :: b -> allowed (h ++ a) c) /\ made (h ++ h2) g'
  | Panic w => (exists a c b, h2 = a ++ c :: b /\ ~ allowed (h ++ a) c) /\ (w = PCapacity \/ w = PIndex)
  | Diverge => False
  end.
Proof.
  intros A h2; induction h2 as [|c h2 IH]; intros h g M; cbn [l_apply_all].
  - split; [intros a c b E; destruct a; discriminate E|rewrite app_nil_r; exact M].
  - pose proof (made_step h g c M) as St. destruct (l_apply g c) as [g'|w|]; cbn [bind]; [|destruct St as [N K]; split; [exists [], c, h2; split; [reflexivity|rewrite app_nil_r; exact N]|exact K]|exact St].
    destruct St as [Al M']. specialize (IH (h ++ [c]) g' M'). destruct (l_apply_all g' h2) as [g2|w|].
    + destruct IH as [I1 I2]. rewrite <- app_assoc in I2. split; [|exact I2]. intros a x b E. destruct a as [|y a]; [injection E as <- _; rewrite app_nil_r; exact Al|]. injection E as <- E. specialize (I1 a x b E). rewrite <- app_assoc in I1. exact I1.
    + destruct IH as [(a & x & b & -> & Nx) K]. split; [|exact K]. exists (c :: a), x, b. split; [reflexivity|]. rewrite <- app_assoc in Nx. exact Nx.
    + exact IH.
Qed.
