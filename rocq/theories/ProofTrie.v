(** Invariants of the literal dictionaries. *)
From Coq Require Import Permutation.
From Verif Require Import Base ModelUtil ModelLiteral ModelPetgraph ModelSmallWrite SpecTrie ProofBase ProofLiteral ModelReport SpecReport ProofReport.
Local Open Scope N_scope.

(** ** Prefixes *)
Lemma in_prefixes : forall b p, In p (prefixes b) <-> is_prefix p b.
Proof.
  unfold is_prefix. induction b as [|c b IH]; intro p; simpl.
  - split; [intros [<-|[]]; exists []; reflexivity|]. intros [t E]. destruct p; [auto|discriminate].
  - rewrite in_map_iff. split.
    + intros [<-|(q & <- & I)]; [exists (c :: b); reflexivity|]. apply IH in I. destruct I as [t ->]. exists t. reflexivity.
    + intros [t E]. destruct p as [|x p]; [auto|]. injection E as <- ->. right. exists p. split; [reflexivity|]. apply IH. eauto.
Qed.
Lemma in_distinct : forall h p, In p (distinct_prefixes h) <-> p = [] \/ exists b r, In (b, r) h /\ is_prefix p b.
Proof.
  intros h p. unfold distinct_prefixes. rewrite nodup_In. simpl. rewrite in_flat_map. split.
  - intros [<-|((b, r) & I & P)]; [auto|]. apply in_prefixes in P. right. eauto.
  - intros [->|(b & r & I & P)]; [auto|]. right. exists (b, r). split; [exact I|]. apply in_prefixes. exact P.
Qed.

(** ** The shape: node [i] stands for the path [nth i ps]; edge number [k] enters
    node [k + 1]. *)
Record shape (g : graph trie_props) (ps : list (list N)) : Prop := Shape {
  sh_len : List.length ps = List.length (nodes g);
  sh_root : nth_error ps 0 = Some [];
  sh_nodup : NoDup ps;
  sh_elen : S (List.length (edges g)) = List.length ps;
  sh_edge : forall k a b, nth_error (edges g) k = Some (a, b) ->
    b = N.of_nat (S k) /\ a < b /\ exists x pa, nth_error (nodes g) (S k) = Some x /\
      nth_error ps (N.to_nat a) = Some pa /\ nth_error ps (S k) = Some (pa ++ [tp_c x])
}.

Lemma sh_bound : forall g ps i p, shape g ps -> nth_error ps i = Some p -> (i < List.length (nodes g))%nat.
Proof. intros g ps i p H E. rewrite <- (sh_len _ _ H). apply nth_error_Some. congruence. Qed.
Lemma sh_inj : forall g ps i j p, shape g ps -> nth_error ps i = Some p -> nth_error ps j = Some p -> i = j.
Proof.
  intros g ps i j p H E F. pose proof (sh_nodup _ _ H) as Nd. rewrite NoDup_nth_error in Nd.
  apply Nd; [apply nth_error_Some; congruence|congruence].
Qed.
(** Every node but the root has an edge. *)
Lemma sh_parent : forall g ps i p, shape g ps -> nth_error ps (S i) = Some p ->
  exists a x pa, nth_error (edges g) i = Some (a, N.of_nat (S i)) /\ a < N.of_nat (S i) /\
    nth_error (nodes g) (S i) = Some x /\ nth_error ps (N.to_nat a) = Some pa /\ p = pa ++ [tp_c x].
Proof.
  intros g ps i p H E. assert (L : (i < List.length (edges g))%nat).
  { pose proof (sh_elen _ _ H). assert (S i < List.length ps)%nat by (apply nth_error_Some; congruence). lia. }
  destruct (nth_error (edges g) i) as [[a b]|] eqn:X; [|apply nth_error_None in X; lia].
  destruct (sh_edge _ _ H _ _ _ X) as (-> & Lt & x & pa & N1 & N2 & N3).
  exists a, x, pa. conjs; auto. congruence.
Qed.
Lemma in_neighbors_out : forall (g : graph trie_props) u v, In v (neighbors_out g u) <-> In (u, v) (edges g).
Proof.
  intros g u v. unfold neighbors_out. rewrite in_map_iff. split.
  - intros ((a, b) & E & I). apply filter_In in I. destruct I as [I E']. simpl in *. apply N.eqb_eq in E'. subst.
    rewrite <- in_rev in I. exact I.
  - intro I. exists (u, v). split; [reflexivity|]. apply filter_In. split; [rewrite <- in_rev; exact I|apply N.eqb_refl].
Qed.
Lemma sh_child : forall g ps u v pu, shape g ps -> nth_error ps (N.to_nat u) = Some pu -> In (u, v) (edges g) ->
  exists x, nth_error (nodes g) (N.to_nat v) = Some x /\ nth_error ps (N.to_nat v) = Some (pu ++ [tp_c x]).
Proof.
  intros g ps u v pu H E I. apply In_nth_error in I. destruct I as [k K].
  destruct (sh_edge _ _ H _ _ _ K) as (-> & _ & x & pa & N1 & N2 & N3). rewrite Nat2N.id. exists x.
  split; [exact N1|]. rewrite E in N2. injection N2 as ->. exact N3.
Qed.
Lemma sh_child_exists : forall g ps u pu i c, shape g ps -> nth_error ps (N.to_nat u) = Some pu ->
  nth_error ps i = Some (pu ++ [c]) -> exists x, In (u, N.of_nat i) (edges g) /\ nth_error (nodes g) i = Some x /\ tp_c x = c.
Proof.
  intros g ps u pu i c H E F. destruct i as [|i].
  - rewrite (sh_root _ _ H) in F. destruct pu; discriminate.
  - destruct (sh_parent _ _ _ _ H F) as (a & x & pa & X1 & X2 & X3 & X4 & X5).
    apply app_inj_tail in X5. destruct X5 as [-> ->].
    assert (N.to_nat a = N.to_nat u) by (eapply sh_inj; eassumption). assert (a = u) by lia. subst a.
    exists x. conjs; auto. eapply nth_error_In. exact X1.
Qed.

Lemma node_index_ok : forall {A} (g : graph A) v x, nth_error (nodes g) (N.to_nat v) = Some x -> node_index g v = Ret x.
Proof.
  intros A g v x H. unfold node_index, node_weight, node_count.
  assert (L : (N.to_nat v < List.length (nodes g))%nat) by (apply nth_error_Some; congruence).
  replace (v <? N.of_nat (List.length (nodes g))) with true by lia. rewrite H. reflexivity.
Qed.

Lemma find_child_ok : forall g c vs, (forall v, In v vs -> exists x, nth_error (nodes g) (N.to_nat v) = Some x) ->
  (exists v x, find_child g c vs = Ret (Some v) /\ In v vs /\ nth_error (nodes g) (N.to_nat v) = Some x /\ tp_c x = c) \/
  (find_child g c vs = Ret None /\ forall v x, In v vs -> nth_error (nodes g) (N.to_nat v) = Some x -> tp_c x <> c).
Proof.
  intros g c vs; induction vs as [|v vs IH]; intro H; cbn [find_child].
  - right. split; [reflexivity|]. intros v x [].
  - destruct (H v (or_introl eq_refl)) as (x & X). rewrite (node_index_ok _ _ _ X). cbn [bind].
    destruct (N.eqb_spec (tp_c x) c) as [E|Ne].
    + left. exists v, x. conjs; auto. left; reflexivity.
    + destruct IH as [(v' & x' & F & I & N' & C')|(F & Q)]; [intros w I; apply H; right; exact I| |].
      * left. exists v', x'. conjs; auto. right; exact I.
      * right. split; [exact F|]. intros w y [<-|I] Y; [|eapply Q; eassumption]. congruence.
Qed.

(** ** One step *)
Definition same_reports (g g' : graph trie_props) : Prop :=
  forall i x, nth_error (nodes g) i = Some x -> nth_error (nodes g') i = Some x.
Lemma trie_step_ok : forall g ps u pu c, shape g ps -> nth_error ps (N.to_nat u) = Some pu ->
  N.of_nat (List.length (nodes g)) <= IX_END ->
  (exists g' v ps', trie_step g u c = Ret (g', v) /\ shape g' ps' /\ nth_error ps' (N.to_nat v) = Some (pu ++ [c]) /\
    ((g' = g /\ ps' = ps) \/
     (N.of_nat (List.length (nodes g)) < IX_END /\ ~ In (pu ++ [c]) ps /\ ps' = ps ++ [pu ++ [c]] /\ nodes g' = nodes g ++ [tp_with_byte c]))) \/
  (trie_step g u c = Panic PCapacity /\ N.of_nat (List.length (nodes g)) = IX_END /\ ~ In (pu ++ [c]) ps).
Proof.
  intros g ps u pu c H Eu Hcap. unfold trie_step.
  destruct (find_child_ok g c (neighbors_out g u)) as [(v & x & F & I & N' & C)|(F & Q)].
  - intros v I. apply in_neighbors_out in I. destruct (sh_child _ _ _ _ _ H Eu I) as (x & X & _). eauto.
  - rewrite F. cbn [bind]. left. exists g, v, ps. conjs; auto. apply in_neighbors_out in I.
    destruct (sh_child _ _ _ _ _ H Eu I) as (x' & X & Y). rewrite X in N'. injection N' as ->. rewrite C in Y. exact Y.
  - rewrite F. cbn [bind].
    assert (Nin : ~ In (pu ++ [c]) ps).
    { intro I. apply In_nth_error in I. destruct I as [i I].
      destruct (sh_child_exists _ _ _ _ _ _ H Eu I) as (x & X1 & X2 & X3).
      apply (Q (N.of_nat i) x); [apply in_neighbors_out; exact X1|rewrite Nat2N.id; exact X2|exact X3]. }
    pose proof (sh_bound _ _ _ _ H Eu) as Lu. pose proof (sh_len _ _ H) as Len. pose proof (sh_elen _ _ H) as ELen.
    unfold add_node, node_count. destruct (N.eqb_spec (N.of_nat (List.length (nodes g))) IX_END) as [Full|Room]; [right; cbn [bind]; auto|left]. cbn [bind].
    unfold add_edge. cbn [edges nodes]. replace (N.of_nat (List.length (edges g)) =? IX_END) with false by lia.
    unfold node_count. cbn [nodes]. rewrite app_length. cbn [List.length].
    replace (u <? N.of_nat (List.length (nodes g) + 1)) with true by lia.
    replace (N.of_nat (List.length (nodes g)) <? N.of_nat (List.length (nodes g) + 1)) with true by lia.
    cbn [andb bind]. do 2 eexists. exists (ps ++ [pu ++ [c]]). split; [reflexivity|].
    assert (New : nth_error (ps ++ [pu ++ [c]]) (List.length (nodes g)) = Some (pu ++ [c])).
    { rewrite nth_error_app2 by lia. rewrite <- Len, Nat.sub_diag. reflexivity. }
    conjs.
    + constructor; cbn [nodes edges].
      * rewrite !app_length, Len. reflexivity.
      * rewrite nth_error_app1; [apply (sh_root _ _ H)|]. lia.
      * apply NoDup_snoc; [apply (sh_nodup _ _ H)|exact Nin].
      * rewrite !app_length. simpl. lia.
      * intros k a b K. destruct (Nat.lt_ge_cases k (List.length (edges g))) as [L|G].
        -- rewrite nth_error_app1 in K by exact L. destruct (sh_edge _ _ H _ _ _ K) as (-> & Lt & x & pa & N1 & N2 & N3).
           split; [reflexivity|]. split; [exact Lt|]. exists x, pa.
           assert (S k < List.length (nodes g))%nat by (apply nth_error_Some; congruence).
           assert (N.to_nat a < List.length ps)%nat by (apply nth_error_Some; congruence).
           rewrite !nth_error_app1 by lia. auto.
        -- rewrite nth_error_app2 in K by exact G.
           destruct (k - List.length (edges g))%nat as [|n] eqn:D; [|destruct n; discriminate].
           injection K as <- <-. assert (Sk : S k = List.length (nodes g)) by lia. rewrite Sk.
           split; [reflexivity|]. split; [lia|]. exists (tp_with_byte c), pu. conjs.
           ++ rewrite nth_error_app2 by lia. rewrite Nat.sub_diag. reflexivity.
           ++ rewrite nth_error_app1 by lia. exact Eu.
           ++ exact New.
    + rewrite Nat2N.id. exact New.
    + right. conjs; auto. lia.
Qed.

(** ** Walking down, creating what is missing *)
Lemma trie_walk_ok : forall es g ps u pu, shape g ps -> nth_error ps (N.to_nat u) = Some pu ->
  N.of_nat (List.length (nodes g)) <= IX_END ->
  (exists g' v fresh psn, trie_walk_insert g u es = Ret (g', v) /\ shape g' (ps ++ psn) /\
    nth_error (ps ++ psn) (N.to_nat v) = Some (pu ++ map el_c es) /\
    nodes g' = nodes g ++ fresh /\ (forall x, In x fresh -> tp_reports x = []) /\
    (List.length fresh <= List.length es)%nat /\ N.of_nat (List.length (nodes g')) <= IX_END /\
    (forall q, In q (ps ++ psn) <-> In q ps \/ exists t, is_prefix t (map el_c es) /\ q = pu ++ t)) \/
  (trie_walk_insert g u es = Panic PCapacity /\ exists qs, NoDup qs /\ IX_END < N.of_nat (List.length qs) /\
    N.of_nat (List.length (nodes g)) + N.of_nat (List.length es) > IX_END /\
    forall q, In q qs -> In q ps \/ exists t, is_prefix t (map el_c es) /\ q = pu ++ t).
Proof.
  intro es; induction es as [|e es IH]; intros g ps u pu H Eu Hcap; cbn [trie_walk_insert map].
  - left. exists g, u, [], []. rewrite !app_nil_r. conjs; auto; [intros x []|].
    intro q. split; [auto|]. intros [I|(t & [t' T] & ->)]; [exact I|]. symmetry in T. apply app_eq_nil in T. destruct T as [-> _].
    rewrite app_nil_r. eapply nth_error_In; exact Eu.
  - destruct (trie_step_ok g ps u pu (el_c e) H Eu Hcap) as [(g1 & u1 & ps1 & E1 & H1 & Eu1 & C)|(E1 & Full & Nin)].
    2: { right. rewrite E1. cbn [bind]. split; [reflexivity|]. exists ((pu ++ [el_c e]) :: ps). conjs.
      - constructor; [exact Nin|apply (sh_nodup _ _ H)].
      - cbn [List.length]. rewrite (sh_len _ _ H). lia.
      - cbn [List.length]. lia.
      - intros q [<-|I]; [|auto]. right. exists [el_c e]. split; [exists (map el_c es); reflexivity|reflexivity]. }
    rewrite E1. cbn [bind].
    assert (Pu : In pu ps) by (eapply nth_error_In; exact Eu).
    assert (Len : (List.length (nodes g1) <= List.length (nodes g) + 1)%nat /\ N.of_nat (List.length (nodes g1)) <= IX_END).
    { destruct C as [[-> _]|(Room & _ & _ & ->)]; [lia|]. rewrite app_length. simpl. lia. }
    destruct Len as [Len Cap1].
    destruct (IH g1 ps1 u1 _ H1 Eu1 Cap1) as [(g2 & v & fresh & psn & E2 & H2 & Ev & Nn & Fr & Lf & Cap2 & Mem)|(E2 & qs & Nd & Big & Sum & Mem)].
    2: { right. split; [exact E2|]. exists qs. conjs; auto.
      - cbn [List.length]. lia.
      - intros q I. destruct (Mem q I) as [J|(t & [t' T] & ->)].
        + destruct C as [[_ ->]|(_ & _ & -> & _)]; [auto|]. apply in_app_iff in J. destruct J as [J|[<-|[]]]; [auto|].
          right. exists [el_c e]. split; [exists (map el_c es); reflexivity|reflexivity].
        + right. exists (el_c e :: t). split; [exists t'; rewrite T; reflexivity|]. rewrite <- app_assoc. reflexivity. }
    left.
    assert (Mem' : forall q, In q (ps1 ++ psn) <-> In q ps \/ exists t, is_prefix t (el_c e :: map el_c es) /\ q = pu ++ t).
    { intro q. rewrite Mem. split.
      - intros [I|(t & [t' T] & ->)].
        + destruct C as [[_ ->]|(_ & _ & -> & _)]; [auto|]. apply in_app_iff in I. destruct I as [I|[<-|[]]]; [auto|].
          right. exists [el_c e]. split; [exists (map el_c es); reflexivity|reflexivity].
        + right. exists (el_c e :: t). split; [exists t'; rewrite T; reflexivity|]. rewrite <- app_assoc. reflexivity.
      - intros [I|(t & [t' T] & ->)].
        + left. destruct C as [[_ ->]|(_ & _ & -> & _)]; [exact I|]. apply in_app_iff; auto.
        + destruct t as [|c t].
          * rewrite app_nil_r. left. destruct C as [[_ ->]|(_ & _ & -> & _)]; [exact Pu|]. apply in_app_iff; auto.
          * injection T as <- T. right. exists t. split; [exists t'; exact T|]. rewrite <- app_assoc. reflexivity. }
    destruct C as [[-> ->]|(_ & Nin & -> & Nn1)].
    + exists g2, v, fresh, psn. conjs; auto.
      * rewrite Ev, <- app_assoc. reflexivity.
      * simpl; lia.
    + exists g2, v, (tp_with_byte (el_c e) :: fresh), ((pu ++ [el_c e]) :: psn). replace (ps ++ (pu ++ [el_c e]) :: psn) with ((ps ++ [pu ++ [el_c e]]) ++ psn) by (rewrite <- app_assoc; reflexivity).
      split; [exact E2|]. split; [exact H2|]. split; [rewrite Ev, <- app_assoc; reflexivity|].
      split; [rewrite Nn, Nn1, <- app_assoc; reflexivity|].
      split; [intros x [<-|I]; [reflexivity|apply Fr; exact I]|]. split; [simpl; lia|]. split; [exact Cap2|exact Mem'].
Qed.

(** ** Content: which reports sit where *)
Record content (g : graph trie_props) (ps : list (list N)) (h : list insertion) : Prop := Content {
  ct_shape : shape g ps;
  ct_paths : forall q, In q ps <-> q = [] \/ exists b r, In (b, r) h /\ is_prefix q b;
  ct_reports : forall i q x, nth_error ps i = Some q -> nth_error (nodes g) i = Some x ->
    forall r, In r (tp_reports x) <-> In (q, r) h;
  ct_nodup : forall x, In x (nodes g) -> NoDup (tp_reports x)
}.
Lemma content_default : content (lt_inner trie_default) [[]] [].
Proof.
  constructor; cbn.
  - constructor; cbn; auto.
    + constructor; [intros []|constructor].
    + intros k a b K. destruct k; discriminate.
  - intro q. split; [intros [<-|[]]; auto|]. intros [->|(b & r & [] & _)]. auto.
  - intros i q x E F r. destruct i as [|i]; [|destruct i; discriminate]. injection F as <-. reflexivity.
  - intros x [<-|[]]. constructor.
Qed.
Lemma set_insert_In : forall {A} (eqb : A -> A -> bool) (ok : forall a b, eqb a b = true <-> a = b) x s y,
  In y (set_insert eqb x s) <-> In y s \/ y = x.
Proof.
  intros A eqb ok x s y. unfold set_insert. destruct (existsb (eqb x) s) eqn:E.
  - apply (existsb_In eqb ok) in E. split; [auto|]. intros [I| ->]; assumption.
  - rewrite in_app_iff. simpl. intuition congruence.
Qed.
Lemma set_insert_NoDup : forall {A} (eqb : A -> A -> bool) (ok : forall a b, eqb a b = true <-> a = b) x s,
  NoDup s -> NoDup (set_insert eqb x s).
Proof.
  intros A eqb ok x s H. unfold set_insert. destruct (existsb (eqb x) s) eqn:E; [exact H|].
  apply NoDup_snoc; [exact H|]. intro I. apply (existsb_In eqb ok) in I. congruence.
Qed.
Lemma nth_list_upd : forall {A} (l : list A) i f j,
  nth_error (list_upd l i f) j = if Nat.eqb i j then option_map f (nth_error l j) else nth_error l j.
Proof.
  intros A l; induction l as [|x l IH]; intros i f j; destruct i, j; simpl; try reflexivity.
  - destruct (i =? j)%nat; reflexivity.
  - apply IH.
Qed.
Lemma length_list_upd : forall {A} (l : list A) i f, List.length (list_upd l i f) = List.length l.
Proof. intros A l; induction l as [|x l IH]; intros [|i] f; simpl; try reflexivity. f_equal. apply IH. Qed.
Lemma shape_upd : forall g ps i f, (forall x, tp_c (f x) = tp_c x) -> shape g ps ->
  shape (Graph (list_upd (nodes g) i f) (edges g)) ps.
Proof.
  intros g ps i f Hf [H1 H2 H3 H4 H5]. constructor; cbn [nodes edges]; auto.
  - rewrite length_list_upd. exact H1.
  - intros k a b K. destruct (H5 _ _ _ K) as (-> & Lt & x & pa & N1 & N2 & N3). split; [reflexivity|split; [exact Lt|]].
    rewrite nth_list_upd, N1. destruct (i =? S k)%nat; simpl.
    + exists (f x), pa. rewrite Hf. auto.
    + exists x, pa. auto.
Qed.

Lemma add_to_trie_cases : forall l r t ps h, lit_wf l -> lt_root t = 0 -> content (lt_inner t) ps h ->
  N.of_nat (List.length (nodes (lt_inner t))) <= IX_END ->
  (exists t' ps', add_to_trie l r t = Ret (t', node_count (lt_inner t') <=? 8000) /\ lt_root t' = 0 /\
    content (lt_inner t') ps' (h ++ [(lit_s l, r)]) /\ node_count (lt_inner t') <= IX_END /\
    node_count (lt_inner t') <= node_count (lt_inner t) + lit_len l) \/
  (add_to_trie l r t = Panic PCapacity /\ IX_END < N.of_nat (List.length (distinct_prefixes (h ++ [(lit_s l, r)]))) /\
   IX_END < N.of_nat (List.length (nodes (lt_inner t))) + lit_len l).
Proof.
  intros l r t ps h Wl Hr C Hcap. unfold add_to_trie. rewrite lit_iter_ok, Hr.
  assert (Bytes : map el_c (pairs_of l) = lit_s l).
  { unfold pairs_of. rewrite map_map. cbn. unfold lit_wf in Wl. revert Wl. generalize (lit_s l) (lit_nocase l).
    intro s; induction s as [|c s IH]; intros [|n ns] W; simpl in *; try discriminate; [reflexivity|]. f_equal. apply IH. lia. }
  assert (Lb : List.length (pairs_of l) = List.length (lit_s l)) by (rewrite <- Bytes, map_length; reflexivity).
  destruct (trie_walk_ok (pairs_of l) (lt_inner t) ps 0 [] (ct_shape _ _ _ C))
    as [(g & v & fresh & psn & E & Sh & Ev & Nn & Fr & Lf & Cap & Mem)|(E & qs & Nd & Big & Sum & Mem)].
  { apply (sh_root _ _ (ct_shape _ _ _ C)). }
  { exact Hcap. }
  2: { right. rewrite E. cbn [bind]. split; [reflexivity|]. rewrite Lb in Sum. unfold lit_len. split; [|lia]. eapply N.lt_le_trans; [exact Big|].
    assert (Le : (List.length qs <= List.length (distinct_prefixes (h ++ [(lit_s l, r)])))%nat); [|lia].
    apply NoDup_incl_length; [exact Nd|]. intros q I. apply in_distinct. rewrite Bytes in Mem. destruct (Mem q I) as [J|(t' & P & ->)].
    - apply (ct_paths _ _ _ C) in J. destruct J as [->|(b & r' & J & P)]; [auto|]. right. exists b, r'. split; [apply in_app_iff; auto|exact P].
    - right. exists (lit_s l), r. split; [apply in_app_iff; right; left; reflexivity|exact P]. }
  left. rewrite E. cbn [bind]. rewrite Bytes in *. cbn [app] in *.
  pose proof (sh_bound _ _ _ _ Sh Ev) as Lv.
  unfold node_update, node_weight, node_count. replace (v <? N.of_nat (List.length (nodes g))) with true by lia.
  destruct (nth_error (nodes g) (N.to_nat v)) as [xv|] eqn:Xv; [|apply nth_error_None in Xv; lia].
  cbn [bind lt_inner nodes].
  exists (LitTrie (Graph (list_upd (nodes g) (N.to_nat v) (fun x => TrieProps (tp_c x) (set_insert N.eqb r (tp_reports x)))) (edges g)) 0), (ps ++ psn).
  split; [reflexivity|]. split; [reflexivity|]. cbn [lt_inner nodes].
  assert (FullIn : forall b r', In (b, r') h -> In b ps).
  { intros b r' I. apply (ct_paths _ _ _ C). right. exists b, r'. split; [exact I|]. exists []. symmetry; apply app_nil_r. }
  split.
  - constructor.
    + apply shape_upd; [reflexivity|exact Sh].
    + intro q. rewrite Mem. rewrite (ct_paths _ _ _ C). split.
      * intros [[->|(b & r' & I & P)]|(t0 & P & ->)]; [auto| |].
        -- right. exists b, r'. split; [apply in_app_iff; auto|exact P].
        -- right. exists (lit_s l), r. split; [apply in_app_iff; right; left; reflexivity|exact P].
      * intros [->|(b & r' & I & P)]; [auto|]. apply in_app_iff in I. destruct I as [I|[I|[]]].
        -- left. right. eauto.
        -- injection I as <- <-. right. eauto.
    + intros i q x Hq Hx r'. cbn [nodes] in Hx. rewrite nth_list_upd in Hx.
      assert (Old : forall y, nth_error (nodes g) i = Some y -> (In r' (tp_reports y) <-> In (q, r') h)).
      { intros y Hy. rewrite Nn in Hy. pose proof (sh_len _ _ (ct_shape _ _ _ C)) as Len.
        destruct (Nat.lt_ge_cases i (List.length (nodes (lt_inner t)))) as [L|G].
        - rewrite nth_error_app1 in Hy by exact L. rewrite nth_error_app1 in Hq by lia.
          apply (ct_reports _ _ _ C i q y Hq Hy).
        - rewrite nth_error_app2 in Hy by exact G. rewrite (Fr y) by (eapply nth_error_In; exact Hy).
          split; [intros []|]. intro I. apply FullIn in I. apply In_nth_error in I. destruct I as [j Hj].
          assert (j < List.length ps)%nat by (apply nth_error_Some; congruence).
          assert (j = i); [|lia]. eapply sh_inj; [exact Sh| |exact Hq]. rewrite nth_error_app1 by assumption. exact Hj. }
      rewrite in_app_iff. cbn [In].
      destruct (Nat.eqb_spec (N.to_nat v) i) as [<-|Ne].
      * rewrite Xv in Hx. injection Hx as <-. cbn [tp_reports]. rewrite (set_insert_In N.eqb N.eqb_eq).
        rewrite (Old xv Xv). rewrite Ev in Hq. injection Hq as <-. split.
        -- intros [I| ->]; auto.
        -- intros [I|[I|[]]]; [auto|]. injection I as <-. auto.
      * rewrite (Old x Hx). split; [auto|]. intros [I|[I|[]]]; [exact I|]. injection I as <- <-. exfalso. apply Ne.
        eapply sh_inj; [exact Sh|exact Ev|exact Hq].
    + intros x I. apply In_nth_error in I. destruct I as [i I]. cbn [nodes] in I. rewrite nth_list_upd in I.
      assert (Old : forall y, nth_error (nodes g) i = Some y -> NoDup (tp_reports y)).
      { intros y Y. apply nth_error_In in Y. rewrite Nn in Y. apply in_app_iff in Y. destruct Y as [Y|Y].
        - apply (ct_nodup _ _ _ C _ Y).
        - rewrite (Fr _ Y). constructor. }
      destruct (Nat.eqb (N.to_nat v) i).
      * destruct (nth_error (nodes g) i) as [y|] eqn:Y; [|discriminate]. injection I as <-. cbn [tp_reports].
        apply set_insert_NoDup; [exact N.eqb_eq|]. apply Old. reflexivity.
      * apply Old. exact I.
  - rewrite length_list_upd. split; [exact Cap|]. rewrite Nn, app_length. unfold lit_len. lia.
Qed.
Lemma add_to_trie_ok : forall l r t ps h, lit_wf l -> lt_root t = 0 -> content (lt_inner t) ps h ->
  N.of_nat (List.length (nodes (lt_inner t))) + lit_len l <= IX_END ->
  exists t' ps', add_to_trie l r t = Ret (t', node_count (lt_inner t') <=? 8000) /\ lt_root t' = 0 /\
    content (lt_inner t') ps' (h ++ [(lit_s l, r)]) /\
    node_count (lt_inner t') <= node_count (lt_inner t) + lit_len l.
Proof.
  intros l r t ps h Wl Hr C Hcap. destruct (add_to_trie_cases l r t ps h Wl Hr C) as [(t' & ps' & E & R & C' & _ & L)|(_ & _ & Z)]; [lia| |lia].
  exists t', ps'. auto.
Qed.

Lemma content_count : forall g ps h, content g ps h -> List.length (nodes g) = List.length (distinct_prefixes h).
Proof.
  intros g ps h C. rewrite <- (sh_len _ _ (ct_shape _ _ _ C)). apply Permutation_length.
  apply NoDup_Permutation.
  - apply (sh_nodup _ _ (ct_shape _ _ _ C)).
  - apply NoDup_nodup.
  - intro q. rewrite in_distinct. apply (ct_paths _ _ _ C).
Qed.
(** Walking by bytes. *)
Lemma reach_iff : forall g ps h u pu v bs, content g ps h -> nth_error ps (N.to_nat u) = Some pu ->
  (reach g u bs v <-> nth_error ps (N.to_nat v) = Some (pu ++ bs)).
Proof.
  intros g ps h u pu v bs C. pose proof (ct_shape _ _ _ C) as Sh. revert u pu v. induction bs as [|c bs IH]; intros u pu v Eu.
  - rewrite app_nil_r. split.
    + intro R. inversion R; subst. exact Eu.
    + intro E. assert (N.to_nat u = N.to_nat v) by (eapply sh_inj; eassumption). assert (u = v) by lia. subst. constructor.
  - split.
    + intro R. inversion R as [|? w x ? ? I Nx R' Eq1]; subst. destruct (sh_child _ _ _ _ _ Sh Eu I) as (x' & X & Y).
      rewrite X in Nx. injection Nx as ->. rewrite (IH w _ v Y) in R'. rewrite <- app_assoc in R'. exact R'.
    + intro E. assert (P : In (pu ++ [c]) ps).
      { apply (ct_paths _ _ _ C). right.
        assert (I : In (pu ++ c :: bs) ps) by (eapply nth_error_In; exact E). apply (ct_paths _ _ _ C) in I.
        destruct I as [I|(b & r & I & [t T])]; [destruct pu; discriminate|].
        exists b, r. split; [exact I|]. exists (bs ++ t). rewrite T, <- !app_assoc. reflexivity. }
      apply In_nth_error in P. destruct P as [i P].
      destruct (sh_child_exists _ _ _ _ _ _ Sh Eu P) as (x & X1 & X2 & X3). subst c.
      apply reach_cons with (w := N.of_nat i).
      * exact X1.
      * rewrite Nat2N.id. exact X2.
      * apply (IH (N.of_nat i) (pu ++ [tp_c x])); [rewrite Nat2N.id; exact P|]. rewrite <- app_assoc. exact E.
Qed.

(** ** Histories of insertions *)
Definition n_prefixes (h : list insertion) : N := N.of_nat (List.length (distinct_prefixes h)).
Lemma n_prefixes_mono : forall h x, n_prefixes h <= n_prefixes (h ++ x).
Proof.
  intros h x. unfold n_prefixes.
  assert (L : (List.length (distinct_prefixes h) <= List.length (distinct_prefixes (h ++ x)))%nat); [|lia].
  apply NoDup_incl_length; [apply NoDup_nodup|]. intros q I. apply in_distinct in I. apply in_distinct.
  destruct I as [->|(b & r & I & P)]; [auto|]. right. exists b, r. split; [apply in_app_iff; auto|exact P].
Qed.
Lemma insert_all_cases : forall h t ps h0, lt_root t = 0 -> content (lt_inner t) ps h0 ->
  (forall x, In x h -> lit_wf (fst x)) -> node_count (lt_inner t) <= IX_END ->
  (n_prefixes (h0 ++ map insertion_of h) <= IX_END /\
   exists t' ps', insert_all t h = Ret t' /\ lt_root t' = 0 /\ content (lt_inner t') ps' (h0 ++ map insertion_of h)) \/
  (IX_END < n_prefixes (h0 ++ map insertion_of h) /\ insert_all t h = Panic PCapacity).
Proof.
  intro h; induction h as [|[l r] h IH]; intros t ps h0 Hr C W Hcap; cbn [insert_all map].
  - left. rewrite app_nil_r. split; [|exists t, ps; auto]. unfold n_prefixes. rewrite <- (content_count _ _ _ C). exact Hcap.
  - change (insertion_of (l, r)) with (lit_s l, r).
    destruct (add_to_trie_cases l r t ps h0) as [(t1 & ps1 & E & Hr1 & C1 & Cap1 & _)|(E & Big & _)]; auto.
    { apply (W (l, r)). left; reflexivity. }
    + rewrite E. cbn [bind]. assert (W' : forall x, In x h -> lit_wf (fst x)) by (intros x I; apply W; right; exact I).
      pose proof (IH t1 ps1 _ Hr1 C1 W' Cap1) as Z. rewrite <- app_assoc in Z. exact Z.
    + right. rewrite E. cbn [bind]. split; [|reflexivity]. eapply N.lt_le_trans; [exact Big|].
      pose proof (n_prefixes_mono (h0 ++ [(lit_s l, r)]) (map insertion_of h)) as Z. rewrite <- app_assoc in Z. exact Z.
Qed.

(** ** The small-write builder *)
(** The limits of a configuration keep the numbers of the dictionaries in range. *)
Definition grey_ok (p : profile) (g : grey) : Prop :=
  small_write_largest_buffer g + 8000 < 2 ^ 32 - 1 /\ small_write_max_literals g + 1 < 2 ^ usize_bits p.
Definition disabled (np : N) (g : grey) (h : list (literal * N)) : bool :=
  negb (allow_small_write g) || (small_write_max_patterns g <? np) || (small_write_max_literals g <? n_short g h)
  || (8000 <? n_prefixes (short_sensitive g h)) || (8000 <? n_prefixes (short_caseless g h)).

Lemma short_sensitive_snoc : forall g h x, short_sensitive g (h ++ [x]) =
  short_sensitive g h ++ if short g x && negb (has_caseless x) then [insertion_of x] else [].
Proof. intros g h x. unfold short_sensitive. rewrite filter_app, map_app. simpl. destruct (short g x && negb (has_caseless x)); reflexivity. Qed.
Lemma short_caseless_snoc : forall g h x, short_caseless g (h ++ [x]) =
  short_caseless g h ++ if short g x && has_caseless x then [insertion_of x] else [].
Proof. intros g h x. unfold short_caseless. rewrite filter_app, map_app. simpl. destruct (short g x && has_caseless x); reflexivity. Qed.
Lemma n_short_snoc : forall g h x, n_short g (h ++ [x]) = n_short g h + if short g x then 1 else 0.
Proof. intros g h x. unfold n_short. rewrite filter_app, app_length. simpl. destruct (short g x); simpl; lia. Qed.
Lemma disabled_mono : forall np g h x, disabled np g h = true -> disabled np g (h ++ [x]) = true.
Proof.
  intros np g h x. unfold disabled. rewrite short_sensitive_snoc, short_caseless_snoc, n_short_snoc.
  pose proof (n_prefixes_mono (short_sensitive g h) (if short g x && negb (has_caseless x) then [insertion_of x] else [])).
  pose proof (n_prefixes_mono (short_caseless g h) (if short g x && has_caseless x then [insertion_of x] else [])).
  rewrite !orb_true_iff, !N.ltb_lt. intros [[[[H1|H1]|H1]|H1]|H1]; auto.
  - left; left; right. lia.
  - left; right. lia.
  - right. lia.
Qed.

Record smwr_inv (np : N) (g : grey) (h : list (literal * N)) (s : small_write) : Prop := SmwrInv {
  si_grey : sw_grey s = g;
  si_poisoned : sw_poisoned s = disabled np g h;
  si_size : node_count (lt_inner (sw_trie s)) <= 8000 + small_write_largest_buffer g /\
            node_count (lt_inner (sw_trie_nocase s)) <= 8000 + small_write_largest_buffer g;
  si_content : disabled np g h = false ->
    sw_num_literals s = n_short g h /\ lt_root (sw_trie s) = 0 /\ lt_root (sw_trie_nocase s) = 0 /\
    (exists ps, content (lt_inner (sw_trie s)) ps (short_sensitive g h)) /\
    (exists ps, content (lt_inner (sw_trie_nocase s)) ps (short_caseless g h))
}.
Lemma smwr_inv_new : forall np g, smwr_inv np g [] (smwr_new np g).
Proof.
  intros np g. constructor.
  - reflexivity.
  - unfold smwr_new, disabled. cbn [sw_poisoned]. change (n_short g []) with 0.
    change (n_prefixes (short_sensitive g [])) with 1. change (n_prefixes (short_caseless g [])) with 1.
    replace (small_write_max_literals g <? 0) with false by lia. change (8000 <? 1) with false. rewrite !orb_false_r. reflexivity.
  - unfold smwr_new, node_count. cbn. lia.
  - intros _. cbn. conjs; try reflexivity; exists [[]]; apply content_default.
Qed.
Lemma content_n : forall g ps h, content g ps h -> node_count g = n_prefixes h.
Proof. intros g ps h C. unfold node_count, n_prefixes. rewrite (content_count _ _ _ C). reflexivity. Qed.

Lemma smwr_step : forall p np g h s l r, grey_ok p g -> lit_wf l -> smwr_inv np g h s ->
  exists s', smwr_add_literal p s l r = Ret s' /\ smwr_inv np g (h ++ [(l, r)]) s'.
Proof.
  intros p np g h s l r [G1 G2] W [Ig Ip Is Ic]. change (2 ^ 32 - 1) with IX_END in G1. unfold smwr_add_literal. rewrite Ig, Ip.
  destruct (disabled np g h) eqn:D.
  - exists s. split; [reflexivity|]. pose proof (disabled_mono np g h (l, r) D) as D'.
    constructor; auto; congruence.
  - destruct (Ic eq_refl) as (Hn & R1 & R2 & (ps1 & C1) & (ps2 & C2)). clear Ic.
    assert (Dd : disabled np g h = false) by exact D. unfold disabled in D. rewrite !orb_false_iff in D.
    destruct D as ((((D1 & D2) & D3) & D4) & D5). apply N.ltb_ge in D3, D4, D5.
    destruct (N.ltb_spec (small_write_largest_buffer g) (lit_len l)) as [L|L].
    + assert (Sx : short g (l, r) = false) by (unfold short, lit_len in *; cbn [fst]; lia).
      exists s. split; [reflexivity|].
      assert (E : disabled np g (h ++ [(l, r)]) = disabled np g h /\ n_short g (h ++ [(l, r)]) = n_short g h /\
        short_sensitive g (h ++ [(l, r)]) = short_sensitive g h /\ short_caseless g (h ++ [(l, r)]) = short_caseless g h).
      { unfold disabled. rewrite short_sensitive_snoc, short_caseless_snoc, n_short_snoc, Sx. simpl.
        rewrite !app_nil_r, N.add_0_r. auto. }
      destruct E as (E1 & E2 & E3 & E4). constructor; auto; [congruence|]. intros _. rewrite E2, E3, E4. conjs; eauto.
    + assert (Sx : short g (l, r) = true) by (unfold short, lit_len in *; cbn [fst]; lia).
      rewrite chk_add_ok by lia. cbn [bind]. cbn [sw_grey sw_num_literals sw_poisoned sw_trie sw_trie_nocase].
      pose proof (n_short_snoc g h (l, r)) as Ns. rewrite Sx in Ns.
      pose proof (short_sensitive_snoc g h (l, r)) as Ss. pose proof (short_caseless_snoc g h (l, r)) as Sc.
      rewrite Sx in Ss, Sc. cbn [andb] in Ss, Sc.
      rewrite Hn. destruct (N.ltb_spec (small_write_max_literals g) (n_short g h + 1)) as [M|M].
      * assert (D' : disabled np g (h ++ [(l, r)]) = true).
        { unfold disabled. rewrite Ns. replace (small_write_max_literals g <? n_short g h + 1) with true by lia.
          rewrite !orb_true_r. reflexivity. }
        eexists. split; [reflexivity|]. constructor; [solve [exact Ig|reflexivity]|symmetry; exact D'|exact Is|congruence].
      * change (lit_any_nocase l) with (has_caseless (l, r)).
        destruct (has_caseless (l, r)) eqn:Hc; cbn [negb] in Ss, Sc; rewrite ?app_nil_r in *.
        -- destruct (add_to_trie_ok l r (sw_trie_nocase s) ps2 _ W R2 C2) as (t' & ps' & E & Rt & Ct & Lt).
           { rewrite (content_count _ _ _ C2). unfold n_prefixes in D5. lia. }
           rewrite E. cbn [bind].
           assert (Nt : node_count (lt_inner t') = n_prefixes (short_caseless g (h ++ [(l, r)]))).
           { rewrite Sc. apply (content_n _ _ _ Ct). }
           assert (Nt0 : node_count (lt_inner (sw_trie_nocase s)) = n_prefixes (short_caseless g h)) by (apply (content_n _ _ _ C2)).
           assert (D' : disabled np g (h ++ [(l, r)]) = negb (node_count (lt_inner t') <=? 8000)).
           { unfold disabled. rewrite Ns, Ss, D1, D2. rewrite Nt.
             replace (small_write_max_literals g <? n_short g h + 1) with false by lia.
             replace (8000 <? n_prefixes (short_sensitive g h)) with false by lia. simpl. lia. }
           rewrite <- D'. eexists. split; [reflexivity|].
           destruct (disabled np g (h ++ [(l, r)])) eqn:Dn.
           ++ constructor; cbn [negb smwr_poison sw_grey sw_poisoned sw_trie sw_trie_nocase sw_num_literals]; [solve [exact Ig|reflexivity]|congruence|split; [apply Is|lia]|congruence].
           ++ constructor; cbn [negb smwr_poison sw_grey sw_poisoned sw_trie sw_trie_nocase sw_num_literals]; [solve [exact Ig|reflexivity]|congruence|split; [apply Is|lia]|]. intros _. rewrite Ns, Ss, Sc. conjs; eauto.
        -- destruct (add_to_trie_ok l r (sw_trie s) ps1 _ W R1 C1) as (t' & ps' & E & Rt & Ct & Lt).
           { rewrite (content_count _ _ _ C1). unfold n_prefixes in D4. lia. }
           rewrite E. cbn [bind].
           assert (Nt : node_count (lt_inner t') = n_prefixes (short_sensitive g (h ++ [(l, r)]))).
           { rewrite Ss. apply (content_n _ _ _ Ct). }
           assert (Nt0 : node_count (lt_inner (sw_trie s)) = n_prefixes (short_sensitive g h)) by (apply (content_n _ _ _ C1)).
           assert (D' : disabled np g (h ++ [(l, r)]) = negb (node_count (lt_inner t') <=? 8000)).
           { unfold disabled. rewrite Ns, Sc, D1, D2. rewrite Nt.
             replace (small_write_max_literals g <? n_short g h + 1) with false by lia.
             replace (8000 <? n_prefixes (short_caseless g h)) with false by lia. simpl. lia. }
           rewrite <- D'. eexists. split; [reflexivity|].
           destruct (disabled np g (h ++ [(l, r)])) eqn:Dn.
           ++ constructor; cbn [negb smwr_poison sw_grey sw_poisoned sw_trie sw_trie_nocase sw_num_literals]; [solve [exact Ig|reflexivity]|congruence|split; [lia|apply Is]|congruence].
           ++ constructor; cbn [negb smwr_poison sw_grey sw_poisoned sw_trie sw_trie_nocase sw_num_literals]; [solve [exact Ig|reflexivity]|congruence|split; [lia|apply Is]|]. intros _. rewrite Ns, Ss, Sc. conjs; eauto.
Qed.
Lemma smwr_run_inv : forall p np g h2 h1 s, grey_ok p g -> (forall x, In x h2 -> lit_wf (fst x)) -> smwr_inv np g h1 s ->
  exists s', smwr_run p s h2 = Ret s' /\ smwr_inv np g (h1 ++ h2) s'.
Proof.
  intros p np g h2; induction h2 as [|[l r] h2 IH]; intros h1 s G W I; cbn [smwr_run].
  - exists s. rewrite app_nil_r. auto.
  - destruct (smwr_step p np g h1 s l r G) as (s1 & E & I1); auto.
    { apply (W (l, r)). left; reflexivity. }
    rewrite E. cbn [bind]. destruct (IH (h1 ++ [(l, r)]) s1 G) as (s' & E' & I'); auto.
    { intros x X. apply W. right; exact X. }
    exists s'. split; [exact E'|]. rewrite <- app_assoc in I'. exact I'.
Qed.
