(** Runs of the source text: the walk of [shortcut_literal] over a tree. *)
From Verif Require Import Base ModelUtil ModelBitField ModelCharReach ModelLiteral ModelReport ModelPetgraph ModelParser ModelNfa ModelSmallWrite ModelCompiler
  ModelRust ModelInterp ModelDump ModelSource SpecSource SpecSourceCrate.
From Verif Require Import ProofBase ProofSourceA ProofSourceB ProofSourceC ProofSourceD ProofSourceE ProofSourceF ProofSourceL ProofSourceR ProofSourceS ProofSourceT ProofSourceU ProofSourceW.
Local Open Scope string_scope.
Local Open Scope N_scope.
Local Open Scope list_scope.
#[global] Arguments v_seqn : simpl never.
#[global] Arguments v_comp : simpl never.
#[global] Arguments v_alt : simpl never.
Lemma co_struct : forall ty0 n fs, coerce ty0 (VStruct n fs) = VStruct n fs.
Proof. coerced. Qed.
Lemma co_seqn : forall ty0 c, coerce ty0 (v_seqn c) = v_seqn c.
Proof. intros. destruct c. apply co_struct. Qed.
Lemma co_comp : forall ty0 c, coerce ty0 (v_comp c) = v_comp c.
Proof.
  intro t. induction t; intros; cbn [coerce]; try reflexivity; try apply IHt; destruct c; unfold v_comp;
  repeat (match goal with |- match ?l with _ => _ end = _ => is_var l; destruct l; try reflexivity end).
Qed.
Lemma co_alt : forall ty0 c, coerce ty0 (v_alt c) = v_alt c.
Proof. coerced. Qed.
#[export] Hint Rewrite co_seqn co_comp co_alt : coerced.
Lemma w_pre_seq : forall p lf d l (c : seqn), call p G lf (S d) (Some "ConstructLiteralVisitor") "pre_component_sequence" [v_vis l; v_seqn c] = Ret (Some (ok_ VUnit, [v_vis l; v_seqn c])).
Proof. enter. auto_. Qed.
#[export] Hint Rewrite w_pre_seq : calls.
Lemma w_pre_alt : forall p lf d l (c : list seqn), call p G lf (S d) (Some "ConstructLiteralVisitor") "pre_component_alternation" [v_vis l; v_alt c] = Ret (Some (VCtor "Err" [VStruct "NotLiteral" []], [v_vis l; v_alt c])).
Proof. enter. auto_. Qed.
#[export] Hint Rewrite w_pre_alt : calls.
Lemma w_during_class : forall p lf d l (c : ascii_class), call p G lf (S d) (Some "ConstructLiteralVisitor") "during_ascii_component_class" [v_vis l; v_ac c] = Ret (Some (VUnit, [v_vis l; v_ac c])).
Proof. enter. auto_. Qed.
#[export] Hint Rewrite w_during_class : calls.
Lemma w_during_seq : forall p lf d l (c : seqn), call p G lf (S d) (Some "ConstructLiteralVisitor") "during_component_sequence" [v_vis l; v_seqn c] = Ret (Some (VUnit, [v_vis l; v_seqn c])).
Proof. enter. auto_. Qed.
#[export] Hint Rewrite w_during_seq : calls.
Lemma w_during_alt : forall p lf d l (c : list seqn), call p G lf (S d) (Some "ConstructLiteralVisitor") "during_component_alternation" [v_vis l; v_alt c] = Ret (Some (VUnit, [v_vis l; v_alt c])).
Proof. enter. auto_. Qed.
#[export] Hint Rewrite w_during_alt : calls.
Lemma w_post_class : forall p lf d l (c : ascii_class), call p G lf (S d) (Some "ConstructLiteralVisitor") "post_ascii_component_class" [v_vis l; v_ac c] = Ret (Some (VUnit, [v_vis l; v_ac c])).
Proof. enter. auto_. Qed.
#[export] Hint Rewrite w_post_class : calls.
Lemma w_post_seq : forall p lf d l (c : seqn), call p G lf (S d) (Some "ConstructLiteralVisitor") "post_component_sequence" [v_vis l; v_seqn c] = Ret (Some (VUnit, [v_vis l; v_seqn c])).
Proof. enter. auto_. Qed.
#[export] Hint Rewrite w_post_seq : calls.
Lemma w_post_alt : forall p lf d l (c : list seqn), call p G lf (S d) (Some "ConstructLiteralVisitor") "post_component_alternation" [v_vis l; v_alt c] = Ret (Some (VUnit, [v_vis l; v_alt c])).
Proof. enter. auto_. Qed.
#[export] Hint Rewrite w_post_alt : calls.
Lemma w_class : forall p lf d l c, (300 <= lf)%nat -> call p G lf (S (S (S (S (S (S (S (S d)))))))) None "walk_ascii_component_class" [v_vis l; v_ac c] =
  (let! r := lit_pre_class p l c in Ret (Some (v_walked r, [left_by l r; v_ac c]))).
Proof. enter. auto_. destruct a; unfold v_walked, left_by; auto_. Qed.
#[export] Hint Rewrite w_class using lia : calls.
Lemma w_comp_class : forall p lf d l c, (300 <= lf)%nat -> call p G lf (S (S (S (S (S (S (S (S (S d))))))))) None "walk_component_class" [v_vis l; v_cc c] =
  (let! r := lit_pre_class p l c in Ret (Some (v_walked r, [left_by l r; v_cc c]))).
Proof. enter. auto_. destruct a; unfold v_walked, left_by; auto_. Qed.
#[export] Hint Rewrite w_comp_class using lia : calls.
Definition v_alts (o : option (list seqn)) : val := match o with Some l => some_ (v_alt l) | None => none_ end.
#[global] Arguments v_alts : simpl never.
Fixpoint need (c : component) : nat := match c with CSequence s => S (need_s s) | _ => 10%nat end
with need_s (s : seqn) : nat := match s with Seqn ch _ _ _ => S (S (fold_right (fun c m => S (need c + m)) 0%nat ch)) end.
Definition walks (p : profile) (n : nat) : Prop := forall c lf d l, (need c <= n)%nat -> (need c <= d)%nat -> (300 + need c <= lf)%nat ->
  exists l', call p G lf d None "walk_component" [v_vis l; v_comp c] =
  (let! r := walk_component p (construct_literal_visitor p) l c in Ret (Some (v_walked r, [left_by l' r; v_comp c]))).
Lemma x_pre_seq : forall p lf d l ch o ci cn, call p G lf (S d) (Some "ConstructLiteralVisitor") "pre_component_sequence" [v_vis l; seq_ (map v_comp ch) (v_alts o) (v_u32 ci) (v_text cn)] =
  Ret (Some (ok_ VUnit, [v_vis l; seq_ (map v_comp ch) (v_alts o) (v_u32 ci) (v_text cn)])).
Proof. intros. exact (w_pre_seq p lf d l (Seqn ch o ci cn)). Qed.
#[export] Hint Rewrite x_pre_seq : calls.
Lemma x_during_seq : forall p lf d l ch o ci cn, call p G lf (S d) (Some "ConstructLiteralVisitor") "during_component_sequence" [v_vis l; seq_ (map v_comp ch) (v_alts o) (v_u32 ci) (v_text cn)] =
  Ret (Some (VUnit, [v_vis l; seq_ (map v_comp ch) (v_alts o) (v_u32 ci) (v_text cn)])).
Proof. intros. exact (w_during_seq p lf d l (Seqn ch o ci cn)). Qed.
#[export] Hint Rewrite x_during_seq : calls.
Lemma x_post_seq : forall p lf d l ch o ci cn, call p G lf (S d) (Some "ConstructLiteralVisitor") "post_component_sequence" [v_vis l; seq_ (map v_comp ch) (v_alts o) (v_u32 ci) (v_text cn)] =
  Ret (Some (VUnit, [v_vis l; seq_ (map v_comp ch) (v_alts o) (v_u32 ci) (v_text cn)])).
Proof. intros. exact (w_post_seq p lf d l (Seqn ch o ci cn)). Qed.
#[export] Hint Rewrite x_post_seq : calls.
Definition Ws : work := WWhileLet (PCtor ["Some"] [PVar "child"])
                  (EMethod (EPath ["child_iter"]) "next" [])
                  [SExpr
                     (ETry
                        (ECall ["walk_component"]
                           [EPath ["v"]; EPath ["child"]]));
                   SLast
                     (EIf
                        (EMethod (EMethod (EPath ["child_iter"]) "peek" [])
                           "is_some" [])
                        [SExpr
                           (EMethod (EPath ["v"]) "during_component_sequence"
                              [EPath ["c"]])] None)].
Definition all_need (ch : list component) (n : nat) : Prop := Forall (fun c => (need c <= n)%nat) ch.
Lemma x_loop : forall p n, walks p n -> forall lf d c0 o ci cn ch k l, all_need ch n -> all_need ch (S d) -> all_need ch (lf - 300) -> (300 <= lf)%nat -> (List.length ch < k)%nat ->
  exists l' rest, loop p G None (call p G lf (S d)) k Ws [("child_iter", VList (map v_comp ch)); ("v", v_vis l); ("c", seq_ (map v_comp c0) (v_alts o) (v_u32 ci) (v_text cn))] =
  (let! r := walk_list (fun v c => walk_component p (construct_literal_visitor p) v c) (fun v => v) l ch in
   match r with
   | ROk m => val_ VUnit [("child_iter", VList []); ("v", v_vis m); ("c", seq_ (map v_comp c0) (v_alts o) (v_u32 ci) (v_text cn))]
   | RErr _ => Ret (Some (FRet (VCtor "Err" [VStruct "NotLiteral" []]), [("child_iter", VList rest); ("v", v_vis l'); ("c", seq_ (map v_comp c0) (v_alts o) (v_u32 ci) (v_text cn))]))
   end).
Proof.
  intros p n IH lf d c0 o ci cn ch. induction ch as [|x ch IHc]; intros k l Hn Hd Hl H3 Hk; (destruct k as [|k]; [cbn in Hk; lia|]).
  - exists l, []. cbn [loop]. unfold Ws. auto_; reflexivity.
  - inversion_clear Hn. inversion_clear Hd. inversion_clear Hl. destruct (IH x lf (S d) l) as [l1 E1]; [assumption|assumption|lia|].
    cbn [walk_list]. destruct (walk_component p (construct_literal_visitor p) l x) as [[m|[]]| |] eqn:E; cbn [bind] in E1.
    + destruct (IHc k m) as (l' & rest & E2); [assumption|assumption|assumption|assumption|cbn in Hk; lia|].
      exists l', rest. cbn [loop]. unfold Ws at 1. repeat lhs. rewrite E1. unfold v_walked, left_by. destruct ch as [|y ch]; cbn [map]; repeat lhs; (etransitivity; [exact E2|]); reflexivity.
    + exists l1, (map v_comp ch). cbn [loop]. unfold Ws at 1. repeat lhs. rewrite E1. unfold v_walked, left_by. auto_. all: reflexivity.
    + exists l, []. cbn [loop]. unfold Ws at 1. repeat lhs. rewrite E1. reflexivity.
    + exists l, []. cbn [loop]. unfold Ws at 1. repeat lhs. rewrite E1. reflexivity.
Qed.
Lemma x_seq : forall p n, walks p n -> forall s lf d l, (need_s s <= S n)%nat -> (need_s s <= S d)%nat -> (300 + need_s s <= lf)%nat ->
  exists l', call p G lf (S d) None "walk_component_sequence" [v_vis l; v_seqn s] =
  (let! r := walk_seqn p (construct_literal_visitor p) l s in Ret (Some (v_walked r, [left_by l' r; v_seqn s]))).
Proof.
  intros p n IH s lf d l Hn Hd Hl. destruct s as [ch o ci cn]. destruct d as [|d]; [cbn in Hd; lia|].
  assert (List.length ch <= fold_right (fun c m => S (need c + m)) 0 ch)%nat by (clear; induction ch; cbn [List.length fold_right]; lia).
  destruct (x_loop p n IH lf d ch o ci cn ch lf l) as (l' & rest & E); [| | |cbn [need_s] in Hl; lia|cbn [need_s] in Hl; lia|].
  1-3: apply Forall_forall; intros x Hx; assert (need x <= fold_right (fun c m => S (need c + m)) 0 ch)%nat by (clear - Hx; induction ch as [|y ch IHch]; [destruct Hx|destruct Hx as [->|Hx]; cbn [fold_right]; [lia|specialize (IHch Hx); lia]]); cbn [need_s] in Hn, Hd, Hl; lia.
  exists l'. enter. change (v_seqn (Seqn ch o ci cn)) with (seq_ (map v_comp ch) (v_alts o) (v_u32 ci) (v_text cn)). cbn [walk_seqn]. unfold rs_debug_assert. repeat lhs.
  destruct (debug_assertions p); [destruct o; [reflexivity|]|]; cbn [bind]; repeat lhs.
  all: fold Ws; rewrite E; change (pre_sequence (construct_literal_visitor p) l (Seqn ch ?[a] ci cn)) with (@Ret (result unit literal) (ROk l)); cbn [andb negb bind construct_literal_visitor during_sequence post_sequence bindr];
    destruct (walk_list _ _ l ch) as [[m|[]]| |]; cbn [bind]; [| |reflexivity|reflexivity]; unfold v_walked, left_by; auto_; reflexivity.
Qed.
Lemma x_alt : forall p lf d l bs, call p G lf (S (S d)) None "walk_component_alternation" [v_vis l; v_alt bs] = Ret (Some (VCtor "Err" [VStruct "NotLiteral" []], [v_vis l; v_alt bs])).
Proof. enter. auto_. Qed.
#[export] Hint Rewrite x_alt : calls.
Lemma x_walks : forall p n, walks p n.
Proof.
  intros p n. induction n as [|n IH]; intros c lf d l Hn Hd Hl; [destruct c; cbn in Hn; lia|]. destruct c as [bs|k|s].
  - cbn [need] in Hn, Hd, Hl. do 10 (destruct d as [|d]; [lia|]). exists l. enter. change (v_comp (CAlternation bs)) with (VCtor "Component::Alternation" [v_alt bs]). cbn [walk_component]. auto_.
  - cbn [need] in Hn, Hd, Hl. do 10 (destruct d as [|d]; [lia|]). exists l. enter. change (v_comp (CClass k)) with (VCtor "Component::Class" [v_cc k]). cbn [walk_component]. unfold walk_class. cbn [construct_literal_visitor pre_class during_class post_class]. auto_. destruct a; unfold v_walked, left_by; auto_.
  - cbn [need] in Hn, Hd, Hl. destruct d as [|[|d]]; [destruct s; cbn in Hd; lia|destruct s; cbn in Hd; lia|].
    destruct (x_seq p n IH s lf d l) as [l' E]; [lia|lia|lia|]. exists l'. enter. change (v_comp (CSequence s)) with (VCtor "Component::Sequence" [v_seqn s]). cbn [walk_component]. repeat lhs. rewrite E.
    destruct (walk_seqn p (construct_literal_visitor p) l s) as [[m|[]]| |]; cbn [bind]; [| |reflexivity|reflexivity]; unfold v_walked, left_by; auto_.
Qed.
Lemma pre_length : forall p l c m, lit_pre_class p l c = Ret (ROk m) -> List.length (lit_s m) = S (List.length (lit_s l)).
Proof.
  intros p l c m. unfold lit_pre_class. repeat (destruct (_ =? _) || destruct (cr_find_first _ _) as [[]| |] || destruct (cr_is_caseless_char _ _) as [[]| |]); cbn [bind expect]; intro H; inversion H; cbn [lit_push lit_s]; rewrite app_length; cbn [List.length]; lia.
Qed.
Lemma walk_length : forall p n c l m, (need c <= n)%nat -> walk_component p (construct_literal_visitor p) l c = Ret (ROk m) -> (List.length (lit_s m) <= List.length (lit_s l) + need c)%nat.
Proof.
  intros p n. induction n as [|n IH]; intros c l m Hn E; [destruct c; cbn in Hn; lia|]. destruct c as [bs|k|s].
  - discriminate.
  - cbn [walk_component] in E. unfold walk_class in E. cbn [construct_literal_visitor pre_class during_class post_class] in E. destruct (lit_pre_class p l k) as [[m'|]| |] eqn:E1; inversion E; subst. rewrite (pre_length _ _ _ _ E1). cbn [need]. lia.
  - destruct s as [ch o ci cn]. cbn [walk_component walk_seqn] in E. unfold rs_debug_assert in E. destruct (debug_assertions p && _); [discriminate|]. cbn [bind bindr construct_literal_visitor pre_sequence during_sequence post_sequence] in E.
    fold (construct_literal_visitor p) in E. cbn [need need_s] in Hn |- *.
    destruct (walk_list _ _ l ch) as [[m'|]| |] eqn:W; inversion E; subst m'. clear E.
    assert (Q : (List.length (lit_s m) <= List.length (lit_s l) + fold_right (fun c m => S (need c + m)) 0 ch)%nat); [|lia].
    revert l W Hn. induction ch as [|x ch IHc]; intros l W Hn; cbn [walk_list fold_right] in *; [inversion W; subst; lia|].
    destruct (walk_component p (construct_literal_visitor p) l x) as [[m1|]| |] eqn:E1; try discriminate. cbn [bindr] in W. apply IH in E1; [|lia].
    assert (W' : walk_list (fun v c => walk_component p (construct_literal_visitor p) v c) (fun v => v) m1 ch = Ret (ROk m)) by (destruct ch; exact W).
    apply IHc in W'; lia.
Qed.
