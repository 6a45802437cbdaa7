(** Runs of the source text: what [compile] does not call of the graph and of the build state. *)
From Verif Require Import Base ModelUtil ModelBitField ModelCharReach ModelLiteral ModelReport ModelPetgraph ModelParser ModelNfa ModelSmallWrite ModelCompiler
  ModelRust ModelInterp ModelDump ModelSource SpecSource SpecSourceCrate.
From Verif Require Import ProofBase ProofSourceA ProofSourceB ProofSourceC ProofSourceD ProofSourceE ProofSourceF ProofSourceL ProofSourceR ProofSourceS ProofSourceT ProofSourceU ProofSourceW ProofSourceX ProofSourceV ProofSourceZ.
Local Open Scope string_scope.
Local Open Scope N_scope.
Local Open Scope list_scope.
Lemma v_edge_is : (fun e : N * N => VTuple [VInt U32 (fst e); VInt U32 (snd e)]) = v_edge.
Proof. reflexivity. Qed.
Lemma val_eqb_ix : forall a b, val_eqb (ix_ a) (ix_ b) = (a =? b).
Proof. intros. unfold ix_. cbn [val_eqb]. rewrite andb_true_r. reflexivity. Qed.
Lemma eq_ix : forall p a b, binop p BEq (ix_ a) (ix_ b) = Ret (Some (VBool (a =? b))).
Proof. intros. transitivity (Ret (Some (VBool (val_eqb (ix_ a) (ix_ b))))); [reflexivity|]. rewrite val_eqb_ix. reflexivity. Qed.
Lemma ne_ix : forall p a b, binop p BNe (ix_ a) (ix_ b) = Ret (Some (VBool (negb (a =? b)))).
Proof. intros. transitivity (Ret (Some (VBool (negb (val_eqb (ix_ a) (ix_ b)))))); [reflexivity|]. rewrite val_eqb_ix. reflexivity. Qed.
Lemma y_eps : forall p lf d, call p G lf (S d) (Some "GlushkovBuildState") "pos_epsilon" [] = Ret (Some (ix_ pos_epsilon, [])).
Proof. intros [[] [] []] lf d; vm_compute; reflexivity. Qed.
#[export] Hint Rewrite y_eps : calls.
Lemma kept_is : forall {A} ev ps b s (f : A -> val) (c : A -> bool) l, (forall x k, applied ev ps b [f x] s k = k (VBool (c x)) s) ->
  forall k, kept ev ps b (map f l) s k = k (map f (filter c l)) s.
Proof.
  intros A ev ps b s f c l H. induction l as [|x l IH]; intro k; [reflexivity|]. cbn [map filter].
  transitivity (applied ev ps b [f x] s (fun r s1 => match r with VBool c => kept ev ps b (map f l) s1 (fun l' s2 => k (if c then f x :: l' else l') s2) | _ => stuck end)); [reflexivity|].
  rewrite H, IH. destruct (c x); reflexivity.
Qed.
Definition NoFloat : expr := EUn UNot (EMethod (EField (EPath ["e"]) "flags") "contains" [EPath ["PosFlags"; "NOFLOAT"]]).
Definition Caret : expr := EBin BLor (EBin BNe (EField (EPath ["e"]) "pos") (ECall ["GlushkovBuildState"; "pos_epsilon"] [])) (EMethod (EField (EPath ["e"]) "flags") "is_empty" []).
Definition MustFloat : expr := EUn UNot (EMethod (EField (EPath ["e"]) "flags") "contains" [EBin BOr (EPath ["PosFlags"; "MUST_FLOAT"]) (EPath ["PosFlags"; "NOFLOAT"])]).
Definition NotEod : expr := EBin BNe (EField (EPath ["e"]) "pos") (EField (EPath ["bs"]) "accept_eod_state").
Lemma k_nofloat : forall p lf d lp b i L x k, applied (eval p G None (call p G lf (S (S d))) lp) [PVar "e"] NoFloat [v_pos x] [("bs", v_bs b); ("from", v_pos i); ("tolist", L)] k =
  k (VBool (negb (contains (pi_flags x) NOFLOAT))) [("bs", v_bs b); ("from", v_pos i); ("tolist", L)].
Proof. intros. unfold NoFloat. repeat lhs. reflexivity. Qed.
Lemma k_caret : forall p lf d lp b i L x k, applied (eval p G None (call p G lf (S (S d))) lp) [PVar "e"] Caret [v_pos x] [("bs", v_bs b); ("from", v_pos i); ("tolist", L)] k =
  k (VBool (negb (pi_pos x =? pos_epsilon) || (pi_flags x =? 0))) [("bs", v_bs b); ("from", v_pos i); ("tolist", L)].
Proof. intros. unfold Caret. repeat lhs. rewrite ne_ix. destruct (pi_pos x =? pos_epsilon); cbn [negb orb]; repeat lhs; reflexivity. Qed.
Lemma k_must : forall p lf d lp b i L x k, applied (eval p G None (call p G lf (S (S d))) lp) [PVar "e"] MustFloat [v_pos x] [("bs", v_bs b); ("from", v_pos i); ("tolist", L)] k =
  k (VBool (negb (contains (pi_flags x) (N.lor MUST_FLOAT NOFLOAT)))) [("bs", v_bs b); ("from", v_pos i); ("tolist", L)].
Proof. intros. unfold MustFloat. repeat lhs. reflexivity. Qed.
Lemma k_eod : forall p lf d lp b i L x k, applied (eval p G None (call p G lf (S (S d))) lp) [PVar "e"] NotEod [v_pos x] [("bs", v_bs b); ("from", v_pos i); ("tolist", L)] k =
  k (VBool (negb (pi_pos x =? bs_accept_eod b))) [("bs", v_bs b); ("from", v_pos i); ("tolist", L)].
Proof. intros. unfold NotEod. repeat lhs. rewrite ne_ix. repeat lhs. reflexivity. Qed.

Ltac kept_ c K := rewrite (kept_is _ _ _ _ v_pos c) by (intros; apply K); repeat lhs.
Ltac tail_ b i := repeat lhs; destruct (get_assert_flag (bs_builder b) (pi_pos i)) as [fl| |]; [|reflexivity|reflexivity]; cbn [bind]; repeat lhs;
  destruct (contains fl MULTILINE_START); [repeat lhs; fold NotEod; kept_ (fun e => negb (pi_pos e =? bs_accept_eod b)) k_eod; reflexivity|repeat lhs; reflexivity].
Lemma y_filter : forall p lf d b i l, call p G lf (S (S (S d))) None "filter_edges" [v_bs b; v_pos i; VList (map v_pos l)] = (let! r := filter_edges b i l in Ret (Some (VUnit, [v_bs b; v_pos i; VList (map v_pos r)]))).
Proof.
  enter. unfold filter_edges. repeat lhs. rewrite eq_ix. destruct (pi_pos i =? bs_start_ds b).
  - repeat lhs. fold NoFloat. kept_ (fun e => negb (contains (pi_flags e) NOFLOAT)) k_nofloat. destruct (contains (pi_flags i) NOFLOAT).
    + repeat lhs. destruct (get_assert_flag (bs_builder b) (pi_pos i)) as [fl| |]; [|reflexivity|reflexivity]. cbn [bind]. repeat lhs. destruct (contains fl MULTILINE_START); repeat lhs; reflexivity.
    + tail_ b i.
  - repeat lhs. rewrite eq_ix. destruct (pi_pos i =? bs_start b).
    + repeat lhs. fold Caret. kept_ (fun e => negb (pi_pos e =? pos_epsilon) || (pi_flags e =? 0)) k_caret. fold MustFloat.
      kept_ (fun e => negb (contains (pi_flags e) (N.lor MUST_FLOAT NOFLOAT))) k_must. tail_ b i.
    + tail_ b i.
Qed.
#[export] Hint Rewrite y_filter : calls.
