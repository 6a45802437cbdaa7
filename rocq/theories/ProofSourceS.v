(** Runs of the source text: the report manager and literals. *)
From Verif Require Import Base ModelUtil ModelBitField ModelCharReach ModelLiteral ModelReport ModelPetgraph ModelParser ModelNfa ModelSmallWrite ModelCompiler
  ModelRust ModelInterp ModelDump ModelSource SpecSource SpecSourceCrate.
From Verif Require Import ProofSourceA ProofSourceB ProofSourceC ProofSourceD ProofSourceE ProofSourceF ProofSourceL ProofSourceR.
Local Open Scope string_scope.
Local Open Scope N_scope.
Local Open Scope list_scope.
Lemma get_assoc : forall {K V} (eqb : K -> K -> bool) (kv : K -> val) (vv : V -> val) l k, (forall a b, val_eqb (kv a) (kv b) = eqb b a) ->
  map_get (kv k) (map (fun x => VTuple [kv (fst x); vv (snd x)]) l) = match assoc eqb l k with Some v => Some (vv v) | None => None end.
Proof. intros K V eqb kv vv l k H. induction l as [|[a b] l IH]; [reflexivity|]. cbn [map map_get fst snd assoc]. rewrite H. destruct (eqb k a); [reflexivity|exact IH]. Qed.
Lemma set_new : forall {K V} (eqb : K -> K -> bool) (kv : K -> val) (vv : V -> val) l k v, (forall a b, val_eqb (kv a) (kv b) = eqb b a) -> assoc eqb l k = None ->
  map_set (kv k) (vv v) (map (fun x => VTuple [kv (fst x); vv (snd x)]) l) = map (fun x => VTuple [kv (fst x); vv (snd x)]) (l ++ [(k, v)]).
Proof.
  intros K V eqb kv vv l k v H. induction l as [|[a b] l IH]; [reflexivity|]. cbn [map map_set fst snd assoc app]. rewrite H. destruct (eqb k a); [discriminate|]. intro E. rewrite IH by exact E. reflexivity.
Qed.
Lemma eq_u32 : forall a b, val_eqb (VInt U32 a) (VInt U32 b) = (b =? a).
Proof. intros. cbn. apply N.eqb_sym. Qed.
Lemma eq_report : forall a b, val_eqb (v_report a) (v_report b) = report_eqb b a.
Proof. intros [a] [b]. unfold v_report, report_eqb. cbn. rewrite N.eqb_sym. apply andb_true_r. Qed.
Lemma get_report_assoc : forall l k, map_get (v_report k) (map (fun x => VTuple [v_report (fst x); VInt U32 (snd x)]) l) = match assoc report_eqb l k with Some v => Some (VInt U32 v) | None => None end.
Proof. intros. apply (get_assoc report_eqb v_report (VInt U32)), eq_report. Qed.
Lemma n_rm_new : forall p lf d g, call p G lf (S d) (Some "ReportManager") "new" [v_grey g] = Ret (Some (v_rm g (rm_new (limit_report_count g)), [v_grey g])).
Proof. enter. auto_. Qed.
Lemma n_num_reports : forall p lf d g r, call p G lf (S d) (Some "ReportManager") "num_reports" [v_rm g r] = Ret (Some (VInt Usize (num_reports r), [v_rm g r])).
Proof. enter. auto_. unfold num_reports. rewrite map_length. reflexivity. Qed.
#[export] Hint Rewrite n_rm_new n_num_reports : calls.
Lemma n_internal : forall p lf d g r ir, rm_limit r = limit_report_count g -> call p G lf (S (S d)) (Some "ReportManager") "get_internal_id" [v_rm g r; v_report ir] =
  (let! (r', x) := get_internal_id r ir in Ret (Some (v_res (VInt U32) x, [v_rm g r'; v_report ir]))).
Proof.
  enter. unfold get_internal_id. auto_. rewrite get_report_assoc. destruct (assoc report_eqb (internal_map r) ir) as [n|] eqn:E; [auto_|].
  rewrite H. auto_; rewrite map_length in *; rewrite ?Heqb0; [|reflexivity].
  rewrite (set_new report_eqb v_report (VInt U32)) by (exact eq_report || exact E). cbn [bind]. unfold v_rm, v_map. cbn [report_ids internal_map]. rewrite !map_app. reflexivity.
Qed.
#[export] Hint Rewrite n_internal using first [lia|assumption] : calls.
Lemma n_ext_new : forall p lf d h i, call p G lf (S d) (Some "ExternalReportInfo") "new" [VBool h; VInt U32 i] = Ret (Some (v_ext (ExtInfo h i), [VBool h; VInt U32 i])).
Proof. enter. auto_. Qed.
#[export] Hint Rewrite n_ext_new : calls.
Lemma get_ext : forall l k, map_get (VInt U32 k) (map (fun x => VTuple [VInt U32 (fst x); v_ext (snd x)]) l) = match assoc N.eqb l k with Some v => Some (v_ext v) | None => None end.
Proof. intros. apply (get_assoc N.eqb (VInt U32) v_ext), eq_u32. Qed.
Lemma get_key : forall l k, map_get (VInt U32 k) (map (fun x => VTuple [VInt U32 (fst x); VInt U32 (snd x)]) l) = match assoc N.eqb l k with Some v => Some (VInt U32 v) | None => None end.
Proof. intros. apply (get_assoc N.eqb (VInt U32) (VInt U32)), eq_u32. Qed.
#[export] Hint Rewrite l_with_index : calls.
Lemma n_register : forall p lf d g r id e, call p G lf (S (S d)) (Some "ReportManager") "register_ext_report" [v_rm g r; VInt U32 id; v_ext e] =
  (let (r', x) := register_ext_report r id e in Ret (Some (v_res (fun _ => VUnit) x, [v_rm g r'; VInt U32 id; v_ext e]))).
Proof.
  enter. unfold register_ext_report. auto_. rewrite get_ext. destruct (assoc N.eqb (external_map r) id) as [x|] eqn:E.
  - destruct e as [h i], x as [h' i']. destruct h, h'; cbn [ei_highlander Bool.eqb negb]; auto_.
  - destruct e as [[|] i]; cbn [ei_highlander negb]; auto_;
      rewrite (set_new N.eqb (VInt U32) v_ext) by (exact eq_u32 || exact E); reflexivity.
Qed.
Lemma n_key : forall p lf d g r a, call p G lf (S (S d)) (Some "ReportManager") "get_exhaustible_key" [v_rm g r; VInt U32 a] =
  (let! (r', k) := get_exhaustible_key r a in Ret (Some (VInt U32 k, [v_rm g r'; VInt U32 a]))).
Proof.
  enter. unfold get_exhaustible_key. auto_; rewrite ?map_length in *; rewrite Heqb; try reflexivity.
  rewrite get_key. destruct (assoc N.eqb (exhaust_map r) a) as [x|] eqn:E; auto_.
  rewrite ?map_length, (set_new N.eqb (VInt U32) (VInt U32)) by (exact eq_u32 || exact E). reflexivity.
Qed.
#[export] Hint Rewrite n_register n_key : calls.
