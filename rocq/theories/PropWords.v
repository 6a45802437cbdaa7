(** Properties C74 and C75: the words held by the dictionaries of an engine are the
    words of its literal items, and a longer set keeps what a shorter one has. *)
From Verif Require Import Base ModelUtil ModelBitField ModelCharReach ModelLiteral ModelReport ModelPetgraph ModelParser ModelNfa ModelSmallWrite ModelCompiler
  SpecSet SpecGrammar SpecReport SpecTrie SpecTree SpecGraph SpecCompile SpecWords
  ProofBase ProofLiteral ProofReport ProofGrammar ProofParser ProofTree ProofVerb ProofTrie ProofShortcut ProofGraph ProofCompile ProofRun
  PropReport PropParser PropTrie PropShortcut PropCompile PropEngine PropOrder.
Local Open Scope N_scope.
Local Open Scope list_scope.

(** ** C74 *)
Lemma engine_acceptable : forall p es fs ids m n, N.of_nat (List.length es) <= 8000000 -> engine p es fs ids m = Ret (ROk n) ->
  forall i it, item_at es fs ids i it -> acceptable p it.
Proof.
  intros p es fs ids m n L E i it At. assert (Ex : exists db, compile_multi p es fs ids m = Ret (ROk db)).
  { exists (build n). apply C45_engine_exists. conjs; [intros ->; destruct At as [At _]; destruct i; discriminate At|exact L|eauto]. }
  apply C01_accepts_iff in Ex. destruct Ex as (_ & _ & Ac & _). apply (Ac i it At).
Qed.
(** The words of an acceptable literal item are those its literal matches. *)
Lemma item_word_literal : forall p it body, acceptable p it -> body_of (it_expr it) body -> literal_text body ->
  forall w, item_word it w <-> let l := text_literal (caseless_item it) body in lit_matches (lit_s l) (lit_nocase l) w.
Proof.
  intros p it body Ac B Lt w. cbv zeta. set (l := text_literal (caseless_item it) body).
  destruct Ac as [_ _ (body' & B' & Asc & Bal & Gk)]. pose proof (body_fun _ _ _ B' B) as Q. rewrite Q in *. clear Q B' body'. pose proof B as B0. apply (body_starts _ _ (item_mode it)) in B0. destruct B0 as (m' & St).
  assert (G : forall e, wf_expr e -> text e = body -> lang (caseless_item it) e w <-> lit_matches (lit_s l) (lit_nocase l) w).
  { intros e We Te. assert (P : parse p (it_expr it) (item_mode it) = Ret (ROk (tree (caseless_item it) e, m'))) by (apply parse_outcome_fun; eapply po_ok; eassumption).
    destruct (C31_parsed _ _ _ _ _ P) as [_ Q]. apply (Q l) with (body := body) (e := e); auto. unfold recognise. rewrite walk_tree by (rewrite ?Te; assumption). rewrite Te.
    pose proof (proj1 (literal_text_iff _) Lt) as [X _]. rewrite X. reflexivity. }
  split.
  - intros (b & e & Bb & We & Te & Lw). rewrite (body_fun _ _ _ Bb B) in Te. apply (G e We Te). exact Lw.
  - intro Lm. destruct (proj2 (C12_accepts_balanced p _ (item_mode it) _ _ St) (conj Asc (conj Bal Gk))) as (t & P). apply C13_tree_iff in P.
    destruct P as (b & e & St' & _ & _ & We & Te & _). destruct (starts_fun _ _ _ _ _ _ St St') as [Q _]. exists body, e. conjs; [exact B|exact We|congruence|]. apply (G e We); [congruence|exact Lm].
Qed.
Lemma upper_letter : forall x, is_letter_b x = is_letter_b (upper_case x).
Proof. intro x. unfold is_letter_b, upper_case. destruct ((97 <=? x) && (x <=? 122)) eqn:U; [|rewrite U; reflexivity]. lia. Qed.
Lemma upper_other : forall x c, is_letter_b c = false -> upper_case x = c -> x = c.
Proof. intros x c N <-. rewrite <- upper_letter in N. unfold is_letter_b in N. unfold upper_case. destruct ((97 <=? x) && (x <=? 122)) eqn:U; [lia|reflexivity]. Qed.
Lemma upper_idem : forall x, upper_case (upper_case x) = upper_case x.
Proof. intro x. unfold upper_case. destruct ((97 <=? x) && (x <=? 122)) eqn:U; [|rewrite U; reflexivity]. replace ((97 <=? x - 32) && (x - 32 <=? 122)) with false by lia. reflexivity. Qed.
(** A literal written by a text, by the dictionary it belongs to. *)
Lemma matches_sensitive : forall nc body w, let l := text_literal nc body in keeps_case l = true -> (lit_matches (lit_s l) (lit_nocase l) w <-> w = lit_s l).
Proof.
  intros nc body w l. unfold l, text_literal, keeps_case. cbn [lit_s lit_nocase]. generalize (lit_text body) as s. clear. intro s. revert w. induction s as [|c s IH]; intros [|x w] K; cbn in K |- *.
  - tauto.
  - split; [contradiction|discriminate].
  - split; [contradiction|discriminate].
  - apply negb_true_iff, orb_false_iff in K. destruct K as [K1 K2]. rewrite (IH w) by (rewrite K2; reflexivity). unfold byte_matches. rewrite K1. split.
    + intros [[->|[Z _]] ->]; [reflexivity|discriminate Z].
    + intros [= -> ->]. auto.
Qed.
Lemma matches_caseless : forall nc body w, let l := text_literal nc body in keeps_case l = false -> (lit_matches (lit_s l) (lit_nocase l) w <-> map upper_case w = lit_s l).
Proof.
  intros nc body w l K. assert (nc = true) as ->.
  { destruct nc; [reflexivity|]. exfalso. revert K. unfold l, text_literal, keeps_case. cbn [lit_nocase]. generalize (lit_text body) as s. clear. induction s as [|c s IH]; [discriminate|exact IH]. }
  clear K. unfold l, text_literal. cbn [lit_s lit_nocase]. generalize (lit_text body) as s. clear. intro s. revert w. induction s as [|c s IH]; intros [|x w]; cbn.
  - tauto.
  - split; [contradiction|discriminate].
  - split; [contradiction|discriminate].
  - rewrite (IH w). unfold byte_matches, flagged. cbn [andb]. unfold stored at 1 2. split.
    + intros [[->|[_ ->]] ->]; [rewrite upper_idem|]; reflexivity.
    + intros [= E ->]. split; [|reflexivity]. destruct (is_letter_b c) eqn:Lc; [right; split; [reflexivity|exact E]|]. left. apply upper_other; [rewrite <- upper_letter; exact Lc|exact E].
Qed.
Lemma lit_matches_length : forall s nc w, lit_matches s nc w -> List.length w = List.length s.
Proof. induction s as [|c s IH]; intros [|b nc] [|x w] H; try contradiction; [reflexivity|]. cbn. f_equal. apply (IH nc). apply H. Qed.

(** Unless the dictionaries were given up, they hold exactly the words of at most 70
    bytes that some literal item matches. *)
Theorem C74_recognised : forall p es fs ids m n, N.of_nat (List.length es) <= 8000000 -> engine p es fs ids m = Ret (ROk n) -> sw_poisoned (ng_smwr n) = false ->
  forall w, recognised n w <-> N.of_nat (List.length w) <= 70 /\ literal_word es fs ids w.
Proof.
  intros p es fs ids m n L E Np w. pose proof (engine_acceptable _ _ _ _ _ _ L E) as Ac.
  assert (Hs : forall bs, held (sw_trie (ng_smwr n)) bs <-> exists i it l, literal_at es fs ids i it l /\ lit_s l = bs /\ lit_length l <= 70 /\ keeps_case l = true).
  { intro bs. split.
    - intros (v & R & Z). destruct (node_reports (lt_inner (sw_trie (ng_smwr n))) v) as [|r rs] eqn:Q; [contradiction|]. apply (proj1 (C55_contents p es fs ids m n L E Np bs r)). exists v. rewrite Q. split; [exact R|left; reflexivity].
    - intro X. destruct (proj2 (proj1 (C55_contents p es fs ids m n L E Np bs 0)) (conj eq_refl X)) as (v & R & I). exists v. split; [exact R|]. intro Z. rewrite Z in I. exact I. }
  assert (Hc : forall bs, held (sw_trie_nocase (ng_smwr n)) bs <-> exists i it l, literal_at es fs ids i it l /\ lit_s l = bs /\ lit_length l <= 70 /\ keeps_case l = false).
  { intro bs. split.
    - intros (v & R & Z). destruct (node_reports (lt_inner (sw_trie_nocase (ng_smwr n))) v) as [|r rs] eqn:Q; [contradiction|]. apply (proj2 (C55_contents p es fs ids m n L E Np bs r)). exists v. rewrite Q. split; [exact R|left; reflexivity].
    - intro X. destruct (proj2 (proj2 (C55_contents p es fs ids m n L E Np bs 0)) (conj eq_refl X)) as (v & R & I). exists v. split; [exact R|]. intro Z. rewrite Z in I. exact I. }
  unfold recognised. rewrite Hs, Hc. clear Hs Hc. split.
  - intros [(i & it & l & (At & body & B & Lt & ->) & Es & Ln & K)|(i & it & l & (At & body & B & Lt & ->) & Es & Ln & K)].
    + split; [unfold lit_length in Ln; rewrite Es in Ln; exact Ln|]. exists i, it. conjs; [exact At|exists body; auto|]. apply (item_word_literal p it body (Ac _ _ At) B Lt). apply matches_sensitive; [exact K|symmetry; exact Es].
    + split; [unfold lit_length in Ln; rewrite Es, map_length in Ln; exact Ln|]. exists i, it. conjs; [exact At|exists body; auto|]. apply (item_word_literal p it body (Ac _ _ At) B Lt). apply matches_caseless; [exact K|symmetry; exact Es].
  - intros (Ln & i & it & At & (body & B & Lt) & Iw). apply (item_word_literal p it body (Ac _ _ At) B Lt) in Iw. cbv zeta in Iw. set (l := text_literal (caseless_item it) body) in *.
    assert (La : literal_at es fs ids i it l) by (split; [exact At|exists body; auto]). pose proof (lit_matches_length _ _ _ Iw) as Ll. destruct (keeps_case l) eqn:K.
    + left. exists i, it, l. conjs; [exact La|symmetry; apply (matches_sensitive _ _ _ K); exact Iw|unfold lit_length; rewrite <- Ll; exact Ln|exact K].
    + right. exists i, it, l. conjs; [exact La|symmetry; apply (matches_caseless _ _ _ K); exact Iw|unfold lit_length; rewrite <- Ll; exact Ln|exact K].
Qed.
(** So looking up every part of a short buffer finds a match exactly if there is one. *)
Theorem C74_buffers : forall p es fs ids m n, N.of_nat (List.length es) <= 8000000 -> engine p es fs ids m = Ret (ROk n) -> sw_poisoned (ng_smwr n) = false ->
  forall a w b, N.of_nat (List.length (a ++ w ++ b)) <= 70 -> (recognised n w <-> literal_word es fs ids w).
Proof.
  intros p es fs ids m n L E Np a w b Lb. rewrite (C74_recognised _ _ _ _ _ _ L E Np w). rewrite !app_length in Lb. split; [intros [_ X]; exact X|]. intro X. split; [lia|exact X].
Qed.
(** The recorded width is the length of the shortest word of a literal item. *)
Theorem C74_min_width : forall p es fs ids m n, N.of_nat (List.length es) <= 8000000 -> engine p es fs ids m = Ret (ROk n) ->
  (ng_min_width n = depth_infinity <-> forall w, ~ literal_word es fs ids w) /\
  (forall w, literal_word es fs ids w -> depth_val (ng_min_width n) <= N.of_nat (List.length w)) /\
  (ng_min_width n <> depth_infinity -> exists w, literal_word es fs ids w /\ depth_val (ng_min_width n) = N.of_nat (List.length w)).
Proof.
  intros p es fs ids m n L E. pose proof (engine_acceptable _ _ _ _ _ _ L E) as Ac. destruct (C45_set _ _ _ _ _ _ L E) as (W1 & W2 & W3).
  assert (Self : forall i it l, literal_at es fs ids i it l -> literal_word es fs ids (lit_s l)).
  { intros i it l (At & body & B & Lt & ->). exists i, it. conjs; [exact At|exists body; auto|]. apply (item_word_literal p it body (Ac _ _ At) B Lt). cbv zeta.
    destruct (keeps_case (text_literal (caseless_item it) body)) eqn:K; [apply matches_sensitive; [exact K|reflexivity]|]. apply matches_caseless; [exact K|].
    unfold text_literal. cbn [lit_s]. rewrite map_map. apply map_ext_in. intros c _. unfold stored. destruct (caseless_item it) eqn:Ci; [apply upper_idem|].
    exfalso. revert K. unfold keeps_case, text_literal. cbn [lit_nocase]. clear. induction (lit_text body); [discriminate|assumption]. }
  assert (Len : forall w, literal_word es fs ids w -> exists i it l, literal_at es fs ids i it l /\ lit_length l = N.of_nat (List.length w)).
  { intros w (i & it & At & (body & B & Lt) & Iw). apply (item_word_literal p it body (Ac _ _ At) B Lt) in Iw. cbv zeta in Iw. exists i, it, (text_literal (caseless_item it) body).
    split; [split; [exact At|exists body; auto]|]. unfold lit_length. rewrite (lit_matches_length _ _ _ Iw). reflexivity. }
  conjs.
  - rewrite W1. split; [intros No w Lw; destruct (Len w Lw) as (i & it & l & La & _); exact (No _ _ _ La)|]. intros No i it l La. apply (No _ (Self _ _ _ La)).
  - intros w Lw. destruct (Len w Lw) as (i & it & l & La & <-). apply (W2 _ _ _ La).
  - intro Ne. destruct (W3 Ne) as (i & it & l & La & Q). exists (lit_s l). split; [apply (Self _ _ _ La)|exact Q].
Qed.
(** Two spellings of one word, one dictionary each. *)
Example C74_case : exists n, engine release [lit "foo"; lit "Bar"; lit "a|b"] [0; 1; 0] [5; 6; 7] Block = Ret (ROk n) /\ sw_poisoned (ng_smwr n) = false /\
  recognised n (lit "foo") /\ recognised n (lit "bAr") /\ ~ recognised n (lit "Foo") /\ ~ recognised n (lit "a") /\ depth_val (ng_min_width n) = 3.
Proof.
  eexists. split; [vm_compute; reflexivity|]. split; [reflexivity|].
  assert (St : forall g u c bs v, reach g u (c :: bs) v -> exists w x, In (u, w) (edges (A := trie_props) g) /\ nth_error (nodes g) (N.to_nat w) = Some x /\ tp_c x = c /\ reach g w bs v) by (intros g u c bs v R; inversion R; subst; eauto 8).
  conjs.
  - left. exists 3. split; [|discriminate]. do 3 (eapply (reach_cons _ _ _ (TrieProps _ _)); [cbn; eauto 10|reflexivity|]). constructor.
  - right. exists 3. split; [|discriminate]. do 3 (eapply (reach_cons _ _ _ (TrieProps _ _)); [cbn; eauto 10|reflexivity|]). constructor.
  - intros [(v & R & _)|(v & R & _)]; apply St in R; destruct R as (w & x & I & X & C & _); cbn in I; repeat (destruct I as [I|I]; [apply pair_equal_spec in I; destruct I as [I1 I2]; first [discriminate I1|subst w; cbn in X; injection X as <-; discriminate C]|]); contradiction.
  - intros [(v & R & _)|(v & R & _)]; apply St in R; destruct R as (w & x & I & X & C & _); cbn in I; repeat (destruct I as [I|I]; [apply pair_equal_spec in I; destruct I as [I1 I2]; first [discriminate I1|subst w; cbn in X; injection X as <-; discriminate C]|]); contradiction.
  - reflexivity.
Qed.

(** ** C75 *)
Lemma items_of_list : forall k, items_of (exprs k) (flag_words k) (match_ids k) = k.
Proof. induction k as [|[a b c] k IH]; [reflexivity|unfold exprs, flag_words, match_ids in *; cbn [map items_of it_expr it_flags it_id]; rewrite IH; reflexivity]. Qed.
Lemma keys_extend : forall B A, exists r, asked_keys (requests_of (A ++ B)) = asked_keys (requests_of A) ++ r.
Proof.
  induction B as [|b B IH] using rev_ind; intro A; [exists []; rewrite !app_nil_r; reflexivity|]. destruct (IH A) as (r & R). rewrite app_assoc, requests_snoc, R.
  destruct (ad_single b); [destruct (existsb _ _); [eauto|]|eauto]. rewrite <- app_assoc. eauto.
Qed.
Lemma idx_map_extend : forall {A} (r l : list A), exists t, idx_map (l ++ r) = idx_map l ++ t.
Proof.
  intros A r l. induction r as [|x r IH] using rev_ind; [exists []; rewrite !app_nil_r; reflexivity|]. destruct IH as (t & T). rewrite app_assoc, idx_map_snoc, T, <- app_assoc. eauto.
Qed.
Lemma adds_split : forall p p' l k m m' n n', N.of_nat (List.length (l ++ k)) <= 8000000 ->
  engine p (exprs l) (flag_words l) (match_ids l) m = Ret (ROk n) -> engine p' (exprs (l ++ k)) (flag_words (l ++ k)) (match_ids (l ++ k)) m' = Ret (ROk n') ->
  exists A B, adds 0 l A /\ adds (N.of_nat (List.length l)) k B /\ adds 0 (l ++ k) (A ++ B) /\
    ng_inv p (N.of_nat (List.length l)) (CompileContext (is_streaming m) (is_vectored m) grey_default) A n /\
    ng_inv p' (N.of_nat (List.length (l ++ k))) (CompileContext (is_streaming m') (is_vectored m') grey_default) (A ++ B) n'.
Proof.
  intros p p' l k m m' n n' L E E'. assert (Le : forall x : list item, List.length (exprs x) = List.length x) by (intro; apply map_length).
  assert (L1 : N.of_nat (List.length (exprs l)) <= 8000000) by (rewrite Le; rewrite app_length in L; lia). assert (L2 : N.of_nat (List.length (exprs (l ++ k))) <= 8000000) by (rewrite Le; exact L).
  destruct (engine_inv _ _ _ _ _ _ L1 E) as (A & Ad & I), (engine_inv _ _ _ _ _ _ L2 E') as (A' & Ad' & I'). rewrite items_of_list in Ad, Ad'. rewrite Le in I, I'.
  destruct (adds_total k (N.of_nat (List.length l))) as (B & Bd); [intros it Ik; eapply adds_bodies; [exact Ad'|apply in_app_iff; right; exact Ik]|].
  exists A, B. assert (Q : adds 0 (l ++ k) (A ++ B)) by (apply adds_app; [exact Ad|rewrite N.add_0_l; exact Bd]). rewrite <- (adds_fun _ _ _ Q _ Ad') in I'. conjs; assumption.
Qed.
Lemma find_app_some : forall {A} (f : A -> bool) l k x, find f l = Some x -> find f (l ++ k) = Some x.
Proof. intros A f l k x. induction l as [|y l IH]; [discriminate|]. cbn. destruct (f y); auto. Qed.
Lemma find_app_none : forall {A} (f : A -> bool) l k, find f l = None -> find f (l ++ k) = find f k.
Proof. intros A f l k. induction l as [|y l IH]; [reflexivity|]. cbn. destruct (f y); [discriminate|auto]. Qed.

(** The beginning of an accepted set is accepted, and yields an engine. *)
Theorem C75_prefix : forall p l k m m' n', N.of_nat (List.length (l ++ k)) <= 8000000 ->
  engine p (exprs (l ++ k)) (flag_words (l ++ k)) (match_ids (l ++ k)) m' = Ret (ROk n') -> exists n, engine p (exprs l) (flag_words l) (match_ids l) m = Ret (ROk n).
Proof.
  intros p l k m m' n' L E. destruct l as [|x l]; [eexists; reflexivity|].
  assert (Ex : exists db, compile_multi p (exprs ((x :: l) ++ k)) (flag_words ((x :: l) ++ k)) (match_ids ((x :: l) ++ k)) m' = Ret (ROk db)).
  { exists (build n'). apply C45_engine_exists. conjs; [discriminate|unfold exprs; rewrite map_length; exact L|eauto]. }
  apply C01_accepts_iff in Ex. destruct Ex as (_ & _ & Ac & Nc).
  assert (Sub : forall i it, item_at (exprs (x :: l)) (flag_words (x :: l)) (match_ids (x :: l)) i it -> item_at (exprs ((x :: l) ++ k)) (flag_words ((x :: l) ++ k)) (match_ids ((x :: l) ++ k)) i it).
  { intros i it At. apply item_at_list in At. apply item_at_list. apply nth_error_app_some. exact At. }
  assert (Ex : exists db, compile_multi p (exprs (x :: l)) (flag_words (x :: l)) (match_ids (x :: l)) m = Ret (ROk db)).
  { apply C01_accepts_iff. conjs; [discriminate|unfold exprs; rewrite map_length; rewrite app_length in L; lia|]. split; [intros i it At; eapply Ac, Sub; exact At|]. intros i j a b Ha Hb. apply (Nc i j a b); apply Sub; assumption. }
  destruct Ex as (db & Ex). apply C45_engine_exists in Ex. destruct Ex as (_ & _ & n & En & _). eauto.
Qed.
(** A longer set keeps the numbers and the entries the shorter one has, the new
    entries carry the indices of the new items, and the recorded width only shrinks. *)
Theorem C75_reports : forall p p' l k m m' n n', N.of_nat (List.length (l ++ k)) <= 8000000 ->
  engine p (exprs l) (flag_words l) (match_ids l) m = Ret (ROk n) -> engine p' (exprs (l ++ k)) (flag_words (l ++ k)) (match_ids (l ++ k)) m' = Ret (ROk n') ->
  (exists r, exhaust_map (ng_rm n') = exhaust_map (ng_rm n) ++ r) /\
  (forall id x, assoc N.eqb (external_map (ng_rm n)) id = Some x -> assoc N.eqb (external_map (ng_rm n')) id = Some x) /\
  (forall id x, assoc N.eqb (external_map (ng_rm n')) id = Some x -> assoc N.eqb (external_map (ng_rm n)) id = None ->
     exists j it, nth_error k j = Some it /\ it_id it = id /\ x = ExtInfo (single_match it) (N.of_nat (List.length l + j))) /\
  (exists r, report_ids (ng_rm n') = report_ids (ng_rm n) ++ r) /\
  (global_exhaust (ng_rm n') = true -> global_exhaust (ng_rm n) = true) /\
  depth_val (ng_min_width n') <= depth_val (ng_min_width n).
Proof.
  intros p p' l k m m' n n' L E E'. destruct (adds_split _ _ _ _ _ _ _ _ L E E') as (A & B & Ad & Bd & Q & I & I').
  pose proof (ni_rm _ _ _ _ _ I) as R. pose proof (ni_rm _ _ _ _ _ I') as R'.
  assert (K : N.of_nat (List.length (asked_keys (requests_of (A ++ B)))) < 2 ^ 32) by (pose proof (asked_keys_bound (A ++ B)); pose proof (adds_length _ _ _ Q); lia).
  destruct (keys_extend B A) as (r & Kr). conjs.
  - assert (K1 : N.of_nat (List.length (asked_keys (requests_of A))) < 2 ^ 32) by (rewrite Kr, app_length in K; lia).
    destruct (hist_run _ _ limit_ok K1) as (rm & R1 & Hi). rewrite (rk_run _ _ R) in R1. injection R1 as <-. rewrite (hi_keys _ _ _ Hi).
    destruct (hist_run _ _ limit_ok K) as (rm & R1 & Hi'). rewrite (rk_run _ _ R') in R1. injection R1 as <-. rewrite (hi_keys _ _ _ Hi'), Kr. apply idx_map_extend.
  - intros id x. rewrite (rk_ext _ _ R), (rk_ext _ _ R'). unfold first_add. intro X. destruct (find _ A) as [a|] eqn:F; [|discriminate X]. rewrite (find_app_some _ _ B _ F). exact X.
  - intros id x. rewrite (rk_ext _ _ R), (rk_ext _ _ R'). unfold first_add. intros X Y. destruct (find _ A) as [a|] eqn:F; [discriminate Y|]. rewrite (find_app_none _ _ B F) in X.
    destruct (find _ B) as [b|] eqn:G; [|discriminate X]. injection X as <-. apply find_some in G. destruct G as [Ib Eb].
    apply (adds_In _ _ _ Bd) in Ib. destruct Ib as (j & it & body & Nj & Bo & Lt & ->). unfold addition_of in *. cbn [ad_id ad_single ad_index] in *. exists j, it. conjs; [exact Nj|lia|f_equal; lia].
  - rewrite (rk_ids _ _ R), (rk_ids _ _ R'). destruct A as [|a A]; [cbn [app]; eauto|]. exists []. reflexivity.
  - rewrite (rk_glob _ _ R), (rk_glob _ _ R'), forallb_app. intro X. apply andb_true_iff in X. apply X.
  - rewrite (ni_width _ _ _ _ _ I), (ni_width _ _ _ _ _ I'). unfold width_of. rewrite fold_left_app. cbn. generalize (fold_left (fun w a => N.min w (N.of_nat (List.length (lit_s (ad_lit a))))) A INFINITY) as w. clear. induction B as [|b B IH]; intro w; [cbn; lia|]. cbn [fold_left]. specialize (IH (N.min w (N.of_nat (List.length (lit_s (ad_lit b)))))). lia.
Qed.
(** Dictionaries given up stay given up; if those of the longer set are not, the
    words they hold are those of the shorter set and those of the new items. *)
Theorem C75_words : forall p p' l k m m' n n', N.of_nat (List.length (l ++ k)) <= 8000000 ->
  engine p (exprs l) (flag_words l) (match_ids l) m = Ret (ROk n) -> engine p' (exprs (l ++ k)) (flag_words (l ++ k)) (match_ids (l ++ k)) m' = Ret (ROk n') ->
  (sw_poisoned (ng_smwr n) = true -> sw_poisoned (ng_smwr n') = true) /\
  (sw_poisoned (ng_smwr n') = false -> forall w, recognised n' w <-> recognised n w \/ N.of_nat (List.length w) <= 70 /\ literal_word (exprs k) (flag_words k) (match_ids k) w).
Proof.
  intros p p' l k m m' n n' L E E'. assert (Le : forall x : list item, List.length (exprs x) = List.length x) by (intro; apply map_length).
  assert (L1 : N.of_nat (List.length (exprs l)) <= 8000000) by (rewrite Le; rewrite app_length in L; lia). assert (L2 : N.of_nat (List.length (exprs (l ++ k))) <= 8000000) by (rewrite Le; exact L).
  destruct (adds_split _ _ _ _ _ _ _ _ L E E') as (A & B & Ad & Bd & Q & _).
  assert (Gu : sw_poisoned (ng_smwr n) = true -> sw_poisoned (ng_smwr n') = true).
  { rewrite (C55_given_up p _ _ _ m n A L1 E), (C55_given_up p' _ _ _ m' n' (A ++ B) L2 E') by (rewrite items_of_list; assumption). rewrite !Le.
    assert (Di : dictionary_input (A ++ B) = dictionary_input A ++ dictionary_input B) by (unfold dictionary_input; apply map_app). rewrite Di. unfold short_sensitive, short_caseless.
    rewrite !filter_app, !map_app, !app_length. clear.
    pose proof (n_prefixes_mono (map insertion_of (filter (fun x => short grey_default x && negb (has_caseless x)) (dictionary_input A))) (map insertion_of (filter (fun x => short grey_default x && negb (has_caseless x)) (dictionary_input B)))) as P1.
    pose proof (n_prefixes_mono (map insertion_of (filter (fun x => short grey_default x && has_caseless x) (dictionary_input A))) (map insertion_of (filter (fun x => short grey_default x && has_caseless x) (dictionary_input B)))) as P2.
    unfold n_prefixes in *. lia. }
  split; [exact Gu|]. intros Np' w. assert (Np : sw_poisoned (ng_smwr n) = false) by (destruct (sw_poisoned (ng_smwr n)); [rewrite Gu in Np' by reflexivity; discriminate Np'|reflexivity]).
  rewrite (C74_recognised _ _ _ _ _ _ L1 E Np), (C74_recognised _ _ _ _ _ _ L2 E' Np').
  assert (In1 : forall (x : list item) w, literal_word (exprs x) (flag_words x) (match_ids x) w <-> exists it, In it x /\ literal_item it /\ item_word it w).
  { intros x v. split; [intros (i & it & At & H); apply item_at_list in At; apply nth_error_In in At; eauto|]. intros (it & Ix & H). apply In_nth_error in Ix. destruct Ix as (i & Ix). exists i, it. split; [apply item_at_list; exact Ix|exact H]. }
  rewrite !In1. split.
  - intros (Lw & it & Ix & H). apply in_app_iff in Ix. destruct Ix; [left|right]; split; eauto.
  - intros [(Lw & it & Ix & H)|(Lw & it & Ix & H)]; (split; [exact Lw|]); exists it; rewrite in_app_iff; auto.
Qed.
Example C75_case : let l := [Item (lit "foo") 8 5; Item (lit "a|b") 0 6] in let k := [Item (lit "bar") 1 7; Item (lit "qu") 8 9; Item (lit "foo") 8 5] in
  exists n n', engine dev (exprs l) (flag_words l) (match_ids l) Block = Ret (ROk n) /\ engine release (exprs (l ++ k)) (flag_words (l ++ k)) (match_ids (l ++ k)) Vectored = Ret (ROk n') /\
    exhaust_map (ng_rm n) = [(5, 0)] /\ exhaust_map (ng_rm n') = [(5, 0); (9, 1)] /\ external_map (ng_rm n') = external_map (ng_rm n) ++ [(7, ExtInfo false 2); (9, ExtInfo true 3)] /\
    depth_val (ng_min_width n) = 3 /\ depth_val (ng_min_width n') = 2 /\ global_exhaust (ng_rm n) = true /\ global_exhaust (ng_rm n') = false.
Proof. cbv zeta. do 2 eexists. split; [vm_compute; reflexivity|]. split; [vm_compute; reflexivity|]. repeat split. Qed.

Print Assumptions C74_recognised.
Print Assumptions C74_buffers.
Print Assumptions C74_min_width.
Print Assumptions C75_prefix.
Print Assumptions C75_reports.
Print Assumptions C75_words.
