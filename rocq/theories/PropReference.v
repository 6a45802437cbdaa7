(** Property C76: a whole compilation does what a short reference function says. *)
From Verif Require Import Base ModelUtil ModelBitField ModelCharReach ModelLiteral ModelReport ModelPetgraph ModelParser ModelNfa ModelSmallWrite ModelCompiler
  SpecSet SpecGrammar SpecReport SpecTrie SpecTree SpecGraph SpecCompile SpecReference
  ProofBase ProofLiteral ProofReport ProofGrammar ProofParser ProofTree ProofVerb ProofTrie ProofShortcut ProofGraph ProofCompile ProofRun SpecText ProofText.
Local Open Scope N_scope.
Local Open Scope list_scope.

Definition told (c : option complaint) : outcome (result compile_error unit) :=
  match c with None => Ret (ROk tt) | Some (Crash w) => Panic w | Some (Refused k r) => Ret (RErr (CompileError k r None)) end.

(** ** Bytes and numbers *)
Lemma byte_length_ok : forall s, byte_length s = str_len s.
Proof.
  unfold byte_length. induction s as [|c s IH]; [reflexivity|]. cbn [flat_map str_len]. rewrite app_length, Nnat.Nat2N.inj_add, IH. f_equal. unfold char_len, utf8_bytes.
  destruct (c <? 128), (c <? 2048), (c <? 65536); reflexivity.
Qed.
Lemma zeros_value : forall ds, (forall d, In d ds -> 48 <= d <= 57) -> decimal_value ds = 0 -> forall d, In d ds -> d = 48.
Proof.
  intro ds. induction ds as [|e ds IH] using rev_ind; intros B V d I; [destruct I|]. unfold decimal_value in *. rewrite fold_left_app in V. cbn [fold_left] in V.
  assert (Be : 48 <= e <= 57) by (apply B, in_or_app; right; left; reflexivity).
  apply in_app_or in I. destruct I as [I|[<-|[]]]; [apply IH; [intros x J; apply B, in_or_app; left; exact J|lia|exact I]|lia].
Qed.
Lemma digits_ok : forall fuel n ds, n < 2 ^ N.of_nat fuel -> is_decimal ds n -> (0 < fuel)%nat -> digits fuel n = ds.
Proof.
  induction fuel as [|fuel IH]; intros n ds L D H0; [lia|]. destruct D as (Ne & B & V & Z). cbn [digits].
  destruct ds as [|d ds] using rev_ind; [contradiction|]. clear IHds. unfold decimal_value in V. rewrite fold_left_app in V. cbn [fold_left] in V. fold (decimal_value ds) in V.
  assert (Bd : 48 <= d <= 57) by (apply B, in_or_app; right; left; reflexivity).
  assert (Q : n / 10 = decimal_value ds /\ n mod 10 = d - 48).
  { subst n. split; [symmetry; apply (N.div_unique _ 10 _ (d - 48)); lia|symmetry; apply (N.mod_unique _ 10 (decimal_value ds)); lia]. }
  destruct Q as [Q1 Q2]. rewrite Q2. f_equal; [|f_equal; lia].
  assert (B' : forall x, In x ds -> 48 <= x <= 57) by (intros x I; apply B, in_or_app; left; exact I).
  destruct (N.ltb_spec n 10) as [Sm|Bg].
  - destruct ds as [|e ds]; [reflexivity|]. exfalso. assert (E : e = 48) by (apply (zeros_value (e :: ds)); [exact B'|lia|left; reflexivity]).
    subst e. specialize (Z eq_refl). apply (f_equal (@List.length N)) in Z. cbn in Z. rewrite app_length in Z. cbn in Z. lia.
  - destruct fuel as [|fuel]; [cbn in L; lia|]. apply IH; [|split; [|split; [exact B'|split; [symmetry; exact Q1|]]]|lia].
    + replace (2 ^ N.of_nat (S (S fuel))) with (2 * 2 ^ N.of_nat (S fuel)) in L by (rewrite <- N.pow_succ_r'; f_equal; lia). apply N.div_lt_upper_bound; lia.
    + intros ->. change (decimal_value []) with 0 in Q1. apply N.div_small_iff in Q1; lia.
    + intro X. destruct ds as [|e ds]; [discriminate|]. cbn in X. injection X as ->. specialize (Z eq_refl). apply (f_equal (@List.length N)) in Z. cbn in Z. rewrite app_length in Z. cbn in Z. lia.
Qed.
Lemma decimal_ok : forall n, decimal n = show n.
Proof.
  intro n. unfold decimal. apply digits_ok; [|apply show_decimal|lia]. rewrite Nnat.Nat2N.inj_succ, Nnat.N2Nat.id.
  destruct (N.eq_dec n 0) as [->|H]; [reflexivity|]. apply N.log2_spec. lia.
Qed.

(** ** The text *)
Lemma finalize_total : forall p s, exists s', finalize p s = Ret s'.
Proof. intros p [ch [a|] ci cn]; unfold finalize; cbn; unfold rs_debug_assert; rewrite ?andb_false_r; cbn; eauto. Qed.
Definition ending (p : profile) (cx : context) : outcome (result compile_error seqn) :=
  match cx_sequences cx with
  | seq :: _ => Ret (RErr (error_new EParse (lit "Missing close parenthesis for group started at index " ++ show (es_offset seq) ++ lit ".")))
  | [] => let! t := finalize p (cx_current cx) in Ret (ROk t)
  end.
Lemma word_ok : forall p, word p = 2 ^ usize_bits p.
Proof. intro p. unfold word, usize_bits. destruct (target p); reflexivity. Qed.
Lemma read_text_ok : forall p s rest pos opened m K n cur, str_len s = pos + str_len rest -> str_len s < 2 ^ usize_bits p ->
  map es_offset K = map (fun a => (word p - a) mod word p) opened -> (pos = 0 -> n = 1) ->
  verdict (bindr (ProofParser.run p (Context s rest m K n cur)) (ending p)) = told (read_text p pos opened rest).
Proof.
  intros p s; induction rest as [|c rest IH]; intros pos opened m K n cur E L Ko Hn; cbn [read_text].
  - rewrite ProofParser.run_nil. cbn [bindr bind]. unfold ending. cbn [cx_sequences cx_current]. destruct K as [|v K], opened as [|a opened]; try discriminate Ko.
    + destruct (finalize_total p cur) as (s' & ->). reflexivity.
    + cbn [map] in Ko. injection Ko as -> _. rewrite decimal_ok. reflexivity.
  - destruct (N.leb_spec 128 c) as [H|H].
    { rewrite run_nonascii by exact H. reflexivity. }
    assert (E1 : str_len s = pos + 1 + str_len rest).
    { rewrite E. change (str_len (c :: rest)) with (char_len c + str_len rest). unfold char_len. replace (c <? 128) with true by lia. lia. }
    destruct (N.eqb_spec c 40) as [->|N40].
    { rewrite run_open. destruct (N.eqb_spec pos 0) as [->|Np].
      - rewrite andb_false_r. rewrite Hn by reflexivity. rewrite chk_add_ok by reflexivity. cbn [bind]. unfold chk_sub.
        replace (str_len s <=? str_len (40 :: rest)) with true by lia. cbn [bind].
        apply IH; [exact E1|exact L| |lia]. cbn [map es_offset]. rewrite Ko. f_equal. rewrite E. replace (str_len (40 :: rest) - (0 + str_len (40 :: rest))) with 0 by lia. unfold word. destruct (target p); reflexivity.
      - rewrite andb_true_r. destruct (overflow_checks p) eqn:Oc.
        + unfold chk_add, chk_sub. rewrite Oc. replace (str_len s <=? str_len (40 :: rest)) with false by lia.
          destruct (n + 1 <? 2 ^ 32); reflexivity.
        + unfold chk_add. rewrite Oc. destruct (n + 1 <? 2 ^ 32); cbn [bind]; unfold chk_sub; rewrite Oc;
            replace (str_len s <=? str_len (40 :: rest)) with false by lia; cbn [bind];
            (apply IH; [exact E1|exact L| |lia]); cbn [map es_offset]; rewrite Ko; f_equal; rewrite E, <- word_ok; f_equal; lia. }
    destruct (N.eqb_spec c 41) as [->|N41].
    { rewrite run_close. destruct K as [|v K], opened as [|a opened]; try discriminate Ko; [reflexivity|].
      destruct (finalize_total p cur) as (s' & ->). cbn [bind]. apply IH; [exact E1|exact L| |lia]. cbn [map] in Ko. injection Ko as _ Ko. exact Ko. }
    destruct (N.eq_dec c 124) as [->|N124].
    { rewrite run_bar. apply IH; auto; lia. }
    rewrite run_char by (unfold plain; auto). apply IH; auto; lia.
Qed.

(** ** The verb *)
Lemma same_text_iff : forall a b, same_text a b = true <-> a = b.
Proof. intros a b. unfold same_text. destruct (list_eq_dec N.eq_dec a b); split; congruence. Qed.
Lemma cut_ok : forall c s a b, cut c s = Some (a, b) <-> s = a ++ c :: b /\ ~ In c a.
Proof.
  intros c; induction s as [|x s IH]; intros a b; cbn [cut].
  - split; [discriminate|]. intros [E _]. destruct a; discriminate.
  - destruct (N.eqb_spec x c) as [->|Nx].
    + split; [intros [= <- <-]; auto|]. intros [E Ni]. destruct a as [|y a]; [injection E as <-; reflexivity|]. injection E as -> _. destruct Ni. left. reflexivity.
    + destruct (cut c s) as [[a' b']|] eqn:Ec.
      * split.
        -- intros [= <- <-]. destruct (proj1 (IH a' b') eq_refl) as [-> Ni]. split; [reflexivity|]. intros [Z|Z]; [contradiction|contradiction].
        -- intros [E Ni]. destruct a as [|y a]; [injection E as -> _; contradiction|]. injection E as <- E.
           assert (X : Some (a', b') = Some (a, b)) by (apply IH; split; [exact E|intro Z; apply Ni; right; exact Z]). injection X as -> ->. reflexivity.
      * split; [discriminate|]. intros [E Ni]. destruct a as [|y a]; [injection E as -> _; contradiction|]. injection E as <- E.
        assert (X : @None (str * str) = Some (a, b)) by (apply IH; split; [exact E|intro Z; apply Ni; right; exact Z]). discriminate.
Qed.
Lemma split_verb_some : forall s v rest, split_verb s = Some (v, rest) <-> verb_then s v rest.
Proof.
  intros s v rest. unfold verb_then. destruct s as [|a [|b t]]; cbn [split_verb].
  - split; [discriminate|intros (E & _); discriminate].
  - split; [discriminate|intros (E & _); discriminate].
  - destruct (N.eqb_spec a 40) as [->|Na]; [|split; [discriminate|intros (E & _); injection E as -> _; contradiction]].
    destruct (N.eqb_spec b 42) as [->|Nb]; [|split; [discriminate|intros (E & _); injection E as -> _; contradiction]]. cbn [andb].
    destruct (cut 41 t) as [[[|x w] r]|] eqn:C.
    + split; [discriminate|]. intros (E & Ne & Ni). injection E as E. assert (X : cut 41 t = Some (v, rest)) by (apply cut_ok; auto). rewrite C in X. first [discriminate X | injection X as <- <-; first [contradiction | reflexivity]].
    + split.
      * intros [= <- <-]. apply cut_ok in C. destruct C as [-> Ni]. conjs; [reflexivity|discriminate|exact Ni].
      * intros (E & Ne & Ni). injection E as E. assert (X : cut 41 t = Some (v, rest)) by (apply cut_ok; auto). rewrite C in X. first [discriminate X | injection X as <- <-; first [contradiction | reflexivity]].
    + split; [discriminate|]. intros (E & Ne & Ni). injection E as E. assert (X : cut 41 t = Some (v, rest)) by (apply cut_ok; auto). rewrite C in X. first [discriminate X | injection X as <- <-; first [contradiction | reflexivity]].
Qed.
Lemma split_verb_none : forall s, split_verb s = None <-> no_verb s.
Proof.
  intro s. split.
  - intros E v rest V. apply split_verb_some in V. congruence.
  - intro Nv. destruct (split_verb s) as [[v rest]|] eqn:E; [|reflexivity]. apply split_verb_some in E. destruct (Nv _ _ E).
Qed.
Lemma one_of_iff : forall l v, one_of l v = true <-> In v l.
Proof.
  intros l v. unfold one_of. rewrite existsb_exists. split.
  - intros (x & I & E). apply same_text_iff in E. subst x. exact I.
  - intro I. exists v. split; [exact I|apply same_text_iff; reflexivity].
Qed.
Lemma begins_iff : forall t s, begins t s = true <-> exists r, s = t ++ r.
Proof.
  intros t s. unfold begins. rewrite same_text_iff. split.
  - intro E. exists (skipn (List.length t) s). rewrite <- E at 1. symmetry. apply firstn_skipn.
  - intros (r & ->). rewrite firstn_app, Nat.sub_diag, firstn_all. cbn. apply app_nil_r.
Qed.
Lemma accepted_iff : forall v, one_of [lit "UTF8"; lit "UTF"; lit "UCP"] v = true <-> accepted_verb v.
Proof. intro v. rewrite one_of_iff. unfold accepted_verb. cbn [In]. intuition congruence. Qed.
Lemma known_iff : forall v, one_of [lit "UTF16"; lit "UTF32"; lit "CR"; lit "LF"; lit "CRLF"; lit "ANY"; lit "ANYCRLF"; lit "BSR_ANYCRLF"; lit "BSR_UNICODE";
     lit "NO_START_OPT"; lit "NO_AUTO_POSSESS"] v || begins (lit "LIMIT_MATCH=") v || begins (lit "LIMIT_RECURSION=") v = true <-> unsupported_verb v.
Proof.
  intro v. rewrite !orb_true_iff, one_of_iff, !begins_iff. unfold unsupported_verb. cbn [In].
  split.
  - intros [[H|H]|H]; [left|auto|auto]. repeat (destruct H as [<-|H]; [auto 15|]). contradiction.
  - intros [H|[H|H]]; [left; left|auto|auto]. repeat (destruct H as [<-|H]; [auto 15|]). contradiction.
Qed.

(** ** A pattern *)
Lemma read_pattern_ok : forall p s m, str_len s < 2 ^ usize_bits p -> verdict (parse p s m) = told (read_pattern p s).
Proof.
  intros p s m L. unfold read_pattern.
  assert (Body : forall body m' pos, starts s m body m' -> str_len s = pos + str_len body -> verdict (parse p s m) = told (read_text p pos [] body)).
  { intros body m' pos St E. rewrite (parse_start _ _ _ _ _ St). rewrite <- (read_text_ok p s body pos [] m' [] 1 root_seq E L eq_refl (fun _ => eq_refl)).
    rewrite ProofParser.parse_run. rewrite start_eq. fold (ending p).
    destruct (ProofParser.run p (Context s body m' [] 1 root_seq)) as [[cx|e]|w|]; cbn [bindr bind]; try reflexivity.
    change (match cx_sequences cx with [] => _ | _ => _ end) with (ending p cx). destruct (ending p cx) as [[t|e]|w|]; reflexivity. }
  destruct (split_verb s) as [[v rest]|] eqn:V.
  - apply split_verb_some in V. destruct (one_of [lit "UTF8"; lit "UTF"; lit "UCP"] v) eqn:A.
    + apply accepted_iff in A. assert (Es : str_len s = 3 + str_len v + str_len rest).
      { destruct V as (-> & _). change (str_len (40 :: 42 :: v ++ 41 :: rest)) with (1 + (1 + str_len (v ++ 41 :: rest))). rewrite str_len_app.
        change (str_len (41 :: rest)) with (1 + str_len rest). lia. }
      rewrite byte_length_ok. destruct A as [->|A]; eapply Body; try exact Es; [apply starts_ucp; exact V|eapply starts_utf; eassumption].
    + assert (Na : ~ accepted_verb v) by (intro X; apply accepted_iff in X; congruence).
      destruct (parse_bad_verb p s m v rest V Na) as (what & -> & W). cbn [verdict].
      destruct (_ || _) eqn:K.
      * apply known_iff in K. destruct W as [[_ ->]|[W _]]; [reflexivity|contradiction].
      * destruct W as [[W _]|[_ ->]]; [apply known_iff in W; congruence|reflexivity].
  - apply split_verb_none in V. eapply Body; [apply starts_plain; exact V|lia].
Qed.
Theorem C76_pattern : forall p s m, byte_length s < word p ->
  match read_pattern p s with
  | None => exists t, parse p s m = Ret (ROk t)
  | Some (Refused k r) => parse p s m = Ret (RErr (CompileError k r None))
  | Some (Crash w) => parse p s m = Panic w
  end.
Proof.
  intros p s m L. rewrite byte_length_ok, word_ok in L. pose proof (read_pattern_ok p s m L) as E. destruct (read_pattern p s) as [[k r|w]|];
    destruct (parse p s m) as [[t|e]|w'|]; cbn [verdict told] in E; try discriminate; try congruence. eauto.
Qed.

(** ** A set *)
Definition entry (i : N) (it : item) (x : addition) : Prop := ad_index x = i /\ ad_id x = it_id it /\ ad_single x = single_match it.
Lemma find_entry : forall seen H id, Forall2 (fun y x => entry (fst y) (snd y) x) seen H ->
  match find (fun x => it_id (snd x) =? id) seen with
  | Some (j, a) => exists b, first_add H id = Some b /\ entry j a b
  | None => first_add H id = None
  end.
Proof.
  intros seen H id F. unfold first_add. induction F as [|[j a] x seen H E F IH]; [reflexivity|]. cbn [find snd]. destruct E as (E1 & E2 & E3). cbn [fst snd] in *.
  rewrite <- E2, N.eqb_sym. destruct (id =? ad_id x); [|exact IH]. exists x. unfold entry. auto.
Qed.
Lemma plain_literal_iff : forall it body, body_of (it_expr it) body -> (plain_literal it = true <-> literal_text body).
Proof.
  intros it body B. unfold plain_literal.
  assert (Eb : match split_verb (it_expr it) with Some (_, rest) => rest | None => it_expr it end = body).
  { destruct B as [[Nv ->]|(v & A & V)]; [apply split_verb_none in Nv; rewrite Nv; reflexivity|apply split_verb_some in V; rewrite V; reflexivity]. }
  rewrite Eb. unfold literal_text. rewrite andb_true_iff, negb_true_iff. rewrite <- not_true_iff_false, !existsb_exists. split.
  - intros [X (c & I & Y)]. split.
    + intro Z. apply X. exists 124. auto.
    + exists c. conjs; [exact I|lia|lia].
  - intros [X (c & I & Y1 & Y2)]. split.
    + intros (d & J & Z). apply N.eqb_eq in Z. subst d. contradiction.
    + exists c. split; [exact I|lia].
Qed.
Lemma read_items_ok : forall p H i l o, ProofCompile.run p H i l o -> forall seen, Forall2 (fun y x => entry (fst y) (snd y) x) seen H ->
  read_items p i seen l = verdict o.
Proof.
  assert (Sh : forall p it, str_len (it_expr it) <= 16000 -> str_len (it_expr it) < 2 ^ usize_bits p) by (intros p it X; pose proof (usize_at_least p); lia).
  (* an item found acceptable *)
  assert (Ac : forall p it, acceptable p it -> complaint_about p it = None).
  { intros p it A. destruct A as [A1 A2 (body & B & As & Bl & G)]. unfold complaint_about. rewrite byte_length_ok. replace (16000 <? str_len (it_expr it)) with false by lia.
    destruct (quiet it && som_leftmost it) eqn:Q; [apply andb_true_iff in Q; destruct (A2 Q)|].
    pose proof (read_pattern_ok p (it_expr it) (item_mode it) (Sh p it A1)) as E.
    pose proof B as B'. apply (body_starts _ _ (item_mode it)) in B'. destruct B' as (m' & St). apply balanced_derivation in Bl. destruct Bl as (e & We & T).
    assert (Pe : parse p (it_expr it) (item_mode it) = Ret (ROk (tree (caseless (item_mode it)) e, m'))) by (apply parse_outcome_fun; eapply po_ok; eauto).
    rewrite Pe in E. destruct (read_pattern p (it_expr it)) as [[k r|w]|]; try discriminate E. reflexivity. }
  assert (Pa : forall p it, str_len (it_expr it) <= 16000 -> ~ (quiet it = true /\ som_leftmost it = true) ->
    complaint_about p it = read_pattern p (it_expr it)).
  { intros p it A1 A2. unfold complaint_about. rewrite byte_length_ok. replace (16000 <? str_len (it_expr it)) with false by lia.
    destruct (quiet it && som_leftmost it) eqn:Q; [apply andb_true_iff in Q; destruct (A2 Q)|]. reflexivity. }
  intros p H i l o R. induction R as [H i|H i it t l o J R IH|H i it t e J D|H i it t e J D1 D2|H i it t w J]; intros seen F.
  - reflexivity.
  - cbn [read_items]. inversion J as [| | | |body A B Nl| |body A B Lt Cf]; subst.
    + rewrite (Ac _ _ A). destruct (plain_literal it) eqn:P; [apply (plain_literal_iff it body B) in P; contradiction|]. apply IH. rewrite app_nil_r. exact F.
    + rewrite (Ac _ _ A). replace (plain_literal it) with true by (symmetry; apply (plain_literal_iff it body B); exact Lt).
      assert (F' : Forall2 (fun y x => entry (fst y) (snd y) x) (seen ++ [(i, it)]) (H ++ [addition_of i it body])).
      { apply Forall2_app; [exact F|]. constructor; [|constructor]. unfold entry. auto. }
      pose proof (find_entry seen H (it_id it) F) as Fe. destruct (find _ seen) as [[j a]|].
      * destruct Fe as (b & Fb & (_ & _ & Eb)). rewrite <- Eb, (Cf b Fb), Bool.eqb_reflx. apply IH. exact F'.
      * apply IH. exact F'.
  - cbn [read_items verdict]. inversion J as [L|L Q S|e' L Fl Pe| | |body b A B Lt Fb Ne|]; subst.
    + unfold complaint_about. rewrite byte_length_ok. replace (16000 <? str_len (it_expr it)) with true by lia. reflexivity.
    + unfold complaint_about. rewrite byte_length_ok. replace (16000 <? str_len (it_expr it)) with false by lia. rewrite Q, S. reflexivity.
    + rewrite (Pa p it L Fl). pose proof (read_pattern_ok p (it_expr it) (item_mode it) (Sh p it L)) as E. rewrite Pe in E.
      destruct (read_pattern p (it_expr it)) as [[k r|w]|]; try discriminate E. cbn in E. injection E as ->. reflexivity.
    + rewrite (Ac _ _ A). replace (plain_literal it) with true by (symmetry; apply (plain_literal_iff it body B); exact Lt).
      pose proof (find_entry seen H (it_id it) F) as Fe. rewrite Fb in Fe. destruct (find _ seen) as [[j a]|]; [|discriminate].
      destruct Fe as (b' & [= <-] & (E1 & E2 & E3)). destruct D as [D|D]; [discriminate|]. rewrite D.
      replace (Bool.eqb (single_match a) (single_match it)) with false by (symmetry; apply Bool.eqb_false_iff; congruence).
      unfold conflict_error, at_index, error_with_index, conflict_message, disagreement, addition_of. rewrite !decimal_ok. cbn [err_kind err_reason ad_index ad_single ei_first_index ei_highlander]. rewrite E1, E3.
      destruct (single_match it); reflexivity.
  - cbn [read_items verdict]. inversion J as [L|L Q S|e' L Fl Pe| | |body b A B Lt Fb Ne|]; subst.
    + cbn in D1. congruence.
    + cbn in D1. congruence.
    + pose proof (read_pattern_ok p (it_expr it) (item_mode it) (Sh p it L)) as E. rewrite Pe in E.
      destruct (read_pattern p (it_expr it)) as [[k r|w]|]; try discriminate E. cbn in E. injection E as ->. cbn in D1. congruence.
    + rewrite (Ac _ _ A). replace (plain_literal it) with true by (symmetry; apply (plain_literal_iff it body B); exact Lt).
      pose proof (find_entry seen H (it_id it) F) as Fe. rewrite Fb in Fe. destruct (find _ seen) as [[j a]|]; [|discriminate].
      destruct Fe as (b' & [= <-] & (E1 & E2 & E3)). rewrite D2.
      replace (Bool.eqb (single_match a) (single_match it)) with false by (symmetry; apply Bool.eqb_false_iff; congruence). reflexivity.
  - cbn [read_items verdict]. inversion J as [| | |w' L Fl Pe| | |]; subst. rewrite (Pa p it L Fl).
    pose proof (read_pattern_ok p (it_expr it) (item_mode it) (Sh p it L)) as E. rewrite Pe in E.
    destruct (read_pattern p (it_expr it)) as [[k r|w'']|]; try discriminate E. cbn in E. congruence.
Qed.
(** Every outcome of every call, with its database, its error or its crash. *)
Theorem C76_reference : forall p es fs ids m, compile_multi p es fs ids m = reference p es fs ids m.
Proof.
  intros p es fs ids m. unfold reference. destruct es as [|e es]; [reflexivity|].
  destruct (N.ltb_spec 8000000 (N.of_nat (List.length (e :: es)))) as [L|L].
  { unfold compile_multi, compile_multi_int. change (limit_pattern_count grey_default) with 8000000.
    replace (8000000 <? N.of_nat (List.length (e :: es))) with true by lia. reflexivity. }
  destruct (compile_int_ok p (e :: es) fs ids m) as (o & R & M); [discriminate|lia|].
  rewrite (read_items_ok p [] 0 _ o R []) by constructor. destruct o as [[H|er]|w|]; cbn [verdict]; [|exact M|exact M|contradiction].
  destruct M as (n & _ & I & ->). unfold build. rewrite (ni_rose _ _ _ _ _ I). destruct m as [|sp|]; reflexivity.
Qed.
(** The same for one expression: nothing but its own text and options matters. *)
Theorem C76_single : forall p e f m, compile p e f m =
  match complaint_about p (Item e f 0) with
  | None => Ret (ROk (Database (RoseEngine FullRose (scan_mode m))))
  | Some (Refused k r) => Ret (RErr (CompileError k r (Some 0)))
  | Some (Crash w) => Panic w
  end.
Proof.
  intros p e f m. change (compile p e f m) with (compile_multi p [e] [f] [0] m). rewrite C76_reference. unfold reference. cbn [List.length items_of read_items].
  change (8000000 <? N.of_nat 1) with false. destruct (complaint_about p (Item e f 0)) as [[k r|w]|]; try reflexivity.
  cbn [find]. destruct (plain_literal (Item e f 0)); reflexivity.
Qed.
(** The reference at work: an accepted set; the first offender of a set of three;
    two literals under one id; the innermost of two open groups; a crash. *)
Example C76_case :
  reference release [lit "foo"; lit "(a|b)c"; lit "(*UTF8)Foo"] [8; 0; 9; 77] [5; 5; 5] (Stream None) = Ret (ROk (Database (RoseEngine FullRose (Stream None)))) /\
  reference release [lit "foo"; lit "b)"; lit "(*NO)x"] [0; 0; 0] [0; 1; 2] Block = Ret (RErr (CompileError ELocatedParse (lit "Unmatched parentheses") (Some 1))) /\
  reference release [lit "q|r"; lit "a"; lit "b"] [8; 0; 8] [7; 7; 7] Block =
    Ret (RErr (CompileError EOther (lit "Expression (index 2) with match ID 7 specified  SINGLEMATCH whereas previous expression (index 1) with the same match ID did.") (Some 2))) /\
  reference dev [lit "a"; lit "b"] [0; 8] [7; 7] Block = Panic PDebugAssert /\
  reference release [lit "a(b(c"] [0] [0] Block =
    Ret (RErr (CompileError EParse (lit "Missing close parenthesis for group started at index 18446744073709551613.") (Some 0))) /\
  reference release32 [lit "a(b(c"] [0] [0] Block =
    Ret (RErr (CompileError EParse (lit "Missing close parenthesis for group started at index 4294967293.") (Some 0))) /\
  reference dev [lit "(a)"] [0] [0] Block = Ret (ROk (Database (RoseEngine FullRose Block))) /\
  reference dev [lit "(a)(b)"] [0] [0] Block = Panic POverflow /\
  reference dev [lit "(*LIMIT_MATCH=3)a"] [0] [0] Block = Ret (RErr (CompileError ELocatedParse (lit "Unsupported control verb LIMIT_MATCH=3 at index 2") (Some 0))).
Proof. vm_compute. repeat split. Qed.
Example C76_pattern_case : read_pattern release (lit "a(b)|c(d") = Some (Refused EParse (lit "Missing close parenthesis for group started at index 18446744073709551610.")) /\
  byte_length (lit "a(b)|c(d") < word release /\ read_pattern dev (lit "(a|)") = None /\ read_pattern dev [97; 233] = Some (Crash PAssert) /\
  complaint_about release (Item (lit "a|b)") 1280 0) = Some (Refused EOther (lit "QUIET is not supported in combination with SOM_LEFTMOST.")) /\
  byte_length [233; 97; 8364; 128512] = 10 /\ decimal 16000 = lit "16000" /\ decimal 0 = lit "0" /\
  complaint_about release (Item (lit "a|b)") 1024 0) = Some (Refused ELocatedParse (lit "Unmatched parentheses")).
Proof. vm_compute. repeat split. Qed.
Print Assumptions C76_pattern. Print Assumptions C76_reference. Print Assumptions C76_single.
