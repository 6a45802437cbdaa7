(** Properties C01-C06 and C08-C11: compiling sets of patterns. *)
From Verif Require Import Base ModelUtil ModelBitField ModelCharReach ModelLiteral ModelReport ModelPetgraph ModelParser ModelNfa ModelSmallWrite ModelCompiler
  SpecSet SpecGrammar SpecReport SpecTrie SpecTree SpecGraph SpecCompile
  ProofBase ProofLiteral ProofReport ProofGrammar ProofParser ProofTree ProofVerb ProofTrie ProofShortcut ProofGraph ProofCompile ProofRun PropParser.
From Coq Require Import Permutation.
Local Open Scope N_scope.
Local Open Scope list_scope.

(** A set with a literal, an alternation with a group, a caseless literal behind a
    control verb sharing an id, and surplus flags. *)
Definition sample_es : list str := [lit "foo"; lit "(a|b)c"; lit "(*UTF8)Foo"].
Definition sample_fs : list N := [8; 0; 9; 77].
Definition sample_ids : list N := [5; 5; 5].

(** ** C01 *)
Theorem C01_accepts_iff : forall p es fs ids m,
  (exists db, compile_multi p es fs ids m = Ret (ROk db)) <->
  es <> [] /\ N.of_nat (List.length es) <= 8000000 /\ good_set p es fs ids.
Proof.
  intros p es fs ids m. rewrite good_set_fits. pose proof (compile_cases p es fs ids m) as C. split.
  - intros (db & E). rewrite E in C. inversion C as [| |A n Ne L Ad Nc F En I|k it A o' o Ne L E' Ad Nc F NF J X]; subst; [auto|].
    destruct o' as [[?|?]|?|]; contradiction.
  - intros (Ne & L & F). destruct C as [->|L'|A n _ _ _ _ _ _ _|k it A o' o _ _ _ _ _ _ NF _ _]; [contradiction|lia|eauto|]. destruct (NF (F k)).
Qed.
Lemma no_verb_check : forall s c t, s = c :: t -> c <> 40 -> no_verb s.
Proof. intros s c t -> N v rest (E & _). injection E as -> _. congruence. Qed.
Lemma ascii_check' : forall s, forallb (fun c => c <? 128) s = true -> ascii_text s.
Proof. intros s H c I. rewrite forallb_forall in H. specialize (H c I). lia. Qed.
Lemma accepts_sample : exists db, compile_multi release sample_es sample_fs sample_ids Block = Ret (ROk db).
Proof. eexists. vm_compute. reflexivity. Qed.
Example C01_case : good_set release sample_es sample_fs sample_ids /\ compile_multi release [lit "foo"; lit "bar)"] [0; 0] [0; 0] Block <> Ret (ROk (Database (RoseEngine FullRose Block))).
Proof. split; [|vm_compute; discriminate]. apply (C01_accepts_iff release sample_es sample_fs sample_ids Block). exact accepts_sample. Qed.

(** ** C02 *)
Theorem C02_first_offender : forall p es fs ids m e k, compile_multi p es fs ids m = Ret (RErr e) -> err_index e = Some k ->
  (exists it, item_at es fs ids (N.to_nat k) it) /\ ~ item_fits p es fs ids (N.to_nat k) /\
  forall j, (j < N.to_nat k)%nat -> item_fits p es fs ids j.
Proof.
  intros p es fs ids m e k E Ei. pose proof (compile_cases p es fs ids m) as C. rewrite E in C.
  inversion C as [Em Q|Lm Q|A n Ne L Ad Nc F En I|k' it A o' o Ne L E' Ad Nc F NF J X]; subst; try discriminate Ei.
  destruct o' as [[?|e']|?|]; try contradiction. destruct X as [-> _]. cbn in Ei. injection Ei as <-. rewrite Nat2N.id. eauto.
Qed.
Theorem C02_whole_set : forall p es fs ids m e, compile_multi p es fs ids m = Ret (RErr e) ->
  (err_index e = None <-> es = [] \/ 8000000 < N.of_nat (List.length es)).
Proof.
  intros p es fs ids m e E. pose proof (compile_cases p es fs ids m) as C. rewrite E in C.
  inversion C as [Em Q|Lm Q|A n Ne L Ad Nc F En I|k' it A o' o Ne L E' Ad Nc F NF J X]; subst.
  - split; [auto|reflexivity].
  - split; [auto|reflexivity].
  - destruct o' as [[?|e']|?|]; try contradiction. destruct X as [-> _]. split; [discriminate|]. intros [->|]; [contradiction|lia].
Qed.
(** The two errors about the whole set, whatever else is in it. *)
Theorem C02_whole_set_text : forall p es fs ids m,
  (es = [] -> compile_multi p es fs ids m = Ret (RErr (CompileError EOther (lit "Invalid parameter: expressions is empty") None))) /\
  (8000000 < N.of_nat (List.length es) -> compile_multi p es fs ids m = Ret (RErr (CompileError EOther (lit "Number of patterns too large") None))).
Proof.
  intros p es fs ids m. split.
  - intros ->. reflexivity.
  - intro L. destruct es as [|e es]; [cbn in L; lia|]. unfold compile_multi, compile_multi_int. change (limit_pattern_count grey_default) with 8000000.
    replace (8000000 <? N.of_nat (List.length (e :: es))) with true by lia. reflexivity.
Qed.
Lemma compile_run : forall p es fs ids m o, es <> [] -> N.of_nat (List.length es) <= 8000000 -> (forall H, o <> Ret (ROk H)) ->
  (run p [] 0 (items_of es fs ids) o <-> compile_multi p es fs ids m = match o with Ret (ROk _) => Diverge | Ret (RErr e) => Ret (RErr e) | Panic w => Panic w | Diverge => Diverge end).
Proof.
  intros p es fs ids m o Ne L No. destruct (compile_int_ok p es fs ids m Ne L) as (o1 & R & M). split.
  - intro R'. pose proof (run_fun _ _ _ _ _ R _ R') as ->. destruct o as [[H|e]|w|]; [destruct (No H eq_refl)|exact M|exact M|contradiction].
  - intro E. destruct o1 as [[H|e]|w|]; [destruct M as (n & _ & _ & M)| | |contradiction]; rewrite E in M; destruct o as [[H'|e']|w'|]; try discriminate M; injection M as <-; exact R.
Qed.
Theorem C02_later_ignored : forall p es fs ids es' fs' ids' m m' e k, compile_multi p es fs ids m = Ret (RErr e) -> err_index e = Some k ->
  same_upto (N.to_nat k) es es' fs fs' ids ids' -> N.of_nat (List.length es') <= 8000000 ->
  compile_multi p es' fs' ids' m' = Ret (RErr e).
Proof.
  intros p es fs ids es' fs' ids' m m' e k E Ei Sm L'.
  assert (Ne : es <> [] /\ N.of_nat (List.length es) <= 8000000).
  { pose proof (C02_whole_set _ _ _ _ _ _ E) as W. destruct (N.leb_spec (N.of_nat (List.length es)) 8000000) as [L|L].
    - split; [|exact L]. intros ->. destruct W as [_ W]. rewrite W in Ei by auto. discriminate.
    - destruct W as [_ W]. rewrite W in Ei by auto. discriminate. }
  destruct Ne as [Ne L]. destruct (C02_first_offender _ _ _ _ _ _ _ E Ei) as ((it & At) & _).
  assert (Ne' : es' <> []).
  { intros ->. apply Sm in At; [|lia]. destruct At as [At _]. destruct (N.to_nat k); discriminate At. }
  apply (compile_run p es fs ids m (Ret (RErr e)) Ne L ltac:(discriminate)) in E.
  apply (compile_run p es' fs' ids' m' (Ret (RErr e)) Ne' L' ltac:(discriminate)).
  destruct (run_prefix _ _ _ _ _ E ltac:(discriminate)) as (k' & Lt & Ek & Pr). specialize (Ek e eq_refl). rewrite Ei in Ek. injection Ek as Ek.
  apply Pr. apply firstn_ext. intros i Hi.
  assert (X : forall x, nth_error (items_of es' fs' ids') i = Some x <-> nth_error (items_of es fs ids) i = Some x).
  { intro x. rewrite !items_of_nth. symmetry. apply Sm. lia. }
  destruct (nth_error (items_of es fs ids) i) as [x|] eqn:E1; [apply X; reflexivity|].
  destruct (nth_error (items_of es' fs' ids') i) as [x|] eqn:E2; [symmetry; apply X; reflexivity|reflexivity].
Qed.
(** What the error says, by cause; each cause excludes the ones before it. *)
Theorem C02_reason : forall p es fs ids m e k, compile_multi p es fs ids m = Ret (RErr e) -> err_index e = Some k ->
  exists it, item_at es fs ids (N.to_nat k) it /\
  ((16000 < str_len (it_expr it) /\ err_kind e = EOther /\ err_reason e = lit "Pattern length exceeds limit.") \/
   (str_len (it_expr it) <= 16000 /\ quiet it = true /\ som_leftmost it = true /\ err_kind e = EOther /\
      err_reason e = lit "QUIET is not supported in combination with SOM_LEFTMOST.") \/
   (exists e', str_len (it_expr it) <= 16000 /\ ~ (quiet it = true /\ som_leftmost it = true) /\
      parse p (it_expr it) (item_mode it) = Ret (RErr e') /\ err_kind e = err_kind e' /\ err_reason e = err_reason e') \/
   (acceptable p it /\ err_kind e = EOther /\ exists j a, (j < N.to_nat k)%nat /\ item_at es fs ids j a /\ conflict a it)).
Proof.
  intros p es fs ids m e k E Ei. pose proof (compile_cases p es fs ids m) as C. rewrite E in C.
  inversion C as [Em Q|Lm Q|A n Ne L Ad Nc F En I|k' it A o' o Ne L E' Ad Nc F NF J X]; subst; try discriminate Ei.
  destruct o' as [[?|e']|?|]; try contradiction. destruct X as [-> _]. cbn in Ei. injection Ei as <-. rewrite Nat2N.id. exists it. split; [exact E'|].
  inversion J as [L1|L1 Q S|e1 L1 Fl P| | |body b Ac B Li Fa D|]; subst; cbn [at_index err_kind err_reason].
  - left. auto.
  - right. left. auto.
  - right. right. left. exists e'. auto.
  - right. right. right. conjs; [exact Ac|reflexivity|]. destruct (first_add_In _ _ _ Fa) as [Ib Ed]. apply (adds_In _ _ _ Ad) in Ib. destruct Ib as (j & a & bo & Ej & Ba & La & ->).
    assert (j < k')%nat. { assert (nth_error (firstn k' (items_of es fs ids)) j <> None) as Z by congruence. apply nth_error_Some in Z. rewrite firstn_length in Z. lia. }
    rewrite nth_error_firstn' in Ej by assumption. apply items_of_nth in Ej. exists j, a. conjs; [assumption|exact Ej|]. repeat split; try (eexists; split; eassumption); assumption.
Qed.
Example C02_case : compile_multi release [lit "a"; lit "b|c"; lit "d)"; lit "("] [0; 0; 0; 0] [1; 1; 1; 1] Block =
  Ret (RErr (CompileError ELocatedParse (err_reason unmatched_error) (Some 2))) /\
  compile_multi dev [lit "a"; lit "b"] [0; 1280] [1; 1] Block =
  Ret (RErr (CompileError EOther (lit "QUIET is not supported in combination with SOM_LEFTMOST.") (Some 1))) /\
  compile_multi release [] [] [] Block = Ret (RErr (CompileError EOther (lit "Invalid parameter: expressions is empty") None)).
Proof. vm_compute. auto. Qed.
Example C02_whole_set_case : 8000000 < N.of_nat (List.length (repeat (lit "a") (N.to_nat 8000001))).
Proof. rewrite repeat_length. lia. Qed.

(** ** C03 *)
Theorem C03_refuted : exists es fs ids db, compile_multi release es fs ids Block = Ret (ROk db) /\
  exists i s, nth_error es i = Some s /\ (forall f d, ~ acceptable release (Item s f d)).
Proof.
  exists [lit "a"; lit "("], [0], [0]. eexists. split; [vm_compute; reflexivity|]. exists 1%nat, (lit "("). split; [reflexivity|].
  intros f d Ac. destruct (acceptable_parse _ _ Ac) as (t & m & E). cbn [it_expr] in E.
  pose proof (parse_outcome_fun release (lit "(") (item_mode (Item (lit "(") f d))) as PF.
  assert (St : no_verb (lit "(")) by (intros v rest (V & _); discriminate V).
  specialize (PF _ (po_missing release (lit "(") _ (lit "(") _ [] [] (starts_plain _ _ St) ltac:(apply ascii_check'; reflexivity) ltac:(intros Z; discriminate Z)
    ltac:(intros x y Exy; destruct x as [|x0 x]; [cbn; lia|]; destruct x as [|x1 x]; [injection Exy as <- _; vm_compute; auto|discriminate Exy])
    ltac:(vm_compute; auto) eq_refl balanced_nil)). congruence.
Qed.
(** When the other two slices are long enough the contract does hold. *)
Theorem C03_all_validated_partial : forall p es fs ids m db, compile_multi p es fs ids m = Ret (ROk db) ->
  (List.length es <= List.length fs)%nat -> (List.length es <= List.length ids)%nat ->
  forall i s, nth_error es i = Some s -> exists f d, nth_error fs i = Some f /\ nth_error ids i = Some d /\ acceptable p (Item s f d).
Proof.
  intros p es fs ids m db E Lf Li i s Es. destruct (proj1 (C01_accepts_iff p es fs ids m) (ex_intro _ db E)) as (_ & _ & A & _).
  assert (i < List.length es)%nat by (apply nth_error_Some; congruence).
  destruct (nth_error fs i) as [f|] eqn:Ef; [|apply nth_error_None in Ef; lia]. destruct (nth_error ids i) as [d|] eqn:Ed; [|apply nth_error_None in Ed; lia].
  exists f, d. conjs; auto. apply (A i). unfold item_at. auto.
Qed.
Example C03_case : exists db, compile_multi release sample_es sample_fs sample_ids (Stream None) = Ret (ROk db) /\
  (List.length sample_es <= List.length sample_fs)%nat /\ (List.length sample_es <= List.length sample_ids)%nat.
Proof. eexists. split; [vm_compute; reflexivity|]. cbn. lia. Qed.

(** ** C04 *)
Theorem C04_single : forall p e f m, compile p e f m = compile_multi p [e] [f] [0] m.
Proof. reflexivity. Qed.
Lemma parse_mode_verdict : forall p s m m', verdict (parse p s m) = verdict (parse p s m').
Proof.
  intros p s m m'. pose proof (parse_cases p s m) as C. destruct C as [v rest what V Na W|body m1 e St A G We T|body m1 a b St A G N L E B|body m1 a b St E G C|body m1 a c b St E G C|body m1 a b St Oc E G C].
  all: try (assert (St' : exists m2, starts s m' body m2) by (apply body_starts, (body_starts _ _ m); eauto); destruct St' as (m2 & St')).
  - rewrite (parse_outcome_fun p s m' _ (po_verb p s m' v rest what V Na W)). reflexivity.
  - rewrite (parse_outcome_fun p s m' _ (po_ok p s m' body m2 e St' A G We T)). reflexivity.
  - rewrite (parse_outcome_fun p s m' _ (po_missing p s m' body m2 a b St' A G N L E B)). reflexivity.
  - rewrite (parse_outcome_fun p s m' _ (po_unmatched p s m' body m2 a b St' E G C)). reflexivity.
  - rewrite (parse_outcome_fun p s m' _ (po_assert p s m' body m2 a c b St' E G C)). reflexivity.
  - rewrite (parse_outcome_fun p s m' _ (po_overflow p s m' body m2 a b St' Oc E G C)). reflexivity.
Qed.
Theorem C04_irrelevant : forall p e (f f' d d' : N) m m',
  N.testbit f 10 && N.testbit f 8 = N.testbit f' 10 && N.testbit f' 8 ->
  verdict (compile_multi p [e] [f] [d] m) = verdict (compile_multi p [e] [f'] [d'] m').
Proof.
  intros p e f f' d d' m m' Hf.
  assert (K : forall (f d : N) m, verdict (compile_multi p [e] [f] [d] m) =
    if 16000 <? str_len e then Ret (RErr (at_index 0 too_long))
    else if N.testbit f 10 && N.testbit f 8 then Ret (RErr (at_index 0 bad_flags))
    else match verdict (parse p e mode_default) with Ret (ROk x) => Ret (ROk x) | Ret (RErr er) => Ret (RErr (at_index 0 er)) | o => o end).
  { clear. intros f d m. destruct (compile_int_ok p [e] [f] [d] m ltac:(discriminate) ltac:(cbn; lia)) as (o & R & M). cbn [items_of] in R. set (it := Item e f d) in *.
    assert (P : verdict (parse p e mode_default) = verdict (parse p (it_expr it) (item_mode it))) by apply parse_mode_verdict. rewrite P. clear P.
    change (N.testbit f 10) with (quiet it). change (N.testbit f 8) with (som_leftmost it). change e with (it_expr it) at 2.
    assert (Er : forall w e', parse p e w = Ret (RErr e') -> err_index e' = None) by (intros w e' E; pose proof (parse_cases p e w) as C; rewrite E in C; inversion C; reflexivity).
    assert (Ok : acceptable p it -> (16000 <? str_len (it_expr it)) = false /\ quiet it && som_leftmost it = false /\ verdict (parse p (it_expr it) (item_mode it)) = Ret (ROk tt)).
    { intro Ac. conjs; [apply N.ltb_ge, Ac| |destruct (acceptable_parse p it Ac) as (t & mm & ->); reflexivity].
      destruct (quiet it) eqn:Q, (som_leftmost it) eqn:S; try reflexivity. destruct (ac_flags _ _ Ac). auto. }
    assert (Fl : ~ (quiet it = true /\ som_leftmost it = true) -> quiet it && som_leftmost it = false) by (intro Z; destruct (quiet it), (som_leftmost it); try reflexivity; destruct Z; auto).
    inversion R as [|? ? ? ? l ? J R'|? ? ? ? e' J D|? ? ? ? e' J Nn D|? ? ? ? w J]; subst.
    - inversion R'; subst. destruct M as (n & _ & _ & ->). inversion J as [| | | |body Ac B Nl| |body Ac B Li Fa]; subst; destruct (Ok Ac) as (-> & -> & ->); reflexivity.
    - rewrite M. inversion J as [L1|L1 Q S|e1 L1 F P| | |body b Ac B Li Fa Dd|]; subst.
      + replace (16000 <? str_len (it_expr it)) with true by lia. reflexivity.
      + replace (16000 <? str_len (it_expr it)) with false by lia. rewrite Q, S. reflexivity.
      + replace (16000 <? str_len (it_expr it)) with false by lia. rewrite (Fl F), P. reflexivity.
      + discriminate Fa.
    - exfalso. inversion J as [L1|L1 Q S|e1 L1 F P| | |body b Ac B Li Fa Dd|]; subst; try (apply Nn; reflexivity); [|discriminate Fa]. apply Nn. eapply Er. exact P.
    - rewrite M. inversion J as [| | |w1 L1 F P| | |]; subst. replace (16000 <? str_len (it_expr it)) with false by lia. rewrite (Fl F), P. reflexivity. }
  rewrite (K f d m), (K f' d' m'), Hf. reflexivity.
Qed.
(** Forbidden: the combination itself does matter. *)
Theorem C04_relevant : forall p e f d m, str_len e <= 16000 -> N.testbit f 10 = true -> N.testbit f 8 = true ->
  compile_multi p [e] [f] [d] m = Ret (RErr (CompileError EOther (lit "QUIET is not supported in combination with SOM_LEFTMOST.") (Some 0))).
Proof.
  intros p e f d m L Q S. apply (compile_run p [e] [f] [d] m (Ret (RErr (at_index 0 bad_flags)))); [discriminate|cbn; lia|discriminate|].
  cbn [items_of]. apply run_err; [|left; reflexivity]. apply j_flags; assumption.
Qed.
Example C04_case : N.testbit 1024 10 && N.testbit 1024 8 = N.testbit 265 10 && N.testbit 265 8 /\
  verdict (compile_multi release [lit "(*UCP)a|"] [1024] [0] Block) = Ret (ROk tt) /\
  verdict (compile_multi release [lit "(*UCP)a|"] [265] [77] Vectored) = Ret (ROk tt).
Proof. vm_compute. auto. Qed.

(** ** C05 *)
Lemma body_ascii : forall s body, body_of s body -> ascii_text s -> ascii_text body.
Proof. intros s body B A c I. apply A. apply (body_starts s body mode_default) in B. destruct B as (m & B). apply starts_suffix in B. destruct B as (pre & ->). apply in_or_app. auto. Qed.
Theorem C05_release_total : forall p es fs ids m, overflow_checks p = false -> debug_assertions p = false ->
  (forall s, In s es -> ascii_text s) -> exists r, compile_multi p es fs ids m = Ret r.
Proof.
  intros p es fs ids m Oc Da As. pose proof (compile_cases p es fs ids m) as C.
  destruct C as [Em|Lm|A n Ne L Ad Nc F En I|k it A o' o Ne L E' Ad Nc F NF J X]; eauto.
  destruct o' as [[?|e']|w|]; destruct o as [[?|e]|w'|]; try contradiction; eauto; [destruct X as (_ & _ & X); congruence|].
  exfalso. inversion J as [| | |w1 L1 Fl P| | |]; subst. destruct (C07_other_panics _ _ _ _ P) as [->|[_ Oc']]; [|congruence].
  apply C07_assert_iff in P. destruct P as (body & m' & a & c & b & St & Eb & Hc & _).
  assert (ascii_text body). { apply (body_ascii (it_expr it)); [apply (body_starts _ _ (item_mode it)); eauto|]. apply As. destruct E' as [E' _]. eapply nth_error_In. exact E'. }
  assert (In c body) by (rewrite Eb; apply in_or_app; right; left; reflexivity). specialize (H c H0). lia.
Qed.
Theorem C05_single : forall p e f m, overflow_checks p = false -> debug_assertions p = false -> ascii_text e -> exists r, compile p e f m = Ret r.
Proof. intros p e f m Oc Da A. apply (C05_release_total p [e] [f] [0] m); auto. intros s [<-|[]]. exact A. Qed.
(** Every call returns or panics, in every profile. *)
Theorem C05_terminates : forall p es fs ids m, compile_multi p es fs ids m <> Diverge.
Proof.
  intros p es fs ids m E. pose proof (compile_cases p es fs ids m) as C. rewrite E in C. inversion C as [| | |k it A o' o Ne L E' Ad Nc F NF J X]; subst. destruct o' as [[?|?]|?|]; contradiction.
Qed.
Example C05_case : overflow_checks release = false /\ debug_assertions release = false /\ ascii_text (lit "a(b)(") /\
  compile release (lit "a(b)(") 0 Block = Ret (RErr (CompileError EParse (err_reason (missing_error (2 ^ 64 - 4))) (Some 0))).
Proof. split; [reflexivity|]. split; [reflexivity|]. split; [apply ascii_check'; reflexivity|vm_compute; reflexivity]. Qed.

(** ** C06 *)
Theorem C06_refuted : exists e, ascii_text e /\ compile dev e 0 Block = Panic POverflow.
Proof. exists (lit "a(b)"). split; [apply ascii_check'; reflexivity|vm_compute; reflexivity]. Qed.
(** The exact condition: the first item that does not fit is short enough, has
    allowed flags, and opens a group other than with its very first character before
    anything else goes wrong in it. *)
Theorem C06_panics_iff_partial : forall p es fs ids m, compile_multi p es fs ids m = Panic POverflow <->
  es <> [] /\ N.of_nat (List.length es) <= 8000000 /\ overflow_checks p = true /\
  exists k it, item_at es fs ids k it /\ (forall j, (j < k)%nat -> item_fits p es fs ids j) /\
    str_len (it_expr it) <= 16000 /\ ~ (quiet it = true /\ som_leftmost it = true) /\
    exists body a b, body_of (it_expr it) body /\ body = a ++ 40 :: b /\ ascii_text a /\ never_negative a /\
      groups_ok p (it_expr it) body a /\ ~ (a = [] /\ body = it_expr it).
Proof.
  intros p es fs ids m. split.
  - intro E. pose proof (compile_cases p es fs ids m) as C. rewrite E in C. inversion C as [| | |k it A o' o Ne L E' Ad Nc F NF J X]; subst.
    destruct o' as [[?|e']|w|]; try contradiction; [destruct X as (X & _); discriminate X|]. subst w. inversion J as [| | |w1 L1 Fl P| | |]; subst.
    apply C06_overflow_iff in P. destruct P as (Oc & body & m' & a & b & St & Eb & A1 & A2 & A3 & A4). conjs; auto. exists k, it. conjs; auto. exists body, a, b. conjs; auto.
    apply (body_starts _ _ (item_mode it)). eauto.
  - intros (Ne & L & Oc & k & it & E' & F & L1 & Fl & body & a & b & B & Eb & A1 & A2 & A3 & A4).
    assert (P : parse p (it_expr it) (item_mode it) = Panic POverflow).
    { apply (body_starts _ _ (item_mode it)) in B. destruct B as (m' & St). apply C06_overflow_iff. split; [exact Oc|]. exists body, m', a, b. conjs; auto. }
    pose proof (compile_cases p es fs ids m) as C. destruct C as [Em|Lm|A n _ _ Ad Nc F' En I|k' it' A o' o _ _ E'' Ad Nc F' NF J X]; [contradiction|lia| |].
    + exfalso. destruct (F' k it E') as [Ac _]. destruct (acceptable_parse _ _ Ac) as (t & mm & X). congruence.
    + assert (Nk : ~ item_fits p es fs ids k) by (intro Fk; destruct (Fk it E') as [Ac _]; destruct (acceptable_parse _ _ Ac) as (t & mm & Y); congruence).
      assert (k' = k). { destruct (Nat.lt_trichotomy k' k) as [Lt|[Eq|Lt]]; [destruct (NF (F k' Lt))|exact Eq|destruct (Nk (F' k Lt))]. } subst k'.
      rewrite (item_at_fun _ _ _ _ _ _ E'' E') in *. rewrite (judged_fun _ _ _ _ _ _ J (j_panic p A (N.of_nat k) it POverflow L1 Fl P)) in X.
      destruct o as [[?|?]|w|]; try contradiction. congruence.
Qed.
(** With overflow checks off, or on expressions that open no group except with
    their first character, there is no such panic. *)
Theorem C06_no_group_partial : forall p es fs ids m,
  (forall s, In s es -> forall body, body_of s body -> forall a b, body = a ++ 40 :: b -> a = [] /\ body = s) ->
  compile_multi p es fs ids m <> Panic POverflow.
Proof.
  intros p es fs ids m G E. apply C06_panics_iff_partial in E. destruct E as (_ & _ & _ & k & it & E' & _ & _ & _ & body & a & b & B & Eb & _ & _ & _ & N).
  apply N. apply (G (it_expr it)) with (b := b); [|exact B|exact Eb]. destruct E' as [E' _]. eapply nth_error_In. exact E'.
Qed.
Example C06_case : compile_multi dev [lit "(a|b)"; lit "c"; lit "x(y)"] [0; 0; 0] [0; 1; 2] Block = Panic POverflow /\
  compile_multi dev [lit "(a|b)"; lit "c"] [0; 0] [0; 1] Block = Ret (ROk (Database (RoseEngine FullRose Block))) /\
  compile_multi dev [lit "(*UCP)(a)"] [0] [0] Block = Panic POverflow.
Proof. vm_compute. auto. Qed.

(** ** C08 *)
Theorem C08_selection : forall p es fs ids m es' fs' ids' m' db, compile_multi p es fs ids m = Ret (ROk db) ->
  es' <> [] -> N.of_nat (List.length es') <= 8000000 ->
  (forall i it, item_at es' fs' ids' i it -> exists j, item_at es fs ids j it) ->
  exists db', compile_multi p es' fs' ids' m' = Ret (ROk db').
Proof.
  intros p es fs ids m es' fs' ids' m' db E Ne L Sel. apply C01_accepts_iff. conjs; auto.
  destruct (proj1 (C01_accepts_iff p es fs ids m) (ex_intro _ db E)) as (_ & _ & A & C). split.
  - intros i it H. destruct (Sel i it H) as (j & H'). eapply A; exact H'.
  - intros i j a b Ha Hb. destruct (Sel i a Ha) as (i' & Ha'), (Sel j b Hb) as (j' & Hb'). eapply C; eassumption.
Qed.
Definition exprs (l : list item) := map it_expr l.
Definition flag_words (l : list item) := map it_flags l.
Definition match_ids (l : list item) := map it_id l.
Lemma item_at_list : forall l i it, item_at (exprs l) (flag_words l) (match_ids l) i it <-> nth_error l i = Some it.
Proof.
  intros l i it. unfold item_at, exprs, flag_words, match_ids. rewrite !nth_error_map. destruct (nth_error l i) as [x|]; cbn [option_map].
  - destruct x as [a b c], it as [a' b' c']. cbn. split; [intros ([= ->] & [= ->] & [= ->]); reflexivity|intros [= -> -> ->]; auto].
  - split; [intros (X & _); discriminate X|discriminate].
Qed.
Theorem C08_permutation : forall p l l' m m', Permutation l l' ->
  (exists db, compile_multi p (exprs l) (flag_words l) (match_ids l) m = Ret (ROk db)) ->
  exists db, compile_multi p (exprs l') (flag_words l') (match_ids l') m' = Ret (ROk db).
Proof.
  intros p l l' m m' P (db & E). pose proof (proj1 (C01_accepts_iff _ _ _ _ _) (ex_intro _ db E)) as (Ne & L & _).
  eapply C08_selection; [exact E| | |].
  - intro X. apply Ne. unfold exprs in *. apply map_eq_nil in X. subst l'. apply Permutation_sym, Permutation_nil in P. subst l. reflexivity.
  - unfold exprs in *. rewrite map_length in *. rewrite <- (Permutation_length P). exact L.
  - intros i it H. apply item_at_list in H. apply nth_error_In in H. apply (Permutation_in _ (Permutation_sym P)) in H. apply In_nth_error in H. destruct H as (j & H). exists j. apply item_at_list. exact H.
Qed.
(** Dropping items, as long as one is left. *)
Theorem C08_sublist : forall p keep l m m', (exists x, In x l /\ keep x = true) ->
  (exists db, compile_multi p (exprs l) (flag_words l) (match_ids l) m = Ret (ROk db)) ->
  exists db, compile_multi p (exprs (filter keep l)) (flag_words (filter keep l)) (match_ids (filter keep l)) m' = Ret (ROk db).
Proof.
  intros p keep l m m' (x & Ix & Kx) (db & E). pose proof (proj1 (C01_accepts_iff _ _ _ _ _) (ex_intro _ db E)) as (Ne & L & _).
  eapply C08_selection; [exact E| | |].
  - intro X. unfold exprs in *. apply map_eq_nil in X. assert (I : In x (filter keep l)) by (apply filter_In; auto). rewrite X in I. exact I.
  - unfold exprs in *. rewrite map_length in *. pose proof (filter_length_le' keep l). lia.
  - intros i it H. apply item_at_list in H. apply nth_error_In in H. apply filter_In in H. destruct H as [H _]. apply In_nth_error in H. destruct H as (j & H). exists j. apply item_at_list. exact H.
Qed.
Example C08_case : let l := [Item (lit "foo") 8 5; Item (lit "a|b") 0 5; Item (lit "bar") 8 5] in
  (exists db, compile_multi dev (exprs l) (flag_words l) (match_ids l) Block = Ret (ROk db)) /\
  Permutation l [Item (lit "bar") 8 5; Item (lit "foo") 8 5; Item (lit "a|b") 0 5].
Proof. cbv zeta. split; [eexists; vm_compute; reflexivity|]. apply Permutation_sym. apply (Permutation_middle [Item (lit "foo") 8 5; Item (lit "a|b") 0 5] [] (Item (lit "bar") 8 5)). Qed.

(** ** C09 *)
Theorem C09_refuted : exists es fs ids db i j a b, compile_multi release es fs ids Block = Ret (ROk db) /\
  item_at es fs ids i a /\ item_at es fs ids j b /\ it_id a = it_id b /\ single_match a <> single_match b.
Proof.
  exists [lit "a|b"; lit "c|d"], [8; 0], [0; 0], (Database (RoseEngine FullRose Block)), 0%nat, 1%nat, (Item (lit "a|b") 8 0), (Item (lit "c|d") 0 0).
  split; [vm_compute; reflexivity|]. split; [repeat split|]. split; [repeat split|]. split; [reflexivity|discriminate].
Qed.
Theorem C09_literals_partial : forall p es fs ids m i j a b, item_at es fs ids i a -> item_at es fs ids j b ->
  literal_item a -> literal_item b -> it_id a = it_id b -> single_match a <> single_match b ->
  forall db, compile_multi p es fs ids m <> Ret (ROk db).
Proof.
  intros p es fs ids m i j a b Ha Hb La Lb Ei Es db E. destruct (proj1 (C01_accepts_iff p es fs ids m) (ex_intro _ db E)) as (_ & _ & _ & C).
  apply (C i j a b Ha Hb). repeat split; assumption.
Qed.
(** Which expressions are literals: no alternation and at least one character. *)
Theorem C09_literal_iff : forall it body, body_of (it_expr it) body ->
  (literal_item it <-> ~ In 124 body /\ exists c, In c body /\ c <> 40 /\ c <> 41).
Proof.
  intros it body B. unfold literal_item. split.
  - intros (b & B' & L). rewrite (body_fun _ _ _ B' B) in L. apply literal_text_iff in L. destruct L as [L1 L2]. split.
    + intro I. assert (X : existsb (N.eqb 124) body = true) by (apply existsb_exists; exists 124; auto). congruence.
    + destruct (lit_text body) as [|c r] eqn:E; [contradiction|]. exists c. assert (I : In c (lit_text body)) by (rewrite E; left; reflexivity).
      unfold lit_text in I. apply filter_In in I. destruct I as [I X]. split; [exact I|]. lia.
  - intros [L (c & I & C1 & C2)]. exists body. split; [exact B|]. apply literal_text_iff. split.
    + destruct (existsb (N.eqb 124) body) eqn:X; [|reflexivity]. apply existsb_exists in X. destruct X as (x & Ix & Ex). apply N.eqb_eq in Ex. subst x. contradiction.
    + intro E. assert (I' : In c (lit_text body)) by (unfold lit_text; apply filter_In; split; [exact I|lia]). rewrite E in I'. exact I'.
Qed.
Example C09_case : let es := [lit "(a)"; lit "x|y"; lit "b"] in let fs := [8; 0; 0] in let ids := [3; 3; 3] in
  literal_item (Item (lit "(a)") 8 3) /\ literal_item (Item (lit "b") 0 3) /\
  exists e, compile_multi release es fs ids Block = Ret (RErr e) /\ err_index e = Some 2.
Proof.
  cbv zeta. conjs.
  - apply (C09_literal_iff _ (lit "(a)")); [left; split; [intros v rest (V & _); discriminate V|reflexivity]|]. cbn [it_expr]. split; [vm_compute; intuition discriminate|]. exists 97. split; [vm_compute; auto|lia].
  - apply (C09_literal_iff _ (lit "b")); [left; split; [intros v rest (V & _); discriminate V|reflexivity]|]. cbn [it_expr]. split; [vm_compute; intuition discriminate|]. exists 98. split; [vm_compute; auto|lia].
  - eexists. split; [vm_compute; reflexivity|reflexivity].
Qed.

(** ** C10 *)
(** What the message of a conflict between item [j] and the later item [k] should
    say at its end about item [j]. *)
Theorem C10_refuted : exists es fs ids e a, compile_multi release es fs ids Block = Ret (RErr e) /\ err_index e = Some 1 /\
  item_at es fs ids 0 a /\ single_match a = true /\ ends_with (lit "whereas previous expression (index 0) with the same match ID did not.") (err_reason e).
Proof.
  exists [lit "a"; lit "b"], [8; 0], [7; 7]. eexists. exists (Item (lit "a") 8 7). conjs; [vm_compute; reflexivity|reflexivity|repeat split|reflexivity|].
  exists (lit "Expression (index 1) with match ID 7 did not sepcify  SINGLEMATCH "). vm_compute. reflexivity.
Qed.
(** The actual message: the indices, the id and what the later expression did are
    right; what the earlier one did is inverted. *)
Theorem C10_message_partial : forall p es fs ids m e k it, compile_multi p es fs ids m = Ret (RErr e) -> err_index e = Some k ->
  item_at es fs ids (N.to_nat k) it -> acceptable p it ->
  exists j a, (j < N.to_nat k)%nat /\ item_at es fs ids j a /\ conflict a it /\
    (* the first literal with that id *)
    (forall i b, (i < j)%nat -> item_at es fs ids i b -> literal_item b -> it_id b <> it_id it) /\
    err_kind e = EOther /\
    err_reason e = lit "Expression (index " ++ show k ++ lit ") with match ID " ++ show (it_id it) ++ lit " " ++
      (if single_match it then lit "specified " else lit "did not sepcify ") ++ lit " SINGLEMATCH whereas previous expression (index " ++ show (N.of_nat j) ++
      lit ") with the same match ID did" ++ (if single_match a then lit " not." else lit ".").
Proof.
  intros p es fs ids m e k it E Ei At Ac. pose proof (compile_cases p es fs ids m) as C. rewrite E in C.
  inversion C as [Em Q|Lm Q|A n Ne L Ad Nc F En I|k' it' A o' o Ne L E' Ad Nc F NF J X]; subst; try discriminate Ei.
  destruct o' as [[?|e']|?|]; try contradiction. destruct X as [-> _]. cbn in Ei. injection Ei as <-. rewrite Nat2N.id in *. rewrite (item_at_fun _ _ _ _ _ _ E' At) in *. clear E' it'.
  inversion J as [L1|L1 Q S|e1 L1 Fl P| | |body b _ B Li Fa D|]; subst.
  - destruct Ac as [Z _ _]. lia.
  - destruct Ac as [_ Z _]. destruct Z. auto.
  - destruct (acceptable_parse _ _ Ac) as (t & mm & Z). congruence.
  - destruct (adds_first _ _ _ Ad (it_id it) b Fa) as (j & a & bo & Ej & Ba & La & -> & Ed & Fst).
    assert (j < k')%nat. { assert (nth_error (firstn k' (items_of es fs ids)) j <> None) as Z by congruence. apply nth_error_Some in Z. rewrite firstn_length in Z. lia. }
    rewrite nth_error_firstn' in Ej by assumption. apply items_of_nth in Ej. exists j, a. conjs; [assumption|exact Ej| | |reflexivity|].
    + repeat split; try (eexists; split; eassumption); assumption.
    + intros i0 b0 Li0 Eb0 Lb0. apply (Fst i0 b0); [assumption| |exact Lb0]. rewrite nth_error_firstn' by lia. apply items_of_nth. exact Eb0.
    + cbn [at_index err_reason conflict_error error_with_index]. unfold conflict_message, addition_of. cbn [ei_first_index ei_highlander ad_index ad_single]. rewrite N.add_0_l. reflexivity.
Qed.
Theorem C10_inverted_partial : forall p es fs ids m e k it, compile_multi p es fs ids m = Ret (RErr e) -> err_index e = Some k ->
  item_at es fs ids (N.to_nat k) it -> acceptable p it ->
  exists j a, (j < N.to_nat k)%nat /\ item_at es fs ids j a /\ conflict a it /\
    (ends_with (lit "did not.") (err_reason e) <-> single_match a = true) /\ (ends_with (lit "did.") (err_reason e) <-> single_match a = false).
Proof.
  intros p es fs ids m e k it E Ei At Ac. destruct (C10_message_partial _ _ _ _ _ _ _ _ E Ei At Ac) as (j & a & Lt & Ea & Cf & _ & _ & R). exists j, a. conjs; auto.
  - rewrite R. split.
    + intros (x & X). destruct (single_match a); [reflexivity|]. exfalso. rewrite !app_assoc in X. apply (f_equal (fun s => List.rev s)) in X. rewrite !rev_app_distr in X. discriminate X.
    + intros ->. rewrite !app_assoc. change (lit ") with the same match ID did") with (lit ") with the same match ID " ++ lit "did"). rewrite !app_assoc. rewrite <- (app_assoc _ (lit "did") (lit " not.")). eexists. reflexivity.
  - rewrite R. split.
    + intros (x & X). destruct (single_match a); [|reflexivity]. exfalso. rewrite !app_assoc in X. apply (f_equal (fun s => List.rev s)) in X. rewrite !rev_app_distr in X. discriminate X.
    + intros ->. rewrite !app_assoc. change (lit ") with the same match ID did") with (lit ") with the same match ID " ++ lit "did"). rewrite !app_assoc. rewrite <- (app_assoc _ (lit "did") (lit ".")). eexists. reflexivity.
Qed.
Example C10_case : exists e, compile_multi release [lit "q|r"; lit "a"; lit "b"] [8; 0; 8] [7; 7; 7] Block = Ret (RErr e) /\ err_index e = Some 2 /\
  err_reason e = lit "Expression (index 2) with match ID 7 specified  SINGLEMATCH whereas previous expression (index 1) with the same match ID did." /\
  acceptable release (Item (lit "b") 8 7).
Proof.
  eexists. conjs; [vm_compute; reflexivity|reflexivity|reflexivity|]. constructor; [vm_compute; discriminate|intros [Q _]; discriminate Q|].
  exists (lit "b"). conjs; [left; split; [intros v rest (V & _); discriminate V|reflexivity]|apply ascii_check'; reflexivity|apply balanced_one; discriminate|intro Z; discriminate Z].
Qed.

(** ** C11 *)
Theorem C11_refuted : exists es fs ids, (forall s, In s es -> ascii_text s) /\ ~ (exists r, compile_multi dev es fs ids Block = Ret r) /\
  exists a b, item_at es fs ids 0 a /\ item_at es fs ids 1 b /\ conflict a b.
Proof.
  exists [lit "a"; lit "b"], [8; 0], [7; 7]. conjs.
  - intros s [<-|[<-|[]]]; apply ascii_check'; reflexivity.
  - intros (r & E). vm_compute in E. discriminate E.
  - exists (Item (lit "a") 8 7), (Item (lit "b") 0 7). conjs; [repeat split|repeat split|].
    repeat split; [| |discriminate]; [exists (lit "a")|exists (lit "b")]; (split; [left; split; [intros v rest (V & _); discriminate V|reflexivity]|apply literal_text_iff; split; [reflexivity|discriminate]]).
Qed.
(** With debug assertions off a conflict is always an error value, naming the later
    item; with them on it is exactly what trips the assertion. *)
Theorem C11_outcome_partial : forall p es fs ids m k it, es <> [] -> N.of_nat (List.length es) <= 8000000 ->
  item_at es fs ids k it -> (forall j, (j < k)%nat -> item_fits p es fs ids j) -> acceptable p it ->
  (exists j a, (j < k)%nat /\ item_at es fs ids j a /\ conflict a it) ->
  (debug_assertions p = false -> exists e, compile_multi p es fs ids m = Ret (RErr e) /\ err_index e = Some (N.of_nat k)) /\
  (debug_assertions p = true -> compile_multi p es fs ids m = Panic PDebugAssert).
Proof.
  intros p es fs ids m k it Ne L At F Ac (j & a & Lt & Aj & Cf).
  assert (Nk : ~ item_fits p es fs ids k) by (intro Fk; destruct (Fk it At) as [_ Z]; exact (Z j a Lt Aj Cf)).
  pose proof (compile_cases p es fs ids m) as C. destruct C as [Em|Lm|A n _ _ Ad Nc F' En I|k' it' A o' o _ _ E'' Ad Nc F' NF J X]; [contradiction|lia|destruct (Nk (F' k))|].
  assert (k' = k). { destruct (Nat.lt_trichotomy k' k) as [Lt'|[Eq|Lt']]; [destruct (NF (F k' Lt'))|exact Eq|destruct (Nk (F' k Lt'))]. } subst k'.
  rewrite (item_at_fun _ _ _ _ _ _ E'' At) in *.
  inversion J as [L1|L1 Q S|e1 L1 Fl P|w L1 Fl P|body _ B Nl|body b _ B Li Fa D|body _ B Li Fa]; subst.
  - destruct Ac as [Z _ _]. lia.
  - destruct Ac as [_ Z _]. destruct Z. auto.
  - destruct (acceptable_parse _ _ Ac) as (t & mm & Z). congruence.
  - destruct (acceptable_parse _ _ Ac) as (t & mm & Z). congruence.
  - destruct o as [[?|?]|?|]; contradiction.
  - destruct o as [[?|e]|w|]; try contradiction.
    + destruct X as [-> [X|X]]; [discriminate X|]. split; [eauto|congruence].
    + destruct X as (-> & _ & X). split; [congruence|reflexivity].
  - destruct o as [[?|?]|?|]; contradiction.
Qed.
Theorem C11_assert_only_conflict_partial : forall p es fs ids m, compile_multi p es fs ids m = Panic PDebugAssert ->
  debug_assertions p = true /\ exists k j a b, (j < k)%nat /\ item_at es fs ids j a /\ item_at es fs ids k b /\ conflict a b.
Proof.
  intros p es fs ids m E. pose proof (compile_cases p es fs ids m) as C. rewrite E in C. inversion C as [| | |k it A o' o Ne L E' Ad Nc F NF J X]; subst.
  destruct o' as [[?|e']|w|]; try contradiction.
  - destruct X as (_ & X & D). split; [exact D|]. inversion J as [L1|L1 Q S|e1 L1 Fl P| | |body b _ B Li Fa Dd|]; subst; try (destruct X; reflexivity).
    + exfalso. apply X. pose proof (parse_cases p (it_expr it) (item_mode it)) as C'. rewrite P in C'. inversion C'; reflexivity.
    + destruct (first_add_In _ _ _ Fa) as [Ib Ed]. apply (adds_In _ _ _ Ad) in Ib. destruct Ib as (j & a & bo & Ej & Ba & La & ->).
      assert (j < k)%nat. { assert (nth_error (firstn k (items_of es fs ids)) j <> None) as Z by congruence. apply nth_error_Some in Z. rewrite firstn_length in Z. lia. }
      rewrite nth_error_firstn' in Ej by assumption. apply items_of_nth in Ej. exists k, j, a, it. conjs; [assumption|exact Ej|exact E'|]. repeat split; try (eexists; split; eassumption); assumption.
  - subst w. inversion J as [| | |w1 L1 Fl P| | |]; subst. destruct (C07_other_panics _ _ _ _ P) as [Z|[Z _]]; discriminate Z.
Qed.
Example C11_case : compile_multi dev [lit "a"; lit "b"] [8; 0] [7; 7] Block = Panic PDebugAssert /\
  (exists e, compile_multi release [lit "a"; lit "b"] [8; 0] [7; 7] Block = Ret (RErr e) /\ err_index e = Some 1).
Proof. split; [vm_compute; reflexivity|]. eexists. split; [vm_compute; reflexivity|reflexivity]. Qed.

Print Assumptions C01_accepts_iff. Print Assumptions C02_first_offender. Print Assumptions C02_whole_set. Print Assumptions C02_whole_set_text. Print Assumptions C02_later_ignored. Print Assumptions C02_reason.
Print Assumptions C03_refuted. Print Assumptions C03_all_validated_partial. Print Assumptions C04_single. Print Assumptions C04_irrelevant. Print Assumptions C04_relevant.
Print Assumptions C05_release_total. Print Assumptions C05_single. Print Assumptions C05_terminates. Print Assumptions C06_refuted. Print Assumptions C06_panics_iff_partial. Print Assumptions C06_no_group_partial.
Print Assumptions C08_selection. Print Assumptions C08_permutation. Print Assumptions C08_sublist. Print Assumptions C09_refuted. Print Assumptions C09_literals_partial. Print Assumptions C09_literal_iff.
Print Assumptions C10_refuted. Print Assumptions C10_message_partial. Print Assumptions C10_inverted_partial. Print Assumptions C11_refuted. Print Assumptions C11_outcome_partial. Print Assumptions C11_assert_only_conflict_partial.
