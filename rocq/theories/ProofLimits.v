(** The small-write builder under every configuration. *)
From Verif Require Import Base ModelUtil ModelLiteral ModelPetgraph ModelSmallWrite SpecTrie ProofBase ProofLiteral ProofTrie.
Local Open Scope N_scope.
Local Open Scope list_scope.

Lemma largest_lt : forall p, 2 ^ 32 - 1 <= largest p /\ largest p + 1 = 2 ^ usize_bits p.
Proof. intros [o d []]; unfold largest, usize_bits; cbn; lia. Qed.

Definition gone_b (p : profile) (np : N) (g : grey) (h : list (literal * N)) : bool :=
  negb (allow_small_write g) || (small_write_max_patterns g <? np) || ((small_write_max_literals g <? n_short g h) && negb (small_write_max_literals g =? largest p))
  || (8000 <? n_prefixes (short_sensitive g h)) || (8000 <? n_prefixes (short_caseless g h)).
Lemma gone_iff : forall p np g h, gone_b p np g h = true <-> gone p np g h.
Proof.
  intros p np g h. unfold gone_b, gone. fold (n_prefixes (short_sensitive g h)) (n_prefixes (short_caseless g h)).
  rewrite !orb_true_iff, andb_true_iff, !negb_true_iff, !N.ltb_lt, N.eqb_neq. tauto.
Qed.
Lemma gone_mono : forall p np g h x, gone_b p np g h = true -> gone_b p np g (h ++ [x]) = true.
Proof.
  intros p np g h x. unfold gone_b. rewrite short_sensitive_snoc, short_caseless_snoc, n_short_snoc.
  pose proof (n_prefixes_mono (short_sensitive g h) (if short g x && negb (has_caseless x) then [insertion_of x] else [])).
  pose proof (n_prefixes_mono (short_caseless g h) (if short g x && has_caseless x then [insertion_of x] else [])).
  rewrite !orb_true_iff, !andb_true_iff, !N.ltb_lt. intros [[[[H1|H1]|H1]|H1]|H1]; auto.
  - left; left; right. split; [destruct (short g x); lia|apply H1].
  - left; right. lia.
  - right. lia.
Qed.
Lemma gone_app : forall p np g b h, gone_b p np g h = true -> gone_b p np g (h ++ b) = true.
Proof.
  intros p np g b; induction b as [|x b IH]; intros h H; [rewrite app_nil_r; exact H|].
  replace (h ++ x :: b) with ((h ++ [x]) ++ b) by (rewrite <- app_assoc; reflexivity). apply IH, gone_mono, H.
Qed.
Lemma n_short_app : forall g a b, n_short g (a ++ b) = n_short g a + n_short g b.
Proof. intros g a b. unfold n_short. rewrite filter_app, app_length. lia. Qed.

Record limits_inv (p : profile) (np : N) (g : grey) (h : list (literal * N)) (s : small_write) : Prop := LimitsInv {
  li_grey : sw_grey s = g;
  li_poisoned : sw_poisoned s = gone_b p np g h;
  li_size : node_count (lt_inner (sw_trie s)) <= 8000 + small_write_largest_buffer g /\
            node_count (lt_inner (sw_trie_nocase s)) <= 8000 + small_write_largest_buffer g;
  li_count : gone_b p np g h = false -> overflow_checks p = true -> n_short g h <= largest p;
  li_content : gone_b p np g h = false ->
    sw_num_literals s = n_short g h mod 2 ^ usize_bits p /\ lt_root (sw_trie s) = 0 /\ lt_root (sw_trie_nocase s) = 0 /\
    (exists ps, content (lt_inner (sw_trie s)) ps (short_sensitive g h)) /\
    (exists ps, content (lt_inner (sw_trie_nocase s)) ps (short_caseless g h))
}.
Lemma limits_inv_new : forall p np g, limits_inv p np g [] (smwr_new np g).
Proof.
  intros p np g. constructor.
  - reflexivity.
  - unfold smwr_new, gone_b. cbn [sw_poisoned]. change (n_short g []) with 0.
    change (n_prefixes (short_sensitive g [])) with 1. change (n_prefixes (short_caseless g [])) with 1.
    replace (small_write_max_literals g <? 0) with false by lia. change (8000 <? 1) with false. rewrite andb_false_l, !orb_false_r. reflexivity.
  - unfold smwr_new, node_count. cbn. lia.
  - intros _ _. change (n_short g []) with 0. lia.
  - intros _. cbn [smwr_new sw_num_literals sw_trie sw_trie_nocase]. change (n_short g []) with 0. rewrite N.mod_0_l by (apply N.pow_nonzero; lia).
    conjs; try reflexivity; exists [[]]; apply content_default.
Qed.

Lemma limits_step : forall p np g h s l r, small_write_max_literals g <= largest p -> lit_wf l -> limits_inv p np g h s ->
  match smwr_add_literal p s l r with
  | Ret s' => limits_inv p np g (h ++ [(l, r)]) s' /\ forall w, ~ stops p np g h (l, r) w
  | Panic w => forall w', stops p np g h (l, r) w' <-> w' = w
  | Diverge => False
  end.
Proof.
  intros p np g h s l r Ml W [Ig Ip Is Ico Ic]. destruct (largest_lt p) as [L32 Lb]. unfold smwr_add_literal. rewrite Ig, Ip.
  destruct (gone_b p np g h) eqn:D.
  { pose proof (gone_mono p np g h (l, r) D) as D'. split; [constructor; auto; congruence|]. intros w (S1 & _). apply S1, gone_iff, D. }
  destruct (Ic eq_refl) as (Hn & R1 & R2 & (ps1 & C1) & (ps2 & C2)). clear Ic. specialize (Ico eq_refl).
  assert (Ng : ~ gone p np g h) by (rewrite <- gone_iff; congruence).
  pose proof D as D0. unfold gone_b in D0. rewrite !orb_false_iff in D0.
  destruct D0 as ((((D1 & D2) & D3) & D4) & D5). apply N.ltb_ge in D4, D5.
  assert (D3' : n_short g h <= small_write_max_literals g \/ small_write_max_literals g = largest p).
  { apply andb_false_iff in D3. rewrite N.ltb_ge, negb_false_iff, N.eqb_eq in D3. exact D3. }
  destruct (N.ltb_spec (small_write_largest_buffer g) (lit_len l)) as [L|L].
  { assert (Sx : short g (l, r) = false) by (unfold short, lit_len in *; cbn [fst]; lia).
    assert (E : gone_b p np g (h ++ [(l, r)]) = gone_b p np g h /\ n_short g (h ++ [(l, r)]) = n_short g h /\
      short_sensitive g (h ++ [(l, r)]) = short_sensitive g h /\ short_caseless g (h ++ [(l, r)]) = short_caseless g h).
    { unfold gone_b. rewrite short_sensitive_snoc, short_caseless_snoc, n_short_snoc, Sx. simpl. rewrite !app_nil_r, N.add_0_r. auto. }
    destruct E as (E1 & E2 & E3 & E4). split.
    - constructor; auto; [congruence|rewrite E2; auto|]. intros _. rewrite E2, E3, E4. conjs; eauto.
    - intros w (_ & S2 & _). congruence. }
  assert (Sx : short g (l, r) = true) by (unfold short, lit_len in *; cbn [fst]; lia).
  pose proof (n_short_snoc g h (l, r)) as Ns. rewrite Sx in Ns.
  pose proof (short_sensitive_snoc g h (l, r)) as Ss. pose proof (short_caseless_snoc g h (l, r)) as Sc.
  rewrite Sx in Ss, Sc. cbn [andb] in Ss, Sc.
  assert (Pz : 2 ^ usize_bits p <> 0) by lia.
  (* the count *)
  assert (Cnt : (overflow_checks p = true /\ n_short g h = largest p /\ chk_add p (usize_bits p) (sw_num_literals s) 1 = Panic POverflow) \/
    ((overflow_checks p = true -> n_short g h < largest p) /\ chk_add p (usize_bits p) (sw_num_literals s) 1 = Ret ((n_short g h + 1) mod 2 ^ usize_bits p))).
  { unfold chk_add. rewrite Hn. assert (Lm : n_short g h mod 2 ^ usize_bits p < 2 ^ usize_bits p) by (apply N.mod_lt; exact Pz).
    assert (Am : (n_short g h mod 2 ^ usize_bits p + 1) mod 2 ^ usize_bits p = (n_short g h + 1) mod 2 ^ usize_bits p) by (apply N.add_mod_idemp_l; exact Pz).
    destruct (N.ltb_spec (n_short g h mod 2 ^ usize_bits p + 1) (2 ^ usize_bits p)) as [Lt|Ge].
    - right. split; [|rewrite <- Am; f_equal; symmetry; apply N.mod_small; exact Lt]. intro O. specialize (Ico O). rewrite N.mod_small in Lt by lia. lia.
    - destruct (overflow_checks p) eqn:O.
      + left. specialize (Ico eq_refl). rewrite N.mod_small in Ge by lia. conjs; auto. lia.
      + right. split; [discriminate|]. rewrite Am. reflexivity. }
  destruct Cnt as [(O & Full & Ec)|(Cn & Ec)]; rewrite Ec; cbn [bind].
  { intros w'. split.
    - intros (_ & _ & [(-> & _)|(_ & [Lt|[_ X]] & _)]); [reflexivity|lia|congruence].
    - intros ->. split; [exact Ng|]. split; [exact Sx|]. left. auto. }
  cbn [sw_grey sw_num_literals sw_poisoned sw_trie sw_trie_nocase].
  (* more than the limit *)
  assert (Mx : ((small_write_max_literals g <? (n_short g h + 1) mod 2 ^ usize_bits p) = true /\ small_write_max_literals g <> largest p /\ small_write_max_literals g < n_short g h + 1) \/
    ((small_write_max_literals g <? (n_short g h + 1) mod 2 ^ usize_bits p) = false /\
     (n_short g h < small_write_max_literals g \/ (small_write_max_literals g = largest p /\ overflow_checks p = false)) /\
     (small_write_max_literals g <? n_short g h + 1) && negb (small_write_max_literals g =? largest p) = false)).
  { destruct (N.eq_dec (small_write_max_literals g) (largest p)) as [Em|Em].
    - right. assert (X : (n_short g h + 1) mod 2 ^ usize_bits p < 2 ^ usize_bits p) by (apply N.mod_lt; exact Pz).
      split; [apply N.ltb_ge; lia|]. split; [|rewrite Em, N.eqb_refl; apply andb_false_r].
      destruct (overflow_checks p); [left; rewrite Em; apply Cn; reflexivity|right; auto].
    - destruct D3' as [D3'|D3']; [|congruence]. rewrite N.mod_small by lia.
      destruct (N.ltb_spec (small_write_max_literals g) (n_short g h + 1)) as [M|M]; [left|right]; conjs; auto; lia. }
  destruct Mx as [(Bm & Nm & M)|(Bm & M & Mb)]; rewrite Bm.
  { assert (D' : gone_b p np g (h ++ [(l, r)]) = true).
    { unfold gone_b. rewrite Ns. replace (small_write_max_literals g <? n_short g h + 1) with true by lia.
      replace (small_write_max_literals g =? largest p) with false by lia. rewrite !orb_true_r. reflexivity. }
    split.
    - constructor; [solve [exact Ig|reflexivity]|symmetry; exact D'|exact Is|congruence|congruence].
    - intros w (_ & _ & [(_ & O & X)|(_ & [X|[X _]] & _)]); [specialize (Cn O); lia|lia|congruence]. }
  assert (Co : forall w, (w = POverflow /\ overflow_checks p = true /\ n_short g h = largest p) -> False).
  { intros w (_ & O & X). specialize (Cn O). lia. }
  change (lit_any_nocase l) with (has_caseless (l, r)).
  assert (Cnt2 : overflow_checks p = true -> n_short g (h ++ [(l, r)]) <= largest p) by (intro O; specialize (Cn O); lia).
  destruct (has_caseless (l, r)) eqn:Hc; cbn [negb] in Ss, Sc; rewrite ?app_nil_r in *.
  - destruct (add_to_trie_cases l r (sw_trie_nocase s) ps2 _ W R2 C2) as [(t' & ps' & E & Rt & Ct & Cap & Lt)|(E & Big & _)].
    { rewrite (content_count _ _ _ C2). unfold n_prefixes in D5. unfold IX_END. lia. }
    + rewrite E. cbn [bind].
      assert (Nt : node_count (lt_inner t') = n_prefixes (short_caseless g (h ++ [(l, r)]))) by (rewrite Sc; apply (content_n _ _ _ Ct)).
      assert (Nt0 : node_count (lt_inner (sw_trie_nocase s)) = n_prefixes (short_caseless g h)) by (apply (content_n _ _ _ C2)).
      assert (D' : gone_b p np g (h ++ [(l, r)]) = negb (node_count (lt_inner t') <=? 8000)).
      { unfold gone_b. rewrite Ns, Ss, D1, D2, Nt, Mb.
        replace (8000 <? n_prefixes (short_sensitive g h)) with false by lia. simpl. lia. }
      rewrite <- D'. split.
      * destruct (gone_b p np g (h ++ [(l, r)])) eqn:Dn.
        -- constructor; cbn [negb smwr_poison sw_grey sw_poisoned sw_trie sw_trie_nocase sw_num_literals]; [solve [exact Ig|reflexivity]|congruence|split; [apply Is|lia]|congruence|congruence].
        -- constructor; cbn [negb smwr_poison sw_grey sw_poisoned sw_trie sw_trie_nocase sw_num_literals]; [solve [exact Ig|reflexivity]|congruence|split; [apply Is|lia]|auto|]. intros _. rewrite Ns, Ss, Sc. conjs; eauto.
      * intros w (_ & _ & [X|(_ & _ & X)]); [apply (Co w X)|]. rewrite Hc in X. fold (n_prefixes (short_caseless g (h ++ [(l, r)]))) in X. unfold IX_END in Cap. lia.
    + rewrite E. cbn [bind]. intros w'. split.
      * intros (_ & _ & [X|(X & _)]); [destruct (Co w' X)|exact X].
      * intros ->. split; [exact Ng|]. split; [exact Sx|]. right. split; [reflexivity|]. split; [exact M|]. rewrite Hc, Sc. exact Big.
  - destruct (add_to_trie_cases l r (sw_trie s) ps1 _ W R1 C1) as [(t' & ps' & E & Rt & Ct & Cap & Lt)|(E & Big & _)].
    { rewrite (content_count _ _ _ C1). unfold n_prefixes in D4. unfold IX_END. lia. }
    + rewrite E. cbn [bind].
      assert (Nt : node_count (lt_inner t') = n_prefixes (short_sensitive g (h ++ [(l, r)]))) by (rewrite Ss; apply (content_n _ _ _ Ct)).
      assert (Nt0 : node_count (lt_inner (sw_trie s)) = n_prefixes (short_sensitive g h)) by (apply (content_n _ _ _ C1)).
      assert (D' : gone_b p np g (h ++ [(l, r)]) = negb (node_count (lt_inner t') <=? 8000)).
      { unfold gone_b. rewrite Ns, Sc, D1, D2, Nt, Mb.
        replace (8000 <? n_prefixes (short_caseless g h)) with false by lia. simpl. lia. }
      rewrite <- D'. split.
      * destruct (gone_b p np g (h ++ [(l, r)])) eqn:Dn.
        -- constructor; cbn [negb smwr_poison sw_grey sw_poisoned sw_trie sw_trie_nocase sw_num_literals]; [solve [exact Ig|reflexivity]|congruence|split; [lia|apply Is]|congruence|congruence].
        -- constructor; cbn [negb smwr_poison sw_grey sw_poisoned sw_trie sw_trie_nocase sw_num_literals]; [solve [exact Ig|reflexivity]|congruence|split; [lia|apply Is]|auto|]. intros _. rewrite Ns, Ss, Sc. conjs; eauto.
      * intros w (_ & _ & [X|(_ & _ & X)]); [apply (Co w X)|]. rewrite Hc in X. fold (n_prefixes (short_sensitive g (h ++ [(l, r)]))) in X. unfold IX_END in Cap. lia.
    + rewrite E. cbn [bind]. intros w'. split.
      * intros (_ & _ & [X|(X & _)]); [destruct (Co w' X)|exact X].
      * intros ->. split; [exact Ng|]. split; [exact Sx|]. right. split; [reflexivity|]. split; [exact M|]. rewrite Hc, Ss. exact Big.
Qed.
(** A whole history, with the first literal that panics. *)
Lemma limits_run : forall p np g h2 h1 s, small_write_max_literals g <= largest p -> (forall x, In x h2 -> lit_wf (fst x)) -> limits_inv p np g h1 s ->
  match smwr_run p s h2 with
  | Ret s' => limits_inv p np g (h1 ++ h2) s' /\ forall a x b w, h2 = a ++ x :: b -> ~ stops p np g (h1 ++ a) x w
  | Panic w => exists a x b, h2 = a ++ x :: b /\ stops p np g (h1 ++ a) x w
  | Diverge => False
  end.
Proof.
  intros p np g h2; induction h2 as [|[l r] h2 IH]; intros h1 s Ml W I; cbn [smwr_run].
  - rewrite app_nil_r. split; [exact I|]. intros [|y a] x b w E; discriminate E.
  - pose proof (limits_step p np g h1 s l r Ml (W (l, r) (or_introl eq_refl)) I) as St.
    destruct (smwr_add_literal p s l r) as [s1|w|]; cbn [bind]; [|exists [], (l, r), h2; rewrite app_nil_r; split; [reflexivity|apply St; reflexivity]|exact St].
    destruct St as [I1 N1]. assert (W' : forall x, In x h2 -> lit_wf (fst x)) by (intros x X; apply W; right; exact X).
    specialize (IH (h1 ++ [(l, r)]) s1 Ml W' I1). destruct (smwr_run p s1 h2) as [s'|w|]; [| |exact IH].
    + destruct IH as [I' N']. rewrite <- app_assoc in I'. split; [exact I'|]. intros [|y a] x b w E.
      * injection E as <- <-. rewrite app_nil_r. apply N1.
      * injection E as <- E. specialize (N' a x b w E). rewrite <- app_assoc in N'. exact N'.
    + destruct IH as (a & x & b & E & S). exists ((l, r) :: a), x, b. split; [rewrite E; reflexivity|]. rewrite <- app_assoc in S. exact S.
Qed.
(** Only one place of a history can be the one that panics. *)
Lemma stops_once : forall p np g a x b c y w w', small_write_max_literals g <= largest p -> stops p np g a x w -> stops p np g (a ++ x :: b ++ c) y w' -> False.
Proof.
  intros p np g a x b c y w w' Ml (_ & Sx & S) (Ng & Sy & S'). destruct (largest_lt p) as [_ Lb].
  replace (a ++ x :: b ++ c) with ((a ++ [x]) ++ b ++ c) in * by (rewrite <- app_assoc; reflexivity).
  assert (Ns : n_short g a + 1 <= n_short g ((a ++ [x]) ++ b ++ c)) by (rewrite n_short_app, n_short_snoc, Sx; lia).
  destruct S as [(-> & O & F)|(-> & _ & Big)].
  - destruct S' as [(_ & _ & F')|(_ & [L|[_ O']] & _)]; [lia|lia|congruence].
  - assert (G : gone p np g (a ++ [x])).
    { unfold gone. destruct (has_caseless x); [right; right; right; right|right; right; right; left]; lia. }
    apply gone_iff in G. apply Ng, gone_iff, gone_app, G.
Qed.
Lemma smwr_run_split : forall p a b s, smwr_run p s (a ++ b) = let! s' := smwr_run p s a in smwr_run p s' b.
Proof.
  intros p a b; induction a as [|[l r] a IH]; intro s; cbn [app smwr_run bind]; [reflexivity|].
  destruct (smwr_add_literal p s l r); cbn [bind]; [apply IH|reflexivity..].
Qed.
Lemma limits_stop : forall p np g a x b w, small_write_max_literals g <= largest p -> (forall y, In y (a ++ x :: b) -> lit_wf (fst y)) ->
  stops p np g a x w -> smwr_run p (smwr_new np g) (a ++ x :: b) = Panic w.
Proof.
  intros p np g a x b w Ml W S.
  assert (Wa : forall y, In y a -> lit_wf (fst y)) by (intros y I; apply W, in_or_app; auto).
  pose proof (limits_run p np g a [] (smwr_new np g) Ml Wa (limits_inv_new p np g)) as R. rewrite smwr_run_split.
  destruct (smwr_run p (smwr_new np g) a) as [s|w'|]; cbn [bind]; [| |contradiction].
  - destruct R as [I _]. destruct x as [l r]. cbn [smwr_run]. pose proof (limits_step p np g a s l r Ml) as St.
    specialize (St (W (l, r) (in_elt _ _ _)) I). destruct (smwr_add_literal p s l r) as [s'|w'|]; cbn [bind]; [|apply St in S; congruence|contradiction].
    destruct St as [_ N]. destruct (N w S).
  - destruct R as (a1 & y & a2 & -> & S'). exfalso. cbn [app] in S'. apply (stops_once p np g a1 y a2 [] x w' w Ml S'). rewrite app_nil_r. exact S.
Qed.
(** A literal with a depth never makes a graph too big. *)
Lemma distinct_snoc : forall h x, n_prefixes (h ++ [x]) <= n_prefixes h + N.of_nat (List.length (fst x)).
Proof.
  intros h [b r]. unfold n_prefixes.
  assert (I : incl (distinct_prefixes (h ++ [(b, r)])) (distinct_prefixes h ++ map (fun k => firstn (S k) b) (List.seq 0 (List.length b)))).
  { intros q J. apply in_distinct in J. apply in_or_app. destruct J as [->|(b' & r' & J & P)]; [left; apply in_distinct; auto|].
    apply in_app_or in J. destruct J as [J|[J|[]]]; [left; apply in_distinct; right; eauto|]. injection J as <- <-.
    destruct P as [t ->]. destruct q as [|c q]; [left; apply in_distinct; auto|]. right. apply in_map_iff. exists (List.length q). split.
    - cbn [firstn app]. rewrite firstn_app, firstn_all, Nat.sub_diag. cbn [firstn]. rewrite app_nil_r. reflexivity.
    - apply in_seq. cbn [app List.length]. rewrite app_length. lia. }
  apply NoDup_incl_length in I; [|apply NoDup_nodup]. rewrite app_length, map_length, seq_length in I. cbn [fst].
  assert (Z : forall x y, (x <= y)%nat -> N.of_nat x <= N.of_nat y) by (intros; lia). rewrite <- Nat2N.inj_add. apply Z. exact I.
Qed.
