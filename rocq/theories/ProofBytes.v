(** Lemmas about the byte-level text handling. *)
From Verif Require Import Base ModelUtil ModelParser ModelNfa ModelLiteral ModelReport ModelSmallWrite ModelCompiler ModelBytes SpecText SpecUtf8 ProofBase ProofParser ProofText ProofVerb SpecGrammar.
Local Open Scope N_scope.
Local Open Scope list_scope.

(** ** Bits *)
Lemma land63 : forall d, d < 64 -> N.land (128 + d) 63 = d.
Proof.
  intros d H. change 63 with (N.ones 6). rewrite N.land_ones. change (2 ^ 6) with 64. replace (128 + d) with (d + 2 * 64) by lia. rewrite N.mod_add by lia. apply N.mod_small. exact H.
Qed.
Lemma lor_low : forall k a d, d < 2 ^ k -> N.lor (N.shiftl a k) d = a * 2 ^ k + d.
Proof.
  intros k a d H. rewrite N.shiftl_mul_pow2. destruct (N.eq_dec d 0) as [->|Nz]; [rewrite N.lor_0_r; lia|].
  rewrite <- N.lxor_lor; [symmetry; apply N.add_nocarry_lxor|]; (apply N.bits_inj; intro i; rewrite N.land_spec, N.bits_0; destruct (N.ltb_spec i k) as [L|L]).
  - rewrite N.mul_pow2_bits_low by exact L. reflexivity.
  - rewrite (N.bits_above_log2 d) by (apply N.log2_lt_pow2 in H; lia). apply andb_false_r.
  - rewrite N.mul_pow2_bits_low by exact L. reflexivity.
  - rewrite (N.bits_above_log2 d) by (apply N.log2_lt_pow2 in H; lia). apply andb_false_r.
Qed.
Lemma acc_ok : forall a d, d < 64 -> acc_cont a (128 + d) = a * 64 + d.
Proof. intros a d H. unfold acc_cont. rewrite land63 by exact H. apply (lor_low 6). exact H. Qed.
Lemma land_pow : forall k h d, d < 2 ^ k -> N.land (h * 2 ^ k + d) (N.ones k) = d.
Proof. intros k h d H. rewrite N.land_ones, N.add_comm, N.mod_add by (apply N.pow_nonzero; discriminate). apply N.mod_small. exact H. Qed.

(** ** Characters *)
Lemma scalar_bound : forall c, scalar c -> c < 1114112.
Proof. intros c [H|H]; lia. Qed.
Definition lead (x : N) : bool := (x <? 128) || (192 <=? x).
Lemma encode_char_shape : forall c, c < 1114112 -> exists x t, encode_char c = x :: t /\ lead x = true /\ Forall (fun y => lead y = false) t /\ N.of_nat (List.length (x :: t)) = char_len c.
Proof.
  intros c H. unfold encode_char, char_len. pose proof (N.mod_lt c 64). pose proof (N.mod_lt (c / 64) 64). pose proof (N.mod_lt (c / 4096) 64).
  destruct (N.ltb_spec c 128) as [A|A]; [|destruct (N.ltb_spec c 2048) as [B|B]; [|destruct (N.ltb_spec c 65536) as [C|C]]]; eexists _, _; (split; [reflexivity|]); unfold lead; (split; [lia|split; [|reflexivity]]); repeat constructor; lia.
Qed.
Lemma char_indices_char : forall c i b, c < 1114112 -> char_indices i (encode_char c ++ b) = (i, c) :: char_indices (i + char_len c) b.
Proof.
  intros c i b H. unfold encode_char, char_len.
  assert (M0 : c mod 64 < 64) by (apply N.mod_lt; discriminate). assert (M1 : c / 64 mod 64 < 64) by (apply N.mod_lt; discriminate). assert (M2 : c / 4096 mod 64 < 64) by (apply N.mod_lt; discriminate).
  assert (D0 : c = 64 * (c / 64) + c mod 64) by (apply N.div_mod; discriminate).
  assert (D1 : c / 64 = 64 * (c / 4096) + c / 64 mod 64) by (replace (c / 4096) with (c / 64 / 64) by (rewrite N.div_div by discriminate; reflexivity); apply N.div_mod; discriminate).
  assert (D2 : c / 4096 = 64 * (c / 262144) + c / 4096 mod 64) by (replace (c / 262144) with (c / 4096 / 64) by (rewrite N.div_div by discriminate; reflexivity); apply N.div_mod; discriminate).
  destruct (N.ltb_spec c 128) as [A|A]; [|destruct (N.ltb_spec c 2048) as [B|B]; [|destruct (N.ltb_spec c 65536) as [C|C]]]; cbn [app char_indices].
  - replace (c <? 128) with true by lia. reflexivity.
  - replace (192 + c / 64 <? 128) with false by lia. replace (192 + c / 64 <? 224) with true by lia. f_equal. f_equal. change 31 with (N.ones 5). replace (192 + c / 64) with (6 * 2 ^ 5 + c / 64) by lia. rewrite land_pow by (change (2 ^ 5) with 32; lia). rewrite acc_ok by exact M0. lia.
  - replace (224 + c / 4096 <? 128) with false by lia. replace (224 + c / 4096 <? 224) with false by lia. replace (224 + c / 4096 <? 240) with true by lia. cbv zeta. f_equal. f_equal.
    change 31 with (N.ones 5). replace (224 + c / 4096) with (7 * 2 ^ 5 + c / 4096) by lia. rewrite land_pow by (change (2 ^ 5) with 32; lia). rewrite land63, acc_ok by assumption.
    rewrite (lor_low 12) by (change (2 ^ 12) with 4096; lia). change (2 ^ 12) with 4096. lia.
  - replace (240 + c / 262144 <? 128) with false by lia. replace (240 + c / 262144 <? 224) with false by lia. replace (240 + c / 262144 <? 240) with false by lia. cbv zeta. f_equal. f_equal.
    assert (c / 262144 < 8) by lia. change 31 with (N.ones 5). replace (240 + c / 262144) with (7 * 2 ^ 5 + (16 + c / 262144)) by lia. rewrite land_pow by (change (2 ^ 5) with 32; lia).
    change 7 with (N.ones 3). replace (16 + c / 262144) with (2 * 2 ^ 3 + c / 262144) by lia. rewrite land_pow by (change (2 ^ 3) with 8; lia).
    rewrite land63, !acc_ok by assumption. rewrite (lor_low 18) by (change (2 ^ 18) with 262144; lia). change (2 ^ 18) with 262144. lia.
Qed.
Fixpoint offsets (i : N) (s : str) : list (N * N) :=
  match s with [] => [] | c :: t => (i, c) :: offsets (i + char_len c) t end.
Lemma char_indices_ok : forall s i, scalars s -> char_indices i (encode s) = offsets i s.
Proof.
  induction s as [|c s IH]; intros i H; [reflexivity|]. inversion H as [|? ? Hc Hs]; subst. change (encode (c :: s)) with (encode_char c ++ encode s).
  rewrite char_indices_char by (apply scalar_bound; exact Hc). cbn [offsets]. rewrite IH by exact Hs. reflexivity.
Qed.
Lemma offsets_chars : forall s i, map snd (offsets i s) = s.
Proof. induction s as [|c s IH]; intro i; [reflexivity|]. cbn. rewrite IH. reflexivity. Qed.
Lemma encode_app : forall a b, encode (a ++ b) = encode a ++ encode b.
Proof. intros a b. apply flat_map_app. Qed.
Lemma encode_length : forall s, scalars s -> N.of_nat (List.length (encode s)) = str_len s.
Proof.
  induction s as [|c s IH]; intro H; [reflexivity|]. inversion H as [|? ? Hc Hs]; subst. change (encode (c :: s)) with (encode_char c ++ encode s). rewrite app_length, Nat2N.inj_add, IH by exact Hs. cbn [str_len].
  destruct (encode_char_shape c (scalar_bound c Hc)) as (x & t & -> & _ & _ & ->). reflexivity.
Qed.
Lemma b_len_ok : forall s, scalars s -> b_len (encode s) = str_len s.
Proof. exact encode_length. Qed.
Lemma scalars_app : forall a b, scalars (a ++ b) <-> scalars a /\ scalars b.
Proof. intros a b. apply Forall_app. Qed.
Lemma encode_ascii : forall s, (forall c, In c s -> c < 128) -> encode s = s.
Proof.
  induction s as [|c s IH]; intro H; [reflexivity|]. change (encode (c :: s)) with (encode_char c ++ encode s). rewrite IH by (intros x I; apply H; right; exact I).
  unfold encode_char. replace (c <? 128) with true by (specialize (H c (or_introl eq_refl)); lia). reflexivity.
Qed.
Lemma encode_inj : forall a b, scalars a -> scalars b -> encode a = encode b -> a = b.
Proof. intros a b A B E. rewrite <- (offsets_chars a 0), <- (offsets_chars b 0), <- !char_indices_ok, E by assumption. reflexivity. Qed.

(** ** Boundaries *)
Lemma boundary_at : forall a b, scalars a -> scalars b -> is_char_boundary (encode (a ++ b)) (str_len a) = true.
Proof.
  intros a b A B. unfold is_char_boundary. destruct (N.eqb_spec (str_len a) 0) as [|Nz]; [reflexivity|]. rewrite encode_app, <- (encode_length a A), Nat2N.id, nth_error_app2, Nat.sub_diag by lia.
  destruct b as [|c b].
  - cbn [encode flat_map nth_error]. unfold b_len. rewrite app_nil_r. apply N.eqb_refl.
  - inversion B as [|? ? Hc Hb]; subst. change (encode (c :: b)) with (encode_char c ++ encode b). destruct (encode_char_shape c (scalar_bound c Hc)) as (x & t & -> & L & _). cbn [app nth_error]. exact L.
Qed.
Lemma slice_from_ok : forall a b, scalars a -> scalars b -> slice_from (encode (a ++ b)) (str_len a) = Ret (encode b).
Proof.
  intros a b A B. unfold slice_from. rewrite boundary_at by assumption. rewrite encode_app, <- (encode_length a A), Nat2N.id, skipn_app, skipn_all, Nat.sub_diag. reflexivity.
Qed.
Lemma slice_to_ok : forall a b, scalars a -> scalars b -> slice_to (encode (a ++ b)) (str_len a) = Ret (encode a).
Proof.
  intros a b A B. unfold slice_to. rewrite boundary_at by assumption. rewrite encode_app, <- (encode_length a A), Nat2N.id, firstn_app, firstn_all, Nat.sub_diag. cbn [firstn]. rewrite app_nil_r. reflexivity.
Qed.
Lemma boundary_seam : forall s k, scalars s -> is_char_boundary (encode s) k = true -> seam s k.
Proof.
  assert (Main : forall s k, scalars s -> match nth_error (encode s) (N.to_nat k) with None => k = N.of_nat (List.length (encode s)) | Some x => lead x = true end -> seam s k).
  { induction s as [|c s IH]; intros k H B.
    - exists [], []. split; [reflexivity|]. cbn [encode flat_map] in *. destruct (N.to_nat k); exact B.
    - inversion H as [|? ? Hc Hs]; subst. change (encode (c :: s)) with (encode_char c ++ encode s) in *. destruct (encode_char_shape c (scalar_bound c Hc)) as (x & t & E & L & T & _). pose proof E as E'.
      destruct (Nat.eq_dec (N.to_nat k) 0) as [Z|Z]; [exists [], (c :: s); split; [reflexivity|]; cbn; lia|].
      destruct (Nat.lt_ge_cases (N.to_nat k) (List.length (encode_char c))) as [Lt|Ge].
      + exfalso. rewrite E in B, Lt. rewrite nth_error_app1 in B by exact Lt. destruct (N.to_nat k) as [|j]; [contradiction|]. cbn [nth_error List.length] in *. destruct (nth_error t j) as [y|] eqn:Ny.
        * apply nth_error_In in Ny. rewrite Forall_forall in T. rewrite (T y Ny) in B. discriminate B.
        * apply nth_error_None in Ny. lia.
      + destruct (IH (k - N.of_nat (List.length (encode_char c))) Hs) as (a & b & Es & Ek).
        * rewrite nth_error_app2 in B by exact Ge. replace (N.to_nat (k - N.of_nat (List.length (encode_char c)))) with (N.to_nat k - List.length (encode_char c))%nat by lia.
          destruct (nth_error (encode s) (N.to_nat k - List.length (encode_char c))); [exact B|]. rewrite app_length in B. lia.
        * exists (c :: a), b. split; [rewrite Es; reflexivity|]. change (encode (c :: a)) with (encode_char c ++ encode a). rewrite app_length. lia. }
  intros s k H B. unfold is_char_boundary in B. destruct (N.eqb_spec k 0) as [->|Nz]; [exists [], s; split; reflexivity|]. apply Main; [exact H|].
  destruct (nth_error (encode s) (N.to_nat k)); [exact B|]. apply N.eqb_eq in B. exact B.
Qed.
Lemma seam_boundary : forall s k, scalars s -> seam s k -> is_char_boundary (encode s) k = true.
Proof. intros s k H (a & b & -> & ->). apply scalars_app in H. destruct H as [A B]. rewrite encode_length by exact A. apply boundary_at; assumption. Qed.

(** ** nom *)
Lemma b_char_ok : forall c s, scalars s -> b_char c (encode s) = Ret (option_map encode (nom_char c s)).
Proof.
  intros c s H. unfold b_char. rewrite char_indices_ok by exact H. destruct s as [|x s]; [reflexivity|]. cbn [offsets nom_char]. destruct (N.eqb_spec x c) as [->|]; [|reflexivity].
  inversion H as [|? ? Hc Hs]; subst. change (c :: s) with ([c] ++ s). replace (char_len c) with (str_len [c]) by (cbn [str_len]; lia).
  rewrite slice_from_ok; [reflexivity|constructor; [exact Hc|constructor]|exact Hs].
Qed.
Lemma starts_with_app : forall t s, starts_with t s = true <-> exists r, s = t ++ r.
Proof.
  induction t as [|x t IH]; intro s; cbn [starts_with]; [split; [intros _; exists s; reflexivity|reflexivity]|]. destruct s as [|y s]; [split; [discriminate|intros (r & E); discriminate E]|].
  rewrite andb_true_iff, N.eqb_eq, IH. split; [intros (E & r & E'); exists r; cbn [app]; congruence|]. intros (r & E). cbn [app] in E. injection E as E E'. split; [congruence|exists r; exact E'].
Qed.
Lemma nom_tag_app : forall t s r, nom_tag t s = Some r <-> s = t ++ r.
Proof.
  induction t as [|x t IH]; intros s r; cbn [nom_tag]; [split; [intros [= ->]; reflexivity|intros ->; reflexivity]|]. destruct s as [|y s]; [split; discriminate|].
  destruct (N.eqb_spec x y) as [->|Ne]; [rewrite IH; split; [intros ->; reflexivity|intro E; cbn [app] in E; congruence]|]. split; [discriminate|]. intro E. cbn [app] in E. congruence.
Qed.
(** A prefix of ASCII characters can be looked for byte by byte. *)
Lemma ascii_prefix : forall t s r, (forall c, In c t -> c < 128) -> scalars s -> encode s = t ++ r -> exists s', s = t ++ s' /\ r = encode s'.
Proof.
  induction t as [|x t IH]; intros s r At H E; [exists s; auto|]. destruct s as [|c s]; [discriminate E|]. inversion H as [|? ? Hc Hs]; subst. change (encode (c :: s)) with (encode_char c ++ encode s) in E.
  pose proof (At x (or_introl eq_refl)) as Ax. destruct (N.ltb_spec c 128) as [Lc|Lc].
  - unfold encode_char in E. replace (c <? 128) with true in E by lia. cbn [app] in E. injection E as -> E. destruct (IH s r (fun y I => At y (or_intror I)) Hs E) as (s' & -> & ->). exists s'. split; reflexivity.
  - exfalso. unfold encode_char in E. replace (c <? 128) with false in E by lia. destruct (c <? 2048); [|destruct (c <? 65536)]; injection E as E _; lia.
Qed.
Lemma b_tag_ok : forall t s, (forall c, In c t -> c < 128) -> scalars s -> b_tag t (encode s) = Ret (option_map (fun r => (encode r, t)) (nom_tag t s)).
Proof.
  intros t s At H. assert (St : scalars t) by (apply Forall_forall; intros c I; left; specialize (At c I); lia). unfold b_tag. destruct (starts_with t (encode s)) eqn:E.
  - apply starts_with_app in E. destruct E as (r & E). destruct (ascii_prefix t s r At H E) as (s' & -> & ->). clear E. apply scalars_app in H. destruct H as [_ H].
    replace (b_len t) with (str_len t) by (unfold b_len; rewrite <- encode_length by exact St; rewrite encode_ascii by exact At; reflexivity).
    rewrite slice_from_ok, slice_to_ok by assumption. cbn [bind]. rewrite (proj2 (nom_tag_app t (t ++ s') s') eq_refl), (encode_ascii t At). reflexivity.
  - destruct (nom_tag t s) as [r|] eqn:T; [|reflexivity]. exfalso. apply nom_tag_app in T. subst s. rewrite encode_app, (encode_ascii t At) in E. rewrite (proj2 (starts_with_app t _)) in E by eauto. discriminate E.
Qed.
Lemma span_not_app : forall c s a b, span_not c s = (a, b) -> s = a ++ b /\ ~ In c a /\ (b = [] \/ exists b', b = c :: b').
Proof.
  induction s as [|x s IH]; intros a b E; cbn [span_not] in E.
  - injection E as <- <-. split; [reflexivity|split; [intros []|left; reflexivity]].
  - destruct (N.eqb_spec x c) as [->|Ne].
    + injection E as <- <-. split; [reflexivity|split; [intros []|right; eauto]].
    + destruct (span_not c s) as [a' b']. injection E as <- <-. destruct (IH a' b' eq_refl) as (-> & Ni & Hb). split; [reflexivity|split; [|exact Hb]]. intros [X|X]; [congruence|exact (Ni X)].
Qed.
Lemma find_offsets : forall c a b i, ~ In c a -> option_map fst (find (fun x : N * N => snd x =? c) (offsets i (a ++ b))) = option_map fst (find (fun x : N * N => snd x =? c) (offsets (i + str_len a) b)).
Proof.
  induction a as [|x a IH]; intros b i Ni; cbn [app offsets find str_len snd].
  - rewrite N.add_0_r. reflexivity.
  - replace (x =? c) with false by (symmetry; apply N.eqb_neq; intros ->; apply Ni; left; reflexivity). rewrite IH by (intro I; apply Ni; right; exact I). rewrite N.add_assoc. reflexivity.
Qed.
Lemma str_len_pos : forall s, s <> [] -> 0 < str_len s.
Proof. intros [|c s] N; [contradiction|]. cbn [str_len]. unfold char_len. ifs; lia. Qed.
Lemma b_is_not_ok : forall c s, scalars s -> b_is_not c (encode s) = Ret (option_map (fun x : str * str => (encode (snd x), encode (fst x))) (nom_is_not c s)).
Proof.
  intros c s H. unfold b_is_not, b_find, nom_is_not. rewrite char_indices_ok by exact H. destruct (span_not c s) as [a b] eqn:Sp. apply span_not_app in Sp. destruct Sp as (-> & Ni & Hb).
  rewrite find_offsets by exact Ni. apply scalars_app in H. destruct H as [Ha Hs]. destruct Hb as [->|(b' & ->)].
  - cbn [offsets find option_map]. rewrite app_nil_r. destruct a as [|x a]; [reflexivity|]. destruct (encode (x :: a)) as [|y e] eqn:E.
    { exfalso. pose proof (encode_length (x :: a) Ha) as L. rewrite E in L. pose proof (str_len_pos (x :: a)) as P. cbn [List.length] in L. assert (0 < str_len (x :: a)) by (apply P; discriminate). lia. }
    rewrite <- E. rewrite b_len_ok by exact Ha. pose proof (slice_from_ok (x :: a) [] Ha Hs) as F1. pose proof (slice_to_ok (x :: a) [] Ha Hs) as F2. rewrite app_nil_r in F1, F2. rewrite F1, F2. reflexivity.
  - cbn [offsets find snd fst option_map]. rewrite N.eqb_refl. cbn [option_map fst]. rewrite N.add_0_l. destruct a as [|x a]; [reflexivity|].
    pose proof (str_len_pos (x :: a)) as P. replace (str_len (x :: a) =? 0) with false by (symmetry; apply N.eqb_neq; assert (0 < str_len (x :: a)) by (apply P; discriminate); lia).
    rewrite slice_from_ok, slice_to_ok by assumption. reflexivity.
Qed.
Lemma b_take_any_ok : forall s, scalars s -> b_take_any (encode s) = Ret (option_map (fun x : str * N => (encode (fst x), snd x)) (take_any s)).
Proof.
  intros s H. unfold b_take_any, b_take1. rewrite char_indices_ok by exact H. destruct s as [|c s]; [reflexivity|]. inversion H as [|? ? Hc Hs]; subst. assert (H1 : scalars [c]) by (constructor; [exact Hc|constructor]).
  assert (Cut : (let! r := slice_from (encode (c :: s)) (char_len c) in let! l := slice_to (encode (c :: s)) (char_len c) in Ret (Some (r, l))) = Ret (Some (encode s, encode [c]))).
  { change (c :: s) with ([c] ++ s). replace (char_len c) with (str_len [c]) by (cbn [str_len]; lia). rewrite slice_from_ok, slice_to_ok by assumption. reflexivity. }
  assert (Ch : expect (hd_error (map snd (char_indices 0 (encode [c])))) = Ret c) by (rewrite char_indices_ok by exact H1; reflexivity).
  destruct s as [|d s]; cbn [offsets].
  - rewrite b_len_ok by exact H. replace (str_len [c]) with (char_len c) by (cbn [str_len]; lia). rewrite Cut. cbn [bind]. rewrite Ch. reflexivity.
  - rewrite N.add_0_l, Cut. cbn [bind]. rewrite Ch. reflexivity.
Qed.
Lemma nom_char_suffix : forall c s r, nom_char c s = Some r -> s = c :: r.
Proof. intros c [|x s] r; cbn [nom_char]; [discriminate|]. destruct (N.eqb_spec x c) as [->|]; [|discriminate]. intros [= ->]. reflexivity. Qed.

(** ** Control verbs *)
Lemma show_ascii : forall n c, In c (show n) -> c < 128.
Proof. intros n c I. destruct (show_decimal n) as (_ & D & _). specialize (D c I). lia. Qed.
Lemma encode_show : forall n, encode (show n) = show n.
Proof. intro n. apply encode_ascii. apply show_ascii. Qed.
Lemma str_eqb_ascii : forall v t, scalars v -> (forall c, In c t -> c < 128) -> str_eqb (encode v) t = str_eqb v t.
Proof.
  intros v t H At. apply eq_true_iff_eq. rewrite !str_eqb_eq. split; intro E; [|subst v; apply encode_ascii; exact At].
  apply encode_inj; [exact H| |rewrite E; symmetry; apply encode_ascii; exact At]. apply Forall_forall. intros c I. left. specialize (At c I). lia.
Qed.
Lemma starts_with_ascii : forall v t, scalars v -> (forall c, In c t -> c < 128) -> starts_with t (encode v) = starts_with t v.
Proof.
  intros v t H At. apply eq_true_iff_eq. rewrite !starts_with_app. split; intros (r & E).
  - destruct (ascii_prefix t v r At H E) as (s' & -> & _). eauto.
  - subst v. rewrite encode_app, (encode_ascii t At). eauto.
Qed.
Definition asciib (t : str) : bool := forallb (fun c => c <? 128) t.
Lemma asciib_ok : forall t, asciib t = true -> forall c, In c t -> c < 128.
Proof. intros t H c I. unfold asciib in H. rewrite forallb_forall in H. specialize (H c I). lia. Qed.
Lemma existsb_ascii : forall v l, scalars v -> forallb asciib l = true -> existsb (str_eqb (encode v)) l = existsb (str_eqb v) l.
Proof.
  intros v l H. induction l as [|t l IH]; [reflexivity|]. cbn [forallb existsb]. intro A. apply andb_true_iff in A. destruct A as [A1 A2]. rewrite IH by exact A2. rewrite str_eqb_ascii by (auto; apply asciib_ok; exact A1). reflexivity.
Qed.
Definition coded {A B} (f : A -> B) (o : outcome (result compile_error A)) : outcome (result compile_error B) :=
  match o with Ret (ROk a) => Ret (ROk (f a)) | Ret (RErr e) => Ret (RErr (encode_error e)) | Panic w => Panic w | Diverge => Diverge end.
Lemma control_verb_parts : forall s r v, control_verb s = Some (r, v) -> s = lit "(*" ++ v ++ 41 :: r.
Proof.
  intros s r v. unfold control_verb. destruct (nom_tag (lit "(*") s) as [s1|] eqn:T; [|discriminate]. apply nom_tag_app in T. subst s. unfold nom_is_not.
  destruct (span_not 41 s1) as [a b] eqn:Sp. apply span_not_app in Sp. destruct Sp as (-> & _ & _). destruct a as [|x a]; [discriminate|]. destruct (nom_char 41 b) as [s3|] eqn:C; [|discriminate].
  apply nom_char_suffix in C. subst b. intros [= -> <-]. reflexivity.
Qed.
Lemma b_control_verb_ok : forall s, scalars s -> b_control_verb (encode s) = Ret (option_map (fun x : str * str => (encode (fst x), encode (snd x))) (control_verb s)).
Proof.
  intros s H. unfold b_control_verb, control_verb. rewrite b_tag_ok by (auto; apply asciib_ok; reflexivity). cbn [bind]. destruct (nom_tag (lit "(*") s) as [s1|] eqn:T; [|reflexivity]. cbn [option_map].
  apply nom_tag_app in T. subst s. apply scalars_app in H. destruct H as [_ H]. rewrite b_is_not_ok by exact H. cbn [bind]. destruct (nom_is_not 41 s1) as [[v s2]|] eqn:I; [|reflexivity]. cbn [option_map fst snd].
  unfold nom_is_not in I. destruct (span_not 41 s1) as [a b] eqn:Sp. apply span_not_app in Sp. destruct Sp as (-> & _ & _). destruct a as [|x a]; [discriminate I|]. injection I as <- <-. apply scalars_app in H. destruct H as [_ H].
  rewrite b_char_ok by exact H. cbn [bind]. destruct (nom_char 41 b); reflexivity.
Qed.
Lemma verb_text : forall a v n, asciib a = true -> encode (a ++ v ++ lit " at index " ++ show n) = a ++ encode v ++ lit " at index " ++ show n.
Proof. intros a v n A. rewrite !encode_app, encode_show, (encode_ascii a (asciib_ok a A)). reflexivity. Qed.
Lemma b_read_ok : forall p s st m, scalars s -> b_read_control_verbs p (encode s) st m = coded (fun x : str * parse_mode => (encode (fst x), snd x)) (read_control_verbs p s st m).
Proof.
  intros p s st m H. unfold b_read_control_verbs, read_control_verbs. rewrite b_control_verb_ok by exact H. cbn [bind]. destruct (control_verb s) as [[r v]|] eqn:V; [|reflexivity]. cbn [option_map fst snd].
  apply control_verb_parts in V. subst s. apply scalars_app in H. destruct H as [_ H]. apply scalars_app in H. destruct H as [H _].
  rewrite !str_eqb_ascii, existsb_ascii, !starts_with_ascii by (auto; apply asciib_ok; reflexivity).
  destruct (str_eqb v (lit "UCP")); [reflexivity|]. destruct (str_eqb v (lit "UTF8") || str_eqb v (lit "UTF")); [reflexivity|].
  destruct (existsb (str_eqb v) unsupported_verbs); [|destruct (starts_with (lit "LIMIT_MATCH=") v || starts_with (lit "LIMIT_RECURSION=") v)];
    (destruct (chk_add p (usize_bits p) st 2) as [k|w|]; [|reflexivity..]); cbn [bind coded]; unfold error_new, encode_error; cbn [err_kind err_reason err_index]; rewrite verb_text by reflexivity; reflexivity.
Qed.
Lemma read_suffix : forall p s st m r m', read_control_verbs p s st m = Ret (ROk (r, m')) -> exists pre, s = pre ++ r.
Proof.
  intros p s st m r m' E. unfold read_control_verbs in E. destruct (control_verb s) as [[r' v]|] eqn:V; [|injection E as -> _; exists []; reflexivity].
  apply control_verb_parts in V. assert (X : r' = r).
  { destruct (str_eqb v (lit "UCP")); [congruence|]. destruct (str_eqb v (lit "UTF8") || str_eqb v (lit "UTF")); [congruence|].
    destruct (existsb (str_eqb v) unsupported_verbs); [|destruct (starts_with (lit "LIMIT_MATCH=") v || starts_with (lit "LIMIT_RECURSION=") v)]; destruct (chk_add p (usize_bits p) st 2); discriminate E. }
  subst r'. exists (lit "(*" ++ v ++ [41]). rewrite V, <- !app_assoc. reflexivity.
Qed.

(** ** The parser *)
Definition encode_cx (cx : context) : context :=
  Context (encode (cx_ptr cx)) (encode (cx_p cx)) (cx_mode cx) (cx_sequences cx) (cx_group_index cx) (cx_current cx).
Lemma exit_group_ok : forall p cx, exit_group p (encode_cx cx) = coded encode_cx (exit_group p cx).
Proof.
  intros p cx. unfold exit_group, pop_sequence. cbn [encode_cx cx_ptr cx_p cx_mode cx_sequences cx_group_index cx_current]. destruct (cx_sequences cx) as [|v K]; [reflexivity|].
  destruct (finalize p (cx_current cx)); reflexivity.
Qed.
Lemma push_sequence_ok : forall p cx ts, scalars ts -> scalars (cx_ptr cx) ->
  b_push_sequence p (encode_cx cx) (encode ts) = match push_sequence p cx ts with Ret c => Ret (encode_cx c) | Panic w => Panic w | Diverge => Diverge end.
Proof.
  intros p cx ts Ht Hp. unfold b_push_sequence, push_sequence. cbn [encode_cx cx_ptr cx_p cx_mode cx_sequences cx_group_index cx_current]. rewrite !b_len_ok by assumption.
  destruct (chk_add p 32 (cx_group_index cx) 1); cbn [bind]; try reflexivity. destruct (chk_sub p (usize_bits p) (str_len ts) (str_len (cx_ptr cx))); reflexivity.
Qed.
Lemma add_literal_ascii : forall p cur c m e, c < 128 -> add_literal p cur c m <> Ret (RErr e).
Proof.
  intros p cur c m e H. unfold add_literal, get_literal_component_class, class_add. replace (255 <? c) with false by lia. cbv zeta. destruct (ac_add p _ _); cbn [bind bindr]; discriminate.
Qed.
Lemma b_main_ok : forall p cx, scalars (cx_ptr cx) -> scalars (cx_p cx) -> b_main p (encode_cx cx) (encode (cx_p cx)) = coded encode_cx (cx_main p cx (cx_p cx)).
Proof.
  intros p cx Hp Ht. unfold b_main, cx_main. rewrite !b_char_ok by exact Ht. cbn [bind].
  destruct (nom_char 40 (cx_p cx)) as [r|] eqn:C1; cbn [option_map].
  { unfold enter_capturing_group. rewrite push_sequence_ok by assumption. destruct (push_sequence p cx (cx_p cx)); reflexivity. }
  destruct (nom_char 41 (cx_p cx)) as [r|] eqn:C2; cbn [option_map].
  { rewrite exit_group_ok. destruct (exit_group p cx) as [[c|e]|w|]; reflexivity. }
  destruct (nom_char 124 (cx_p cx)) as [r|] eqn:C3; cbn [option_map]; [reflexivity|].
  rewrite b_take_any_ok by exact Ht. cbn [bind]. destruct (take_any (cx_p cx)) as [[r c]|] eqn:T; cbn [option_map fst snd]; [|reflexivity].
  unfold rs_assert, is_ascii_char. destruct (N.ltb_spec c 128) as [L|L]; [|reflexivity]. cbn [bind encode_cx cx_mode cx_current].
  pose proof (add_literal_ascii p (cx_current cx) c (cx_mode cx)) as X. destruct (add_literal p (cx_current cx) c (cx_mode cx)) as [[cur|e]|w|]; cbn [bind]; try reflexivity. destruct (X e L eq_refl).
Qed.
Lemma cx_main_next : forall p cx c t cx', cx_p cx = c :: t -> cx_main p cx (cx_p cx) = Ret (ROk cx') -> cx_ptr cx' = cx_ptr cx /\ cx_p cx' = t.
Proof.
  intros p cx c t cx' E. rewrite E. unfold cx_main. cbn [nom_char take_any]. destruct (c =? 40).
  - unfold enter_capturing_group, push_sequence. destruct (chk_add p 32 (cx_group_index cx) 1); cbn [bind]; try discriminate. destruct (chk_sub p (usize_bits p) (str_len (c :: t)) (str_len (cx_ptr cx))); cbn [bind]; try discriminate.
    intros [= <-]. split; reflexivity.
  - destruct (c =? 41).
    + unfold exit_group, pop_sequence. destruct (cx_sequences cx) as [|v K]; cbn [bindr]; [discriminate|]. destruct (finalize p (cx_current cx)); cbn [bind bindr]; try discriminate. intros [= <-]. split; reflexivity.
    + destruct (c =? 124); [intros [= <-]; split; reflexivity|]. destruct (rs_assert (is_ascii_char c)); cbn [bind]; try discriminate. destruct (add_literal p (cx_current cx) c (cx_mode cx)) as [[cur|e]|w|]; cbn [bind]; try discriminate.
      * intros [= <-]. split; reflexivity.
      * destruct (chk_sub p (usize_bits p) (str_len (cx_ptr cx)) (str_len (cx_p cx))); discriminate.
Qed.
Lemma encode_nil : forall s, scalars s -> encode s = [] -> s = [].
Proof. intros s H E. apply encode_inj; [exact H|constructor|exact E]. Qed.
Lemma b_loop_ok : forall p fuel fuel' cx, scalars (cx_ptr cx) -> scalars (cx_p cx) -> (List.length (cx_p cx) <= fuel)%nat -> (List.length (cx_p cx) <= fuel')%nat ->
  b_loop p fuel' (encode_cx cx) = coded encode_cx (cx_loop p fuel cx).
Proof.
  intros p fuel; induction fuel as [|fuel IH]; intros fuel' cx Hp Ht L L'.
  - destruct (cx_p cx) as [|c t] eqn:E; [|cbn in L; lia]. destruct fuel'; cbn [b_loop cx_loop encode_cx cx_p]; rewrite E; cbn [encode flat_map coded]; unfold encode_cx; rewrite E; reflexivity.
  - destruct (cx_p cx) as [|c t] eqn:E.
    { destruct fuel'; cbn [b_loop cx_loop encode_cx cx_p]; rewrite E; cbn [encode flat_map coded]; unfold encode_cx; rewrite E; reflexivity. }
    destruct fuel' as [|fuel']; [cbn in L'; lia|]. cbn [b_loop cx_loop]. rewrite E. change (cx_p (encode_cx cx)) with (encode (cx_p cx)). rewrite <- E.
    destruct (encode (cx_p cx)) as [|x b] eqn:Eb; [exfalso; rewrite E in Eb; apply encode_nil in Eb; [discriminate Eb|exact Ht]|]. rewrite <- Eb. rewrite <- E in Ht. rewrite b_main_ok by assumption.
    destruct (cx_main p cx (cx_p cx)) as [[cx'|e]|w|] eqn:M; cbn [coded bindr]; try reflexivity. destruct (cx_main_next p cx c t cx' E M) as [N1 N2].
    rewrite E in Ht. inversion Ht; subst. cbn [List.length] in L, L'. apply IH; rewrite ?N1; auto; lia.
Qed.
Lemma encode_longer : forall s, scalars s -> (List.length s <= List.length (encode s))%nat.
Proof.
  induction s as [|c s IH]; intro H; [apply le_n|]. inversion H as [|? ? Hc Hs]; subst. change (encode (c :: s)) with (encode_char c ++ encode s). rewrite app_length. destruct (encode_char_shape c (scalar_bound c Hc)) as (x & t & -> & _).
  specialize (IH Hs). cbn [List.length]. lia.
Qed.
Lemma b_cx_parse_ok : forall p cx, scalars (cx_ptr cx) -> scalars (cx_p cx) -> b_cx_parse p (encode_cx cx) = coded (fun x => x) (cx_parse p cx).
Proof.
  intros p cx Hp Ht. unfold b_cx_parse, cx_parse. rewrite (b_loop_ok p (List.length (cx_p cx))); [|assumption|assumption|apply le_n|apply encode_longer; exact Ht].
  destruct (cx_loop p (List.length (cx_p cx)) cx) as [[cx'|e]|w|]; cbn [coded bindr]; try reflexivity. change (cx_sequences (encode_cx cx')) with (cx_sequences cx'). change (cx_current (encode_cx cx')) with (cx_current cx').
  destruct (cx_sequences cx') as [|v K]; [destruct (finalize p (cx_current cx')); reflexivity|]. unfold error_new. cbn [coded]. unfold encode_error. cbn [err_kind err_reason err_index]. rewrite !encode_app, encode_show. reflexivity.
Qed.
Lemma b_parse_ok : forall p s m, scalars s -> b_parse p (encode s) m = encoded (parse p s m).
Proof.
  intros p s m H. unfold b_parse, parse. rewrite b_read_ok by exact H. destruct (read_control_verbs p s 0 m) as [[[r m']|e]|w|] eqn:R; cbn [coded bindr fst snd encoded]; try reflexivity.
  apply read_suffix in R. destruct R as (pre & ->). pose proof H as H'. apply scalars_app in H'. destruct H' as [_ Hr].
  change (context_new (encode (pre ++ r)) (encode r) m') with (encode_cx (context_new (pre ++ r) r m')). rewrite b_cx_parse_ok by assumption.
  destruct (cx_parse p (context_new (pre ++ r) r m')) as [[q|e]|w|]; reflexivity.
Qed.

(** ** Compilation *)
Lemma register_reason : forall rm id e rm' err, register_ext_report rm id e = (rm', RErr err) -> encode (err_reason err) = err_reason err.
Proof.
  intros rm id e rm' err. unfold register_ext_report. destruct (assoc N.eqb (external_map rm) id) as [x|]; [|discriminate]. destruct (negb _); [|discriminate]. intros [= _ <-]. cbn [err_reason error_with_index].
  unfold conflict_message. rewrite !encode_app, !encode_show. destruct (ei_highlander e), (ei_highlander x); reflexivity.
Qed.
Lemma internal_reason : forall rm r rm' err, get_internal_id rm r = Ret (rm', RErr err) -> encode (err_reason err) = err_reason err.
Proof.
  intros rm r rm' err. unfold get_internal_id. intro E. repeat match type of E with context [match ?x with _ => _ end] => destruct x; cbn [bind] in E; try discriminate E end; inversion E; reflexivity.
Qed.
Lemma shortcut_reason : forall p n pe n' err, shortcut_literal p n pe = Ret (n', RErr err) -> encode (err_reason err) = err_reason err.
Proof.
  intros p n pe n' err. unfold shortcut_literal. destruct (negb _); [discriminate|]. destruct (walk_component _ _ _ _) as [[l|u]|w|]; cbn [bind]; try discriminate. destruct (lit_is_empty l); [discriminate|].
  destruct (to_u32 _) as [i|w|]; cbn [bind]; try discriminate. unfold ng_add_literal. destruct (rs_debug_assert p _); cbn [bind]; try discriminate. destruct (negb _); [discriminate|]. destruct (mixed_sensitivity _); [discriminate|].
  destruct (register_ext_report _ _ _) as [rm1 [u|e]] eqn:R; [|intros [= _ <-]; eapply register_reason; exact R].
  destruct (literal_report_id _ _ _ _ _ _ _) as [[n2 [id|e]]|w|] eqn:Li; cbn [bind]; try discriminate.
  - destruct (depth_try_from_usize _); [destruct (smwr_add_literal _ _ _ _); cbn [bind]; discriminate|]. intros [= _ <-]. reflexivity.
  - intros [= _ <-]. revert Li. unfold literal_report_id. destruct (ex_som _).
    + destruct (ex_highlander _).
      * destruct (get_exhaustible_key _ _) as [[rm2 k]|w|]; cbn [bind]; try discriminate. destruct (get_internal_id rm2 _) as [[rm3 r]|w|] eqn:G; cbn [bind]; try discriminate. intros [= _ ->]. eapply internal_reason; exact G.
      * cbn [bind]. destruct (get_internal_id _ _) as [[rm3 r]|w|] eqn:G; cbn [bind]; try discriminate. intros [= _ ->]. eapply internal_reason; exact G.
    + destruct (rs_debug_assert p _); cbn [bind]; try discriminate. destruct (get_internal_id _ _) as [[rm3 r]|w|] eqn:G; cbn [bind]; try discriminate. intros [= _ ->]. eapply internal_reason; exact G.
Qed.
Lemma b_new_ok : forall p i s f id, scalars s -> b_parsed_expression_new p i (encode s) f id = encoded (parsed_expression_new p i s f id).
Proof.
  intros p i s f id H. unfold b_parsed_expression_new, parsed_expression_new. destruct (contains f _); [reflexivity|]. cbv zeta. rewrite b_parse_ok by exact H.
  destruct (parse p s _) as [[[c m]|e]|w|]; reflexivity.
Qed.
(** The result of adding an expression, with the text of its message encoded. *)
Definition encode_pair (o : outcome (ng * result compile_error unit)) : outcome (ng * result compile_error unit) :=
  match o with Ret (n, RErr e) => Ret (n, RErr (encode_error e)) | _ => o end.
Lemma encode_error_id : forall e, encode (err_reason e) = err_reason e -> encode_error e = e.
Proof. intros [k r i] E. unfold encode_error. cbn [err_reason] in *. rewrite E. reflexivity. Qed.
Lemma b_add_ok : forall p n i s f id, scalars s -> b_add_expression p n i (encode s) f id = encode_pair (add_expression p n i s f id).
Proof.
  intros p n i s f id H. unfold b_add_expression, add_expression. rewrite b_len_ok by exact H. destruct (_ <? _); [reflexivity|]. rewrite b_new_ok by exact H.
  destruct (parsed_expression_new p i s f id) as [[pe|e]|w|]; cbn [bind encoded]; try reflexivity. cbv zeta.
  destruct (shortcut_literal p n pe) as [[n1 [[]|e]]|w|] eqn:E; cbn [bind]; try reflexivity.
  - destruct (build_graph p pe) as [[ei g]|w|]; reflexivity.
  - unfold encode_pair. rewrite (encode_error_id e); [reflexivity|]. eapply shortcut_reason; exact E.
Qed.
Lemma b_index_ok : forall p e i, set_expression_index p (encode_error e) i = let! e' := set_expression_index p e i in Ret (encode_error e').
Proof. intros p [k r x] i. unfold set_expression_index, encode_error. cbn [err_kind err_reason err_index]. destruct (rs_debug_assert p _); reflexivity. Qed.
Definition encode_item (x : str * flags * N) : list N * flags * N := (encode (fst (fst x)), snd (fst x), snd x).
Lemma b_all_ok : forall p l n i, Forall (fun x : str * flags * N => scalars (fst (fst x))) l -> b_add_all p n i (map encode_item l) = encoded (add_all p n i l).
Proof.
  intros p l; induction l as [|[[s f] id] l IH]; intros n i H; [reflexivity|]. inversion H as [|? ? Hs Hl]; subst. cbn [fst] in Hs. cbn [map]. unfold encode_item at 1. cbn [fst snd b_add_all add_all].
  rewrite b_add_ok by exact Hs. destruct (add_expression p n i s f id) as [[n' [u|e]]|w|]; cbn [encode_pair bind]; try reflexivity; [apply IH; exact Hl|].
  destruct (to_u32 i) as [j|w|]; cbn [bind]; try reflexivity. rewrite b_index_ok. destruct (set_expression_index p e j); reflexivity.
Qed.
Lemma zip_encode : forall es fs ids, zip3 (map encode es) fs ids = map encode_item (zip3 es fs ids).
Proof. induction es as [|e es IH]; intros [|f fs] [|d ids]; try reflexivity. cbn [map zip3]. rewrite IH. reflexivity. Qed.
Lemma zip_scalars : forall es fs ids, Forall scalars es -> Forall (fun x : str * flags * N => scalars (fst (fst x))) (zip3 es fs ids).
Proof. induction es as [|e es IH]; intros [|f fs] [|d ids] H; try constructor; inversion H; subst; auto. Qed.
Lemma b_multi_ok : forall p es fs ids m g, Forall scalars es -> b_compile_multi_int p (map encode es) fs ids m g = encoded (compile_multi_int p es fs ids m g).
Proof.
  intros p es fs ids m g H. unfold b_compile_multi_int, compile_multi_int. destruct es as [|e es]; [reflexivity|]. cbn [map]. change (encode e :: map encode es) with (map encode (e :: es)). rewrite map_length. cbv zeta.
  destruct (_ <? _); [reflexivity|]. rewrite zip_encode, b_all_ok by (apply zip_scalars; exact H). destruct (add_all _ _ _ _) as [[n|x]|w|]; reflexivity.
Qed.

(** ** Messages are texts again *)
Lemma ascii_scalars : forall s, (forall c, In c s -> c < 128) -> scalars s.
Proof. intros s H. apply Forall_forall. intros c I. left. specialize (H c I). lia. Qed.
Lemma encode_char_long : forall c, 128 <= c -> (2 <= List.length (encode_char c))%nat.
Proof. intros c H. unfold encode_char. replace (c <? 128) with false by lia. destruct (c <? 2048), (c <? 65536); cbn; lia. Qed.
Lemma encode_no_shorter : forall s, (List.length s <= List.length (encode s))%nat.
Proof.
  induction s as [|c s IH]; [apply le_n|]. change (encode (c :: s)) with (encode_char c ++ encode s). rewrite app_length. cbn [List.length].
  assert (1 <= List.length (encode_char c))%nat by (unfold encode_char; destruct (c <? 128), (c <? 2048), (c <? 65536); cbn; lia). lia.
Qed.
Lemma encode_fix : forall s, encode s = s -> scalars s.
Proof.
  intros s E. apply ascii_scalars. assert (L : List.length (encode s) = List.length s) by (rewrite E; reflexivity). clear E. induction s as [|c s IH]; [contradiction|].
  change (encode (c :: s)) with (encode_char c ++ encode s) in L. rewrite app_length in L. cbn [List.length] in L. pose proof (encode_no_shorter s) as Q. destruct (N.ltb_spec c 128) as [C|C].
  - intros x [<-|I]; [exact C|]. apply IH; [|exact I]. unfold encode_char in L. replace (c <? 128) with true in L by lia. cbn [List.length] in L. lia.
  - pose proof (encode_char_long c C). lia.
Qed.
Lemma show_scalars : forall n, scalars (show n).
Proof. intro n. apply ascii_scalars. apply show_ascii. Qed.
Lemma lit_scalars : forall s, asciib s = true -> scalars s.
Proof. intros s H. apply ascii_scalars, asciib_ok, H. Qed.
Lemma parse_reason : forall p s m e, scalars s -> parse p s m = Ret (RErr e) -> scalars (err_reason e).
Proof.
  intros p s m e H E. pose proof (parse_cases p s m) as C. rewrite E in C. inversion C as [v rest what V Na W| |body m' a b St A G N L Eb B| | |]; subst.
  - destruct V as (Es & _). cbn [verb_error err_reason]. subst s. inversion H as [|? ? _ H1]; subst. inversion H1 as [|? ? _ H2]; subst. apply scalars_app in H2.
    apply scalars_app. split; [destruct W as [[_ ->]|[_ ->]]; apply lit_scalars; reflexivity|]. apply scalars_app. split; [apply H2|]. apply scalars_app. split; [apply lit_scalars; reflexivity|apply show_scalars].
  - cbn [missing_error err_reason]. apply scalars_app. split; [apply lit_scalars; reflexivity|]. apply scalars_app. split; [apply show_scalars|apply lit_scalars; reflexivity].
  - apply lit_scalars. reflexivity.
Qed.
Lemma add_reason : forall p n i s f id n' e, scalars s -> add_expression p n i s f id = Ret (n', RErr e) -> scalars (err_reason e).
Proof.
  intros p n i s f id n' e H. unfold add_expression. destruct (_ <? _); [intros [= _ <-]; apply lit_scalars; reflexivity|]. unfold parsed_expression_new.
  destruct (contains f _); [intros [= _ <-]; apply lit_scalars; reflexivity|]. cbv zeta. destruct (parse p s _) as [[[c m]|e1]|w|] eqn:P; cbn [bindr bind]; try discriminate.
  - destruct (shortcut_literal p n _) as [[n1 [[]|e1]]|w|] eqn:Sh; cbn [bind]; try discriminate.
    + destruct (build_graph p _) as [[? ?]|w|]; discriminate.
    + intros [= _ <-]. apply encode_fix. eapply shortcut_reason; exact Sh.
  - intros [= _ <-]. eapply parse_reason; eassumption.
Qed.
Lemma all_reason : forall p l n i e, Forall (fun x : str * flags * N => scalars (fst (fst x))) l -> add_all p n i l = Ret (RErr e) -> scalars (err_reason e).
Proof.
  intros p l; induction l as [|[[s f] id] l IH]; intros n i e H; [discriminate|]. inversion H as [|? ? Hs Hl]; subst. cbn [fst] in Hs. cbn [add_all].
  destruct (add_expression p n i s f id) as [[n' [u|e1]]|w|] eqn:A; cbn [bind]; try discriminate; [apply IH; exact Hl|]. destruct (to_u32 i); cbn [bind]; try discriminate.
  unfold set_expression_index. destruct (rs_debug_assert p _); cbn [bind]; try discriminate. intros [= <-]. cbn [err_reason]. eapply add_reason; eassumption.
Qed.
Lemma multi_reason : forall p es fs ids m g e, Forall scalars es -> compile_multi_int p es fs ids m g = Ret (RErr e) -> scalars (err_reason e).
Proof.
  intros p es fs ids m g e H. unfold compile_multi_int. destruct es as [|x es]; [intros [= <-]; apply lit_scalars; reflexivity|]. cbv zeta. destruct (_ <? _); [intros [= <-]; apply lit_scalars; reflexivity|].
  destruct (add_all _ _ _ _) as [[n|e1]|w|] eqn:A; cbn [bindr]; try discriminate. intros [= <-]. eapply all_reason; [|exact A]. apply zip_scalars, H.
Qed.
