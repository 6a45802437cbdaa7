(** C81: the [Debug] text of an error. *)
From Coq Require Import Hexadecimal HexadecimalString HexadecimalN.
From Verif Require Import Base ModelUtil ModelReport ModelParser ModelCompiler ModelDebug SpecGrammar SpecReport SpecCompile SpecText SpecDebug
  ProofBase ProofParser ProofText ProofVerb ProofCompile ProofRun PropParser PropCompile PropMisc.
Local Open Scope N_scope.
Local Open Scope list_scope.

(** ** Hexadecimal numbers *)
Definition hstep (a d : N) : N := 16 * a + (if d <=? 57 then d - 48 else d - 87).
Ltac hex_head := match goal with |- context [N_of_ascii ?x] => let v := eval vm_compute in (N_of_ascii x) in change (N_of_ascii x) with v end.
Lemma hex_acc : forall u a, fold_left hstep (lit (NilEmpty.string_of_uint u)) (Npos a) = Npos (Pos.of_hex_uint_acc u a).
Proof.
  induction u as [|u IH|u IH|u IH|u IH|u IH|u IH|u IH|u IH|u IH|u IH|u IH|u IH|u IH|u IH|u IH|u IH]; intro a; [reflexivity|..];
    unfold lit; cbn [NilEmpty.string_of_uint list_ascii_of_string map fold_left Pos.of_hex_uint_acc]; rewrite <- IH; unfold lit; f_equal; unfold hstep; hex_head;
    match goal with |- context [?x <=? 57] => let v := eval vm_compute in (x <=? 57) in change (x <=? 57) with v end; cbv iota; lia.
Qed.
Lemma hex_value : forall u, fold_left hstep (lit (NilEmpty.string_of_uint u)) 0 = N.of_hex_uint u.
Proof.
  induction u as [|u IH|u IH|u IH|u IH|u IH|u IH|u IH|u IH|u IH|u IH|u IH|u IH|u IH|u IH|u IH|u IH]; [reflexivity|..];
    unfold lit; cbn [NilEmpty.string_of_uint list_ascii_of_string map fold_left]; hex_head;
    match goal with |- context [hstep 0 ?d] => let v := eval vm_compute in (hstep 0 d) in change (hstep 0 d) with v end.
  1: exact IH.
  all: match goal with |- fold_left hstep _ (Npos ?a) = _ => exact (hex_acc u a) end.
Qed.
Lemma hex_digits : forall u d, In d (lit (NilEmpty.string_of_uint u)) -> 48 <= d <= 57 \/ 97 <= d <= 102.
Proof.
  induction u as [|u IH|u IH|u IH|u IH|u IH|u IH|u IH|u IH|u IH|u IH|u IH|u IH|u IH|u IH|u IH|u IH]; intros d I; [destruct I|..];
    unfold lit in I; cbn [NilEmpty.string_of_uint list_ascii_of_string map] in I; (destruct I as [I|I]; [vm_compute in I; lia|apply IH; exact I]).
Qed.
Lemma hex_not_nil : forall n, N.to_hex_uint n <> Nil.
Proof. intros n Z. apply (f_equal N.of_hex_uint) in Z as Z'. rewrite HexadecimalN.Unsigned.of_to in Z'. cbn in Z'. subst n. discriminate Z. Qed.
Lemma show_hex_string : forall n, show_hex n = lit (NilEmpty.string_of_uint (N.to_hex_uint n)).
Proof. intro n. unfold show_hex, NilZero.string_of_uint. pose proof (hex_not_nil n). destruct (N.to_hex_uint n); [contradiction|reflexivity..]. Qed.
Lemma hex_number_fold : forall cs, cs <> [] -> (forall d, In d cs -> 48 <= d <= 57 \/ 97 <= d <= 102) -> hex_number cs (fold_left hstep cs 0).
Proof.
  induction cs as [|c cs IH] using rev_ind; intros Ne H; [destruct (Ne eq_refl)|]. rewrite fold_left_app. cbn [fold_left].
  assert (D : hex_digit c (if c <=? 57 then c - 48 else c - 87)).
  { destruct (H c) as [D|D]; [apply in_or_app; right; left; reflexivity| |]; unfold hex_digit; destruct (N.leb_spec c 57); lia. }
  destruct cs as [|c0 cs]; [cbn [fold_left app]; unfold hstep; rewrite N.mul_0_r, N.add_0_l; apply hex_one; exact D|].
  apply hex_more; [|exact D]. apply IH; [discriminate|]. intros d I. apply H. apply in_or_app. left. exact I.
Qed.
Lemma show_hex_number : forall n, hex_number (show_hex n) n.
Proof.
  intro n. rewrite show_hex_string. rewrite <- (HexadecimalN.Unsigned.of_to n) at 2. rewrite <- hex_value. apply hex_number_fold.
  - pose proof (hex_not_nil n). destruct (N.to_hex_uint n); [contradiction|discriminate..].
  - intros d I. apply hex_digits in I. exact I.
Qed.
Lemma hex_number_inv : forall cs n, hex_number cs n -> n = fold_left hstep cs 0 /\ forall d, In d cs -> 48 <= d <= 57 \/ 97 <= d <= 102.
Proof.
  assert (D : forall a c d, hex_digit c d -> 16 * a + d = hstep a c /\ (48 <= c <= 57 \/ 97 <= c <= 102)).
  { intros a c d [[H ->]|[H ->]]; unfold hstep; destruct (N.leb_spec c 57); lia. }
  intros cs n H. induction H as [c d H|cs n c d H [-> IH] Hd].
  - destruct (D 0 c d H) as [E R]. split; [cbn [fold_left]; lia|]. intros x [->|[]]. exact R.
  - destruct (D (fold_left hstep cs 0) c d Hd) as [E R]. split; [rewrite fold_left_app; exact E|]. intros x I. apply in_app_or in I. destruct I as [I|[->|[]]]; auto.
Qed.
Lemma first_split : forall (c : N) a b a' b', ~ In c a -> ~ In c a' -> a ++ c :: b = a' ++ c :: b' -> a = a' /\ b = b'.
Proof.
  intros c a. induction a as [|x a IH]; intros b [|x' a'] b' H H' E; cbn in E.
  - injection E as E. auto.
  - injection E as E. subst. destruct H'. left. reflexivity.
  - injection E as E. subst. destruct H. left. reflexivity.
  - injection E as -> E. destruct (IH b a' b') as [-> ->]; [intro I; apply H; right; exact I|intro I; apply H'; right; exact I|exact E|auto].
Qed.
(** ** Literals are read in one way *)
Lemma stands_first : forall a c, stands_for a c -> (exists x, a = [x] /\ x <> 34 /\ x <> 92 /\ c = x) \/ exists y r, a = 92 :: y :: r.
Proof. intros a c H. destruct H; [left; eauto 6|right; do 2 eexists; reflexivity..]. Qed.
Lemma stands_one : forall a c a' c' r r', stands_for a c -> stands_for a' c' -> a ++ r = a' ++ r' -> c = c' /\ r = r'.
Proof.
  assert (E0 : lit "\0" = [92; 48]) by reflexivity. assert (Et : lit "\t" = [92; 116]) by reflexivity. assert (En : lit "\n" = [92; 110]) by reflexivity. assert (Er : lit "\r" = [92; 114]) by reflexivity.
  assert (Eu : forall t, lit "\u{" ++ t = 92 :: 117 :: 123 :: t) by reflexivity. assert (Ec : lit "}" = [125]) by reflexivity.
  intros a c a' c' r r' H H' E. destruct H as [c H1 H2| | | | | | |ds n Hn]; destruct H' as [c' H1' H2'| | | | | | |ds' n' Hn'];
    rewrite ?E0, ?Et, ?En, ?Er, ?Eu, ?Ec in E; cbn [app] in E; try discriminate E; try (injection E as E1 E2; congruence); try (injection E as E; auto; fail).
  - injection E as E. rewrite <- !app_assoc in E. cbn [app] in E. destruct (hex_number_inv _ _ Hn) as [-> D]. destruct (hex_number_inv _ _ Hn') as [-> D'].
    apply first_split in E; [|intro I; apply D in I; lia|intro I; apply D' in I; lia]. destruct E as [-> ->]. auto.
Qed.
Lemma spells_one : forall b s, spells b s -> forall b' s' r r', spells b' s' -> b ++ 34 :: r = b' ++ 34 :: r' -> s = s' /\ r = r'.
Proof.
  assert (Q : forall a c r r', stands_for a c -> a ++ r <> 34 :: r').
  { intros a c r r' H E. apply stands_first in H. destruct H as [(x & -> & N1 & _)|(y & t & ->)]; cbn [app] in E; [injection E as E _; auto|discriminate E]. }
  intros b s H. induction H as [|a c b s A H IH]; intros b' s' r r' H' E; destruct H' as [|a' c' b' s' A' H'].
  - cbn [app] in E. injection E as E. auto.
  - cbn [app] in E. symmetry in E. rewrite <- app_assoc in E. destruct (Q _ _ _ _ A' E).
  - cbn [app] in E. rewrite <- app_assoc in E. destruct (Q _ _ _ _ A E).
  - rewrite <- !app_assoc in E. destruct (stands_one _ _ _ _ _ _ A A' E) as [-> E']. destruct (IH _ _ _ _ H' E') as [-> ->]. auto.
Qed.
Lemma escape_stands : forall x c, stands_for (escape x c) c.
Proof.
  intros x c. unfold escape. destruct (N.eqb_spec c 0) as [->|_]; [destruct (short_nul x)|]; cbn [andb];
    [constructor|cbn [N.eqb]; destruct (shown x 0); [constructor; discriminate|apply sf_unicode, show_hex_number]|].
  destruct (N.eqb_spec c 9) as [->|_]; [constructor|]. destruct (N.eqb_spec c 10) as [->|_]; [constructor|]. destruct (N.eqb_spec c 13) as [->|_]; [constructor|].
  destruct (N.eqb_spec c 34) as [->|N1]; [constructor|]. destruct (N.eqb_spec c 92) as [->|N2]; [constructor|]. destruct (shown x c); [constructor; assumption|apply sf_unicode, show_hex_number].
Qed.
Lemma escape_spells : forall x s, spells (flat_map (escape x) s) s.
Proof. intros x s. induction s as [|c s IH]; cbn [flat_map]; constructor; [apply escape_stands|exact IH]. Qed.

(** ** C81 *)
(** The reason appears as a string literal of the language that stands for it, and a
    literal at the beginning of a text stands for one string only. *)
Theorem C81_literal : (forall x s, literal (debug_str x s) s) /\
  (forall t s t' s' r r', literal t s -> literal t' s' -> t ++ r = t' ++ r' -> t = t' /\ s = s').
Proof.
  split.
  - intros x s. exists (flat_map (escape x) s). split; [apply escape_spells|reflexivity].
  - intros t s t' s' r r' (b & B & ->) (b' & B' & ->) E. cbn [app] in E. injection E as E. rewrite <- !app_assoc in E. cbn [app] in E.
    destruct (spells_one _ _ B _ _ _ _ B' E) as [-> ->]. apply app_inv_tail in E. subst. auto.
Qed.
Lemma kind_split : forall k k' r r', debug_kind k ++ 44 :: r = debug_kind k' ++ 44 :: r' -> k = k' /\ r = r'.
Proof. intros [] [] r r' E; try (vm_compute in E; discriminate E); apply app_inv_head in E; injection E as E; auto. Qed.
Lemma show_one : forall i j, show i = show j -> i = j.
Proof. intros i j E. destruct (show_decimal i) as (_ & _ & <- & _). rewrite E. apply show_decimal. Qed.
Lemma debug_str_split : forall x x' s s' r r', debug_str x s ++ r = debug_str x' s' ++ r' -> s = s' /\ r = r'.
Proof.
  intros x x' s s' r r' E. unfold debug_str in E. cbn [app] in E. injection E as E. rewrite <- !app_assoc in E. cbn [app] in E. apply (spells_one _ _ (escape_spells x s) _ _ _ _ (escape_spells x' s') E).
Qed.
Definition debug_index (i : option N) : str := match i with None => lit "None" | Some i => lit "Some(" ++ show i ++ lit ")" end.
Lemma debug_index_one : forall i i' t, debug_index i ++ t = debug_index i' ++ t -> i = i'.
Proof.
  intros i i' t E. apply app_inv_tail in E. destruct i as [i|], i' as [i'|]; cbn [debug_index] in E; try (vm_compute in E; discriminate E); [|reflexivity].
  apply app_inv_head, app_inv_tail in E. f_equal. apply show_one. exact E.
Qed.
Lemma debug_error_shape : forall x e, debug_error x e =
  lit "CompileError { kind: " ++ debug_kind (err_kind e) ++ 44 :: lit " reason: " ++ debug_str x (err_reason e) ++ lit ", index: " ++ debug_index (err_index e) ++ lit " }".
Proof. reflexivity. Qed.
Definition pretty_index (i : option N) : str :=
  match i with None => lit "index: None," | Some i => lit "index: Some(" ++ [10] ++ repeat 32 8 ++ show i ++ lit "," ++ [10] ++ repeat 32 4 ++ lit ")," end.
Lemma pretty_index_one : forall i i' t, pretty_index i ++ t = pretty_index i' ++ t -> i = i'.
Proof.
  intros i i' t E. apply app_inv_tail in E. destruct i as [i|], i' as [i'|]; cbn [pretty_index] in E; try (vm_compute in E; discriminate E); [|reflexivity].
  do 3 apply app_inv_head in E. apply app_inv_tail in E. f_equal. apply show_one. exact E.
Qed.
Lemma pretty_shape : forall x e, debug_error_pretty x e =
  lit "CompileError {" ++ [10] ++ repeat 32 4 ++ lit "kind: " ++ debug_kind (err_kind e) ++ 44 :: 10 :: repeat 32 4 ++ lit "reason: " ++ debug_str x (err_reason e) ++
  lit "," ++ [10] ++ repeat 32 4 ++ pretty_index (err_index e) ++ [10] ++ lit "}".
Proof.
  intros x e. unfold debug_error_pretty, line. change (4 * 0)%nat with 0%nat. change (4 * 1)%nat with 4%nat. change (4 * 2)%nat with 8%nat. unfold pretty_index.
  cbn [repeat app]. destruct (err_index e) as [i|]; repeat first [rewrite <- app_assoc|progress cbn [app]]; reflexivity.
Qed.
(** The text determines the whole error, whichever version of the library wrote it. *)
Theorem C81_debug : forall x x' e e', (debug_error x e = debug_error x' e' -> e = e') /\ (debug_error_pretty x e = debug_error_pretty x' e' -> e = e').
Proof.
  intros x x' [k r i] [k' r' i']. split; intro E.
  - rewrite !debug_error_shape in E. cbn [err_kind err_reason err_index] in E. apply app_inv_head in E. apply kind_split in E as [-> E]. apply app_inv_head in E.
    apply debug_str_split in E as [-> E]. apply app_inv_head in E. apply debug_index_one in E as ->. reflexivity.
  - rewrite !pretty_shape in E. cbn [err_kind err_reason err_index] in E. do 4 apply app_inv_head in E. apply kind_split in E as [-> E]. apply (f_equal (@tl N)) in E. cbn [tl] in E. do 2 apply app_inv_head in E.
    apply debug_str_split in E as [-> E]. do 3 apply app_inv_head in E. apply pretty_index_one in E as ->. reflexivity.
Qed.
(** The words of the text. *)
Theorem C81_text : forall x e, one_line e (debug_error x e) /\ many_lines e (debug_error_pretty x e).
Proof.
  intros x [k r i]. destruct C81_literal as [Li _].
  assert (K : named k (debug_kind k)) by (destruct k; constructor). split.
  - exists (debug_kind k), (debug_str x r), (match i with None => lit "None" | Some i => lit "Some(" ++ show i ++ lit ")" end). conjs; cbn [err_kind err_reason err_index].
    + exact K.
    + apply Li.
    + destruct i; constructor. apply show_decimal.
    + reflexivity.
  - exists (debug_kind k), (debug_str x r), (match i with None => [lit "    index: None,"] | Some i => [lit "    index: Some("; lit "        " ++ show i ++ lit ","; lit "    ),"] end). conjs; cbn [err_kind err_reason err_index].
    + exact K.
    + apply Li.
    + destruct i; constructor. apply show_decimal.
    + unfold debug_error_pretty, line. cbn [err_kind err_reason err_index app flat_map repeat Nat.mul Nat.add]. destruct i; cbn [app flat_map repeat Nat.mul Nat.add];
      [change (lit "        ") with [32; 32; 32; 32; 32; 32; 32; 32]; change (lit "    index: Some(") with ([32; 32; 32; 32] ++ lit "index: Some("); change (lit "    ),") with ([32; 32; 32; 32] ++ lit "),")
      |change (lit "    index: None,") with ([32; 32; 32; 32] ++ lit "index: None,")];
      change (lit "    kind: ") with ([32; 32; 32; 32] ++ lit "kind: "); change (lit "    reason: ") with ([32; 32; 32; 32] ++ lit "reason: "); repeat (rewrite <- app_assoc; cbn [app]); reflexivity.
Qed.
(** What the text looks like: one line, unless the library shows control characters. *)
Theorem C81_line : forall x e, (forall c, c < 32 -> shown x c = false) -> (forall c, In c (debug_error x e) -> 32 <= c) /\ (forall c, In c (debug_error_pretty x e) -> 32 <= c \/ c = 10).
Proof.
  intros x e H.
  assert (Hx : forall n c, In c (show_hex n) -> 32 <= c) by (intros n c I; rewrite show_hex_string in I; apply hex_digits in I; lia).
  assert (Sh : forall n c, In c (show n) -> 32 <= c) by (intros n c I; apply show_decimal in I; lia).
  assert (Esc : forall d c, In c (escape x d) -> 32 <= c).
  { intros d c I. unfold escape in I. destruct ((d =? 0) && short_nul x); [vm_compute in I; lia|]. destruct (d =? 9); [vm_compute in I; lia|]. destruct (d =? 10); [vm_compute in I; lia|]. destruct (d =? 13); [vm_compute in I; lia|].
    destruct (d =? 34); [vm_compute in I; lia|]. destruct (d =? 92); [vm_compute in I; lia|]. destruct (shown x d) eqn:Sd.
    - destruct I as [->|[]]. destruct (N.lt_ge_cases c 32) as [L|L]; [rewrite H in Sd by exact L; discriminate Sd|exact L].
    - apply in_app_or in I. destruct I as [I|I]; [vm_compute in I; lia|]. apply in_app_or in I. destruct I as [I|I]; [exact (Hx _ _ I)|vm_compute in I; lia]. }
  assert (Str : forall s c, In c (debug_str x s) -> 32 <= c).
  { intros s c I. unfold debug_str in I. cbn [app] in I. destruct I as [<-|I]; [lia|]. apply in_app_or in I. destruct I as [I|[<-|[]]]; [|lia]. apply in_flat_map in I. destruct I as (d & _ & I). exact (Esc _ _ I). }
  assert (Kd : forall k c, In c (debug_kind k) -> 32 <= c) by (intros [] c I; vm_compute in I; lia).
  specialize (Str (err_reason e)).
  split; intros c I.
  - rewrite debug_error_shape in I. set (T := debug_str x (err_reason e)) in *. clearbody T. change (44 :: lit " reason: " ++ ?t) with (lit ", reason: " ++ t) in I.
    repeat (apply in_app_or in I; destruct I as [I|I]); try (vm_compute in I; lia); [exact (Kd _ _ I)|exact (Str _ I)|].
    destruct (err_index e) as [i|]; cbn [debug_index] in I; [|vm_compute in I; lia]. repeat (apply in_app_or in I; destruct I as [I|I]); try (vm_compute in I; lia). exact (Sh _ _ I).
  - rewrite pretty_shape in I. set (T := debug_str x (err_reason e)) in *. clearbody T. change (44 :: 10 :: repeat 32 4 ++ ?t) with ((44 :: 10 :: repeat 32 4) ++ t) in I.
    repeat (apply in_app_or in I; destruct I as [I|I]); try (vm_compute in I; lia); [left; exact (Kd _ _ I)|left; exact (Str _ I)|].
    destruct (err_index e) as [i|]; cbn [pretty_index] in I; [|vm_compute in I; lia]. repeat (apply in_app_or in I; destruct I as [I|I]); try (vm_compute in I; lia). left. exact (Sh _ _ I).
Qed.
(** The kind of an error the crate returns can be told from its reason. *)
Theorem C81_kind : forall p es fs ids m e, compile_multi p es fs ids m = Ret (RErr e) ->
  (err_kind e = EParse /\ begins (lit "Missing close") (err_reason e)) \/
  (err_kind e = ELocatedParse /\ (begins (lit "Un") (err_reason e))) \/
  (err_kind e = EOther /\ exists w, In w [lit "Invalid "; lit "Number "; lit "Pattern "; lit "QUIET "; lit "Expression "] /\ begins w (err_reason e)).
Proof.
  intros p es fs ids m e E. pose proof (compile_cases p es fs ids m) as C. rewrite E in C.
  inversion C as [Em Q|Lm Q|A n Ne L Ad Nc F En I|k' it A o' o Ne L E' Ad Nc F NF J X]; subst.
  - right. right. split; [reflexivity|]. eexists. split; [left; reflexivity|]. eexists. vm_compute. reflexivity.
  - right. right. split; [reflexivity|]. eexists. split; [right; left; reflexivity|]. eexists. vm_compute. reflexivity.
  - destruct o' as [[?|e']|?|]; try contradiction. destruct X as [-> _].
    inversion J as [L1|L1 Q S|e1 L1 Fl P| | |body b Ac B Li Fa D|]; subst; cbn [at_index err_kind err_reason].
    + right. right. split; [reflexivity|]. eexists. split; [do 2 right; left; reflexivity|]. eexists. vm_compute. reflexivity.
    + right. right. split; [reflexivity|]. eexists. split; [do 3 right; left; reflexivity|]. eexists. vm_compute. reflexivity.
    + pose proof (parse_cases p (it_expr it) (item_mode it)) as Pc. rewrite P in Pc. inversion Pc; subst.
      all: cbn [verb_error unmatched_error missing_error err_kind err_reason].
      all: try match goal with H : unsupported_verb _ /\ _ \/ _ |- _ => destruct H as [[_ ->]|[_ ->]] end.
      all: try (right; left; split; [reflexivity|]; eexists; reflexivity).
      all: left; split; [reflexivity|]; eexists; reflexivity.
    + right. right. split; [reflexivity|]. eexists. split; [do 4 right; left; reflexivity|]. eexists. reflexivity.
Qed.
(** So what [Display] prints determines the whole error too, for the errors the crate returns. *)
Theorem C81_display : forall p es fs ids m e p' es' fs' ids' m' e',
  compile_multi p es fs ids m = Ret (RErr e) -> compile_multi p' es' fs' ids' m' = Ret (RErr e') -> error_display e = error_display e' -> e = e'.
Proof.
  intros p es fs ids m e p' es' fs' ids' m' e' E E' Q. destruct (C61_injective _ _ _ _ _ _ _ _ _ _ _ _ E E' Q) as [R I].
  assert (K : err_kind e = err_kind e').
  { assert (H2 : forall a b t, begins a t -> begins b t -> firstn 2 a = firstn 2 b \/ (List.length a < 2 \/ List.length b < 2)%nat).
    { intros [|a0 [|a1 a]] [|b0 [|b1 b]] t (r & ->) (r' & Z); cbn [List.length]; try lia. left. cbn in Z. injection Z as -> -> _. reflexivity. }
    destruct (C81_kind _ _ _ _ _ _ E) as [[-> B]|[[-> B]|(-> & w & W & B)]]; destruct (C81_kind _ _ _ _ _ _ E') as [[-> B']|[[-> B']|(-> & w' & W' & B')]]; try reflexivity; rewrite R in B;
      destruct (H2 _ _ _ B B') as [Z|Z]; exfalso;
      repeat match goal with W : In ?w (_ :: _) |- _ => destruct W as [<-|W] | W : In _ [] |- _ => destruct W end; vm_compute in Z; (discriminate Z || lia). }
  destruct e, e'. cbn in *. subst. reflexivity.
Qed.
(** Errors in general are not determined by it. *)
Example C81_case : exists e, compile release (lit "a") 1280 Block = Ret (RErr e) /\
  debug_error (Escapes true (fun c => (32 <=? c) && (c <? 127))) e = lit "CompileError { kind: Other, reason: " ++ [34] ++ lit "QUIET is not supported in combination with SOM_LEFTMOST." ++ [34] ++ lit ", index: Some(0) }" /\
  (exists k, k <> err_kind e /\ error_display (CompileError k (err_reason e) (err_index e)) = error_display e) /\
  (forall b, debug_str (Escapes b (fun c => (32 <=? c) && (c <? 127))) ([97; 34; 10; 92; 233; 8232]) = [34] ++ lit "a\" ++ [34] ++ lit "\n\\\u{e9}\u{2028}" ++ [34]).
Proof.
  eexists. split; [vm_compute; reflexivity|]. split; [vm_compute; reflexivity|]. split; [exists EParse; split; [discriminate|reflexivity]|]. intros []; vm_compute; reflexivity.
Qed.
Print Assumptions C81_literal.
Print Assumptions C81_debug.
Print Assumptions C81_text.
Print Assumptions C81_line.
Print Assumptions C81_kind.
Print Assumptions C81_display.
