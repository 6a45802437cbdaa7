(** Runs of the source text: the other functions of charreach.rs. *)
From Verif Require Import Base ModelUtil ModelBitField ModelCharReach ModelRust ModelInterp ModelDump ModelSource SpecSource SpecSet ProofBitField ProofBitField2.
From Verif Require Import ProofSourceA ProofSourceB ProofSourceC ProofSourceD ProofSourceE.
Local Open Scope string_scope.
Local Open Scope N_scope.
Local Open Scope list_scope.
Strategy 500 [bf_find_first bf_find_last bf_find_next bf_find_nth bf_set bf_reset bf_flip bf_test bf_set_range bf_count bf_none bf_any bf_all cr_find_first cr_find_last cr_find_next cr_find_nth cr_set cr_reset cr_flip cr_test cr_set_range cr_count cr_none cr_any cr_all first_nonzero iter_loop make_caseless_loop cr_set_bytes cr_from_bytes cr_from_range cr_from_char cr_not cr_and cr_or cr_xor bf_not bf_and bf_or bf_xor cr_is_subset_of].
Arguments bf_find_first : simpl never.
Arguments bf_find_last : simpl never.
Arguments bf_find_next : simpl never.
Arguments bf_find_nth : simpl never.
Arguments bf_set : simpl never.
Arguments bf_reset : simpl never.
Arguments bf_flip : simpl never.
Arguments bf_test : simpl never.
Arguments bf_set_range : simpl never.
Arguments bf_count : simpl never.
Arguments bf_none : simpl never.
Arguments bf_any : simpl never.
Arguments bf_all : simpl never.
Arguments cr_find_first : simpl never.
Arguments cr_find_last : simpl never.
Arguments cr_find_next : simpl never.
Arguments cr_find_nth : simpl never.
Arguments cr_set : simpl never.
Arguments cr_reset : simpl never.
Arguments cr_flip : simpl never.
Arguments cr_test : simpl never.
Arguments cr_set_range : simpl never.
Arguments cr_count : simpl never.
Arguments cr_none : simpl never.
Arguments cr_any : simpl never.
Arguments cr_all : simpl never.
Arguments first_nonzero : simpl never.
Arguments iter_loop : simpl never.
Arguments make_caseless_loop : simpl never.
Arguments cr_set_bytes : simpl never.
Arguments cr_from_bytes : simpl never.
Arguments cr_from_range : simpl never.
Arguments cr_from_char : simpl never.
Arguments cr_not : simpl never.
Arguments cr_and : simpl never.
Arguments cr_or : simpl never.
Arguments cr_xor : simpl never.
Arguments bf_not : simpl never.
Arguments bf_and : simpl never.
Arguments bf_or : simpl never.
Arguments bf_xor : simpl never.
Arguments cr_is_subset_of : simpl never.
Lemma hd_some : forall (l : list N) m, hd_error l = Some m -> In m l.
Proof. intros [|x l] m H; [discriminate|injection H as ->; left; reflexivity]. Qed.
Lemma first_lt : forall p b m, wf b -> bf_find_first p b = Ret (Some m) -> m < 256.
Proof. intros p b m Hb. rewrite bf_find_first_ok by exact Hb. intros [= H]. exact (in_elements_byte b m (hd_some _ _ H)). Qed.
Lemma next_gt : forall p b n m, wf b -> n < 256 -> bf_find_next p b n = Ret (Some m) -> n < m /\ m < 256.
Proof.
  intros p b n m Hb Hn. rewrite bf_find_next_ok by assumption. intros [= H]. apply hd_some, filter_In in H. destruct H as [H1 H2].
  split; [lia|exact (in_elements_byte b m H1)].
Qed.
Lemma turn_whilelet : forall p g own cf lf q c b s, loop p g own cf (S lf) (WWhileLet q c b) s =
    bindv (eval p g own cf (loop p g own cf lf) c s) (fun v s1 =>
      match pmatch q v s1 with Some s2 => bind (eval p g own cf (loop p g own cf lf) (EBlock b) s2) (turned s (loop p g own cf lf (WWhileLet q c b))) | None => val_ VUnit s1 end).
Proof. reflexivity. Qed.
Lemma turn_loop : forall p g own cf lf b s, loop p g own cf (S lf) (WLoop b) s =
    bind (eval p g own cf (loop p g own cf lf) (EBlock b) s) (turned s (loop p g own cf lf (WLoop b))).
Proof. reflexivity. Qed.
Lemma il_S : forall A R p f cr (body : A -> N -> outcome (A + R)) next acc, iter_loop p (S f) cr body next acc =
    match next with
    | None => Ret (inl acc)
    | Some pos =>
      let! r := body acc pos in
      match r with
      | inr x => Ret (inr x)
      | inl acc' =>
        let! next' := cr_find_next p cr pos in
        iter_loop p f cr body next' acc'
      end
    end.
Proof. reflexivity. Qed.
(** what is left of the loop has turns enough *)
Definition enough_turns (f : nat) (next : option N) : Prop :=
  match next with Some pos => pos < 256 /\ 256 < pos + N.of_nat f | None => (0 < f)%nat end.
Lemma turns_first : forall p b o, wf b -> bf_find_first p b = Ret o -> enough_turns 257 o.
Proof. intros p b [m|] Hb H; [apply first_lt in H; [|exact Hb]; split; [exact H|change (N.of_nat 257) with 257; lia]|cbn; lia]. Qed.
Lemma turns_next : forall p b f n o, wf b -> enough_turns (S f) (Some n) -> bf_find_next p b n = Ret o -> enough_turns f o.
Proof. intros p b f n [m|] Hb [E1 E2] H; [apply next_gt in H; [|assumption..]; cbn; lia|cbn; lia]. Qed.
Ltac auto2 := auto_; try (match goal with |- context [v_opt ?a] => is_var a; destruct a; cbn [v_opt expect]; auto2 end).
Ltac dflt := change (VStruct "CharReach" [("bits", VStruct "BitField256" [("bits", VList [VInt U64 0; VInt U64 0; VInt U64 0; VInt U64 0])])]) with (v_cr cr_default).

Lemma r_from_char : forall p lf d c, call p G lf (S (S (S (S (S d))))) CRo "from_char" [VInt U8 c] = (let! b := cr_from_char p c in Ret (Some (v_cr b, [VInt U8 c]))).
Proof. enter. unfold cr_from_char. exe. dflt. auto_. Qed.
Lemma r_from_range : forall p lf d x y, x < 256 -> y < 256 -> (20 <= lf)%nat -> call p G lf (S (S (S (S (S d))))) CRo "from_range" [VInt U8 x; VInt U8 y] = (let! b := cr_from_range p x y in Ret (Some (v_cr b, [VInt U8 x; VInt U8 y]))).
Proof. enter. unfold cr_from_range. exe. dflt. auto_. Qed.
#[export] Hint Rewrite r_from_char : calls.
#[export] Hint Rewrite r_from_range using first [lia|reflexivity] : calls.
Lemma call_args : forall p lf d o f fd vs vs', find_fn G o f = Some fd -> bind_params (fn_params fd) vs = bind_params (fn_params fd) vs' ->
  call p G lf (S d) o f vs = call p G lf (S d) o f vs'.
Proof. intros. rewrite (call_S _ _ _ _ _ fd _ H), (call_S _ _ _ _ _ fd _ H), H0. reflexivity. Qed.
Ltac args := intros; lazymatch goal with |- call _ G _ (S _) ?o ?f _ = call _ _ _ _ _ _ _ => let d := eval vm_compute in (find_fn G o f) in
     lazymatch d with Some ?d => apply (call_args _ _ _ o f d); [vm_cast_no_check (eq_refl (Some d))|reflexivity] end end.
Lemma lits_from_range1 : forall p lf d x y, call p G lf (S d) CRo "from_range" [VLit x; VLit y] = call p G lf (S d) CRo "from_range" [VInt U8 x; VInt U8 y].
Proof. args. Qed.
Lemma lits_from_range2 : forall p lf d x y, call p G lf (S d) CRo "from_range" [VLit x; VInt U8 y] = call p G lf (S d) CRo "from_range" [VInt U8 x; VInt U8 y].
Proof. args. Qed.
#[export] Hint Rewrite lits_from_range1 lits_from_range2 : calls.
Lemma r_dot : forall p lf d, (20 <= lf)%nat -> call p G lf (S (S (S (S (S (S d)))))) CRo "dot" [] = (let! b := cr_dot p in Ret (Some (v_cr b, []))).
Proof. enter. unfold cr_dot. auto_. Qed.
Lemma r_set_bytes : forall p l lf d b, (List.length l < lf)%nat -> call p G lf (S (S (S (S (S d))))) CRo "set_bytes" [v_cr b; v_bytes l] = (let! b' := cr_set_bytes p b l in Ret (Some (VUnit, [v_cr b'; v_bytes l]))).
Proof.
  intros. enter. unfold v_bytes. exe.
  match goal with |- ?L = ?R => match L with context C [loop ?p ?g ?o ?cf _ (WFor ?q _ ?bd) _] => match R with context D [cr_set_bytes _ _ _] =>
    enough (A : forall l' k c, (List.length l' < k)%nat ->
      ltac:(let t := context C [loop p g o cf k (WFor q (map (VInt U8) l') bd) [("self", v_cr c); ("bytes", VList (map (VInt U8) l))]] in exact t) =
      ltac:(let t := context D [cr_set_bytes p c l'] in exact t)); [apply (A l); exact H|] end end end.
  induction l' as [|x l' IH]; intros k c Hk; (destruct k as [|k]; [exfalso; cbn in Hk; lia|]); cbn [map]; [rewrite turn_end; change (cr_set_bytes p c []) with (Ret c); auto_|].
  rewrite turn_for. change (cr_set_bytes p c (x :: l')) with (let! c' := cr_set p c x in cr_set_bytes p c' l'). auto_. apply IH. cbn in Hk. lia.
Qed.
#[export] Hint Rewrite r_dot r_set_bytes using lia : calls.
Lemma r_from_bytes : forall p l lf d, (List.length l < lf)%nat -> call p G lf (S (S (S (S (S (S d)))))) CRo "from_bytes" [v_bytes l] = (let! b := cr_from_bytes p l in Ret (Some (v_cr b, [v_bytes l]))).
Proof. enter. unfold cr_from_bytes. exe. dflt. auto_. Qed.
#[export] Hint Rewrite r_from_bytes using lia : calls.
Lemma r_is_subset_of : forall p lf d a b, call p G lf (S (S (S d))) CRo "is_subset_of" [v_cr a; v_cr b] = Ret (Some (VBool (cr_is_subset_of a b), [v_cr a; v_cr b])).
Proof. enter. unfold cr_is_subset_of. auto_. unfold bf_eqb, bf_and, bf_and_assign. cbn [w0 w1 w2 w3]. rewrite !andb_true_r, !andb_assoc. reflexivity. Qed.
Lemma r_overlaps : forall p lf d a b, call p G lf (S (S (S (S d)))) CRo "overlaps" [v_cr a; v_cr b] = Ret (Some (VBool (cr_overlaps a b), [v_cr a; v_cr b])).
Proof. enter. unfold cr_overlaps. auto_. Qed.
Lemma r_is_ascii : forall p lf d b, (20 <= lf)%nat -> call p G lf (S (S (S (S (S (S d)))))) CRo "is_ascii" [v_cr b] = (let! t := cr_is_ascii p b in Ret (Some (VBool t, [v_cr b]))).
Proof. enter. unfold cr_is_ascii. auto_. Qed.
Lemma r_two : forall p lf d, call p G lf (S d) None "UTF_TWO_BYTE_HEADER" [] = Ret (Some (VInt U8 192, [])).
Proof. enter. auto_. Qed.
#[export] Hint Rewrite r_two : calls.
Lemma r_cont : forall p lf d, call p G lf (S (S d)) None "UTF_CONT_MAX" [] = Ret (Some (VInt U8 UTF_CONT_MAX, [])).
Proof. enter. auto_. Qed.
#[export] Hint Rewrite r_cont : calls.
Lemma r_is_utf8_start : forall p lf d b, (20 <= lf)%nat -> call p G lf (S (S (S (S (S (S d)))))) CRo "is_utf8_start" [v_cr b] = (let! t := cr_is_utf8_start p b in Ret (Some (VBool t, [v_cr b]))).
Proof. enter. unfold cr_is_utf8_start. auto_. Qed.
Lemma r_is_caseless_char : forall p lf d b, (20 <= lf)%nat -> call p G lf (S (S (S (S (S d))))) CRo "is_caseless_char" [v_cr b] = (let! t := cr_is_caseless_char p b in Ret (Some (VBool t, [v_cr b]))).
Proof. enter. unfold cr_is_caseless_char. auto2. Qed.

Lemma adopt_opt : forall n a, adopt (some_ (VInt U8 n)) (v_opt a) = v_opt a.
Proof. intros n [m|]; reflexivity. Qed.
(** a loop over the members: [E] gives the scope *)
Ltac iter_ E acc0 := match goal with Hb : wf ?b, Hl : (300 <= ?lf)%nat, H : cr_find_first ?p ?b = Ret ?a |- ?L = ?R => apply turns_first in H; [|exact Hb]; match L with context C [loop ?p ?g ?o ?cf _ ?w _] => match R with context D [iter_loop _ _ ?b ?body _ _] =>
    enough (A : forall f k next acc, (f <= k)%nat -> enough_turns f next ->
      ltac:(let e := eval cbv beta in (E next acc) in let t := context C [loop p g o cf k w e] in exact t) =
      ltac:(let t := context D [iter_loop p f b body next acc] in exact t)); [apply (A 257%nat lf a acc0); [lia|exact H]|];
    let f := fresh "f" in let IH := fresh "IH" in let k := fresh "k" in let next := fresh "next" in let acc := fresh "acc" in let Hk := fresh "Hk" in let He := fresh "He" in
    intro f; induction f as [|f IH]; intros k next acc Hk He; [exfalso; destruct next; cbn in He; lia|];
    destruct k as [|k]; [lia|]; rewrite il_S, turn_whilelet; try (destruct acc as [? ?]; cbn [fst snd]); destruct next; cbn [v_opt]; auto_;
    try (rewrite app_nil_r; reflexivity); rewrite ?adopt_opt; try match goal with |- _ = ?R1 => match R1 with context [iter_loop _ _ _ _ ?nx ?ac] => apply (IH k nx ac); [lia|eapply turns_next; eassumption] end end end end end.
Lemma r_is_alphabetic : forall p lf d b, (300 <= lf)%nat -> wf b -> call p G lf (S (S (S (S (S d))))) CRo "is_alphabetic" [v_cr b] = (let! t := cr_is_alphabetic p b in Ret (Some (VBool t, [v_cr b]))).
Proof.
  enter. unfold cr_is_alphabetic, LOOP_FUEL. auto_.
  iter_ (fun (next : option N) (acc : unit) => [("next", v_opt next); ("self", v_cr b)]) tt.
Qed.
Lemma r_is_bit5_insensitive : forall p lf d b, (300 <= lf)%nat -> wf b -> call p G lf (S (S (S (S (S d))))) CRo "is_bit5_insensitive" [v_cr b] = (let! t := cr_is_bit5_insensitive p b in Ret (Some (VBool t, [v_cr b]))).
Proof.
  enter. unfold cr_is_bit5_insensitive, LOOP_FUEL. auto_.
  iter_ (fun (next : option N) (acc : unit) => [("next", v_opt next); ("self", v_cr b)]) tt.
Qed.
Lemma r_fmt : forall p lf d b out, (300 <= lf)%nat -> wf b -> call p G lf (S (S (S (S (S d))))) CRo "fmt" [v_cr b; VStr out] = (let! t := cr_display p b in Ret (Some (ok_ VUnit, [v_cr b; VStr (out ++ t)]))).
Proof.
  enter. unfold cr_display, LOOP_FUEL. auto_.
  iter_ (fun (next : option N) (acc : str) => [("next", v_opt next); ("s", VStr acc); ("self", v_cr b); ("f", VStr out)]) (@nil N).
Qed.
Lemma r_make_and_cmp_mask : forall p lf d b, (300 <= lf)%nat -> wf b -> call p G lf (S (S (S (S (S d))))) None "make_and_cmp_mask" [v_cr b] = (let! (a, c) := make_and_cmp_mask p b in Ret (Some (VTuple [VInt U8 a; VInt U8 c], [v_cr b]))).
Proof.
  enter. unfold make_and_cmp_mask, LOOP_FUEL. auto_.
  iter_ (fun (next : option N) (acc : N * N) => [("next", v_opt next); ("hi", VInt U8 (snd acc)); ("lo", VInt U8 (fst acc)); ("cr", v_cr b)]) (255, 0).
Qed.
Lemma r_make_caseless : forall p lf d b, (300 <= lf)%nat -> call p G lf (S (S (S (S (S d))))) None "make_caseless" [v_cr b] = (let! b' := make_caseless p b in Ret (Some (VUnit, [v_cr b']))).
Proof.
  enter. unfold make_caseless. exe.
  match goal with |- ?L = ?R => match L with context C [loop ?p ?g ?o ?cf _ (WFor ?q _ ?bd) _] => match R with context D [make_caseless_loop _ _ _] =>
    enough (A : forall l' k c, (List.length l' < k)%nat ->
      ltac:(let t := context C [loop p g o cf k (WFor q (map (VInt U8) l') bd) [("cr", v_cr c)]] in exact t) =
      ltac:(let t := context D [make_caseless_loop p l' c] in exact t)); [apply (A (seqN 65 26)); cbn; lia|] end end end.
  induction l' as [|x l' IH]; intros k c Hk; (destruct k as [|k]; [exfalso; cbn in Hk; lia|]); cbn [map]; [rewrite turn_end; change (make_caseless_loop p [] c) with (Ret c); auto_|].
  rewrite turn_for. change (make_caseless_loop p (x :: l') c) with (let! t1 := cr_test p c x in
    let! hit := (if t1 then Ret true else cr_test p c (mytolower x)) in
    let! cr' :=
      (if hit : bool then
         let! cr1 := cr_set p c x in
         cr_set p cr1 (mytolower x)
       else Ret c) in
    make_caseless_loop p l' cr'). auto_; apply IH; cbn in Hk; lia.
Qed.
