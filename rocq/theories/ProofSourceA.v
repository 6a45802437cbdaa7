(** Runs of the source text: the evaluator tactics; point updates and the bitwise operators. *)
From Verif Require Import Base ModelUtil ModelBitField ModelRust ModelInterp ModelDump ModelSource SpecSource.
Local Open Scope string_scope.
Local Open Scope N_scope.
Local Open Scope list_scope.
Definition G := Eval vm_compute in util_program.

Strategy expand [exec evals fields arms block turned returning leaving apply_op apply_assign call_fn lift step].
Strategy 500 [bind bindv val_ stuck chk_add chk_sub chk_mul chk_shl cast bnot wrapping_add count_ones64 trailing_zeros64 leading_zeros64 seqN call loop].
Ltac lit_ a := lazymatch a with N0 => idtac | Npos _ => idtac end.
(** normal forms of values, scopes and tests: the arithmetic of the model stays as it is *)
Ltac norm t := eval cbn -[chk_add chk_sub chk_mul chk_shl cast bnot wrapping_add N.div N.modulo N.land N.lor N.lxor N.add N.sub N.mul N.pow N.eqb N.ltb N.leb
  count_ones64 trailing_zeros64 leading_zeros64 seqN N.of_nat N.to_nat usize_bits call loop eval G nthN updN fromN existsb show show_hex2 rs_assert str_eqb debug_assertions lit get_block put_block upd_block mask_bit get_word set_range_loop find_nth_loop drop_low_bits] in t.
Ltac to_panic t w := let T := type of t in let T' := eval hnf in T in lazymatch T' with outcome ?B => change t with (@Panic B w) end.
Ltac to_diverge t := let T := type of t in let T' := eval hnf in T in lazymatch T' with outcome ?B => change t with (@Diverge B) end.
Ltac beta1 t k x := let r := eval cbv beta in (k x) in change t with r.
Ltac beta2 t k x y := let x' := norm x in let y' := norm y in let r := eval cbv beta in (k x' y') in change t with r.
Ltac to t r := progress (change t with r).
Ltac is_done x := lazymatch x with
  | true => idtac | false => idtac | inl _ => idtac | inr _ => idtac | Some _ => idtac | None => idtac | Ret _ => idtac
  | VInt _ _ => idtac | VLit _ => idtac | VBool _ => idtac | VChar _ => idtac | VStr _ => idtac | VTuple _ => idtac | VList _ => idtac
  | VStruct _ _ => idtac | VCtor _ _ => idtac | VRange _ _ _ => idtac | VBorrowed => idtac
  | @nil _ => idtac | @cons _ _ _ => idtac | (_, _) => idtac | O => idtac | S _ => idtac | N0 => idtac | Npos _ => idtac
  | U8 => idtac | U16 => idtac | U32 => idtac | U64 => idtac | Usize => idtac
  end.
Ltac known t := let H := fresh in
  eassert (H : t = _) by (progress (autorewrite with calls); reflexivity); rewrite H; clear H.
Ltac test_ x a b := lazymatch a with N0 => lazymatch b with N0 => eval vm_compute in x | Npos _ => eval vm_compute in x | _ => norm x end
  | Npos _ => lazymatch b with N0 => eval vm_compute in x | Npos _ => eval vm_compute in x | _ => norm x end | _ => norm x end.
Ltac at_ t l n := lit_ n; let r := eval lazy beta iota delta [nthN N.eqb N.pred Pos.pred_N Pos.pred_double Pos.eqb] in (nthN l n) in lazymatch r with Some ?v => change t with (Ret (Some v)) | None => to_panic t PIndex end.
Ltac put_ t l n u := lit_ n; let r := eval lazy beta iota delta [updN N.eqb N.pred Pos.pred_N Pos.pred_double Pos.eqb] in (updN l n u) in lazymatch r with Some ?v => change t with (Ret (Some (VList v))) | None => to_panic t PIndex end.
Ltac from_ t l n := lit_ n; let r := eval lazy beta iota delta [fromN N.eqb N.pred Pos.pred_N Pos.pred_double Pos.eqb] in (fromN l n) in lazymatch r with Some ?v => change t with (Ret (Some (VList v))) | None => to_panic t PIndex end.
Ltac refold x r := lazymatch x with v_bf _ => eval fold x in r | v_cr _ => eval fold x in r | _ => r end.
Ltac step_ t :=
  lazymatch t with
  | bind ?m ?k =>
    lazymatch m with
    | Ret ?x => beta1 t k x
    | val_ ?v ?s => beta1 t k (Some (FVal v, s))
    | stuck => beta1 t k (@None (flow * env))
    | Panic ?w => to_panic t w
    | Diverge => to_diverge t
    | _ => step_ m
    end
  | bindv ?m ?k =>
    lazymatch m with
    | val_ ?v ?s => beta2 t k v s
    | Ret (Some (FVal ?v, ?s)) => beta2 t k v s
    | Ret _ => change t with m
    | stuck => change t with m
    | Panic ?w => to_panic t w
    | Diverge => to_diverge t
    | _ => step_ m
    end
  | lift ?m ?k => let r := eval cbv beta delta [lift] in t in change t with r
  | eval ?p ?g ?o ?c ?l ?e ?s => let r := eval cbv beta iota delta [step] in (step p g o c l (eval p g o c l) e s) in change t with r
  | exec ?ev [] ?s => change t with (val_ VUnit s)
  | exec ?ev (SLet ?q ?y (Some ?x) :: ?r) ?s =>
    change t with (bindv (ev x s) (fun v s1 => match pmatch q (match y with Some t' => coerce t' v | None => v end) s1 with Some s2 => exec ev r s2 | None => stuck end))
  | exec ?ev (SExpr ?x :: ?r) ?s => change t with (bindv (ev x s) (fun _ s1 => exec ev r s1))
  | exec ?ev (SLast ?x :: _) ?s => change t with (ev x s)
  | evals ?ev [] ?s ?k => let r := eval cbv beta in (k [] s) in change t with r
  | evals ?ev (?x :: ?l) ?s ?k => change t with (bindv (ev x s) (fun v s1 => evals ev l s1 (fun vs s2 => k (v :: vs) s2)))
  | fields ?ev ?n [] ?s ?acc => let r := norm (val_ (VStruct n (rev acc)) s) in change t with r
  | fields ?ev ?n ((?f, ?x) :: ?l) ?s ?acc => change t with (bindv (ev x s) (fun v s1 => fields ev n l s1 ((f, v) :: acc)))
  | block ?ev ?b ?o ?s => change t with (bind (exec ev b s) (leaving o))
  | leaving _ _ => let r := norm t in to t r
  | turned _ _ _ => let r := eval cbn [turned leave List.length skipn Nat.sub] in t in to t r
  | returning _ _ => let r := norm t in to t r
  | arms ?ev ?pl ((?qs, None, ?x) :: ?l) ?v ?s =>
    change t with (match match_any qs v s with Some s2 => bind (ev x s2) (matched pl qs v s) | None => arms ev pl l v s end)
  | foreign _ _ _ _ _ _ _ => let r := eval cbv beta iota delta [foreign] in t in change t with r
  | converted _ _ _ _ _ _ => let r := eval cbv beta iota delta [converted] in t in change t with r
  | matched _ _ _ _ _ => let r := norm t in to t r
  | returned _ _ _ _ => let r := norm t in to t r
  | exec ?ev (SRef ?x ?e :: ?r) ?s => change t with (lend x e (exec ev r) s)
  | lend _ _ _ _ => let r := eval cbv beta delta [lend] in t in change t with r
  | lent _ _ _ _ => let r := norm t in to t r
  | special _ _ _ _ _ _ => let r := eval cbv beta delta [special] in t in change t with r
  | with_ _ _ _ _ _ _ _ _ => let r := eval cbv beta delta [with_] in t in change t with r
  | applied _ _ _ _ _ _ => let r := eval cbv beta delta [applied] in t in change t with r
  | found _ _ _ [] _ ?s ?k => let r := eval cbv beta in (k None s) in change t with r
  | found ?ev ?ps ?b (?v :: ?l) ?i ?s ?k => change t with (applied ev ps b [v] s (fun r s1 => match r with VBool true => k (Some (i, v)) s1 | VBool false => found ev ps b l (i + 1) s1 k | _ => stuck end))
  | graph_method _ _ _ => let r := eval cbv beta delta [graph_method] in t in change t with r
  | call_fn ?g ?c ?o ?f ?args ?vs ?s =>
    let d := eval vm_compute in (find_fn g o f) in
    lazymatch d with
    | Some (Fn _ _ ?ps _ _) => change t with (bind (c o f vs) (fun r =>
        match r with
        | Some (v, outs) => match copy_back g ps args outs s with Some s' => val_ v s' | None => stuck end
        | None => stuck
        end))
    end
  | apply_op _ _ _ _ _ _ => let r := eval cbv beta iota delta [apply_op op_method] in t in to t r
  | apply_assign _ _ _ _ _ => let r := eval cbv beta iota delta [apply_assign op_method String.append] in t in to t r
  | val_ _ _ => fail
  | Ret _ => fail
  | call _ _ _ _ _ _ _ => known t
  | match ?x with _ => _ end =>
    let x' := lazymatch x with
      | find_fn _ _ _ => eval vm_compute in x
      | default_ty _ _ _ => eval vm_compute in x
      | find_from _ _ => eval vm_compute in x
      | ModelRust.is_upper _ => eval vm_compute in x
      | ?a =? ?b => test_ x a b
      | ?a <? ?b => test_ x a b
      | ?a <=? ?b => test_ x a b
      | v_bf _ => eval cbv beta delta [v_bf] in x
      | format_ _ _ _ => eval cbv -[show show_hex2 app] in x
      | some_ _ => eval cbv beta delta [some_] in x
      | ok_ _ => eval cbv beta delta [ok_] in x
      | none_ => eval cbv beta delta [none_] in x
      | v_cr _ => eval cbv beta delta [v_cr] in x
      | _ => norm x end in
    is_done x';
    let f := eval pattern x in t in
    lazymatch f with ?f' _ => let r := eval cbv beta iota in (f' x') in let r' := refold x r in change t with r' end
  | index (VList ?l) (VInt Usize ?n) => first [ at_ t l n | known t ]
  | index (VList ?l) (VLit ?n) => at_ t l n
  | index (VList ?l) (VCtor "RangeFrom" [VInt Usize ?n]) => from_ t l n
  | first_nonzero _ ?i _ => lit_ i; let r := eval cbv beta iota delta [first_nonzero w0 w1 w2 w3 skipn N.to_nat Pos.to_nat Pos.iter_op Nat.add bit_index BLOCK_SIZE] in t in change t with r
  | get_block ?b ?n => lit_ n; let r := eval cbv beta iota delta [get_block w0 w1 w2 w3] in t in change t with r
  | set_index (VList ?l) (VInt Usize ?n) ?u => first [ put_ t l n u | known t ]
  | set_index (VList ?l) (VLit ?n) ?u => put_ t l n u
  | rs_assert _ => let r := eval cbv beta delta [rs_assert] in t in change t with r
  | loop _ _ _ _ _ _ _ => fail
  | chk_add _ ?w ?a ?b => lit_ w; lit_ a; lit_ b; let r := eval vm_compute in t in change t with r
  | chk_sub _ ?w ?a ?b => lit_ w; lit_ a; lit_ b; let r := eval vm_compute in t in change t with r
  | chk_mul _ ?w ?a ?b => lit_ w; lit_ a; lit_ b; let r := eval vm_compute in t in change t with r
  | chk_shl _ ?w ?a ?b => lit_ w; lit_ a; lit_ b; let r := eval vm_compute in t in change t with r
  | _ => let r := norm t in to t r
  end.
Ltac lhs := match goal with |- ?L = _ => step_ L end.
Ltac rhs := match goal with |- _ = ?R => step_ R end.
(** enter the function called *)
Lemma call_S : forall p lf d o f fd vs, find_fn G o f = Some fd ->
  call p G lf (S d) o f vs =
      match bind_params (fn_params fd) vs with
      | None => Ret None
      | Some s => bind (eval p G (fn_owner fd) (call p G lf d) (loop p G (fn_owner fd) (call p G lf d) lf) (EBlock (fn_body fd)) s) (returning (fn_ret fd))
      end.
Proof. intros. cbn [call]. rewrite H. reflexivity. Qed.
Ltac enter := intros; lazymatch goal with
  | |- call _ G _ (S _) ?o ?f _ = _ =>
     let d := eval vm_compute in (find_fn G o f) in
     lazymatch d with Some ?d => rewrite (call_S _ _ _ o f d) by (vm_cast_no_check (eq_refl (Some d))) end
  end; cbn [fn_owner fn_body fn_ret fn_params].
(** what the computation waits for *)
Ltac bool_ c := lazymatch c with
  | negb ?x => bool_ x | andb ?x _ => bool_ x | orb ?x _ => bool_ x | Bool.eqb ?x _ => bool_ x
  | (if ?x then _ else _) => bool_ x
  | _ => constr:(c) end.
Ltac waits t := lazymatch t with
  | bind ?m _ => waits m | bindv ?m _ => waits m | lift ?m _ => waits m
  | match ?x with _ => _ end => bool_ x
  | _ => constr:(t) end.
Ltac split_ n := first [ match goal with H : n = _ |- _ => rewrite H end | destruct n eqn:? ].
Ltac case_ := match goal with |- ?L = _ => let n := waits L in
  lazymatch n with
  | call _ _ _ _ _ _ _ => fail 1 "call" n | loop _ _ _ _ _ _ _ => fail 1 "loop" | index _ _ => fail 1 "index" | set_index _ _ _ => fail 1 "index" | Ret _ => fail 1 "done" | Panic _ => fail 1 | Diverge => fail 1 | val_ _ _ => fail 1 | stuck => fail 1
  | _ => let T := type of n in lazymatch T with
    | bool => split_ n | outcome _ => split_ n | option N => split_ n end end end.
Ltac exe := repeat lhs; repeat rhs.
Ltac fin := lazymatch goal with |- Ret _ = Ret _ => first [reflexivity | idtac] | |- Panic _ = Panic _ => reflexivity | |- Diverge = Diverge => reflexivity | _ => idtac end.
(* closed arithmetic *)
Ltac ground1 := match goal with
  | |- context [?a + ?b] => lit_ a; lit_ b; let r := eval vm_compute in (a + b) in change (a + b) with r
  | |- context [?a - ?b] => lit_ a; lit_ b; let r := eval vm_compute in (a - b) in change (a - b) with r
  | |- context [cast ?a ?b] => lit_ a; lit_ b; let r := eval vm_compute in (cast a b) in change (cast a b) with r
  end.
Ltac ground := repeat ground1.
Ltac auto_ := exe; fin; try first [ground1; auto_ | case_; auto_].

Lemma c_block_size : forall p lf d, call p G lf (S d) None "BLOCK_SIZE" [] = Ret (Some (VInt U8 64, [])).
Proof. enter. auto_. Qed.
Lemma c_all_ones : forall p lf d, call p G lf (S d) None "ALL_ONES" [] = Ret (Some (VInt U64 ALL_ONES, [])).
Proof. enter. auto_. Qed.
#[export] Hint Rewrite c_block_size c_all_ones : calls.
Lemma c_get_word : forall p lf d n, call p G lf (S (S d)) BFo "get_word" [VInt U8 n] = Ret (Some (VInt U8 (get_word n), [VInt U8 n])).
Proof. enter. auto_. Qed.
Lemma c_mask_bit : forall p lf d n, call p G lf (S (S d)) BFo "mask_bit" [VInt U8 n] = (let! m := mask_bit p n in Ret (Some (VInt U64 m, [VInt U8 n]))).
Proof. enter. unfold mask_bit, BLOCK_SIZE. auto_. Qed.
#[export] Hint Rewrite c_get_word c_mask_bit : calls.

Lemma nth4 : forall a b c d, nthN [a; b; c; d] 0 = Some a /\ nthN [a; b; c; d] 1 = Some b /\ nthN [a; b; c; d] 2 = Some c /\ nthN [a; b; c; d] 3 = Some d.
Proof. repeat split. Qed.
Lemma get_block_big : forall b k, 4 <= k -> get_block b k = Panic PIndex.
Proof. intros b k H. unfold get_block. destruct k as [|[[[]|[]|]|[[]|[]|]|]]; try reflexivity; lia. Qed.
Lemma put_block_big : forall b k x, 4 <= k -> put_block b k x = Panic PIndex.
Proof. intros b k x H. unfold put_block. destruct k as [|[[[]|[]|]|[[]|[]|]|]]; try reflexivity; lia. Qed.
Lemma nth_big : forall a b c d k, 4 <= k -> nthN [a; b; c; d] k = None.
Proof. intros. cbn [nthN]. repeat (match goal with |- context [?x =? 0] => destruct (N.eqb_spec x 0); [lia|] end). reflexivity. Qed.
Lemma four : forall k : N, k = 0 \/ k = 1 \/ k = 2 \/ k = 3 \/ 4 <= k.
Proof. intro. lia. Qed.

Lemma index4 : forall a b c d k, index (VList [VInt U64 a; VInt U64 b; VInt U64 c; VInt U64 d]) (VInt Usize k) = (let! x := get_block (BF a b c d) k in Ret (Some (VInt U64 x))).
Proof.
  intros. destruct (four k) as [->|[->|[->|[->|H]]]]; try reflexivity.
  rewrite get_block_big by exact H. unfold index. rewrite nth_big by exact H. reflexivity.
Qed.
Lemma set_index4 : forall a b c d k u, set_index (VList [VInt U64 a; VInt U64 b; VInt U64 c; VInt U64 d]) (VInt Usize k) (VInt U64 u) =
  (let! x := put_block (BF a b c d) k u in Ret (Some (VList [VInt U64 (w0 x); VInt U64 (w1 x); VInt U64 (w2 x); VInt U64 (w3 x)]))).
Proof.
  intros. destruct (four k) as [->|[->|[->|[->|H]]]]; try reflexivity.
  rewrite put_block_big by exact H. unfold set_index. cbn [updN].
  repeat (match goal with |- context [?x =? 0] => destruct (N.eqb_spec x 0); [lia|] end). reflexivity.
Qed.
#[export] Hint Rewrite index4 set_index4 : calls.
Ltac hnf_bf b := destruct b as [? ? ? ?]; unfold v_bf; cbn [w0 w1 w2 w3].
Lemma c_set : forall p lf d b n, call p G lf (S (S (S d))) BFo "set" [v_bf b; VInt U8 n] = (let! b' := bf_set p b n in Ret (Some (VUnit, [v_bf b'; VInt U8 n]))).
Proof. enter. hnf_bf b. unfold bf_set, upd_block. auto_. Qed.
Lemma c_reset : forall p lf d b n, call p G lf (S (S (S d))) BFo "reset" [v_bf b; VInt U8 n] = (let! b' := bf_reset p b n in Ret (Some (VUnit, [v_bf b'; VInt U8 n]))).
Proof. enter. hnf_bf b. unfold bf_reset, upd_block. auto_. Qed.
Lemma c_flip : forall p lf d b n, call p G lf (S (S (S d))) BFo "flip" [v_bf b; VInt U8 n] = (let! b' := bf_flip p b n in Ret (Some (VUnit, [v_bf b'; VInt U8 n]))).
Proof. enter. hnf_bf b. unfold bf_flip, upd_block. auto_. Qed.
Lemma c_test : forall p lf d b n, call p G lf (S (S (S d))) BFo "test" [v_bf b; VInt U8 n] = (let! t := bf_test p b n in Ret (Some (VBool t, [v_bf b; VInt U8 n]))).
Proof. enter. hnf_bf b. unfold bf_test, upd_block. auto_. Qed.
#[export] Hint Rewrite c_set c_reset c_flip c_test : calls.
Ltac pure_ := enter; auto_.
Lemma c_reset_all : forall p lf d b, call p G lf (S d) BFo "reset_all" [v_bf b] = Ret (Some (VUnit, [v_bf (bf_reset_all b)])).
Proof. pure_. Qed.
Lemma c_set_all : forall p lf d b, call p G lf (S (S d)) BFo "set_all" [v_bf b] = Ret (Some (VUnit, [v_bf (bf_set_all b)])).
Proof. pure_. Qed.
Lemma c_flip_all : forall p lf d b, call p G lf (S d) BFo "flip_all" [v_bf b] = Ret (Some (VUnit, [v_bf (bf_flip_all b)])).
Proof. pure_. Qed.
Lemma c_and_assign : forall p lf d b a, call p G lf (S d) BFo "bitand_assign" [v_bf b; v_bf a] = Ret (Some (VUnit, [v_bf (bf_and_assign b a); v_bf a])).
Proof. pure_. Qed.
Lemma c_or_assign : forall p lf d b a, call p G lf (S d) BFo "bitor_assign" [v_bf b; v_bf a] = Ret (Some (VUnit, [v_bf (bf_or_assign b a); v_bf a])).
Proof. pure_. Qed.
Lemma c_xor_assign : forall p lf d b a, call p G lf (S d) BFo "bitxor_assign" [v_bf b; v_bf a] = Ret (Some (VUnit, [v_bf (bf_xor_assign b a); v_bf a])).
Proof. pure_. Qed.
Lemma c_bfnot : forall p lf d b, call p G lf (S d) BFo "not" [v_bf b] = Ret (Some (v_bf (bf_not b), [v_bf (bf_not b)])).
Proof. pure_. Qed.
#[export] Hint Rewrite c_reset_all c_set_all c_flip_all c_and_assign c_or_assign c_xor_assign c_bfnot : calls.
Lemma c_and : forall p lf d a b, call p G lf (S (S d)) BFo "bitand" [v_bf a; v_bf b] = Ret (Some (v_bf (bf_and a b), [v_bf a; v_bf b])).
Proof. pure_.  Qed.
Lemma c_or : forall p lf d a b, call p G lf (S (S d)) BFo "bitor" [v_bf a; v_bf b] = Ret (Some (v_bf (bf_or a b), [v_bf a; v_bf b])).
Proof. pure_. Qed.
Lemma c_xor : forall p lf d a b, call p G lf (S (S d)) BFo "bitxor" [v_bf a; v_bf b] = Ret (Some (v_bf (bf_xor a b), [v_bf a; v_bf b])).
Proof. pure_. Qed.
#[export] Hint Rewrite c_and c_or c_xor : calls.
