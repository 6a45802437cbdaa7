(** Runs of the source text: nom parsers, literals and the context. *)
From Verif Require Import Base ModelUtil ModelBitField ModelCharReach ModelParser ModelRust ModelInterp ModelDump ModelSource SpecSource.
From Verif Require Import ProofSourceA ProofSourceB ProofSourceC ProofSourceD ProofSourceE ProofSourceF ProofSourceL.
Local Open Scope string_scope.
Local Open Scope N_scope.
Local Open Scope list_scope.
Lemma parser_take : forall s, parser (VCtor "take" [VInt Usize 1]) s = Some (match s with [] => None | c :: r => Some (r, VStr [c]) end).
Proof. intros [|c r]; [reflexivity|]. unfold parser. cbn [String.eqb Ascii.eqb Bool.eqb List.length N.of_nat N.to_nat]. destruct (N.ltb_spec (N.of_nat (S (List.length r))) 1); [lia|reflexivity]. Qed.
Lemma parser_char_nil : forall c, parser (VCtor "char" [VChar c]) [] = Some None.
Proof. reflexivity. Qed.
Lemma parser_char_cons : forall c x t, parser (VCtor "char" [VChar c]) (x :: t) = Some (if x =? c then Some (t, VChar c) else None).
Proof. reflexivity. Qed.
Lemma until_span : forall c s, until [c] s = span_not c s.
Proof. intros c s. induction s as [|x s IH]; [reflexivity|]. cbn [until span_not existsb]. rewrite orb_false_r, IH. reflexivity. Qed.
Lemma strip_tag : forall t s, strip_prefix t s = nom_tag t s.
Proof. induction t as [|x t IH]; intros [|y s]; cbn [strip_prefix nom_tag]; rewrite ?IH; reflexivity. Qed.
Lemma parser_verb : forall s, parser (VCtor "delimited" [VCtor "tag" [VStr (lit "(*")]; VCtor "is_not" [VStr (lit ")")]; VCtor "char" [VChar 41]]) s =
  Some (match control_verb s with Some (r, v) => Some (r, VStr v) | None => None end).
Proof.
  intros s. unfold control_verb, nom_is_not. cbn [parser String.eqb Ascii.eqb Bool.eqb]. rewrite strip_tag.
  change (lit ")") with [41]. destruct (nom_tag (lit "(*") s) as [s1|]; [|reflexivity].
  rewrite until_span. destruct (span_not 41 s1) as [[|a v] b]; [reflexivity|].
  destruct b as [|y b]; [reflexivity|]. cbn [nom_char]. destruct (y =? 41); reflexivity.
Qed.
Arguments parser v s : simpl never.
Lemma l_control_verb : forall p lf d s, call p G lf (S d) None "control_verb" [VStr s] =
  Ret (Some (match control_verb s with Some (r, v) => Ok_ (VTuple [VStr r; VStr v]) | None => Err_ VUnit end, [VStr s])).
Proof.
  enter. repeat lhs. change [40; 42] with (lit "(*"). change (VStr [41]) with (VStr (lit ")")). rewrite parser_verb.
  destruct (control_verb s) as [[r v]|]; auto_.
Qed.
Lemma l_from_class : forall p lf d c v, call p G lf (S d) (Some "Component") "from<ComponentClass>" [VCtor c v] = Ret (Some (VCtor "Component::Class" [VCtor c v], [VCtor c v])).
Proof. enter. auto_. Qed.
Lemma l_from_seq : forall p lf d ch a ci cn, call p G lf (S d) (Some "Component") "from<ComponentSequence>" [seq_ ch a ci cn] = Ret (Some (VCtor "Component::Sequence" [seq_ ch a ci cn], [seq_ ch a ci cn])).
Proof. enter. auto_. Qed.
#[export] Hint Rewrite l_from_class l_from_seq : calls.
Lemma l_add_lit : forall p lf d ch a ci cn c nc ml, (300 <= lf)%nat ->
  call p G lf (S (S (S (S (S (S (S (S (S d))))))))) None "add_literal" [seq_ ch a ci cn; VChar c; mo_ (("caseless", VBool nc) :: ml)] =
  (if 255 <? c then Ret (Some (Err_ hex_err, [seq_ ch a ci cn; VChar c; mo_ (("caseless", VBool nc) :: ml)]))
   else let! n := cr_from_char p (cast 8 c) in let! n' := (if nc then make_caseless p n else Ret n) in
   Ret (Some (Ok_ VUnit, [seq_ (ch ++ [VCtor "Component::Class" [VCtor "ComponentClass::Ascii" [ac_ (six nc) (cr_or_assign cr_default n')]]]) a ci cn; VChar c; mo_ (("caseless", VBool nc) :: ml)]))).
Proof. enter. auto_. Qed.
#[export] Hint Rewrite l_add_lit using lia : calls.
Lemma l_take_any : forall p lf d s, call p G lf (S d) None "take_any" [VStr s] =
  Ret (Some (match s with [] => Err_ VUnit | c :: r => Ok_ (VTuple [VStr r; VChar c]) end, [VStr s])).
Proof. enter. repeat lhs. rewrite parser_take. destruct s as [|c r]; auto_. Qed.
Lemma l_take_nil : forall p lf d, call p G lf (S d) None "take_any" [VStr []] = Ret (Some (Err_ VUnit, [VStr []])).
Proof. intros. apply l_take_any. Qed.
Lemma l_take_cons : forall p lf d c r, call p G lf (S d) None "take_any" [VStr (c :: r)] = Ret (Some (Ok_ (VTuple [VStr r; VChar c]), [VStr (c :: r)])).
Proof. intros. apply l_take_any. Qed.
#[export] Hint Rewrite l_take_nil l_take_cons : calls.
Lemma l_cx_new : forall p lf d a b ml, call p G lf (S (S d)) (Some "Context") "new" [VStr a; VStr b; mo_ ml] =
  Ret (Some (cx_ a b (mo_ ml) [] 1 (seq_ [] None_ (Some_ (VInt U32 0)) None_), [VStr a; VStr b; mo_ ml])).
Proof. enter. auto_. Qed.
#[export] Hint Rewrite l_cx_new : calls.
Lemma l_push : forall p lf d ptr q ml l gi ch a ci cn ts,
  call p G lf (S (S d)) (Some "Context") "push_sequence" [cx_ ptr q (mo_ ml) l gi (seq_ ch a ci cn); VStr ts] =
  (let! gi' := chk_add p 32 gi 1 in let! off := chk_sub p (usize_bits p) (str_len ts) (str_len ptr) in
   Ret (Some (VUnit, [cx_ ptr q (mo_ ml) (l ++ [es_ (seq_ ch a ci cn) off ml]) gi' (seq_ [] None_ (Some_ (VInt U32 gi)) None_); VStr ts]))).
Proof. enter. auto_. Qed.
#[export] Hint Rewrite l_push : calls.
Lemma l_enter : forall p lf d ptr q ml l gi ch a ci cn ts,
  call p G lf (S (S (S d))) (Some "Context") "enter_capturing_group" [cx_ ptr q (mo_ ml) l gi (seq_ ch a ci cn); VStr ts] =
  (let! gi' := chk_add p 32 gi 1 in let! off := chk_sub p (usize_bits p) (str_len ts) (str_len ptr) in
   Ret (Some (VUnit, [cx_ ptr q (mo_ ml) (l ++ [es_ (seq_ ch a ci cn) off ml]) gi' (seq_ [] None_ (Some_ (VInt U32 gi)) None_); VStr ts]))).
Proof. enter. auto_. Qed.
#[export] Hint Rewrite l_enter : calls.
Lemma l_main_nil : forall p lf d cx,
  call p G lf (S (S (S (S (S (S (S (S (S (S d)))))))))) (Some "Context") "main" [v_cx cx; VStr []] = Ret (Some (Ok_ VUnit, [v_cx cx; VStr []])).
Proof. enter. destruct cx as [ptr q m l gi cur]. cbv beta iota delta [v_cx v_mode cx_ptr cx_p cx_mode cx_sequences cx_group_index cx_current]. repeat (repeat lhs; rewrite ?parser_char_nil). auto_. Qed.
