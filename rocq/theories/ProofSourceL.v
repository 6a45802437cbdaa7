(** Runs of the source text: errors, classes and sequences of the parser. *)
From Verif Require Import Base ModelUtil ModelBitField ModelCharReach ModelParser ModelRust ModelInterp ModelDump ModelSource SpecSource.
From Verif Require Import ProofSourceA ProofSourceB ProofSourceC ProofSourceD ProofSourceE ProofSourceF.
Local Open Scope string_scope.
Local Open Scope N_scope.
Local Open Scope list_scope.
Notation seq_ ch a ci cn := (VStruct "ComponentSequence" [("children", VList ch); ("alternation", a); ("capture_index", ci); ("capture_name", cn)]).
Notation alt_ l := (VStruct "ComponentAlternation" [("children", VList l)]).
Notation cx_ ptr q mo l gi cs := (VStruct "Context" [("ptr", VStr ptr); ("p", VStr q); ("mode", mo); ("sequences", VList l); ("group_index", VInt U32 gi); ("current_seq", cs)]).
Notation Some_ v := (VCtor "Some" [v]).
Notation None_ := (VCtor "None" []).
Notation Ok_ v := (VCtor "Ok" [v]).
Notation Err_ v := (VCtor "Err" [v]).

Ltac known t ::= let H := fresh in
  eassert (H : t = _) by (cbv beta delta [some_ none_ ok_]; progress (autorewrite with calls); reflexivity); rewrite H; clear H.
Notation mo_ ml := (VStruct "ParseMode" ml).
Notation err_ k s i := (VStruct "CompileError" [("kind", VCtor k []); ("reason", VStr s); ("index", i)]).
Notation ac_ ml b := (VStruct "AsciiComponentClass" [("mode", VStruct "ParseMode" ml); ("cr", v_cr b)]).
Notation es_ q o ml := (VStruct "ExprState" [("seq", q); ("offset", VInt Usize o); ("mode", VStruct "ParseMode" ml)]).

Lemma l_err_new : forall p lf d k s, call p G lf (S d) (Some "CompileError") "new" [VCtor k []; VStr s] = Ret (Some (err_ k s None_, [VCtor k []; VStr s])).
Proof. pure_. Qed.
#[export] Hint Rewrite l_err_new : calls.
Lemma l_with_index : forall p lf d i s, call p G lf (S d) (Some "CompileError") "with_index" [VInt U32 i; VStr s] = Ret (Some (v_err (error_with_index i s), [VInt U32 i; VStr s])).
Proof. pure_. Qed.
Lemma l_set_index : forall p lf d e i, call p G lf (S d) (Some "CompileError") "set_expression_index" [v_err e; VInt U32 i] =
  (let! e' := set_expression_index p e i in Ret (Some (VUnit, [v_err e'; VInt U32 i]))).
Proof. enter. unfold v_err, set_expression_index, rs_debug_assert. destruct e as [k r [j|]]; cbn [err_kind err_reason err_index v_u32]; auto_. Qed.
Lemma l_es_new : forall p lf d ch a ci cn o ml, call p G lf (S d) (Some "ExprState") "new" [seq_ ch a ci cn; VInt Usize o; mo_ ml] = Ret (Some (es_ (seq_ ch a ci cn) o ml, [seq_ ch a ci cn; VInt Usize o; mo_ ml])).
Proof. pure_. Qed.
#[export] Hint Rewrite l_es_new : calls.
Lemma l_ac_new : forall p lf d ml, call p G lf (S d) (Some "AsciiComponentClass") "new" [mo_ ml] = Ret (Some (ac_ ml cr_default, [mo_ ml])).
Proof. pure_. Qed.
#[export] Hint Rewrite l_ac_new : calls.
#[export] Hint Rewrite r_make_caseless using lia : calls.
Lemma l_ac_add : forall p lf d nc ml b c, (300 <= lf)%nat ->
  call p G lf (S (S (S (S (S (S d)))))) (Some "AsciiComponentClass") "add" [ac_ (("caseless", VBool nc) :: ml) b; VInt U8 c] =
  (let! n := cr_from_char p c in let! n' := (if nc then make_caseless p n else Ret n) in
   Ret (Some (VUnit, [ac_ (("caseless", VBool nc) :: ml) (cr_or_assign b n'); VInt U8 c]))).
Proof. enter. auto_. Qed.
#[export] Hint Rewrite l_ac_add using lia : calls.
Lemma l_get_cc : forall p lf d ml, call p G lf (S (S d)) None "get_component_class" [mo_ ml] =
  Ret (Some (VCtor "ComponentClass::Ascii" [ac_ ml cr_default], [mo_ ml])).
Proof. enter. auto_. Qed.
#[export] Hint Rewrite l_get_cc : calls.
Lemma l_cc_add : forall p lf d nc ml b c, (300 <= lf)%nat ->
  call p G lf (S (S (S (S (S (S (S d))))))) (Some "ComponentClass") "add" [VCtor "ComponentClass::Ascii" [ac_ (("caseless", VBool nc) :: ml) b]; VChar c] =
  (if 255 <? c then Ret (Some (Err_ (err_ "ErrorKind::LocatedParse" (lit "Hexadecimal value is greater than \xFF") None_), [VCtor "ComponentClass::Ascii" [ac_ (("caseless", VBool nc) :: ml) b]; VChar c]))
   else let! n := cr_from_char p (cast 8 c) in let! n' := (if nc then make_caseless p n else Ret n) in
   Ret (Some (Ok_ VUnit, [VCtor "ComponentClass::Ascii" [ac_ (("caseless", VBool nc) :: ml) (cr_or_assign b n')]; VChar c]))).
Proof. enter. auto_. Qed.
#[export] Hint Rewrite l_cc_add using lia : calls.
Notation six nc := [("caseless", VBool nc); ("dotall", VBool false); ("ignore_space", VBool false); ("multiline", VBool false); ("ucp", VBool false); ("utf8", VBool false)].
Notation hex_err := (err_ "ErrorKind::LocatedParse" (lit "Hexadecimal value is greater than \xFF") None_).
Lemma l_lit : forall p lf d nc c, (300 <= lf)%nat ->
  call p G lf (S (S (S (S (S (S (S (S d)))))))) None "get_literal_component_class" [VChar c; VBool nc] =
  (if 255 <? c then Ret (Some (Err_ hex_err, [VChar c; VBool nc]))
   else let! n := cr_from_char p (cast 8 c) in let! n' := (if nc then make_caseless p n else Ret n) in
   Ret (Some (Ok_ (VCtor "ComponentClass::Ascii" [ac_ (six nc) (cr_or_assign cr_default n')]), [VChar c; VBool nc]))).
Proof. enter. auto_. Qed.
#[export] Hint Rewrite l_lit using lia : calls.
Lemma l_append : forall p lf d l ch a ci cn,
  call p G lf (S d) (Some "ComponentAlternation") "append" [alt_ l; seq_ ch a ci cn] =
  Ret (Some (VUnit, [alt_ (l ++ [seq_ ch a ci cn]); seq_ ch a ci cn])).
Proof. enter. auto_. Qed.
#[export] Hint Rewrite l_append : calls.
Lemma l_add_alt_some : forall p lf d ch l ci cn,
  call p G lf (S (S d)) (Some "ComponentSequence") "add_alternation" [seq_ ch (Some_ (alt_ l)) ci cn] =
  Ret (Some (VUnit, [seq_ [] (Some_ (alt_ (l ++ [seq_ ch None_ None_ None_]))) ci cn])).
Proof. enter. auto_. Qed.
Lemma l_add_alt_none : forall p lf d ch ci cn,
  call p G lf (S (S d)) (Some "ComponentSequence") "add_alternation" [seq_ ch None_ ci cn] =
  Ret (Some (VUnit, [seq_ [] (Some_ (alt_ [seq_ ch None_ None_ None_])) ci cn])).
Proof. enter. auto_. Qed.
#[export] Hint Rewrite l_add_alt_some l_add_alt_none : calls.
Lemma l_fin_none : forall p lf d ch ci cn,
  call p G lf (S (S (S d))) (Some "ComponentSequence") "finalize" [seq_ ch None_ ci cn] =
  Ret (Some (VUnit, [seq_ ch None_ ci cn])).
Proof. enter. auto_. Qed.
Lemma l_fin_some : forall p lf d ch l ci cn,
  call p G lf (S (S (S d))) (Some "ComponentSequence") "finalize" [seq_ ch (Some_ (alt_ l)) ci cn] =
  Ret (Some (VUnit, [seq_ [VCtor "Component::Alternation" [alt_ (l ++ [seq_ ch None_ None_ None_])]] None_ ci cn])).
Proof. enter. auto_. Qed.
#[export] Hint Rewrite l_fin_some l_fin_none : calls.
Lemma l_add_comp : forall p lf d ch a ci cn c v,
  call p G lf (S d) (Some "ComponentSequence") "add_component" [seq_ ch a ci cn; VCtor c v] =
  Ret (Some (VUnit, [seq_ (ch ++ [VCtor c v]) a ci cn; VCtor c v])).
Proof. enter. auto_. Qed.
#[export] Hint Rewrite l_add_comp : calls.
