(** C90, C91: the text of six source files, read by the parser of ModelRust.v and run by the
    interpreter of ModelInterp.v. *)
From Verif Require Import Base ModelUtil ModelBitField ModelCharReach ModelDump ModelRust ModelInterp ModelSource
  SpecSet SpecDump SpecSource ProofBitField ProofBitField2 ProofCharReach ProofDump
  ProofSourceA ProofSourceB ProofSourceC ProofSourceD ProofSourceE ProofSourceF ProofSourceG ProofSourceH ProofSourceI ProofSourceJ ProofSourceK
  PropSet PropDump PropMisc.
Local Open Scope string_scope.
Local Open Scope N_scope.
Local Open Scope list_scope.

Lemma program_is : util_program = G.
Proof. vm_compute. reflexivity. Qed.
Ltac run_ H := intros; intros turns depth Hturns Hdepth; rewrite program_is; do 12 (destruct depth as [|depth]; [lia|]); rewrite H by (assumption || lia); reflexivity.
Ltac run_e H E := intros; intros turns depth Hturns Hdepth; rewrite program_is; do 12 (destruct depth as [|depth]; [lia|]); rewrite H by (assumption || lia); rewrite E; reflexivity.

(** ** C90 *)
(** Nothing of the texts is skipped: they parse. *)
Theorem C90_parses : exists l, read sources = Some l /\ util_program = linked targets lent_out (aliases l) (typed (collect inferred l)) /\ List.length (pr_fns util_program) = 274%nat.
Proof. eexists. split; [vm_compute; reflexivity|]. split; [|rewrite program_is]; vm_compute; reflexivity. Qed.

(** bitfield.rs *)
Theorem C90_bitfield : forall p,
  (runs p 300 None "BLOCK_SIZE" []
     (Ret (Some (VInt U8 64, [])))) /\
  (runs p 300 None "ALL_ONES" []
     (Ret (Some (VInt U64 ALL_ONES, [])))) /\
  (forall n, runs p 300 BFo "get_word" [VInt U8 n]
     (Ret (Some (VInt U8 (get_word n), [VInt U8 n])))) /\
  (forall n, runs p 300 BFo "mask_bit" [VInt U8 n]
     (let! m := mask_bit p n in Ret (Some (VInt U64 m, [VInt U8 n])))) /\
  (forall b n, runs p 300 BFo "set" [v_bf b; VInt U8 n]
     (let! b' := bf_set p b n in Ret (Some (VUnit, [v_bf b'; VInt U8 n])))) /\
  (forall b n, runs p 300 BFo "reset" [v_bf b; VInt U8 n]
     (let! b' := bf_reset p b n in Ret (Some (VUnit, [v_bf b'; VInt U8 n])))) /\
  (forall b n, runs p 300 BFo "flip" [v_bf b; VInt U8 n]
     (let! b' := bf_flip p b n in Ret (Some (VUnit, [v_bf b'; VInt U8 n])))) /\
  (forall b n, runs p 300 BFo "test" [v_bf b; VInt U8 n]
     (let! t := bf_test p b n in Ret (Some (VBool t, [v_bf b; VInt U8 n])))) /\
  (forall b, runs p 300 BFo "reset_all" [v_bf b]
     (Ret (Some (VUnit, [v_bf (bf_reset_all b)])))) /\
  (forall b, runs p 300 BFo "set_all" [v_bf b]
     (Ret (Some (VUnit, [v_bf (bf_set_all b)])))) /\
  (forall b, runs p 300 BFo "flip_all" [v_bf b]
     (Ret (Some (VUnit, [v_bf (bf_flip_all b)])))) /\
  (forall b a, runs p 300 BFo "bitand_assign" [v_bf b; v_bf a]
     (Ret (Some (VUnit, [v_bf (bf_and_assign b a); v_bf a])))) /\
  (forall b a, runs p 300 BFo "bitor_assign" [v_bf b; v_bf a]
     (Ret (Some (VUnit, [v_bf (bf_or_assign b a); v_bf a])))) /\
  (forall b a, runs p 300 BFo "bitxor_assign" [v_bf b; v_bf a]
     (Ret (Some (VUnit, [v_bf (bf_xor_assign b a); v_bf a])))) /\
  (forall b, runs p 300 BFo "not" [v_bf b]
     (Ret (Some (v_bf (bf_not b), [v_bf (bf_not b)])))) /\
  (forall a b, runs p 300 BFo "bitand" [v_bf a; v_bf b]
     (Ret (Some (v_bf (bf_and a b), [v_bf a; v_bf b])))) /\
  (forall a b, runs p 300 BFo "bitor" [v_bf a; v_bf b]
     (Ret (Some (v_bf (bf_or a b), [v_bf a; v_bf b])))) /\
  (forall a b, runs p 300 BFo "bitxor" [v_bf a; v_bf b]
     (Ret (Some (v_bf (bf_xor a b), [v_bf a; v_bf b])))) /\
  (forall b, runs p 300 BFo "none" [v_bf b]
     (Ret (Some (VBool (bf_none b), [v_bf b])))) /\
  (forall b, runs p 300 BFo "all" [v_bf b]
     (Ret (Some (VBool (bf_all b), [v_bf b])))) /\
  (forall b, runs p 300 BFo "any" [v_bf b]
     (Ret (Some (VBool (bf_any b), [v_bf b])))) /\
  (forall b, runs p 300 BFo "find_first" [v_bf b]
     (let! r := bf_find_first p b in Ret (Some (v_opt r, [v_bf b])))) /\
  (forall b, runs p 300 BFo "find_last" [v_bf b]
     (let! r := bf_find_last p b in Ret (Some (v_opt r, [v_bf b])))) /\
  (forall b n, runs p 300 BFo "find_next" [v_bf b; VInt U8 n]
     (let! r := bf_find_next p b n in Ret (Some (v_opt r, [v_bf b; VInt U8 n])))) /\
  (forall b, runs p 300 BFo "count" [v_bf b]
     (Ret (Some (VInt U32 (bf_count b), [v_bf b])))) /\
  (forall b n, n < 256 -> runs p 300 BFo "find_nth" [v_bf b; VInt U8 n]
     (let! r := bf_find_nth p b n in Ret (Some (v_opt r, [v_bf b; VInt U8 n])))) /\
  (forall b x y, x < 256 -> y < 256 -> runs p 300 BFo "set_range" [v_bf b; VInt U8 x; VInt U8 y]
     (let! b' := bf_set_range p b x y in Ret (Some (VUnit, [v_bf b'; VInt U8 x; VInt U8 y])))).
Proof.
  intro p. split; [run_ c_block_size|]. split; [run_ c_all_ones|]. split; [run_ c_get_word|]. split; [run_ c_mask_bit|]. split; [run_ c_set|]. split; [run_ c_reset|]. split; [run_ c_flip|]. split; [run_ c_test|]. split; [run_ c_reset_all|]. split; [run_ c_set_all|]. split; [run_ c_flip_all|]. split; [run_ c_and_assign|]. split; [run_ c_or_assign|]. split; [run_ c_xor_assign|]. split; [run_ c_bfnot|]. split; [run_ c_and|]. split; [run_ c_or|]. split; [run_ c_xor|]. split; [run_ c_none|]. split; [run_ c_all|]. split; [run_ c_any|]. split; [run_ c_find_first|]. split; [run_ c_find_last|]. split; [run_ c_find_next|]. split; [run_ c_count|]. split; [run_ c_find_nth|]. run_ c_set_range.
Qed.

(** ue2common.rs, compare.rs and unicode_def.rs; [round_up_n] and the others for T other than u8 *)
Theorem C90_helpers : forall p,
  (forall w a, w <> U8 -> runs p 300 None "round_up_16" [VInt w a]
     (let! r := round_up_16 p (ibits p w) a in Ret (Some (VInt w r, [VInt w a])))) /\
  (forall w a, w <> U8 -> runs p 300 None "round_down_16" [VInt w a]
     (Ret (Some (VInt w (round_down_16 a), [VInt w a])))) /\
  (forall w a n, w <> U8 -> runs p 300 None "round_up_n" [VInt w a; VInt U8 n]
     (let! r := round_up_n p (ibits p w) a n in Ret (Some (VInt w r, [VInt w a; VInt U8 n])))) /\
  (forall w a n, w <> U8 -> runs p 300 None "round_down_n" [VInt w a; VInt U8 n]
     (let! r := round_down_n p a n in Ret (Some (VInt w r, [VInt w a; VInt U8 n])))) /\
  (forall w a, w <> U8 -> runs p 300 None "round_up_cache_line" [VInt w a]
     (let! r := round_up_cache_line p (ibits p w) a in Ret (Some (VInt w r, [VInt w a])))) /\
  (forall c, runs p 300 None "myisupper" [VInt U8 c]
     (Ret (Some (VBool (myisupper c), [VInt U8 c])))) /\
  (forall c, runs p 300 None "myislower" [VInt U8 c]
     (Ret (Some (VBool (myislower c), [VInt U8 c])))) /\
  (forall c, runs p 300 None "mytolower" [VInt U8 c]
     (Ret (Some (VInt U8 (mytolower c), [VInt U8 c])))) /\
  (forall c, runs p 300 None "mytoupper" [VInt U8 c]
     (Ret (Some (VInt U8 (mytoupper c), [VInt U8 c])))) /\
  (forall c, runs p 300 None "ourisalpha" [VInt U8 c]
     (Ret (Some (VBool (ourisalpha c), [VInt U8 c])))) /\
  (runs p 300 None "UTF_TWO_BYTE_HEADER" []
     (Ret (Some (VInt U8 192, [])))) /\
  (runs p 300 None "UTF_CONT_MAX" []
     (Ret (Some (VInt U8 UTF_CONT_MAX, [])))).
Proof.
  intro p. split; [run_ c_round_up_16|]. split; [run_ c_round_down_16|]. split; [run_ c_round_up_n|]. split; [run_ c_round_down_n|]. split; [run_ c_round_up_cache_line|]. split; [run_ c_myisupper|]. split; [run_ c_myislower|]. split; [run_ c_mytolower|]. split; [run_ c_mytoupper|]. split; [run_ c_ourisalpha|]. split; [run_ r_two|]. run_ r_cont.
Qed.

(** charreach.rs *)
Theorem C90_charreach : forall p,
  (forall b, runs p 300 CRo "reset_all" [v_cr b]
     (Ret (Some (VUnit, [v_cr (cr_reset_all b)])))) /\
  (forall b, runs p 300 CRo "set_all" [v_cr b]
     (Ret (Some (VUnit, [v_cr (cr_set_all b)])))) /\
  (forall b, runs p 300 CRo "flip_all" [v_cr b]
     (Ret (Some (VUnit, [v_cr (cr_flip_all b)])))) /\
  (forall b n, runs p 300 CRo "reset" [v_cr b; VInt U8 n]
     (let! b' := cr_reset p b n in Ret (Some (VUnit, [v_cr b'; VInt U8 n])))) /\
  (forall b n, runs p 300 CRo "set" [v_cr b; VInt U8 n]
     (let! b' := cr_set p b n in Ret (Some (VUnit, [v_cr b'; VInt U8 n])))) /\
  (forall b n, runs p 300 CRo "flip" [v_cr b; VInt U8 n]
     (let! b' := cr_flip p b n in Ret (Some (VUnit, [v_cr b'; VInt U8 n])))) /\
  (forall b n, runs p 300 CRo "test" [v_cr b; VInt U8 n]
     (let! t := cr_test p b n in Ret (Some (VBool t, [v_cr b; VInt U8 n])))) /\
  (forall b, runs p 300 CRo "none" [v_cr b]
     (Ret (Some (VBool (cr_none b), [v_cr b])))) /\
  (forall b, runs p 300 CRo "any" [v_cr b]
     (Ret (Some (VBool (cr_any b), [v_cr b])))) /\
  (forall b, runs p 300 CRo "all" [v_cr b]
     (Ret (Some (VBool (cr_all b), [v_cr b])))) /\
  (forall b, runs p 300 CRo "count" [v_cr b]
     (Ret (Some (VInt U32 (cr_count b), [v_cr b])))) /\
  (forall b, runs p 300 CRo "find_first" [v_cr b]
     (let! r := cr_find_first p b in Ret (Some (v_opt r, [v_cr b])))) /\
  (forall b, runs p 300 CRo "find_last" [v_cr b]
     (let! r := cr_find_last p b in Ret (Some (v_opt r, [v_cr b])))) /\
  (forall b n, runs p 300 CRo "find_next" [v_cr b; VInt U8 n]
     (let! r := cr_find_next p b n in Ret (Some (v_opt r, [v_cr b; VInt U8 n])))) /\
  (forall b n, n < 256 -> runs p 300 CRo "find_nth" [v_cr b; VInt U8 n]
     (let! r := cr_find_nth p b n in Ret (Some (v_opt r, [v_cr b; VInt U8 n])))) /\
  (forall b x y, x < 256 -> y < 256 -> runs p 300 CRo "set_range" [v_cr b; VInt U8 x; VInt U8 y]
     (let! b' := cr_set_range p b x y in Ret (Some (VUnit, [v_cr b'; VInt U8 x; VInt U8 y])))) /\
  (forall b a, runs p 300 CRo "bitand_assign" [v_cr b; v_cr a]
     (Ret (Some (VUnit, [v_cr (cr_and_assign b a); v_cr a])))) /\
  (forall b a, runs p 300 CRo "bitor_assign" [v_cr b; v_cr a]
     (Ret (Some (VUnit, [v_cr (cr_or_assign b a); v_cr a])))) /\
  (forall b a, runs p 300 CRo "bitxor_assign" [v_cr b; v_cr a]
     (Ret (Some (VUnit, [v_cr (cr_xor_assign b a); v_cr a])))) /\
  (forall b, runs p 300 CRo "not" [v_cr b]
     (Ret (Some (v_cr (cr_not b), [v_cr (cr_not b)])))) /\
  (forall a b, runs p 300 CRo "bitand" [v_cr a; v_cr b]
     (Ret (Some (v_cr (cr_and a b), [v_cr a; v_cr b])))) /\
  (forall a b, runs p 300 CRo "bitor" [v_cr a; v_cr b]
     (Ret (Some (v_cr (cr_or a b), [v_cr a; v_cr b])))) /\
  (forall a b, runs p 300 CRo "bitxor" [v_cr a; v_cr b]
     (Ret (Some (v_cr (cr_xor a b), [v_cr a; v_cr b])))) /\
  (forall c, runs p 300 CRo "from_char" [VInt U8 c]
     (let! b := cr_from_char p c in Ret (Some (v_cr b, [VInt U8 c])))) /\
  (forall x y, x < 256 -> y < 256 -> runs p 300 CRo "from_range" [VInt U8 x; VInt U8 y]
     (let! b := cr_from_range p x y in Ret (Some (v_cr b, [VInt U8 x; VInt U8 y])))) /\
  (runs p 300 CRo "dot" []
     (let! b := cr_dot p in Ret (Some (v_cr b, [])))) /\
  (forall l b, runs p (300 + List.length l) CRo "set_bytes" [v_cr b; v_bytes l]
     (let! b' := cr_set_bytes p b l in Ret (Some (VUnit, [v_cr b'; v_bytes l])))) /\
  (forall l, runs p (300 + List.length l) CRo "from_bytes" [v_bytes l]
     (let! b := cr_from_bytes p l in Ret (Some (v_cr b, [v_bytes l])))) /\
  (forall a b, runs p 300 CRo "is_subset_of" [v_cr a; v_cr b]
     (Ret (Some (VBool (cr_is_subset_of a b), [v_cr a; v_cr b])))) /\
  (forall a b, runs p 300 CRo "overlaps" [v_cr a; v_cr b]
     (Ret (Some (VBool (cr_overlaps a b), [v_cr a; v_cr b])))) /\
  (forall b, runs p 300 CRo "is_ascii" [v_cr b]
     (let! t := cr_is_ascii p b in Ret (Some (VBool t, [v_cr b])))) /\
  (forall b, runs p 300 CRo "is_utf8_start" [v_cr b]
     (let! t := cr_is_utf8_start p b in Ret (Some (VBool t, [v_cr b])))) /\
  (forall b, runs p 300 CRo "is_caseless_char" [v_cr b]
     (let! t := cr_is_caseless_char p b in Ret (Some (VBool t, [v_cr b])))) /\
  (forall b, wf b -> runs p 300 CRo "is_alphabetic" [v_cr b]
     (let! t := cr_is_alphabetic p b in Ret (Some (VBool t, [v_cr b])))) /\
  (forall b, wf b -> runs p 300 CRo "is_bit5_insensitive" [v_cr b]
     (let! t := cr_is_bit5_insensitive p b in Ret (Some (VBool t, [v_cr b])))) /\
  (forall b out, wf b -> runs p 300 CRo "fmt" [v_cr b; VStr out]
     (let! t := cr_display p b in Ret (Some (ok_ VUnit, [v_cr b; VStr (out ++ t)])))) /\
  (forall b, wf b -> runs p 300 None "make_and_cmp_mask" [v_cr b]
     (let! (a, c) := make_and_cmp_mask p b in Ret (Some (VTuple [VInt U8 a; VInt U8 c], [v_cr b])))) /\
  (forall b, runs p 300 None "make_caseless" [v_cr b]
     (let! b' := make_caseless p b in Ret (Some (VUnit, [v_cr b'])))) /\
  (forall b l, wf b -> runs p 300 None "fill_bitvector" [v_cr b; v_bytes l]
     (let! l' := fill_bitvector p b l in Ret (Some (VUnit, [v_cr b; v_bytes l'])))).
Proof.
  intro p. split; [run_ r_reset_all|]. split; [run_ r_set_all|]. split; [run_ r_flip_all|]. split; [run_ r_reset|]. split; [run_ r_set|]. split; [run_ r_flip|]. split; [run_ r_test|]. split; [run_ r_none|]. split; [run_ r_any|]. split; [run_ r_all|]. split; [run_ r_count|]. split; [run_ r_find_first|]. split; [run_ r_find_last|]. split; [run_ r_find_next|]. split; [run_ r_find_nth|]. split; [run_ r_set_range|]. split; [run_ r_and_assign|]. split; [run_ r_or_assign|]. split; [run_ r_xor_assign|]. split; [run_ r_not|]. split; [run_ r_and|]. split; [run_ r_or|]. split; [run_ r_xor|]. split; [run_ r_from_char|]. split; [run_ r_from_range|]. split; [run_ r_dot|]. split; [run_ r_set_bytes|]. split; [run_ r_from_bytes|]. split; [run_ r_is_subset_of|]. split; [run_ r_overlaps|]. split; [run_ r_is_ascii|]. split; [run_ r_is_utf8_start|]. split; [run_ r_is_caseless_char|]. split; [run_ r_is_alphabetic|]. split; [run_ r_is_bit5_insensitive|]. split; [run_ r_fmt|]. split; [run_ r_make_and_cmp_mask|]. split; [run_ r_make_caseless|]. run_ r_fill.
Qed.

(** dump_charclass.rs; the writer is a [String] *)
Theorem C90_describe : forall p,
  (runs p 300 None "ESCAPED" []
     (Ret (Some (VList (map (VInt U8) ESCAPED), [])))) /\
  (runs p 300 None "DOT_SINGLE_ESCAPED" []
     (Ret (Some (VList (map (VInt U8) DOT_SINGLE_ESCAPED), [])))) /\
  (forall out c o, runs p 300 None "describe_char" [VStr out; VInt U8 c; v_out o]
     (Ret (Some (ok_ VUnit, [VStr (out ++ describe_char c o); VInt U8 c; v_out o])))) /\
  (forall out c1 c2 o, c1 < 256 -> c2 < 256 -> runs p 300 None "describe_range" [VStr out; VInt U8 c1; VInt U8 c2; v_out o]
     (let! s := describe_range p c1 c2 o in Ret (Some (ok_ VUnit, [VStr (out ++ s); VInt U8 c1; VInt U8 c2; v_out o])))) /\
  (forall out b o, runs p 300 None "extract_mnemonic" [VStr out; v_cr b; v_out o]
     (let! r := extract_mnemonic p b o in Ret (Some (ok_ (match r with Some (_, c) => some_ (v_cr c) | None => none_ end), [VStr (out ++ match r with Some (s, _) => s | None => [] end); v_cr b; v_out o])))) /\
  (forall b, wf b -> runs p 300 None "contiguous_range" [v_cr b]
     (let! r := contiguous_range p b in Ret (Some (v_pair r, [v_cr b])))) /\
  (forall out b m o, wf b -> runs p 300 None "describe_class_int" [VStr out; v_cr b; VInt Usize m; v_out o]
     (let! (s, n) := describe_class_int p b m o in Ret (Some (ok_ (VInt Usize n), [VStr (out ++ s); v_cr b; VInt Usize m; v_out o])))) /\
  (forall out b m o, wf b -> runs p 300 None "describe_class" [VStr out; v_cr b; VInt Usize m; v_out o]
     (let! s := describe_class p b m o in Ret (Some (ok_ VUnit, [VStr (out ++ s); v_cr b; VInt Usize m; v_out o])))).
Proof.
  intro p. split; [run_ d_escaped|]. split; [run_ d_single|]. split; [run_ d_char|]. split; [run_ d_range|]. split; [run_ d_mnemonic|]. split; [run_ d_contiguous|]. split; [run_ d_class_int|]. run_ d_class.
Qed.

(** A class with the members 0, 65, 98, 122, 255, and the texts run on it. *)
Definition odd_class : bitfield := BF 1 (2 ^ 1 + 2 ^ 34 + 2 ^ 58) 0 (2 ^ 63).
Example C90_case :
  call dev util_program 300 20 CRo "find_next" [v_cr odd_class; VInt U8 98] = Ret (Some (v_opt (Some 122), [v_cr odd_class; VInt U8 98])) /\
  call dev util_program 300 20 CRo "set_range" [v_cr odd_class; VInt U8 2; VInt U8 1] = Panic PAssert /\
  call dev util_program 300 20 None "round_up_n" [VInt U32 100; VInt U8 64] = Ret (Some (VInt U32 128, [VInt U32 100; VInt U8 64])) /\
  call dev util_program 300 20 None "round_up_cache_line" [VInt U64 (2 ^ 64 - 1)] = Panic POverflow /\
  call release util_program 300 20 None "describe_class" [VStr []; v_cr odd_class; VInt Usize 256; v_out Text] =
    Ret (Some (ok_ VUnit, [VStr (lit "[\x 0Abz\xff]"); v_cr odd_class; VInt Usize 256; v_out Text])).
Proof. rewrite program_is. vm_compute. repeat split. Qed.

(** ** C91 *)
Theorem C91_updates : forall p b c, wf b -> byte c ->
  (exists r, runs p 300 CRo "set" [v_cr b; VInt U8 c] (Ret (Some (VUnit, [v_cr r; VInt U8 c]))) /\
     wf r /\ forall x, byte x -> mem r x = (x =? c) || mem b x) /\
  (exists r, runs p 300 CRo "reset" [v_cr b; VInt U8 c] (Ret (Some (VUnit, [v_cr r; VInt U8 c]))) /\
     wf r /\ forall x, byte x -> mem r x = negb (x =? c) && mem b x) /\
  (exists r, runs p 300 CRo "flip" [v_cr b; VInt U8 c] (Ret (Some (VUnit, [v_cr r; VInt U8 c]))) /\
     wf r /\ forall x, byte x -> mem r x = xorb (x =? c) (mem b x)) /\
  runs p 300 CRo "test" [v_cr b; VInt U8 c] (Ret (Some (VBool (mem b c), [v_cr b; VInt U8 c]))).
Proof.
  intros p b c Hb Hc. destruct (C21_set p b c Hb Hc) as (r1 & E1 & H1). destruct (C21_reset p b c Hb Hc) as (r2 & E2 & H2).
  destruct (C21_flip p b c Hb Hc) as (r3 & E3 & H3). pose proof (C21_test p b c Hb Hc) as E4.
  split; [exists r1; split; [run_e r_set E1|exact H1]|]. split; [exists r2; split; [run_e r_reset E2|exact H2]|].
  split; [exists r3; split; [run_e r_flip E3|exact H3]|]. run_e r_test E4.
Qed.
Theorem C91_bulk : forall p b, wf b ->
  (exists r, runs p 300 CRo "set_all" [v_cr b] (Ret (Some (VUnit, [v_cr r]))) /\ wf r /\ forall x, byte x -> mem r x = true) /\
  (exists r, runs p 300 CRo "reset_all" [v_cr b] (Ret (Some (VUnit, [v_cr r]))) /\ wf r /\ forall x, byte x -> mem r x = false) /\
  (exists r, runs p 300 CRo "flip_all" [v_cr b] (Ret (Some (VUnit, [v_cr r]))) /\ wf r /\ forall x, byte x -> mem r x = negb (mem b x)).
Proof.
  intros p b Hb. destruct (C21_bulk b Hb) as (H1 & H2 & H3).
  split; [|split]; eexists; (split; [|first [exact H1|exact H2|exact H3]]); [run_ r_set_all|run_ r_reset_all|run_ r_flip_all].
Qed.
Theorem C91_bytes : forall p b l, wf b -> (forall x, In x l -> byte x) ->
  (exists r, runs p (300 + List.length l) CRo "set_bytes" [v_cr b; v_bytes l] (Ret (Some (VUnit, [v_cr r; v_bytes l]))) /\ wf r /\
     forall x, byte x -> (mem r x = true <-> In x l \/ mem b x = true)) /\
  (exists r, runs p (300 + List.length l) CRo "from_bytes" [v_bytes l] (Ret (Some (v_cr r, [v_bytes l]))) /\ wf r /\
     forall x, mem r x = true <-> In x l).
Proof.
  intros p b l Hb Hl. destruct (C21_set_bytes p l b Hb Hl) as (r & E & H). split; [exists r; split; [run_e r_set_bytes E|exact H]|].
  destruct (C21_constructors p) as (_ & _ & K & _). destruct (K l Hl) as (q & Eq & Hq). exists q. split; [run_e r_from_bytes Eq|exact Hq].
Qed.
Theorem C91_constructors : forall p,
  (forall c, byte c -> exists r, runs p 300 CRo "from_char" [VInt U8 c] (Ret (Some (v_cr r, [VInt U8 c]))) /\ wf r /\ elements r = [c]) /\
  (exists r, runs p 300 CRo "dot" [] (Ret (Some (v_cr r, []))) /\ wf r /\ elements r = all_bytes).
Proof.
  intro p. destruct (C21_constructors p) as (_ & K1 & _ & (r & E & H)). split.
  - intros c Hc. destruct (K1 c Hc) as (q & Eq & Hq). exists q. split; [run_e r_from_char Eq|exact Hq].
  - exists r. split; [run_e r_dot E|exact H].
Qed.
Theorem C91_operators : forall p a b, wf a -> wf b ->
  (exists r, runs p 300 CRo "bitand" [v_cr a; v_cr b] (Ret (Some (v_cr r, [v_cr a; v_cr b]))) /\ wf r /\ forall c, byte c -> mem r c = mem a c && mem b c) /\
  (exists r, runs p 300 CRo "bitor" [v_cr a; v_cr b] (Ret (Some (v_cr r, [v_cr a; v_cr b]))) /\ wf r /\ forall c, byte c -> mem r c = mem a c || mem b c) /\
  (exists r, runs p 300 CRo "bitxor" [v_cr a; v_cr b] (Ret (Some (v_cr r, [v_cr a; v_cr b]))) /\ wf r /\ forall c, byte c -> mem r c = xorb (mem a c) (mem b c)) /\
  (exists r s, runs p 300 CRo "not" [v_cr a] (Ret (Some (v_cr r, [s]))) /\ wf r /\ forall c, byte c -> mem r c = negb (mem a c)) /\
  (exists r, runs p 300 CRo "bitand_assign" [v_cr a; v_cr b] (Ret (Some (VUnit, [v_cr r; v_cr b]))) /\ wf r /\ forall c, byte c -> mem r c = mem a c && mem b c) /\
  (exists r, runs p 300 CRo "bitor_assign" [v_cr a; v_cr b] (Ret (Some (VUnit, [v_cr r; v_cr b]))) /\ wf r /\ forall c, byte c -> mem r c = mem a c || mem b c) /\
  (exists r, runs p 300 CRo "bitxor_assign" [v_cr a; v_cr b] (Ret (Some (VUnit, [v_cr r; v_cr b]))) /\ wf r /\ forall c, byte c -> mem r c = xorb (mem a c) (mem b c)).
Proof.
  intros p a b Ha Hb. destruct (C22_pointwise a b Ha Hb) as (H1 & H2 & H3 & H4 & H5 & H6 & H7).
  split; [exists (cr_and a b); split; [run_ r_and|exact H1]|]. split; [exists (cr_or a b); split; [run_ r_or|exact H2]|].
  split; [exists (cr_xor a b); split; [run_ r_xor|exact H3]|]. split; [exists (cr_not a), (v_cr (cr_not a)); split; [run_ r_not|exact H4]|].
  split; [exists (cr_and_assign a b); split; [run_ r_and_assign|exact H5]|]. split; [exists (cr_or_assign a b); split; [run_ r_or_assign|exact H6]|].
  exists (cr_xor_assign a b); split; [run_ r_xor_assign|exact H7].
Qed.
Theorem C91_ranges : forall p b from to, wf b -> byte from -> byte to ->
  if from <=? to then
    (exists r, runs p 300 CRo "set_range" [v_cr b; VInt U8 from; VInt U8 to] (Ret (Some (VUnit, [v_cr r; VInt U8 from; VInt U8 to]))) /\
       wf r /\ forall x, byte x -> mem r x = ((from <=? x) && (x <=? to)) || mem b x) /\
    (exists r, runs p 300 CRo "from_range" [VInt U8 from; VInt U8 to] (Ret (Some (v_cr r, [VInt U8 from; VInt U8 to]))) /\
       wf r /\ forall x, byte x -> mem r x = (from <=? x) && (x <=? to))
  else runs p 300 CRo "set_range" [v_cr b; VInt U8 from; VInt U8 to] (Panic PAssert) /\
       runs p 300 CRo "from_range" [VInt U8 from; VInt U8 to] (Panic PAssert).
Proof.
  intros p b from to Hb Hf Ht. pose proof (C23_set_range p b from to Hb Hf Ht) as H1. pose proof (C23_from_range p from to Hf Ht) as H2.
  unfold byte in Hf, Ht. destruct (from <=? to).
  - destruct H1 as (r & E & H1). destruct H2 as (q & Eq & H2). split; [exists r; split; [run_e r_set_range E|exact H1]|exists q; split; [run_e r_from_range Eq|exact H2]].
  - split; [run_e r_set_range H1|run_e r_from_range H2].
Qed.
Theorem C91_searches : forall p b last, wf b -> byte last ->
  (exists r, runs p 300 CRo "find_first" [v_cr b] (Ret (Some (v_opt r, [v_cr b]))) /\
     match r with None => forall c, mem b c = false | Some c => mem b c = true /\ forall x, mem b x = true -> c <= x end) /\
  (exists r, runs p 300 CRo "find_last" [v_cr b] (Ret (Some (v_opt r, [v_cr b]))) /\
     match r with None => forall c, mem b c = false | Some c => mem b c = true /\ forall x, mem b x = true -> x <= c end) /\
  (exists r, runs p 300 CRo "find_next" [v_cr b; VInt U8 last] (Ret (Some (v_opt r, [v_cr b; VInt U8 last]))) /\
     match r with None => forall c, last < c -> mem b c = false | Some c => last < c /\ mem b c = true /\ forall x, last < x -> mem b x = true -> c <= x end) /\
  runs p 300 CRo "find_nth" [v_cr b; VInt U8 last] (Ret (Some (v_opt (nth_error (elements b) (N.to_nat last)), [v_cr b; VInt U8 last]))).
Proof.
  intros p b n Hb Hn. destruct (C24_find_first p b Hb) as (r1 & E1 & H1). destruct (C24_find_last p b Hb) as (r2 & E2 & H2).
  destruct (C24_find_next p b n Hb Hn) as (r3 & E3 & H3). unfold byte in Hn. assert (E4 := C25_find_nth p b n Hb ltac:(lia)).
  split; [exists r1; split; [run_e r_find_first E1|exact H1]|]. split; [exists r2; split; [run_e r_find_last E2|exact H2]|].
  split; [exists r3; split; [run_e r_find_next E3|exact H3]|]. run_e r_find_nth E4.
Qed.
Theorem C91_counts : forall p b, wf b ->
  runs p 300 CRo "count" [v_cr b] (Ret (Some (VInt U32 (N.of_nat (List.length (elements b))), [v_cr b]))) /\
  (exists r, runs p 300 CRo "none" [v_cr b] (Ret (Some (VBool r, [v_cr b]))) /\ (r = true <-> elements b = [])) /\
  (exists r, runs p 300 CRo "any" [v_cr b] (Ret (Some (VBool r, [v_cr b]))) /\ (r = true <-> elements b <> [])) /\
  (exists r, runs p 300 CRo "all" [v_cr b] (Ret (Some (VBool r, [v_cr b]))) /\ (r = true <-> forall c, byte c -> mem b c = true)).
Proof.
  intros p b Hb. assert (Z : elements b = [] <-> List.length (elements b) = 0%nat) by (destruct (elements b); [tauto|split; discriminate]).
  pose proof (elements_full b Hb) as F. destruct (C25_none_any_all b Hb) as (H1 & H2 & H3). rewrite (C25_count b Hb) in H1, H2, H3.
  split; [pose proof (C25_count b Hb) as E; run_e r_count E|].
  split; [exists (cr_none b); split; [run_ r_none|rewrite H1, Z; lia]|]. split; [exists (cr_any b); split; [run_ r_any|rewrite H2, Z; lia]|].
  exists (cr_all b); split; [run_ r_all|rewrite H3, <- F; lia].
Qed.
Theorem C91_caseless : forall p b, wf b -> exists r, runs p 300 None "make_caseless" [v_cr b] (Ret (Some (VUnit, [v_cr r]))) /\ wf r /\
  forall c, byte c -> (mem r c = true <-> mem b c = true \/ (is_letter c /\ mem b (other_case c) = true)).
Proof. intros p b Hb. destruct (C26_make_caseless p b Hb) as (r & E & W & H & _). exists r. split; [run_e r_make_caseless E|split; assumption]. Qed.
Theorem C91_predicates : forall p a b, wf a -> wf b ->
  (exists r, runs p 300 CRo "is_alphabetic" [v_cr a] (Ret (Some (VBool r, [v_cr a]))) /\
     (r = true <-> (exists c, mem a c = true) /\ forall c, mem a c = true -> is_letter c)) /\
  (exists r, runs p 300 CRo "is_caseless_char" [v_cr a] (Ret (Some (VBool r, [v_cr a]))) /\
     (r = true <-> exists u, is_upper u /\ forall c, mem a c = true <-> c = u \/ c = u + 32)) /\
  (exists r, runs p 300 CRo "is_bit5_insensitive" [v_cr a] (Ret (Some (VBool r, [v_cr a]))) /\
     (r = true <-> forall c, mem a c = true -> mem a (N.lxor c 32) = true)) /\
  (exists r, runs p 300 CRo "is_subset_of" [v_cr a; v_cr b] (Ret (Some (VBool r, [v_cr a; v_cr b]))) /\
     (r = true <-> forall c, mem a c = true -> mem b c = true)) /\
  (exists r, runs p 300 CRo "overlaps" [v_cr a; v_cr b] (Ret (Some (VBool r, [v_cr a; v_cr b]))) /\
     (r = true <-> exists c, mem a c = true /\ mem b c = true)) /\
  (exists r, runs p 300 CRo "is_ascii" [v_cr a] (Ret (Some (VBool r, [v_cr a]))) /\ (r = true <-> forall c, mem a c = true -> c <= 127)) /\
  (exists r, runs p 300 CRo "is_utf8_start" [v_cr a] (Ret (Some (VBool r, [v_cr a]))) /\ (r = true <-> forall c, mem a c = true -> 192 <= c)).
Proof.
  intros p a b Ha Hb. destruct (C27_alphabetic p a Ha) as (r1 & E1 & H1). destruct (C27_caseless_char p a Ha) as (r2 & E2 & H2).
  destruct (C27_bit5 p a Ha) as (r3 & E3 & H3). destruct (C27_subset_overlap a b Ha Hb) as [H4 H5].
  destruct (C27_ascii_utf8 p a Ha) as [(r6 & E6 & H6) (r7 & E7 & H7)].
  split; [exists r1; split; [run_e r_is_alphabetic E1|exact H1]|]. split; [exists r2; split; [run_e r_is_caseless_char E2|exact H2]|].
  split; [exists r3; split; [run_e r_is_bit5_insensitive E3|exact H3]|]. split; [exists (cr_is_subset_of a b); split; [run_ r_is_subset_of|exact H4]|].
  split; [exists (cr_overlaps a b); split; [run_ r_overlaps|exact H5]|]. split; [exists r6; split; [run_e r_is_ascii E6|exact H6]|].
  exists r7; split; [run_e r_is_utf8_start E7|exact H7].
Qed.
Theorem C91_mask : forall p b, wf b -> exists a m,
  runs p 300 None "make_and_cmp_mask" [v_cr b] (Ret (Some (VTuple [VInt U8 a; VInt U8 m], [v_cr b]))) /\
  (forall c, mem b c = true -> N.land c a = m) /\
  (forall a' m', (forall c, mem b c = true -> N.land c a' = m') -> forall x, byte x -> N.land x a = m -> N.land x a' = m').
Proof. intros p b Hb. destruct (C28_mask p b Hb) as (a & m & E & _ & _ & H). exists a, m. split; [run_e r_make_and_cmp_mask E|exact H]. Qed.
(** The text [describe_class] of the source writes is the one specified, and read back it stands for the class. *)
Theorem C91_described : forall p b o out, wf b ->
  runs p 300 None "describe_class" [VStr out; v_cr b; VInt Usize 256; v_out o]
    (let! s := class_text p o 256 b in Ret (Some (ok_ VUnit, [VStr (out ++ s); v_cr b; VInt Usize 256; v_out o]))) /\
  (SpecDump.stuck b -> runs p 300 None "describe_class" [VStr out; v_cr b; VInt Usize 256; v_out o]
    (if overflow_checks p then Panic POverflow else Diverge)).
Proof.
  intros p b o out Hb. split.
  - pose proof (C50_class_text p b 256 o Hb) as E. intros turns depth Ht Hd. rewrite program_is; do 12 (destruct depth as [|depth]; [lia|]). rewrite d_class, E by (assumption || lia). reflexivity.
  - intros St turns depth Ht Hd. rewrite program_is; do 12 (destruct depth as [|depth]; [lia|]). rewrite d_class, C50_stuck by (assumption || lia). destruct (overflow_checks p); reflexivity.
Qed.
(** What running [fill_bitvector] writes is not the class: each byte only says whether there is a
    member among its eight, and with overflow checks a member with bit 3 set panics. *)
Theorem C91_filled : forall p b buf, wf b -> exists r,
  runs p 300 None "fill_bitvector" [v_cr b; v_bytes buf] (let! bs := r in Ret (Some (VUnit, [v_cr b; v_bytes bs]))) /\
  if (List.length buf <? 32)%nat then r = Panic PIndex
  else if overflow_checks p && existsb (fun c => N.testbit c 3) (elements b) then r = Panic POverflow
  else exists bs, r = Ret bs /\ List.length bs = List.length buf /\
    forall k, nth_error bs k =
      if (k <? 32)%nat then Some (if existsb (fun c => N.to_nat (c / 8) =? k)%nat (elements b) then 1 else 0)
      else nth_error buf k.
Proof. intros p b buf Hb. exists (fill_bitvector p b buf). split; [run_ r_fill|apply C29_actual_partial; exact Hb]. Qed.
Theorem C91_letters : forall p c, byte c ->
  (exists r, runs p 300 None "myisupper" [VInt U8 c] (Ret (Some (VBool r, [VInt U8 c]))) /\ (r = true <-> exists i, i < 26 /\ c = 65 + i)) /\
  (exists r, runs p 300 None "myislower" [VInt U8 c] (Ret (Some (VBool r, [VInt U8 c]))) /\ (r = true <-> exists i, i < 26 /\ c = 97 + i)) /\
  (exists r, runs p 300 None "ourisalpha" [VInt U8 c] (Ret (Some (VBool r, [VInt U8 c]))) /\ (r = true <-> is_letter c)) /\
  runs p 300 None "mytoupper" [VInt U8 c] (Ret (Some (VInt U8 (upper_case c), [VInt U8 c]))) /\
  runs p 300 None "mytolower" [VInt U8 c] (Ret (Some (VInt U8 (if (65 <=? c) && (c <=? 90) then c + 32 else c), [VInt U8 c]))).
Proof.
  intros p c Hc. destruct (C65_case_helpers c Hc) as (H1 & H2 & _ & _ & _ & H3 & _).
  split; [exists (myisupper c); split; [run_ c_myisupper|exact H1]|]. split; [exists (myislower c); split; [run_ c_myislower|exact H2]|].
  split; [exists (ourisalpha c); split; [run_ c_ourisalpha|]|].
  - rewrite H3. unfold is_letter, is_upper, is_lower, myisupper, myislower. lia.
  - split.
    + assert (E : mytoupper c = upper_case c) by (unfold mytoupper, myislower, upper_case; destruct ((97 <=? c) && (c <=? 122)); lia). rewrite <- E. run_ c_mytoupper.
    + assert (E : mytolower c = if (65 <=? c) && (c <=? 90) then c + 32 else c) by (unfold mytolower, myisupper; destruct ((65 <=? c) && (c <=? 90)); lia). rewrite <- E. run_ c_mytolower.
Qed.
Example C91_case : wf odd_class /\ elements odd_class = [0; 65; 98; 122; 255] /\
  call dev util_program 300 20 None "make_caseless" [v_cr odd_class] = Ret (Some (VUnit, [v_cr (BF 1 (2 ^ 1 + 2 ^ 2 + 2 ^ 26 + 2 ^ 33 + 2 ^ 34 + 2 ^ 58) 0 (2 ^ 63))])) /\
  call dev util_program 300 20 None "make_and_cmp_mask" [v_cr odd_class] = Ret (Some (VTuple [VInt U8 0; VInt U8 0], [v_cr odd_class])) /\
  call dev util_program 300 20 None "describe_class" [VStr []; v_cr (BF 1 0 0 (2 ^ 63 + 2 ^ 62)); VInt Usize 256; v_out Text] = Panic POverflow.
Proof. rewrite program_is. split; [repeat split|]. vm_compute. repeat split. Qed.

Print Assumptions C90_parses.
Print Assumptions C90_bitfield.
Print Assumptions C90_helpers.
Print Assumptions C90_charreach.
Print Assumptions C90_describe.
Print Assumptions C91_updates.
Print Assumptions C91_bulk.
Print Assumptions C91_bytes.
Print Assumptions C91_constructors.
Print Assumptions C91_operators.
Print Assumptions C91_ranges.
Print Assumptions C91_searches.
Print Assumptions C91_counts.
Print Assumptions C91_caseless.
Print Assumptions C91_predicates.
Print Assumptions C91_mask.
Print Assumptions C91_described.
Print Assumptions C91_filled.
Print Assumptions C91_letters.
