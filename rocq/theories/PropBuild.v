(** C71: extra build checks only ever turn an outcome into a failed check. *)
From Verif Require Import Base ModelUtil ModelBitField ModelCharReach ModelLiteral ModelReport ModelPetgraph ModelParser ModelNfa ModelSmallWrite ModelCompiler ModelDump
  SpecBuild ProofBase ProofBuild.
Local Open Scope N_scope.
Local Open Scope list_scope.

(** Compiling any set, in any mode, under any configuration. *)
Theorem C71_compile : forall q p, fewer_checks q p -> forall es fs ids m g, agrees (compile_multi_int p es fs ids m g) (compile_multi_int q es fs ids m g).
Proof. intros. apply agr_compile_multi_int; assumption. Qed.
(** Parsing any text, and dumping any tree. *)
Theorem C71_parse : forall q p, fewer_checks q p -> forall t m, agrees (parse p t m) (parse q t m).
Proof. intros. apply agr_parse; assumption. Qed.
Theorem C71_dump : forall q p, fewer_checks q p -> (forall c, agrees (dump_tree p c) (dump_tree q c)) /\
  (forall b n o, agrees (describe_class p b n o) (describe_class q b n o)).
Proof. intros q p F. split; intros; [apply agr_dump_tree|apply agr_describe_class]; assumption. Qed.
(** Every operation of bit fields and classes. *)
Theorem C71_classes : forall q p, fewer_checks q p ->
  (forall b n, agrees (bf_set p b n) (bf_set q b n)) /\ (forall b n, agrees (bf_reset p b n) (bf_reset q b n)) /\ (forall b n, agrees (bf_flip p b n) (bf_flip q b n)) /\
  (forall b n, agrees (bf_test p b n) (bf_test q b n)) /\ (forall b i j, agrees (bf_set_range p b i j) (bf_set_range q b i j)) /\ (forall b, agrees (bf_find_first p b) (bf_find_first q b)) /\
  (forall b, agrees (bf_find_last p b) (bf_find_last q b)) /\ (forall b n, agrees (bf_find_next p b n) (bf_find_next q b n)) /\ (forall b n, agrees (bf_find_nth p b n) (bf_find_nth q b n)) /\
  (forall l b, agrees (cr_set_bytes p b l) (cr_set_bytes q b l)) /\ (forall b, agrees (make_caseless p b) (make_caseless q b)) /\ (forall b l, agrees (fill_bitvector p b l) (fill_bitvector q b l)) /\
  (forall b, agrees (make_and_cmp_mask p b) (make_and_cmp_mask q b)) /\ (forall b, agrees (cr_is_alphabetic p b) (cr_is_alphabetic q b)) /\ (forall b, agrees (cr_is_caseless_char p b) (cr_is_caseless_char q b)) /\
  (forall b, agrees (cr_is_bit5_insensitive p b) (cr_is_bit5_insensitive q b)) /\ (forall b, agrees (cr_is_ascii p b) (cr_is_ascii q b)) /\ (forall b, agrees (cr_is_utf8_start p b) (cr_is_utf8_start q b)) /\
  (forall b, agrees (cr_display p b) (cr_display q b)).
Proof.
  intros q p F. conjs; intros; [apply agr_bf_set|apply agr_bf_reset|apply agr_bf_flip|apply agr_bf_test|apply agr_bf_set_range|apply agr_bf_find_first|apply agr_bf_find_last|apply agr_bf_find_next|
    apply agr_bf_find_nth|apply agr_cr_set_bytes|apply agr_make_caseless|apply agr_fill_bitvector|apply agr_make_and_cmp_mask|apply agr_cr_is_alphabetic|apply agr_cr_is_caseless_char|
    apply agr_cr_is_bit5_insensitive|apply agr_cr_is_ascii|apply agr_cr_is_utf8_start|apply agr_cr_display]; assumption.
Qed.
(** The build state, the small-write engine and literals given directly. *)
Theorem C71_engine : forall q p, fewer_checks q p -> (forall bs l f, agrees (connect_regions p bs l f) (connect_regions q bs l f)) /\
  (forall b, agrees (make_glushkov_build_state p b) (make_glushkov_build_state q b)) /\ (forall s l r, agrees (smwr_add_literal p s l r) (smwr_add_literal q s l r)) /\
  (forall n l i e h s u, agrees (ng_add_literal p n l i e h s u) (ng_add_literal q n l i e h s u)) /\
  (forall n i t f d, agrees (add_expression p n i t f d) (add_expression q n i t f d)).
Proof.
  intros q p F. conjs; intros; [apply agr_connect_regions|apply agr_make_glushkov_build_state|apply agr_smwr_add_literal|apply agr_ng_add_literal|apply agr_add_expression]; assumption.
Qed.
(** So a call that returns in a build returns the same in every build with fewer
    checks, the release build included, and a call that stops on anything but
    a check stops in the same way or on a check. *)
Theorem C71_transfer : forall q p, fewer_checks q p -> forall es fs ids m g,
  (forall r, compile_multi_int p es fs ids m g = Ret r -> compile_multi_int q es fs ids m g = Ret r) /\
  (forall w, w <> POverflow -> w <> PDebugAssert -> compile_multi_int p es fs ids m g = Panic w -> compile_multi_int q es fs ids m g = Panic w) /\
  (compile_multi_int p es fs ids m g = Diverge -> compile_multi_int q es fs ids m g = Diverge).
Proof.
  intros q p F es fs ids m g. pose proof (C71_compile q p F es fs ids m g) as [E|[E|E]]; rewrite E; conjs; intros; try congruence; auto.
Qed.
(** A group makes the checked build panic where the release build answers; a
    text without groups gives the same in both. *)
Example C71_case : fewer_checks release dev /\ fewer_checks dev dev /\ ~ fewer_checks dev release /\
  compile dev (lit "a(b)") 0 Block = Panic POverflow /\ (exists d, compile release (lit "a(b)") 0 Block = Ret (ROk d)) /\
  (exists d, compile dev (lit "a|b") 0 Block = Ret (ROk d) /\ compile release (lit "a|b") 0 Block = Ret (ROk d)) /\
  compile_multi dev [lit "a"; lit "b"] [8; 0] [7; 7] Block = Panic PDebugAssert /\ (exists e, compile_multi release [lit "a"; lit "b"] [8; 0] [7; 7] Block = Ret (RErr e)) /\
  parse dev [233] (mode_new 0) = Panic PAssert /\ parse release [233] (mode_new 0) = Panic PAssert.
Proof.
  split; [repeat split; intro; reflexivity|]. split; [repeat split; auto|]. split; [intros [H _]; discriminate (H eq_refl)|]. split; [vm_compute; reflexivity|]. split; [eexists; vm_compute; reflexivity|].
  split; [eexists; split; vm_compute; reflexivity|]. split; [vm_compute; reflexivity|]. split; [eexists; vm_compute; reflexivity|]. split; vm_compute; reflexivity.
Qed.

Print Assumptions C71_compile. Print Assumptions C71_parse. Print Assumptions C71_dump. Print Assumptions C71_classes.
Print Assumptions C71_engine. Print Assumptions C71_transfer.
