(** C86: the parser and the compiler on the bytes of a text. *)
From Verif Require Import Base ModelUtil ModelParser ModelNfa ModelReport ModelCompiler ModelBytes SpecGrammar SpecUtf8 ProofBase ProofVerb ProofBytes.
Local Open Scope N_scope.
Local Open Scope list_scope.

(** Decoding gives back the characters, each at the offset where its bytes start. *)
Theorem C86_decodes : forall s, scalars s ->
  map snd (char_indices 0 (encode s)) = s /\
  forall i k c, nth_error (char_indices 0 (encode s)) i = Some (k, c) -> k = N.of_nat (List.length (encode (firstn i s))).
Proof.
  intros s H. rewrite char_indices_ok by exact H. split; [apply offsets_chars|].
  assert (G : forall s j i k c, scalars s -> nth_error (offsets j s) i = Some (k, c) -> k = j + N.of_nat (List.length (encode (firstn i s)))).
  { clear. induction s as [|x s IH]; intros j i k c H E; [destruct i; discriminate E|]. inversion H as [|? ? Hx Hs]; subst. destruct i as [|i]; cbn [nth_error offsets] in E.
    - injection E as <- _. cbn [firstn encode flat_map List.length]. lia.
    - apply IH in E; [|exact Hs]. cbn [firstn]. change (encode (x :: firstn i s)) with (encode_char x ++ encode (firstn i s)). rewrite app_length.
      destruct (encode_char_shape x (scalar_bound x Hx)) as (y & t & Ec & _ & _ & L). rewrite Ec. lia. }
  intros i k c E. rewrite (G _ _ _ _ _ H E). lia.
Qed.
(** Two texts with the same bytes are the same text. *)
Theorem C86_faithful : forall s t, scalars s -> scalars t -> encode s = encode t -> s = t.
Proof. exact encode_inj. Qed.
(** A slice at an offset between characters is the text before or after; at any other
    offset slicing panics. *)
Theorem C86_slices : forall s k, scalars s ->
  (is_char_boundary (encode s) k = true <-> seam s k) /\
  (forall a b, s = a ++ b -> k = N.of_nat (List.length (encode a)) -> slice_to (encode s) k = Ret (encode a) /\ slice_from (encode s) k = Ret (encode b)) /\
  (~ seam s k -> slice_to (encode s) k = Panic PIndex /\ slice_from (encode s) k = Panic PIndex).
Proof.
  intros s k H. split; [split; [apply boundary_seam; exact H|apply seam_boundary; exact H]|]. split.
  - intros a b -> ->. apply scalars_app in H. destruct H as [Ha Hb]. rewrite encode_length by exact Ha. split; [apply slice_to_ok|apply slice_from_ok]; assumption.
  - intro Nk. unfold slice_to, slice_from. destruct (is_char_boundary (encode s) k) eqn:E; [|split; reflexivity]. exfalso. apply Nk, boundary_seam; assumption.
Qed.
(** Parsing the bytes does what parsing the characters does. *)
Theorem C86_parse : forall p s m, scalars s -> b_parse p (encode s) m = encoded (parse p s m).
Proof. exact b_parse_ok. Qed.
(** No slice is cut inside a character. *)
Theorem C86_never_cuts : forall p s m, scalars s -> b_parse p (encode s) m <> Panic PIndex.
Proof. intros p s m H. rewrite b_parse_ok by exact H. destruct (parse_cases p s m); discriminate. Qed.
(** So does compiling. *)
Theorem C86_compile : forall p es fs ids m g, Forall scalars es ->
  b_compile_multi_int p (map encode es) fs ids m g = encoded (compile_multi_int p es fs ids m g) /\
  b_compile_multi p (map encode es) fs ids m = encoded (compile_multi p es fs ids m) /\
  (forall s f, scalars s -> b_compile p (encode s) f m = encoded (compile p s f m)).
Proof.
  intros p es fs ids m g H. split; [apply b_multi_ok; exact H|]. split; [apply b_multi_ok; exact H|]. intros s f Hs. apply (b_multi_ok p [s]). constructor; [exact Hs|constructor].
Qed.
(** The message of an error is valid UTF-8. *)
Theorem C86_messages : forall p es fs ids m g e, Forall scalars es ->
  b_compile_multi_int p (map encode es) fs ids m g = Ret (RErr e) -> exists r, scalars r /\ err_reason e = encode r.
Proof.
  intros p es fs ids m g e H. rewrite b_multi_ok by exact H. destruct (compile_multi_int p es fs ids m g) as [[db|e1]|w|] eqn:E; cbn [encoded]; try discriminate.
  intros [= <-]. exists (err_reason e1). split; [eapply multi_reason; eassumption|reflexivity].
Qed.
(** A text with characters of two, three and four bytes, and a verb made of them. *)
Definition mixed_text : str := [40; 42; 228; 8364; 128512; 41; 97; 124; 98].
Example C86_case : scalars mixed_text /\
  encode mixed_text = [40; 42; 195; 164; 226; 130; 172; 240; 159; 152; 128; 41; 97; 124; 98] /\
  map snd (char_indices 0 (encode mixed_text)) = mixed_text /\
  filter (is_char_boundary (encode mixed_text)) (map N.of_nat (seq 0 20)) = [0; 1; 2; 4; 7; 11; 12; 13; 14; 15] /\
  slice_from (encode mixed_text) 5 = Panic PIndex /\ slice_to (encode mixed_text) 4 = Ret [40; 42; 195; 164] /\
  b_parse release (encode mixed_text) (mode_new 0) =
    Ret (RErr (CompileError ELocatedParse (lit "Unknown control verb " ++ [195; 164; 226; 130; 172; 240; 159; 152; 128] ++ lit " at index 2") None)) /\
  b_parse release (encode [97; 228]) (mode_new 0) = Panic PAssert /\
  (exists x, b_parse release (encode (lit "(*UTF8)ab|c")) (mode_new 0) = Ret (ROk x)) /\
  (exists e, b_compile_multi release [lit "a"; encode mixed_text] [0; 0] [0; 1] Block = Ret (RErr e) /\ err_index e = Some 1).
Proof.
  split. { unfold mixed_text, scalars. repeat (apply Forall_cons; [unfold scalar; lia|]). apply Forall_nil. }
  repeat (split; [vm_compute; reflexivity|]). split; [eexists; vm_compute; reflexivity|]. eexists. split; [vm_compute; reflexivity|reflexivity].
Qed.

Print Assumptions C86_decodes.
Print Assumptions C86_faithful.
Print Assumptions C86_slices.
Print Assumptions C86_parse.
Print Assumptions C86_never_cuts.
Print Assumptions C86_compile.
Print Assumptions C86_messages.
