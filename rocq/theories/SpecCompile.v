(** What compiling a set of patterns should do, said about the arguments of the
    call: which items count, which are acceptable, which conflict. *)
From Verif Require Import Base ModelUtil ModelBitField ModelLiteral ModelReport ModelPetgraph ModelParser ModelSmallWrite ModelCompiler SpecSet SpecGrammar SpecReport SpecTrie SpecTree.
Local Open Scope N_scope.
Local Open Scope list_scope.

(** One pattern of the set. *)
Record item := Item { it_expr : str; it_flags : N; it_id : N }.
(** The [i]-th pattern of a call: all three slices reach it. *)
Definition item_at (es : list str) (fs : list N) (ids : list N) (i : nat) (it : item) : Prop :=
  nth_error es i = Some (it_expr it) /\ nth_error fs i = Some (it_flags it) /\ nth_error ids i = Some (it_id it).
(** All of them. *)
Fixpoint items_of (es : list str) (fs : list N) (ids : list N) : list item :=
  match es, fs, ids with e :: es', f :: fs', i :: ids' => Item e f i :: items_of es' fs' ids' | _, _, _ => [] end.
(** The options that matter, as bits of the flag word. *)
Definition caseless_item (it : item) : bool := N.testbit (it_flags it) 0.
Definition single_match (it : item) : bool := N.testbit (it_flags it) 3.
Definition som_leftmost (it : item) : bool := N.testbit (it_flags it) 8.
Definition quiet (it : item) : bool := N.testbit (it_flags it) 10.
(** The options the parser starts with. *)
Definition item_mode (it : item) : parse_mode :=
  ParseMode (N.testbit (it_flags it) 0) (N.testbit (it_flags it) 1) false (N.testbit (it_flags it) 2) (N.testbit (it_flags it) 6) (N.testbit (it_flags it) 5).
(** The text after an accepted control verb, if any. *)
Definition body_of (s body : str) : Prop := (no_verb s /\ body = s) \/ (exists v, accepted_verb v /\ verb_then s v body).

(** Acceptable on its own. *)
Record acceptable (p : profile) (it : item) : Prop := Acceptable {
  ac_short : str_len (it_expr it) <= 16000;
  ac_flags : ~ (quiet it = true /\ som_leftmost it = true);
  ac_text : exists body, body_of (it_expr it) body /\ ascii_text body /\ balanced body /\ groups_ok p (it_expr it) body body
}.
(** Its text is a literal. *)
Definition literal_item (it : item) : Prop := exists body, body_of (it_expr it) body /\ literal_text body.
(** Two literals reporting under one id that disagree about SINGLEMATCH. *)
Definition conflict (a b : item) : Prop :=
  literal_item a /\ literal_item b /\ it_id a = it_id b /\ single_match a <> single_match b.

(** What a literal item contributes to the engine under construction. *)
Record addition := Addition { ad_index : N; ad_id : N; ad_single : bool; ad_lit : literal }.
(** The contributions of a list of items, the first of which has index [i]. *)
Inductive adds : N -> list item -> list addition -> Prop :=
| adds_nil : forall i, adds i [] []
| adds_literal : forall i it t body l, body_of (it_expr it) body -> literal_text body -> adds (i + 1) t l ->
    adds i (it :: t) (Addition i (it_id it) (single_match it) (text_literal (caseless_item it) body) :: l)
| adds_other : forall i it t body l, body_of (it_expr it) body -> ~ literal_text body -> adds (i + 1) t l -> adds i (it :: t) l.
(** The requests one contribution makes to the report manager, and the literals
    handed to the small-write builder; every report has internal id 0. *)
Definition requests (a : addition) : list rm_op :=
  Register (ad_id a) (ExtInfo (ad_single a) (ad_index a)) :: (if ad_single a then [AskKey (ad_id a)] else []) ++ [AskId (Report 0)].
Definition dictionary_input (l : list addition) : list (literal * N) := map (fun a => (ad_lit a, 0)) l.

(** The whole set is fine: every item on its own, and every two together. *)
Definition good_set (p : profile) (es : list str) (fs ids : list N) : Prop :=
  (forall i it, item_at es fs ids i it -> acceptable p it) /\
  (forall i j a b, item_at es fs ids i a -> item_at es fs ids j b -> ~ conflict a b).
(** The [i]-th item is fine given the ones before it. *)
Definition item_fits (p : profile) (es : list str) (fs ids : list N) (i : nat) : Prop :=
  forall it, item_at es fs ids i it ->
  acceptable p it /\ forall j a, (j < i)%nat -> item_at es fs ids j a -> ~ conflict a it.
(** Everything up to and including item [k] is the same in both calls. *)
Definition same_upto (k : nat) (es es' : list str) (fs fs' ids ids' : list N) : Prop :=
  forall i it, (i <= k)%nat -> (item_at es fs ids i it <-> item_at es' fs' ids' i it).
(** The outcome of a call with the database itself forgotten. *)
Definition verdict {E A} (o : outcome (result E A)) : outcome (result E unit) :=
  match o with Ret (ROk _) => Ret (ROk tt) | Ret (RErr e) => Ret (RErr e) | Panic w => Panic w | Diverge => Diverge end.
Definition ends_with (suf s : str) : Prop := exists a, s = a ++ suf.

(** The engine under construction after the last expression of a call, just before
    the database is made from it (lib.rs:113-129). *)
Definition engine (p : profile) (es : list str) (fs ids : list N) (m : mode) : outcome (result compile_error ng) :=
  add_all p (ng_new (CompileContext (is_streaming m) (is_vectored m) grey_default) (N.of_nat (List.length es)) (som_precision m)) 0 (zip3 es fs ids).
(** The literal that the [i]-th item contributes. *)
Definition literal_at (es : list str) (fs ids : list N) (i : nat) (it : item) (l : literal) : Prop :=
  item_at es fs ids i it /\ exists body, body_of (it_expr it) body /\ literal_text body /\ l = text_literal (caseless_item it) body.

(** A history of requests to add a literal, and the literals that were taken. *)
Record lit_request := LitRequest { lr_lit : literal; lr_index : N; lr_id : N; lr_single : bool; lr_som : som_type; lr_quiet : bool }.
Definition ask (p : profile) (n : ng) (q : lit_request) : outcome (ng * result compile_error bool) :=
  ng_add_literal p n (lr_lit q) (lr_index q) (lr_id q) (lr_single q) (lr_som q) (lr_quiet q).
Inductive ng_history (p : profile) : ng -> list lit_request -> ng -> list literal -> Prop :=
| nh_nil : forall n, ng_history p n [] n []
| nh_taken : forall n q n1 h n2 l, ask p n q = Ret (n1, ROk true) -> ng_history p n1 h n2 l -> ng_history p n (q :: h) n2 (lr_lit q :: l)
| nh_refused : forall n q n1 h n2 l, ask p n q = Ret (n1, ROk false) -> ng_history p n1 h n2 l -> ng_history p n (q :: h) n2 l
| nh_failed : forall n q n1 e h n2 l, ask p n q = Ret (n1, RErr e) -> ng_history p n1 h n2 l -> ng_history p n (q :: h) n2 l.
Definition lit_length (l : literal) : N := N.of_nat (List.length (lit_s l)).

(** The scanning mode without the start-of-match horizon. *)
Definition scan_mode (m : mode) : mode := match m with Block => Block | Stream _ => Stream None | Vectored => Vectored end.
