(** What the engine under construction should do with requests to add a literal, and
    what a call should do with a set of patterns, under any configuration. *)
From Verif Require Import Base ModelUtil ModelLiteral ModelReport ModelParser ModelNfa ModelSmallWrite ModelCompiler SpecSet SpecGrammar SpecTrie SpecTree SpecGraph SpecCompile.
Local Open Scope N_scope.
Local Open Scope list_scope.

(** A letter, and a literal with letters of both kinds: taken as written and in
    either case. *)
Definition letterb (c : N) : bool := ((65 <=? c) && (c <=? 90)) || ((97 <=? c) && (c <=? 122)).
Definition mixed_case (l : literal) : bool :=
  existsb (fun x : N * bool => letterb (fst x) && snd x) (combine (lit_s l) (lit_nocase l)) &&
  existsb (fun x : N * bool => letterb (fst x) && negb (snd x)) (combine (lit_s l) (lit_nocase l)).
(** The first request made under an id. *)
Definition first_request (T : list lit_request) (id : N) : option lit_request := find (fun t => id =? lr_id t) T.
(** A request gets as far as being registered, the ones in [T] having been. *)
Definition enters (g : grey) (T : list lit_request) (q : lit_request) : bool :=
  shortcut_literals g && negb (mixed_case (lr_lit q)) &&
  forallb (fun t => negb (lr_id t =? lr_id q) || Bool.eqb (lr_single t) (lr_single q)) T.
(** The requests of a history that get that far. *)
Definition entered (g : grey) (h : list lit_request) : list lit_request :=
  fold_left (fun T q => if enters g T q then T ++ [q] else T) h [].
(** The longest literal with a depth. *)
Definition deepest : N := 2 ^ 31 - 2.
(** What stays of a registered one. *)
Definition stays (g : grey) (q : lit_request) : bool :=
  negb (limit_report_count g =? 0) && (lit_length (lr_lit q) <=? deepest).
Definition wants_start (q : lit_request) : bool := match lr_som q with SomLeft => true | SomNone => false end.
(** A registered request takes a key for its id when it is single-match and wants no
    start; the ids that have a key. *)
Definition keyed (q : lit_request) : bool := lr_single q && negb (wants_start q).
Definition keyed_ids (T : list lit_request) : list N := nodup N.eq_dec (map lr_id (filter keyed T)).
(** There is a key left whenever one is asked for. *)
Definition keys_left (T : list lit_request) : Prop := N.of_nat (List.length (keyed_ids T)) < 2 ^ 32.
(** What the small-write builder gets of the requests registered, and a request that it
    can no longer count. *)
Definition taken_inputs (g : grey) (T : list lit_request) : list (literal * N) := map (fun q => (lr_lit q, 0)) (filter (stays g) T).
Definition counted_out (p : profile) (np : N) (g : grey) (T : list lit_request) (q : lit_request) : Prop :=
  stays g q = true /\ stops p np g (taken_inputs g T) (lr_lit q, 0) POverflow.
(** What a registered request runs into: no key left, or no number left to count it with. *)
Definition runs_into (p : profile) (np : N) (g : grey) (T : list lit_request) (q : lit_request) (w : panic) : Prop :=
  enters g T q = true /\
  ((w = PExpect /\ keyed q = true /\ ~ keys_left T) \/
   (w = POverflow /\ (keyed q = true -> keys_left T) /\ counted_out p np g T q)).
(** The answer to a request, the ones in [T] having been registered. *)
Inductive answered (g : grey) (T : list lit_request) (q : lit_request) : result compile_error bool -> Prop :=
| an_off : shortcut_literals g = false -> answered g T q (ROk false)
| an_mixed : mixed_case (lr_lit q) = true -> answered g T q (ROk false)
| an_clash : forall t e, shortcut_literals g = true -> mixed_case (lr_lit q) = false ->
    first_request T (lr_id q) = Some t -> lr_single t <> lr_single q ->
    err_kind e = EOther -> err_index e = Some (lr_index q) ->
    err_reason e = lit "Expression (index " ++ show (lr_index q) ++ lit ") with match ID " ++ show (lr_id q) ++ lit " " ++
      (if lr_single q then lit "specified " else lit "did not sepcify ") ++ lit " SINGLEMATCH whereas previous expression (index " ++
      show (lr_index t) ++ lit ") with the same match ID did" ++ (if lr_single t then lit " not." else lit ".") ->
    answered g T q (RErr e)
| an_limit : enters g T q = true -> limit_report_count g = 0 ->
    answered g T q (RErr (CompileError EResourceLimit (lit "Resource limit exceeded.") None))
| an_deep : enters g T q = true -> limit_report_count g <> 0 -> deepest < lit_length (lr_lit q) ->
    answered g T q (RErr (CompileError EOther (lit "depth overflow") None))
| an_taken : enters g T q = true -> limit_report_count g <> 0 -> lit_length (lr_lit q) <= deepest -> answered g T q (ROk true).
(** A whole history of requests and its answers. *)
Fixpoint ask_all (p : profile) (n : ng) (h : list lit_request) : outcome (ng * list (result compile_error bool)) :=
  match h with
  | [] => Ret (n, [])
  | q :: h' => let! (n1, a) := ask p n q in let! (n2, l) := ask_all p n1 h' in Ret (n2, a :: l)
  end.
(** Nothing is asked that a debug assertion forbids. *)
Definition proper (p : profile) (q : lit_request) : Prop :=
  lit_wf (lr_lit q) /\ (debug_assertions p = true -> lit_s (lr_lit q) <> [] /\ ~ (lr_som q = SomLeft /\ lr_single q = true)).

(** ** Sets of patterns under a configuration *)

(** Literals are added by themselves, not as graphs. *)
Definition shortcuts (g : grey) : bool := allow_literal g && shortcut_literals g.
(** Acceptable on its own, [n] being the longest text allowed. *)
Record acceptable_upto (n : N) (p : profile) (it : item) : Prop := AcceptableUpto {
  au_short : str_len (it_expr it) <= n;
  au_flags : ~ (quiet it = true /\ som_leftmost it = true);
  au_text : exists body, body_of (it_expr it) body /\ ascii_text body /\ balanced body /\ groups_ok p (it_expr it) body body
}.
(** An item is neither too deep for the dictionary nor too big for a graph. *)
Definition graph_fits (body : str) : Prop := 4 + N.of_nat (List.length (plain_text body)) <= 2 ^ 32 - 1.
Definition in_range (g : grey) (it : item) : Prop := forall body, body_of (it_expr it) body ->
  (shortcuts g = true /\ literal_text body -> N.of_nat (List.length (lit_text body)) <= deepest) /\
  (~ (shortcuts g = true /\ literal_text body) -> graph_fits body).
