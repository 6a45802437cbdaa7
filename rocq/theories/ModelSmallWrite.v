(** Model of src/smallwrite/smallwrite_build.rs: the literal dictionaries of the
    small-write engine builder. *)
From Verif Require Import Base ModelUtil ModelPetgraph ModelLiteral ModelReport ModelParser ModelNfa.
Local Open Scope N_scope.

(** smallwrite_build.rs:12 *)
Definition MAX_TRIE_VERTICES : N := 8000.

(** smallwrite_build.rs:14-19 *)
Record trie_props := TrieProps { tp_c : N; tp_reports : list N }.
(** smallwrite_build.rs:22-27 *)
Definition tp_with_byte (c : N) : trie_props := TrieProps c [].
(** smallwrite_build.rs:30-37 *)
Definition tp_default : trie_props := TrieProps 0 [].

(** smallwrite_build.rs:45-49 *)
Record lit_trie := LitTrie { lt_inner : graph trie_props; lt_root : N }.
(** smallwrite_build.rs:66-72; adding the first node cannot fail. *)
Definition trie_default : lit_trie := LitTrie (Graph [tp_default] []) 0.
(** smallwrite_build.rs:53-55 *)
Definition trie_is_empty (t : lit_trie) : bool := node_count (lt_inner t) =? 1.
(** smallwrite_build.rs:58-63 *)
Definition trie_all_reports (t : lit_trie) : list N :=
  fold_left (fun s v => set_extend N.eqb s (tp_reports v)) (nodes (lt_inner t)) [].

(** smallwrite_build.rs:164-167: [find(|v| trie.inner[*v].c == c)]. *)
Fixpoint find_child (g : graph trie_props) (c : N) (vs : list N) : outcome (option N) :=
  match vs with
  | [] => Ret None
  | v :: t =>
    let! x := node_index g v in
    if tp_c x =? c then Ret (Some v) else find_child g c t
  end.
(** smallwrite_build.rs:164-172: one iteration of the loop. *)
Definition trie_step (g : graph trie_props) (u c : N) : outcome (graph trie_props * N) :=
  let! r := find_child g c (neighbors_out g u) in
  match r with
  | Some v => Ret (g, v)
  | None =>
    let! (g1, next) := add_node g (tp_with_byte c) in
    let! g2 := add_edge g1 u next in
    Ret (g2, next)
  end.
(** the loop of smallwrite_build.rs:161-175 *)
Fixpoint trie_walk_insert (g : graph trie_props) (u : N) (es : list lit_elem)
  : outcome (graph trie_props * N) :=
  match es with
  | [] => Ret (g, u)
  | e :: t => let! (g', u') := trie_step g u (el_c e) in trie_walk_insert g' u' t
  end.
(** smallwrite_build.rs:161-178 *)
Definition add_to_trie (l : literal) (report_ : N) (t : lit_trie) : outcome (lit_trie * bool) :=
  let! (g, u) := trie_walk_insert (lt_inner t) (lt_root t) (lit_iter l) in
  let! g' := node_update g u (fun x => TrieProps (tp_c x) (set_insert N.eqb report_ (tp_reports x))) in
  Ret (LitTrie g' (lt_root t), node_count g' <=? MAX_TRIE_VERTICES).

(** smallwrite_build.rs:75-83; the raw pointer [rm] is passed to
    [smwr_add_expression] as an argument instead. *)
Record small_write := SmallWrite {
  sw_grey : grey; sw_trie : lit_trie; sw_trie_nocase : lit_trie;
  sw_num_literals : N; sw_poisoned : bool }.
(** smallwrite_build.rs:87-98 *)
Definition smwr_new (num_patterns : N) (g : grey) : small_write :=
  SmallWrite g trie_default trie_default 0
    (negb (allow_small_write g) || (small_write_max_patterns g <? num_patterns)).

(** [self.poisoned = true] (smallwrite_build.rs:111,117,125,146,156) *)
Definition smwr_poison (s : small_write) : small_write :=
  SmallWrite (sw_grey s) (sw_trie s) (sw_trie_nocase s) (sw_num_literals s) true.

(** [any(|id| rm.get_report(id).min_length > 0)], smallwrite_build.rs:121-124; a
    hash set is iterated in unspecified order, here in list order. *)
Fixpoint any_min_length (rm : report_manager) (ids : list N) : outcome bool :=
  match ids with
  | [] => Ret false
  | id :: t =>
    let! r := get_report rm id in
    if 0 <? min_length r then Ret true else any_min_length rm t
  end.
(** smallwrite_build.rs:102-130 (never called by the crate) *)
Definition smwr_add_expression (rm : report_manager) (s : small_write) (g : ng_holder)
  (expr : expression_info) : outcome small_write :=
  if sw_poisoned s then Ret s
  else if (match ex_som expr with SomNone => false | SomLeft => true end) then Ret (smwr_poison s)
  else if is_vacuous g then Ret (smwr_poison s)
  else
    let! ids := all_reports g in
    let! b := any_min_length rm ids in
    if b : bool then Ret (smwr_poison s) else Panic PUnimplemented.

(** smallwrite_build.rs:132-158 *)
Definition smwr_add_literal (p : profile) (s : small_write) (l : literal) (r : N)
  : outcome small_write :=
  if sw_poisoned s then Ret s
  else if small_write_largest_buffer (sw_grey s) <? lit_len l then Ret s
  else
    let! n := chk_add p (usize_bits p) (sw_num_literals s) 1 in
    let s1 := SmallWrite (sw_grey s) (sw_trie s) (sw_trie_nocase s) n (sw_poisoned s) in
    if small_write_max_literals (sw_grey s) <? n then Ret (smwr_poison s1)
    else if lit_any_nocase l then
      let! (t, ok) := add_to_trie l r (sw_trie_nocase s1) in
      let s2 := SmallWrite (sw_grey s1) (sw_trie s1) t (sw_num_literals s1) (sw_poisoned s1) in
      Ret (if negb ok then smwr_poison s2 else s2)
    else
      let! (t, ok) := add_to_trie l r (sw_trie s1) in
      let s2 := SmallWrite (sw_grey s1) t (sw_trie_nocase s1) (sw_num_literals s1) (sw_poisoned s1) in
      Ret (if negb ok then smwr_poison s2 else s2).
