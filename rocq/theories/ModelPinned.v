(** The pinned, boxed [Ng] and the raw pointer inside it: src/nfagraph/ng.rs:34-59,
    src/smallwrite/smallwrite_build.rs:76,91,102-130, and the code that works on the
    [Pin<Box<Ng>>]: src/parser/shortcut_literal.rs:55-86, src/compiler.rs:60-103,
    src/lib.rs:96-132.

    ModelCompiler threads a plain [ng] through these functions and hands the report
    manager to [smwr_add_expression] as an argument.  Here the [ng] sits in a heap
    cell, is changed in place, and the report manager is found by following the
    pointer, as in the code. *)
From Verif Require Import Base ModelUtil ModelBitField ModelCharReach ModelLiteral ModelReport
  ModelPetgraph ModelParser ModelNfa ModelSmallWrite ModelCompiler.
Local Open Scope list_scope.

(** One allocation.  [Live n rm] holds the [Ng] and the field [smwr.rm] of its
    small-write builder: the cell whose report manager it points to, [None] for
    [NonNull::dangling()].  [Freed] once the [Box] has been dropped. *)
Inductive cell := Freed | Live (n : ng) (rm : option nat).
Definition heap := list cell.

(** Running code with pointers: undefined behaviour, or an ordinary outcome. *)
Inductive memory (A : Type) := Undefined | Defined (o : outcome A).
Arguments Undefined {A}.
Arguments Defined {A} o.
Definition mbind {A B} (m : memory A) (k : A -> memory B) : memory B :=
  match m with
  | Undefined => Undefined
  | Defined (Ret a) => k a
  | Defined (Panic w) => Defined (Panic w)
  | Defined Diverge => Defined Diverge
  end.
Notation "'let*' x := e 'in' k" := (mbind e (fun x => k))
  (at level 200, x pattern, e at level 100, k at level 200, right associativity).

(** Dereferencing a [Box], or a reference obtained from it. *)
Definition load (h : heap) (l : nat) : memory ng :=
  match nth_error h l with
  | Some (Live n _) => Defined (Ret n)
  | _ => Undefined
  end.
(** Assignments through [get_unchecked_mut]: the value changes where it is; the
    pointer in it is left alone. *)
Definition store (h : heap) (l : nat) (n : ng) : heap :=
  list_upd h l (fun c => match c with Live _ rm => Live n rm | Freed => Freed end).
(** [smwr.rm = rm] (ng.rs:56) *)
Definition store_pointer (h : heap) (l : nat) (rm : option nat) : heap :=
  list_upd h l (fun c => match c with Live n _ => Live n rm | Freed => Freed end).

(** [Ng::new], ng.rs:34-59: the value is built with a dangling pointer
    (smallwrite_build.rs:91), moved to the heap, and the pointer then set to the
    report manager at its final place. *)
Definition box_new (h : heap) (cc : compile_context) (num_patterns som_precision_ : N) : heap * nat :=
  let l := List.length h in
  let h1 := h ++ [Live (ng_new cc num_patterns som_precision_) None] in
  (store_pointer h1 l (Some l), l).

(** Dropping the [Box]. *)
Definition box_drop (h : heap) (l : nat) : memory heap :=
  match nth_error h l with
  | Some (Live _ _) => Defined (Ret (list_upd h l (fun _ => Freed)))
  | _ => Undefined
  end.

(** [self.rm.as_ref()], smallwrite_build.rs:123 *)
Definition deref_rm (h : heap) (rm : option nat) : memory report_manager :=
  match rm with
  | None => Undefined
  | Some l => let* n := load h l in Defined (Ret (ng_rm n))
  end.

(** smallwrite_build.rs:121-124: every turn of the loop follows the pointer. *)
Fixpoint any_min_length_at (h : heap) (rm : option nat) (ids : list N) : memory bool :=
  match ids with
  | [] => Defined (Ret false)
  | id :: t =>
    let* m := deref_rm h rm in
    let* r := Defined (get_report m id) in
    if (0 <? min_length r)%N then Defined (Ret true) else any_min_length_at h rm t
  end.

(** [ng.smwr.add_expression], smallwrite_build.rs:102-130 *)
Definition smwr_add_expression_at (h : heap) (l : nat) (g : ng_holder) (expr : expression_info) : memory heap :=
  match nth_error h l with
  | Some (Live n rm) =>
    let s := ng_smwr n in
    let poison := store h l (Ng (ng_min_width n) (ng_rm n) (ng_boundary n) (ng_cc n) (smwr_poison s) (ng_rose n)) in
    if sw_poisoned s then Defined (Ret h)
    else if (match ex_som expr with SomNone => false | SomLeft => true end) then Defined (Ret poison)
    else if is_vacuous g then Defined (Ret poison)
    else
      let* ids := Defined (all_reports g) in
      let* b := any_min_length_at h rm ids in
      if b : bool then Defined (Ret poison) else Defined (Panic PUnimplemented)
  | _ => Undefined
  end.

(** [get_unchecked_mut().add_literal(..)], shortcut_literal.rs:76-85 *)
Definition add_literal_at (p : profile) (h : heap) (at_ : nat) (l : literal) (expr_index external_report : N)
  (highlander : bool) (som : som_type) (quiet : bool) : memory (heap * result compile_error bool) :=
  let* n := load h at_ in
  let* (n', r) := Defined (ng_add_literal p n l expr_index external_report highlander som quiet) in
  Defined (Ret (store h at_ n', r)).

(** [get_unchecked_mut().add_graph(..)], compiler.rs:91-96 *)
Definition add_graph_at (h : heap) (l : nat) (expr : expression_info) (g : ng_holder) : memory heap :=
  let* n := load h l in Defined (Ret (store h l (add_graph n expr g))).

(** shortcut_literal.rs:55-86 *)
Definition shortcut_literal_at (p : profile) (h : heap) (at_ : nat) (pe : parsed_expression)
  : memory (heap * result compile_error bool) :=
  let* n := load h at_ in
  if negb (allow_literal (cc_grey (ng_cc n))) then Defined (Ret (h, ROk false))
  else
    let* w := Defined (walk_component p (construct_literal_visitor p) lit_default (pe_component pe)) in
    match w with
    | RErr _ => Defined (Ret (h, ROk false))
    | ROk l =>
      if lit_is_empty l then Defined (Ret (h, ROk false))
      else
        let* i := Defined (to_u32 (ex_index (pe_expr pe))) in
        add_literal_at p h at_ l i (ex_report (pe_expr pe)) (ex_highlander (pe_expr pe))
          (ex_som (pe_expr pe)) (ex_quiet (pe_expr pe))
    end.

(** compiler.rs:60-99 *)
Definition add_expression_at (p : profile) (h : heap) (at_ : nat) (index : N) (expression : str) (f : flags) (id : N)
  : memory (heap * result compile_error unit) :=
  let* n := load h at_ in
  if (limit_pattern_length (cc_grey (ng_cc n)) <? str_len expression)%N then
    Defined (Ret (h, RErr (error_new EOther (lit "Pattern length exceeds limit."))))
  else
    let* r := Defined (parsed_expression_new p index expression f id) in
    match r with
    | RErr e => Defined (Ret (h, RErr e))
    | ROk pe =>
      let* (h1, sl) := shortcut_literal_at p h at_ pe in
      match sl with
      | RErr e => Defined (Ret (h1, RErr e))
      | ROk true => Defined (Ret (h1, ROk tt))
      | ROk false =>
        let* (ei, g) := Defined (build_graph p pe) in
        let* h2 := add_graph_at h1 at_ ei g in
        Defined (Ret (h2, ROk tt))
      end
    end.

(** lib.rs:124-129 *)
Fixpoint add_all_at (p : profile) (h : heap) (at_ : nat) (i : N) (l : list (str * flags * N))
  : memory (heap * result compile_error unit) :=
  match l with
  | [] => Defined (Ret (h, ROk tt))
  | (exp, fl, id) :: t =>
    let* (h', r) := add_expression_at p h at_ i exp fl id in
    match r with
    | RErr e =>
      let* i32 := Defined (to_u32 i) in
      let* e' := Defined (set_expression_index p e i32) in
      Defined (Ret (h', RErr e'))
    | ROk _ => add_all_at p h' at_ (i + 1)%N t
    end
  end.

(** compiler.rs:101-113 *)
Definition build_at (h : heap) (l : nat) : memory database :=
  let* n := load h l in Defined (Ret (build n)).

(** lib.rs:96-132; the box is dropped when the function returns, with a database or
    with an error. *)
Definition compile_multi_int_at (p : profile) (h : heap) (expressions : list str) (fs : list flags)
  (ids : list N) (m : mode) (g : grey) : memory (heap * result compile_error database) :=
  match expressions with
  | [] => Defined (Ret (h, RErr (error_new EOther (lit "Invalid parameter: expressions is empty"))))
  | _ :: _ =>
    let count := N.of_nat (List.length expressions) in
    if (limit_pattern_count g <? count)%N then
      Defined (Ret (h, RErr (error_new EOther (lit "Number of patterns too large"))))
    else
      let cc := CompileContext (is_streaming m) (is_vectored m) g in
      let (h1, l) := box_new h cc count (som_precision m) in
      let* (h2, r) := add_all_at p h1 l 0%N (zip3 expressions fs ids) in
      match r with
      | RErr e => let* h3 := box_drop h2 l in Defined (Ret (h3, RErr e))
      | ROk _ =>
        let* db := build_at h2 l in
        let* h3 := box_drop h2 l in
        Defined (Ret (h3, ROk db))
      end
  end.

(** Everything the crate does to boxes, in any order and on any number of them. *)
Inductive box_call :=
| CNew (cc : compile_context) (num_patterns som_precision_ : N)
| CExpression (at_ : nat) (index : N) (expression : str) (f : flags) (id : N)
| CLiteral (at_ : nat) (l : literal) (expr_index external_report : N) (highlander : bool) (som : som_type) (quiet : bool)
| CGraph (at_ : nat) (expr : expression_info) (g : ng_holder)
| CSmallWrite (at_ : nat) (g : ng_holder) (expr : expression_info)
| CBuild (at_ : nat)
| CDrop (at_ : nat).
Inductive answer :=
| ANothing | ABox (at_ : nat) | AExpression (r : result compile_error unit) | ALiteral (r : result compile_error bool) | ADatabase (db : database).

Definition call_at (p : profile) (h : heap) (c : box_call) : memory (heap * answer) :=
  match c with
  | CNew cc k s => let (h', l) := box_new h cc k s in Defined (Ret (h', ABox l))
  | CExpression at_ i e f id => let* (h', r) := add_expression_at p h at_ i e f id in Defined (Ret (h', AExpression r))
  | CLiteral at_ l i x hl s q => let* (h', r) := add_literal_at p h at_ l i x hl s q in Defined (Ret (h', ALiteral r))
  | CGraph at_ ei g => let* h' := add_graph_at h at_ ei g in Defined (Ret (h', ANothing))
  | CSmallWrite at_ g ei => let* h' := smwr_add_expression_at h at_ g ei in Defined (Ret (h', ANothing))
  | CBuild at_ => let* db := build_at h at_ in Defined (Ret (h, ADatabase db))
  | CDrop at_ => let* h' := box_drop h at_ in Defined (Ret (h', ANothing))
  end.

Fixpoint calls_at (p : profile) (h : heap) (cs : list box_call) : memory (heap * list answer) :=
  match cs with
  | [] => Defined (Ret (h, []))
  | c :: t =>
    let* (h1, a) := call_at p h c in
    let* (h2, l) := calls_at p h1 t in
    Defined (Ret (h2, a :: l))
  end.
