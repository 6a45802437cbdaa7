(** What code working on boxed [Ng] values should amount to when pointers are left
    out: a list of values by handle, [None] once dropped. *)
From Verif Require Import Base ModelUtil ModelLiteral ModelReport ModelPetgraph ModelParser ModelNfa ModelSmallWrite ModelCompiler ModelPinned.
Local Open Scope list_scope.

Definition world := list (option ng).

(** The values in a heap. *)
Definition forget (h : heap) : world := map (fun c => match c with Freed => None | Live n _ => Some n end) h.
(** Every box still alive points to itself. *)
Definition self_pointing (h : heap) : Prop := forall l n rm, nth_error h l = Some (Live n rm) -> rm = Some l.

(** The box a call is made on. *)
Definition handle (c : box_call) : option nat :=
  match c with
  | CNew _ _ _ => None
  | CExpression a _ _ _ _ => Some a
  | CLiteral a _ _ _ _ _ _ => Some a
  | CGraph a _ _ => Some a
  | CSmallWrite a _ _ => Some a
  | CBuild a => Some a
  | CDrop a => Some a
  end.

(** What the call does to the value it is made on (nothing left: it was dropped), and
    what it answers.  [CSmallWrite] reads the report manager of the same value. *)
Definition effect (p : profile) (c : box_call) (n : ng) : outcome (option ng * answer) :=
  match c with
  | CNew _ _ _ => Ret (Some n, ANothing)
  | CExpression _ i e f id => let! (n', r) := add_expression p n i e f id in Ret (Some n', AExpression r)
  | CLiteral _ l i x hl s q => let! (n', r) := ng_add_literal p n l i x hl s q in Ret (Some n', ALiteral r)
  | CGraph _ ei g => Ret (Some (add_graph n ei g), ANothing)
  | CSmallWrite _ g ei =>
    let! s := smwr_add_expression (ng_rm n) (ng_smwr n) g ei in
    Ret (Some (Ng (ng_min_width n) (ng_rm n) (ng_boundary n) (ng_cc n) s (ng_rose n)), ANothing)
  | CBuild _ => Ret (Some n, ADatabase (build n))
  | CDrop _ => Ret (None, ANothing)
  end.

(** The values before, the call, the values after and the answer: a new value goes to
    the end of the list; otherwise only the value with the handle changes. *)
Inductive called (p : profile) (w : world) (c : box_call) : outcome (world * answer) -> Prop :=
| Made : forall cc k s, c = CNew cc k s ->
    called p w c (Ret (w ++ [Some (ng_new cc k s)], ABox (List.length w)))
| Changed : forall l n v a w', handle c = Some l -> nth_error w l = Some (Some n) -> effect p c n = Ret (v, a) ->
    List.length w' = List.length w -> nth_error w' l = Some v -> (forall k, k <> l -> nth_error w' k = nth_error w k) ->
    called p w c (Ret (w', a))
| Panicked : forall l n why, handle c = Some l -> nth_error w l = Some (Some n) -> effect p c n = Panic why ->
    called p w c (Panic why)
| Looped : forall l n, handle c = Some l -> nth_error w l = Some (Some n) -> effect p c n = Diverge ->
    called p w c Diverge.

(** A call on a box that was never made or is already dropped. *)
Definition bad_handle (w : world) (c : box_call) : Prop :=
  exists l, handle c = Some l /\ forall n, nth_error w l <> Some (Some n).

(** A sequence of calls, up to the first that panics. *)
Inductive calls (p : profile) : world -> list box_call -> outcome (world * list answer) -> Prop :=
| CallsNil : forall w, calls p w [] (Ret (w, []))
| CallsCons : forall w c t w1 a w2 l, called p w c (Ret (w1, a)) -> calls p w1 t (Ret (w2, l)) ->
    calls p w (c :: t) (Ret (w2, a :: l))
| CallsPanicHead : forall w c t why, called p w c (Panic why) -> calls p w (c :: t) (Panic why)
| CallsLoopHead : forall w c t, called p w c Diverge -> calls p w (c :: t) Diverge
| CallsPanicTail : forall w c t w1 a why, called p w c (Ret (w1, a)) -> calls p w1 t (Panic why) ->
    calls p w (c :: t) (Panic why)
| CallsLoopTail : forall w c t w1 a, called p w c (Ret (w1, a)) -> calls p w1 t Diverge ->
    calls p w (c :: t) Diverge.

(** A sequence of calls one of which, reached without a panic, is on a bad handle. *)
Inductive misused (p : profile) : world -> list box_call -> Prop :=
| MisusedHere : forall w c t, bad_handle w c -> misused p w (c :: t)
| MisusedLater : forall w c t w1 a, called p w c (Ret (w1, a)) -> misused p w1 t -> misused p w (c :: t).
