(** The recursive functions over parse trees again, on a stack that holds a limited
    number of calls: [None] when a call finds no room.  A call takes room whatever it
    does, and gives it back when it returns.  The helper methods a walk calls (those of
    the visitor, of the builder and of the vectors' iterators) are not recursive and
    take no room here. *)
From Verif Require Import Base ModelUtil ModelParser ModelNfa.
Local Open Scope list_scope.

(** The child loops of component_sequence.rs:62-69 and component_alternation.rs:28-35. *)
Section WalkListIn.
  Context {V E A : Type} (walk1 : V -> A -> option (outcome (result E V))) (during : V -> V).
  (** component_sequence.rs:62-69, component_alternation.rs:28-35 *)
  Fixpoint walk_list_in (v : V) (l : list A) : option (outcome (result E V)) :=
    match l with
    | [] => Some (Ret (ROk v))
    | x :: t =>
      match walk1 v x with
      | Some (Ret (ROk v1)) => walk_list_in (match t with [] => v1 | _ :: _ => during v1 end) t
      | other => other
      end
    end.
End WalkListIn.

(** component.rs:39-48, component_alternation.rs:22-40, component_sequence.rs:54-74 and
    component_class.rs:54-61, which calls ascii_component_class.rs:36-44. *)
Fixpoint walk_component_in {V E} (p : profile) (vis : visitor V E) (room : nat) (v : V) (c : component)
  {struct room} : option (outcome (result E V)) :=
  match room with
  | O => None
  | S room =>
    match c with
    | CAlternation branches => walk_alternation_in p vis room v branches
    | CClass k =>
      match room with
      | S (S _) => Some (walk_class vis v k)
      | _ => None
      end
    | CSequence s => walk_seqn_in p vis room v s
    end
  end
with walk_alternation_in {V E} (p : profile) (vis : visitor V E) (room : nat) (v : V) (branches : list seqn)
  {struct room} : option (outcome (result E V)) :=
  match room with
  | O => None
  | S room =>
    match pre_alternation vis v branches with
    | Ret (ROk v1) =>
      match walk_list_in (fun v s => walk_seqn_in p vis room v s) (fun v => during_alternation vis v branches) v1 branches with
      | Some (Ret (ROk v2)) => Some (let! v3 := post_alternation vis v2 branches in Ret (ROk v3))
      | other => other
      end
    | other => Some other
    end
  end
with walk_seqn_in {V E} (p : profile) (vis : visitor V E) (room : nat) (v : V) (s : seqn)
  {struct room} : option (outcome (result E V)) :=
  match room with
  | O => None
  | S room =>
    match rs_debug_assert p (match sq_alternation s with None => true | Some _ => false end) with
    | Ret _ =>
      match pre_sequence vis v s with
      | Ret (ROk v1) =>
        match walk_list_in (fun v c => walk_component_in p vis room v c) (fun v => during_sequence vis v s) v1 (sq_children s) with
        | Some (Ret (ROk v2)) => Some (let! v3 := post_sequence vis v2 s in Ret (ROk v3))
        | other => other
        end
      | other => Some other
      end
    | Panic w => Some (Panic w)
    | Diverge => Some Diverge
    end
  end.

(** The child loops of component_sequence.rs:43-45 and component_alternation.rs:16-18. *)
Section NoteListIn.
  Context {A : Type} (note1 : build_state -> A -> option (outcome build_state)).
  (** component_sequence.rs:43-45, component_alternation.rs:16-18 *)
  Fixpoint note_list_in (bs : build_state) (l : list A) : option (outcome build_state) :=
    match l with
    | [] => Some (Ret bs)
    | x :: t =>
      match note1 bs x with
      | Some (Ret bs') => note_list_in bs' t
      | other => other
      end
    end.
End NoteListIn.

(** component.rs:17-23, component_alternation.rs:15-19, component_sequence.rs:42-46 and
    component_class.rs:46-50, which calls ascii_component_class.rs:28-33. *)
Fixpoint note_positions_in (room : nat) (bs : build_state) (c : component) {struct room} : option (outcome build_state) :=
  match room with
  | O => None
  | S room =>
    match c with
    | CAlternation branches =>
      match room with
      | O => None
      | S room => note_list_in (fun bs s => seqn_note_positions_in room bs s) bs branches
      end
    | CClass k =>
      match room with
      | S (S _) => Some (ac_note_positions bs k)
      | _ => None
      end
    | CSequence s => seqn_note_positions_in room bs s
    end
  end
with seqn_note_positions_in (room : nat) (bs : build_state) (s : seqn) {struct room} : option (outcome build_state) :=
  match room with
  | O => None
  | S room => note_list_in (fun bs c => note_positions_in room bs c) bs (sq_children s)
  end.
