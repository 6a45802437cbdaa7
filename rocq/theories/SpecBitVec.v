(** What a bit vector is to hold, and how two of them compare. *)
From Verif Require Import Base ModelLiteral ModelBitVec.
Local Open Scope N_scope.

(** The vectors reached by pushing the bits of a list, first to last. *)
Fixpoint bv_pushes (p : profile) (v : bitvec) (bs : list bool) : outcome bitvec :=
  match bs with [] => Ret v | b :: t => let! v' := bv_push p v b in bv_pushes p v' t end.
(** The literals reached by the same pushes, on stored words and on lists. *)
Fixpoint wl_pushes (p : profile) (l : wliteral) (es : list (N * bool)) : outcome wliteral :=
  match es with [] => Ret l | (c, n) :: t => let! l' := wl_push p l c n in wl_pushes p l' t end.
Fixpoint lit_pushes (l : literal) (es : list (N * bool)) : literal :=
  match es with [] => l | (c, n) :: t => lit_pushes (lit_push l c n) t end.

(** The dictionary order of bit strings: a proper prefix comes first, and
    otherwise the one with a clear bit where they first differ. *)
Inductive before : list bool -> list bool -> Prop :=
| before_prefix : forall a x r, before a (a ++ x :: r)
| before_bit : forall c a b, before (c ++ false :: a) (c ++ true :: b).

(** The number whose binary digits are the given bits, least first. *)
Fixpoint value (bs : list bool) : N :=
  match bs with [] => 0 | b :: t => (if b then 1 else 0) + 2 * value t end.
(** The bits cut into words of 32, the last one padded with clear bits. *)
Fixpoint words (fuel : nat) (bs : list bool) : list N :=
  match fuel, bs with
  | S f, _ :: _ => value (firstn 32 bs) :: words f (skipn 32 bs)
  | _, _ => []
  end.
Definition stored (bs : list bool) : list N := words (List.length bs) bs.
