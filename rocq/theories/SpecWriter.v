(** What it means to write a text to a writer piece by piece. *)
From Verif Require Import Base ModelUtil ModelWriter.
Local Open Scope N_scope.
Local Open Scope list_scope.

(** A call of [write_str] or [write_char]. *)
Inductive piece := PStr (t : str) | PChr (c : N).
Definition piece_text (q : piece) : str := match q with PStr t => t | PChr c => [c] end.
Definition text (ps : list piece) : str := flat_map piece_text ps.
(** The writer takes the piece, or refuses it. *)
Inductive takes {W} (w : writer W) (f : W) : piece -> W -> Prop :=
| takes_str : forall t f', w_str w f t = (f', true) -> takes w f (PStr t) f'
| takes_chr : forall c f', w_char w f c = (f', true) -> takes w f (PChr c) f'.
Inductive refuses {W} (w : writer W) (f : W) : piece -> W -> Prop :=
| refuses_str : forall t f', w_str w f t = (f', false) -> refuses w f (PStr t) f'
| refuses_chr : forall c f', w_char w f c = (f', false) -> refuses w f (PChr c) f'.
(** It takes all of them, one after the other. *)
Inductive takes_all {W} (w : writer W) : W -> list piece -> W -> Prop :=
| takes_none : forall f, takes_all w f [] f
| takes_one : forall f q f1 ps f2, takes w f q f1 -> takes_all w f1 ps f2 -> takes_all w f (q :: ps) f2.
(** It takes some of them and refuses the next; what comes after is never offered. *)
Definition stops {W} (w : writer W) (f : W) (ps : list piece) (f' : W) : Prop :=
  exists before q after f1, ps = before ++ q :: after /\ takes_all w f before f1 /\ refuses w f1 q f'.
(** A program that offers these pieces, in this order, to whatever writer it is given:
    if all are taken it ends as [e] says, and at the first one refused it stops with
    an error.  One of the two is the case, whatever the writer. *)
Definition in_pieces (run : forall W, writer W -> W -> outcome (result W W)) (ps : list piece) (e : outcome unit) : Prop :=
  forall W (w : writer W) f,
    (forall f', takes_all w f ps f' -> run W w f = (let! _ := e in Ret (ROk f'))) /\
    (forall f', stops w f ps f' -> run W w f = Ret (RErr f')) /\
    exists f', takes_all w f ps f' \/ stops w f ps f'.
(** A writer that has a text: a piece it takes is added, a piece it refuses leaves
    some beginning of it. *)
Definition keeps_text {W} (w : writer W) (kept : W -> str) : Prop :=
  (forall f q f', takes w f q f' -> kept f' = kept f ++ piece_text q) /\
  (forall f q f', refuses w f q f' -> exists a b, piece_text q = a ++ b /\ kept f' = kept f ++ a).
(** A buffer with room for so many bytes: a piece goes in whole or not at all. *)
Definition bounded (room : N) : writer str :=
  let put f t := if str_len (f ++ t) <=? room then (f ++ t, true) else (f, false) in
  Writer str put (fun f c => put f [c]).
