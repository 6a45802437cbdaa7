(** Notions for the properties of languages of expressions: case variants of a
    word, and quantities of a text that bound a language. *)
From Verif Require Import Base SpecSet.
Local Open Scope N_scope.
Local Open Scope list_scope.

(** [w'] is [w] up to the case of ASCII letters. *)
Definition case_variant (w w' : list N) : Prop := Forall2 (fun x y => y = x \/ y = other_case x) w w'.
(** The numbers of bars, of letters, and of characters that stand for themselves. *)
Definition bars (s : list N) : nat := count_occ N.eq_dec s 124.
Definition is_letter_char (c : N) : bool := ((65 <=? c) && (c <=? 90)) || ((97 <=? c) && (c <=? 122)).
Definition letters (s : list N) : nat := List.length (filter is_letter_char s).
Definition plain_chars (s : list N) : nat :=
  List.length (filter (fun c => negb ((c =? 40) || (c =? 41) || (c =? 124))) s).
