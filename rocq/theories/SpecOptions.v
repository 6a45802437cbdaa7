(** Sets of compile options. *)
From Verif Require Import Base SpecDebug.
Local Open Scope N_scope.
Local Open Scope list_scope.

(** The options in the order of their declaration; the position is the bit. *)
Definition options : list str :=
  [lit "CASELESS"; lit "DOTALL"; lit "MULTILINE"; lit "SINGLEMATCH"; lit "ALLOWEMPTY"; lit "UTF8"; lit "UCP"; lit "PREFILTER";
   lit "SOM_LEFTMOST"; lit "COMBINATION"; lit "QUIET"].
Definition has (f : N) (name : str) : Prop := exists i, nth_error options i = Some name /\ N.testbit f (N.of_nat i) = true.
(** A value with no other bits. *)
Definition only_options (f : N) : Prop := forall i, N.testbit f i = true -> i < 11.
(** How options are written: their names in the order of declaration, and the bits of no
    option as one hexadecimal number. *)
Inductive word : str -> N -> Prop :=
| word_name : forall i name, nth_error options i = Some name -> word name (2 ^ N.of_nat i)
| word_rest : forall ds n, hex_number ds n -> n <> 0 -> n mod 2048 = 0 -> word (lit "0x" ++ ds) n.
Inductive written : str -> N -> Prop :=
| written_one : forall w b, word w b -> written w b
| written_more : forall t n w b, written t n -> word w b -> n < b -> n < 2048 -> written (t ++ lit " | " ++ w) (n + b).
