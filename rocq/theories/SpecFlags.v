(** What the options of a call are, bit by bit. *)
From Verif Require Import Base ModelUtil ModelParser ModelNfa SpecGrammar.
Local Open Scope N_scope.

(** Two sets of options ask for the same: CASELESS (bit 0), SINGLEMATCH (bit 3)
    and QUIET (bit 10) together with SOM_LEFTMOST (bit 8). *)
Definition same_request (f f' : N) : Prop :=
  N.testbit f 0 = N.testbit f' 0 /\ N.testbit f 3 = N.testbit f' 3 /\
  N.testbit f 10 && N.testbit f 8 = N.testbit f' 10 && N.testbit f' 8.
(** The text begins with the control verb [v]. *)
Definition begins_with_verb (s v : str) : Prop := exists rest, verb_then s v rest.
(** What is noted about an expression. *)
Record noted (index : N) (s : str) (f id : N) (x : expression_info) : Prop := Noted {
  nt_index : ex_index x = index;
  nt_id : ex_report x = id;
  nt_vacuous : ex_allow_vacuous x = false;
  nt_single : ex_highlander x = N.testbit f 3;
  nt_utf8 : ex_utf8 x = true <-> N.testbit f 5 = true \/ begins_with_verb s (lit "UTF") \/ begins_with_verb s (lit "UTF8");
  nt_prefilter : ex_prefilter x = N.testbit f 7;
  nt_som : ex_som x = SomNone;
  nt_quiet : ex_quiet x = N.testbit f 10
}.
(** The options the text was read with. *)
Record read_with (s : str) (f : N) (m : parse_mode) : Prop := ReadWith {
  rw_caseless : caseless m = N.testbit f 0;
  rw_dotall : dotall m = N.testbit f 1;
  rw_space : ignore_space m = false;
  rw_multiline : multiline m = N.testbit f 2;
  rw_ucp : ucp m = true <-> N.testbit f 6 = true \/ begins_with_verb s (lit "UCP");
  rw_utf8 : utf8 m = true <-> N.testbit f 5 = true \/ begins_with_verb s (lit "UTF") \/ begins_with_verb s (lit "UTF8")
}.
