(** What the [Debug] text of a parse tree looks like: on one line, as a relation between
    trees and texts; on several, as a list of lines. *)
From Verif Require Import Base ModelUtil ModelBitField ModelCharReach ModelParser SpecGrammar SpecText SpecDebug.
Local Open Scope N_scope.
Local Open Scope list_scope.

(** ** On one line *)
(** Entries with a comma and a blank in between. *)
Inductive listed {A} (R : A -> str -> Prop) : list A -> str -> Prop :=
| listed_nil : listed R [] []
| listed_one : forall a t, R a t -> listed R [a] t
| listed_more : forall a b l t u, R a t -> listed R (b :: l) u -> listed R (a :: b :: l) (t ++ lit ", " ++ u).
Definition truth (b : bool) : str := if b then lit "true" else lit "false".
Inductive optional {A} (R : A -> str -> Prop) : option A -> str -> Prop :=
| optional_none : optional R None (lit "None")
| optional_some : forall a t, R a t -> optional R (Some a) (lit "Some(" ++ t ++ lit ")").
Definition decimal (n : N) (t : str) : Prop := is_decimal t n.
Definition quoted (s t : str) : Prop := literal t s.
Definition shows_mode (m : parse_mode) (t : str) : Prop :=
  t = lit "ParseMode { caseless: " ++ truth (caseless m) ++ lit ", dotall: " ++ truth (dotall m) ++ lit ", ignore_space: " ++ truth (ignore_space m)
      ++ lit ", multiline: " ++ truth (multiline m) ++ lit ", ucp: " ++ truth (ucp m) ++ lit ", utf8: " ++ truth (utf8 m) ++ lit " }".
Definition words_of (c : charreach) : list N := match c with BF w0 w1 w2 w3 => [w0; w1; w2; w3] end.
Definition shows_class (k : ascii_class) (t : str) : Prop := exists m ws,
  shows_mode (ac_mode k) m /\ listed decimal (words_of (ac_cr k)) ws /\
  t = lit "Ascii(AsciiComponentClass { mode: " ++ m ++ lit ", cr: CharReach { bits: BitField256 { bits: [" ++ ws ++ lit "] } } })".
Inductive shows : component -> str -> Prop :=
| shows_alternation : forall bs t, listed shows_seqn bs t -> shows (CAlternation bs) (lit "Alternation(ComponentAlternation { children: [" ++ t ++ lit "] })")
| shows_cclass : forall k t, shows_class k t -> shows (CClass k) (lit "Class(" ++ t ++ lit ")")
| shows_sequence : forall s t, shows_seqn s t -> shows (CSequence s) (lit "Sequence(" ++ t ++ lit ")")
with shows_seqn : seqn -> str -> Prop :=
| shows_plain : forall ch ci cn t u v, listed shows ch t -> optional decimal ci u -> optional quoted cn v ->
    shows_seqn (Seqn ch None ci cn)
      (lit "ComponentSequence { children: [" ++ t ++ lit "], alternation: None, capture_index: " ++ u ++ lit ", capture_name: " ++ v ++ lit " }")
| shows_unfinished : forall ch bs ci cn t a u v, listed shows ch t -> listed shows_seqn bs a -> optional decimal ci u -> optional quoted cn v ->
    shows_seqn (Seqn ch (Some bs) ci cn)
      (lit "ComponentSequence { children: [" ++ t ++ lit "], alternation: Some(ComponentAlternation { children: [" ++ a
       ++ lit "] }), capture_index: " ++ u ++ lit ", capture_name: " ++ v ++ lit " }").

(** ** On several: the lines, each with as many times four blanks as it is deep *)
Section Outline.
  Context (quote : str -> str) (digits : N -> str).
  Definition ln (d : nat) (t : str) : str := repeat 32 (4 * d) ++ t.
  (** A value in brackets, and a list, which is on one line when it is empty. *)
  Definition block (d : nat) (first : str) (inner : list str) (last : str) : list str := ln d first :: inner ++ [ln d last].
  Definition entries (d : nat) (first : str) (inner : list str) : list str :=
    match inner with [] => [ln d (first ++ lit "[],")] | _ => block d (first ++ lit "[") inner (lit "],") end.
  Definition outline_option (d : nat) (name : str) (o : option str) : list str :=
    match o with None => [ln d (name ++ lit ": None,")] | Some t => block d (name ++ lit ": Some(") [ln (S d) (t ++ lit ",")] (lit "),") end.
  Definition outline_mode (d : nat) (m : parse_mode) : list str :=
    block d (lit "mode: ParseMode {")
      [ ln (S d) (lit "caseless: " ++ truth (caseless m) ++ lit ","); ln (S d) (lit "dotall: " ++ truth (dotall m) ++ lit ",");
        ln (S d) (lit "ignore_space: " ++ truth (ignore_space m) ++ lit ","); ln (S d) (lit "multiline: " ++ truth (multiline m) ++ lit ",");
        ln (S d) (lit "ucp: " ++ truth (ucp m) ++ lit ","); ln (S d) (lit "utf8: " ++ truth (utf8 m) ++ lit ",") ] (lit "},").
  Definition outline_class (d : nat) (k : ascii_class) : list str :=
    block d (lit "Ascii(") (block (1 + d) (lit "AsciiComponentClass {")
      (outline_mode (2 + d) (ac_mode k) ++
       block (2 + d) (lit "cr: CharReach {") (block (3 + d) (lit "bits: BitField256 {")
         (entries (4 + d) (lit "bits: ") (map (fun w => ln (5 + d) (digits w ++ lit ",")) (words_of (ac_cr k)))) (lit "},")) (lit "},")) (lit "},")) (lit "),").
  (** [post] is the comma after it, which the whole tree has not. *)
  Fixpoint outline (d : nat) (c : component) (post : str) : list str :=
    match c with
    | CAlternation bs => block d (lit "Alternation(") (block (1 + d) (lit "ComponentAlternation {")
        (entries (2 + d) (lit "children: ") (flat_map (fun s => outline_seqn (3 + d) s) bs)) (lit "},")) (lit ")" ++ post)
    | CClass k => block d (lit "Class(") (outline_class (1 + d) k) (lit ")" ++ post)
    | CSequence s => block d (lit "Sequence(") (outline_seqn (1 + d) s) (lit ")" ++ post)
    end
  with outline_seqn (d : nat) (s : seqn) : list str :=
    match s with
    | Seqn ch alt ci cn => block d (lit "ComponentSequence {")
        (entries (1 + d) (lit "children: ") (flat_map (fun c => outline (2 + d) c (lit ",")) ch) ++
         match alt with
         | None => [ln (1 + d) (lit "alternation: None,")]
         | Some bs => block (1 + d) (lit "alternation: Some(") (block (2 + d) (lit "ComponentAlternation {")
             (entries (3 + d) (lit "children: ") (flat_map (fun s => outline_seqn (4 + d) s) bs)) (lit "},")) (lit "),")
         end ++
         outline_option (1 + d) (lit "capture_index") (option_map digits ci) ++
         outline_option (1 + d) (lit "capture_name") (option_map quote cn)) (lit "},")
    end.
End Outline.
Definition by_lines (l : list str) : str := join 10 l.
