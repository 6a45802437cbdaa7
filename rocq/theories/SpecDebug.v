(** String literals as the language defines them. *)
From Verif Require Import Base ModelUtil SpecText.
Local Open Scope N_scope.
Local Open Scope list_scope.

Definition hex_digit (c d : N) : Prop := (48 <= c <= 57 /\ d = c - 48) \/ (97 <= c <= 102 /\ d = c - 87).
Inductive hex_number : str -> N -> Prop :=
| hex_one : forall c d, hex_digit c d -> hex_number [c] d
| hex_more : forall cs n c d, hex_number cs n -> hex_digit c d -> hex_number (cs ++ [c]) (16 * n + d).
(** One character of a literal and what it stands for. *)
Inductive stands_for : str -> N -> Prop :=
| sf_plain : forall c, c <> 34 -> c <> 92 -> stands_for [c] c
| sf_nul : stands_for (lit "\0") 0
| sf_tab : stands_for (lit "\t") 9
| sf_newline : stands_for (lit "\n") 10
| sf_return : stands_for (lit "\r") 13
| sf_quote : stands_for [92; 34] 34
| sf_backslash : stands_for [92; 92] 92
| sf_unicode : forall ds n, hex_number ds n -> stands_for (lit "\u{" ++ ds ++ lit "}") n.
Inductive spells : str -> str -> Prop :=
| spells_nil : spells [] []
| spells_cons : forall a c b s, stands_for a c -> spells b s -> spells (a ++ b) (c :: s).
Definition literal (t s : str) : Prop := exists b, spells b s /\ t = 34 :: b ++ [34].
(** The words an error begins with. *)
Definition begins (t s : str) : Prop := exists r, s = t ++ r.
(** The words for a kind, and the text of an error on one line and on several. *)
Inductive named : error_kind -> str -> Prop :=
| named_parse : named EParse (lit "Parse")
| named_located : named ELocatedParse (lit "LocatedParse")
| named_limit : named EResourceLimit (lit "ResourceLimit")
| named_other : named EOther (lit "Other").
Inductive index_text : option N -> str -> Prop :=
| index_none : index_text None (lit "None")
| index_some : forall i ds, is_decimal ds i -> index_text (Some i) (lit "Some(" ++ ds ++ lit ")").
Definition one_line (e : compile_error) (t : str) : Prop := exists k r i,
  named (err_kind e) k /\ literal r (err_reason e) /\ index_text (err_index e) i /\
  t = lit "CompileError { kind: " ++ k ++ lit ", reason: " ++ r ++ lit ", index: " ++ i ++ lit " }".
Inductive index_lines : option N -> list str -> Prop :=
| il_none : index_lines None [lit "    index: None,"]
| il_some : forall i ds, is_decimal ds i -> index_lines (Some i) [lit "    index: Some("; lit "        " ++ ds ++ lit ","; lit "    ),"].
Definition many_lines (e : compile_error) (t : str) : Prop := exists k r i,
  named (err_kind e) k /\ literal r (err_reason e) /\ index_lines (err_index e) i /\
  t = flat_map (fun l => l ++ [10]) ([lit "CompileError {"; lit "    kind: " ++ k ++ lit ","; lit "    reason: " ++ r ++ lit ","] ++ i) ++ lit "}".
