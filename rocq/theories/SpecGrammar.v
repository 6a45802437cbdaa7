(** The pattern language the parser is meant to read: derivations, their text,
    their trees and their languages; balance of parentheses; control verbs. *)
From Verif Require Import Base ModelUtil ModelBitField ModelCharReach ModelParser SpecSet.
Local Open Scope N_scope.
Local Open Scope list_scope.

(** ** Derivations: an expression is an alternation of sequences of atoms; an atom
    is a character or a parenthesised expression. *)
Inductive atom := Ch (c : N) | Grp (branches : list (list atom)).
Definition expr := list (list atom).

(** The text of a derivation: [(] is 40, [)] is 41, [|] is 124. *)
Fixpoint join (sep : N) (l : list str) : str :=
  match l with
  | [] => []
  | [x] => x
  | x :: t => x ++ sep :: join sep t
  end.
Fixpoint text_atom (a : atom) : str :=
  match a with
  | Ch c => [c]
  | Grp bs => 40 :: join 124 (map (fun b => flat_map text_atom b) bs) ++ [41]
  end.
Definition text_seq (b : list atom) : str := flat_map text_atom b.
Definition text (e : expr) : str := join 124 (map text_seq e).

(** Characters that stand for themselves. *)
Definition plain (c : N) : Prop := c <> 40 /\ c <> 41 /\ c <> 124.
Inductive wf_atom : atom -> Prop :=
| wf_ch : forall c, plain c -> wf_atom (Ch c)
| wf_grp : forall bs, bs <> [] -> (forall b a, In b bs -> In a b -> wf_atom a) -> wf_atom (Grp bs).
Definition wf_expr (e : expr) : Prop := e <> [] /\ forall b a, In b e -> In a b -> wf_atom a.

(** ** The set of bytes a character stands for. *)
Definition char_matches (nocase : bool) (c x : N) : bool := (x =? c) || (nocase && (x =? other_case c)).
(** The bit field whose members are the bytes satisfying [f]. *)
Definition word_of (f : N -> bool) (k : N) : N :=
  fold_right (fun i acc => N.lor (if f (64 * k + i) then 2 ^ i else 0) acc) 0 (map N.of_nat (List.seq 0 64)).
Definition field_of (f : N -> bool) : bitfield := BF (word_of f 0) (word_of f 1) (word_of f 2) (word_of f 3).
Definition class_of (nocase : bool) (c : N) : ascii_class :=
  AsciiClass (ParseMode nocase false false false false false) (field_of (char_matches nocase c)).

(** ** The tree of a derivation.  Groups are numbered in the order of their opening
    parentheses by a 32-bit counter. *)
Definition next_index (n : N) : N := (n + 1) mod 2 ^ 32.
Section MapAcc.
  Context {A B : Type} (f : N -> A -> B * N).
  Fixpoint mapacc (n : N) (l : list A) : list B * N :=
    match l with
    | [] => ([], n)
    | x :: t => let (y, n1) := f n x in let (ys, n2) := mapacc n1 t in (y :: ys, n2)
    end.
End MapAcc.
Definition branch (l : list component) : seqn := Seqn l None None None.
(** One branch is a plain sequence; several are a sequence of one alternation. *)
Definition seq_of (ci : option N) (l : list (list component)) : seqn :=
  match l with
  | [b] => Seqn b None ci None
  | _ => Seqn [CAlternation (map branch l)] None ci None
  end.
Fixpoint tree_atom (nocase : bool) (n : N) (a : atom) : component * N :=
  match a with
  | Ch c => (CClass (class_of nocase c), n)
  | Grp bs =>
    let (l, n') := mapacc (fun n b => mapacc (fun n a => tree_atom nocase n a) n b) (next_index n) bs in
    (CSequence (seq_of (Some n) l), n')
  end.
Definition tree_seq (nocase : bool) : N -> list atom -> list component * N := mapacc (tree_atom nocase).
Definition tree_branches (nocase : bool) : N -> expr -> list (list component) * N := mapacc (tree_seq nocase).
Definition tree (nocase : bool) (e : expr) : component := CSequence (seq_of (Some 0) (fst (tree_branches nocase 1 e))).

(** ** Languages *)
(** of a derivation: groups do not change the language *)
Inductive lang_atom (nocase : bool) : atom -> list N -> Prop :=
| lang_ch : forall c x, char_matches nocase c x = true -> lang_atom nocase (Ch c) [x]
| lang_grp : forall bs b w, In b bs -> lang_seq nocase b w -> lang_atom nocase (Grp bs) w
with lang_seq (nocase : bool) : list atom -> list N -> Prop :=
| lang_nil : lang_seq nocase [] []
| lang_cons : forall a b u v, lang_atom nocase a u -> lang_seq nocase b v -> lang_seq nocase (a :: b) (u ++ v).
Definition lang (nocase : bool) (e : expr) (w : list N) : Prop := exists b, In b e /\ lang_seq nocase b w.
(** of a parse tree *)
Inductive tree_matches : component -> list N -> Prop :=
| tm_class : forall k x, mem (ac_cr k) x = true -> tree_matches (CClass k) [x]
| tm_alternation : forall bs s w, In s bs -> seqn_matches s w -> tree_matches (CAlternation bs) w
| tm_sequence : forall s w, seqn_matches s w -> tree_matches (CSequence s) w
with seqn_matches : seqn -> list N -> Prop :=
| sm_children : forall ch ci cn w, list_matches ch w -> seqn_matches (Seqn ch None ci cn) w
with list_matches : list component -> list N -> Prop :=
| lm_nil : list_matches [] []
| lm_cons : forall c l u v, tree_matches c u -> list_matches l v -> list_matches (c :: l) (u ++ v).

(** ** Capture indices *)
(** of the sequences that are not alternation branches, in preorder *)
Fixpoint group_indices (c : component) : list (option N) :=
  match c with
  | CAlternation bs => flat_map (fun s => match s with Seqn ch _ _ _ => flat_map group_indices ch end) bs
  | CClass _ => []
  | CSequence (Seqn ch _ ci _) => ci :: flat_map group_indices ch
  end.
(** of the alternation branches *)
Fixpoint branch_indices (c : component) : list (option N) :=
  match c with
  | CAlternation bs => flat_map (fun s => match s with Seqn ch _ ci _ => ci :: flat_map branch_indices ch end) bs
  | CClass _ => []
  | CSequence (Seqn ch _ _ _) => flat_map branch_indices ch
  end.

(** ** Parentheses *)
Definition opens (s : str) : nat := count_occ N.eq_dec s 40.
Definition closes (s : str) : nat := count_occ N.eq_dec s 41.
(** no prefix closes more than it opens *)
Definition never_negative (s : str) : Prop := forall a b, s = a ++ b -> (closes a <= opens a)%nat.
Definition balanced (s : str) : Prop := never_negative s /\ closes s = opens s.
Definition ascii_text (s : str) : Prop := forall c, In c s -> c < 128.
(** With overflow checks on, a group can only be opened by the very first
    character of the expression [s], of which [body] is what follows the verb. *)
Definition groups_ok (p : profile) (s body prefix : str) : Prop :=
  overflow_checks p = true -> forall a b, prefix = a ++ 40 :: b -> a = [] /\ body = s.

(** A prefix of [body] that can be read without incident. *)
Definition good_prefix (p : profile) (s body a : str) : Prop :=
  ascii_text a /\ never_negative a /\ groups_ok p s body a.

(** ** Control verbs *)
(** [s] is an opening parenthesis, a star, one or more characters other than the
    closing parenthesis, a closing parenthesis, and [rest]. *)
Definition verb_then (s v rest : str) : Prop := s = 40 :: 42 :: v ++ 41 :: rest /\ v <> [] /\ ~ In 41 v.
Definition no_verb (s : str) : Prop := forall v rest, ~ verb_then s v rest.
(** Expressions whose verb, if any, is accepted: what is left and the options. *)
Inductive starts : str -> parse_mode -> str -> parse_mode -> Prop :=
| starts_plain : forall s m, no_verb s -> starts s m s m
| starts_ucp : forall s m rest, verb_then s (lit "UCP") rest ->
    starts s m rest (ParseMode (caseless m) (dotall m) (ignore_space m) (multiline m) true (utf8 m))
| starts_utf : forall s m v rest, verb_then s v rest -> v = lit "UTF" \/ v = lit "UTF8" ->
    starts s m rest (ParseMode (caseless m) (dotall m) (ignore_space m) (multiline m) (ucp m) true).
(** The documented verbs that are recognised but not supported. *)
Definition unsupported_verb (v : str) : Prop :=
  In v [ lit "NO_AUTO_POSSESS"; lit "NO_START_OPT"; lit "UTF16"; lit "UTF32"; lit "CR"; lit "LF"; lit "CRLF";
         lit "ANYCRLF"; lit "ANY"; lit "BSR_ANYCRLF"; lit "BSR_UNICODE" ]
  \/ (exists t, v = lit "LIMIT_MATCH=" ++ t) \/ (exists t, v = lit "LIMIT_RECURSION=" ++ t).
Definition accepted_verb (v : str) : Prop := v = lit "UCP" \/ v = lit "UTF" \/ v = lit "UTF8".

(** ** Errors *)
(** a rejected verb; [start] is where the verb's parenthesis is *)
Definition verb_error (what v : str) (start : N) : compile_error :=
  CompileError ELocatedParse (what ++ v ++ lit " at index " ++ show (start + 2)) None.
Definition unmatched_error : compile_error := CompileError ELocatedParse (lit "Unmatched parentheses") None.
Definition missing_error (i : N) : compile_error :=
  CompileError EParse (lit "Missing close parenthesis for group started at index " ++ show i ++ lit ".") None.
(** The message says where. *)
Definition located (e : compile_error) : Prop :=
  exists u i v, err_reason e = u ++ lit " at index " ++ show i ++ v.
