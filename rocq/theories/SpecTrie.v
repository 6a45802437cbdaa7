(** What a dictionary holding a set of byte strings with reports should be. *)
From Verif Require Import Base ModelUtil ModelLiteral ModelPetgraph ModelSmallWrite ModelBitField SpecSet.
Local Open Scope N_scope.

(** [p] is a prefix of [b]. *)
Definition is_prefix (p b : list N) : Prop := exists t, b = p ++ t.
Fixpoint prefixes (b : list N) : list (list N) :=
  match b with [] => [[]] | c :: t => [] :: map (cons c) (prefixes t) end.

(** Insertions: byte string and report. *)
Definition insertion := (list N * N)%type.
(** The distinct prefixes of the inserted strings, the empty one always included. *)
Definition distinct_prefixes (h : list insertion) : list (list N) :=
  nodup (list_eq_dec N.eq_dec) ([] :: flat_map (fun x : insertion => prefixes (fst x)) h).

(** Walking from a node along edges, reading the byte of each node entered. *)
Inductive reach (g : graph trie_props) : N -> list N -> N -> Prop :=
| reach_nil : forall u, reach g u [] u
| reach_cons : forall u w x bs v, In (u, w) (edges g) -> nth_error (nodes g) (N.to_nat w) = Some x ->
    reach g w bs v -> reach g u (tp_c x :: bs) v.
(** The report set of a node. *)
Definition node_reports (g : graph trie_props) (v : N) : list N :=
  match nth_error (nodes g) (N.to_nat v) with Some x => tp_reports x | None => [] end.

(** A literal has one case flag per byte. *)
Definition lit_wf (l : literal) : Prop := List.length (lit_s l) = List.length (lit_nocase l).
(** Inserting a sequence of literals into a dictionary. *)
Fixpoint insert_all (t : lit_trie) (h : list (literal * N)) : outcome lit_trie :=
  match h with
  | [] => Ret t
  | (l, r) :: h' => let! (t', _) := add_to_trie l r t in insert_all t' h'
  end.
Definition insertion_of (x : literal * N) : insertion := (lit_s (fst x), snd x).

(** One byte of a literal against one byte of input: caseless bytes are stored in
    upper case and match either case. *)
Definition byte_matches (c : N) (nocase : bool) (x : N) : Prop :=
  x = c \/ (nocase = true /\ upper_case x = c).
Fixpoint lit_matches (s : list N) (nc : list bool) (m : list N) : Prop :=
  match s, nc, m with
  | [], [], [] => True
  | c :: s', n :: nc', x :: m' => byte_matches c n x /\ lit_matches s' nc' m'
  | _, _, _ => False
  end.
(** The literal occurs in the buffer. *)
Definition occurs (l : literal) (buf : list N) : Prop :=
  exists a m b, buf = a ++ m ++ b /\ lit_matches (lit_s l) (lit_nocase l) m.

(** Feeding literals to a small-write builder. *)
Fixpoint smwr_run (p : profile) (s : small_write) (h : list (literal * N)) : outcome small_write :=
  match h with
  | [] => Ret s
  | (l, r) :: h' => let! s' := smwr_add_literal p s l r in smwr_run p s' h'
  end.
(** The literals short enough to count, split by case sensitivity. *)
Definition short (g : grey) (x : literal * N) : bool :=
  N.of_nat (List.length (lit_s (fst x))) <=? small_write_largest_buffer g.
Definition has_caseless (x : literal * N) : bool := existsb (fun b => b) (lit_nocase (fst x)).
Definition short_sensitive (g : grey) (h : list (literal * N)) : list insertion :=
  map insertion_of (filter (fun x => short g x && negb (has_caseless x)) h).
Definition short_caseless (g : grey) (h : list (literal * N)) : list insertion :=
  map insertion_of (filter (fun x => short g x && has_caseless x) h).
(** The largest number of type [usize], and a configuration whose limits are of that type. *)
Definition largest (p : profile) : N := 2 ^ usize_bits p - 1.
Definition usize_limits (p : profile) (g : grey) : Prop :=
  small_write_largest_buffer g <= largest p /\ small_write_max_patterns g <= largest p /\ small_write_max_literals g <= largest p /\
  limit_pattern_count g <= largest p /\ limit_pattern_length g <= largest p /\ limit_report_count g <= largest p.
Definition n_short (g : grey) (h : list (literal * N)) : N := N.of_nat (List.length (filter (short g) h)).
(** The dictionaries are given up after the literals [h]; more literals than the largest
    number are not too many. *)
Definition gone (p : profile) (np : N) (g : grey) (h : list (literal * N)) : Prop :=
  allow_small_write g = false \/ small_write_max_patterns g < np \/
  (small_write_max_literals g < n_short g h /\ small_write_max_literals g <> largest p) \/
  8000 < N.of_nat (List.length (distinct_prefixes (short_sensitive g h))) \/
  8000 < N.of_nat (List.length (distinct_prefixes (short_caseless g h))).
(** Adding [x] after the literals [h] panics: the count of literals overflows, or a graph
    would have more nodes than petgraph can number. *)
Definition stops (p : profile) (np : N) (g : grey) (h : list (literal * N)) (x : literal * N) (w : panic) : Prop :=
  ~ gone p np g h /\ short g x = true /\
  ((w = POverflow /\ overflow_checks p = true /\ n_short g h = largest p) \/
   (w = PCapacity /\ (n_short g h < small_write_max_literals g \/ (small_write_max_literals g = largest p /\ overflow_checks p = false)) /\
    2 ^ 32 - 1 < N.of_nat (List.length (distinct_prefixes (if has_caseless x then short_caseless g (h ++ [x]) else short_sensitive g (h ++ [x])))))).
