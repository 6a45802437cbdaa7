(** What the textual dumps should contain. *)
From Verif Require Import Base ModelUtil ModelBitField ModelCharReach ModelParser ModelDump SpecSet SpecTree SpecVisit.
Local Open Scope N_scope.
Local Open Scope list_scope.

(** ** Classes *)
(** The maximal runs of consecutive members, in increasing order. *)
Definition is_runs (P : N -> Prop) (rs : list (N * N)) : Prop :=
  (forall x, P x <-> exists r, In r rs /\ fst r <= x <= snd r) /\
  (forall r, In r rs -> fst r <= snd r) /\
  StronglySorted (fun a b => snd a + 1 < fst b) rs.
(** A run of up to four bytes is written out, a longer one abbreviated. *)
Definition run_text (o : cc_output) (r : N * N) : str :=
  if snd r - fst r <? 4 then flat_map (fun c => describe_char c o) (map (fun i => fst r + N.of_nat i) (List.seq 0 (S (N.to_nat (snd r - fst r)))))
  else describe_char (fst r) o ++ [45] ++ describe_char (snd r) o.
(** Reading one character back: an escape says which byte it is, by a letter, by two
    hexadecimal digits (the first may be a blank, standing for 0), or, for the marks
    [^-[].], by itself; a mark alone does not stand for itself, any other visible
    character does.  A dot file doubles the backslash, and puts a single one before a
    quote, which cannot stand alone. *)
Definition hex_digit (d : N) : option N := if (48 <=? d) && (d <=? 57) then Some (d - 48) else if (97 <=? d) && (d <=? 102) then Some (d - 87) else None.
Definition high_digit (d : N) : option N := if d =? 32 then Some 0 else hex_digit d.
Definition is_mark (c : N) : bool := (c =? 94) || (c =? 45) || (c =? 91) || (c =? 93) || (c =? 46).
Definition is_quote (c : N) : bool := (c =? 34) || (c =? 39).
Definition read_escape (s : str) : option (N * str) :=
  match s with
  | [] => None
  | c :: t =>
    if c =? 116 then Some (9, t) else if c =? 110 then Some (10, t) else if c =? 114 then Some (13, t)
    else if c =? 120 then
      match t with
      | a :: b :: t' => match high_digit a, hex_digit b with Some x, Some y => Some (16 * x + y, t') | _, _ => None end
      | _ => None
      end
    else if is_mark c then Some (c, t) else None
  end.
(** What follows the backslash of an escape. *)
Definition escaped (o : cc_output) (s : str) : option str :=
  match s with
  | [] => None
  | c :: t => if c =? 92 then match o with Text => Some t | Dot => match t with d :: t' => if d =? 92 then Some t' else None | [] => None end end else None
  end.
Definition read_char (o : cc_output) (s : str) : option (N * str) :=
  match escaped o s with
  | Some t => read_escape t
  | None =>
    match o, s with
    | _, [] => None
    | Text, c :: t => if is_mark c then None else Some (c, t)
    | Dot, c :: t =>
      if c =? 92 then match t with d :: t' => if is_quote d then Some (d, t') else None | [] => None end
      else if is_mark c || is_quote c then None else Some (c, t)
    end
  end.
(** Visible ASCII. *)
Definition visible (c : N) : Prop := 33 <= c <= 126.
(** The runs whose writing fails. *)
Definition bad_run (r : N * N) : Prop := snd r = 255 /\ 252 <= fst r <= 254.
Definition run_result (p : profile) (o : cc_output) (r : N * N) : outcome str :=
  if (snd r =? 255) && (252 <=? fst r) && (fst r <=? 254) then if overflow_checks p then Panic POverflow else Diverge else Ret (run_text o r).
(** The groups that are abbreviated. *)
Definition is_word (c : N) : bool := (c =? 95) || ((48 <=? c) && (c <=? 57)) || ((65 <=? c) && (c <=? 90)) || ((97 <=? c) && (c <=? 122)).
Definition is_digit (c : N) : bool := (48 <=? c) && (c <=? 57).
Definition is_space (c : N) : bool := ((9 <=? c) && (c <=? 13)) || (c =? 32).
Definition includes (l : list N) (f : N -> bool) : bool := forallb (fun c => existsb (N.eqb c) l) (filter f all_bytes).
Definition escape (o : cc_output) (c : N) : str := backslash o ++ [c].
(** The abbreviations used for the class with members [l], and the rest. *)
Definition abbreviations (o : cc_output) (l : list N) : list str * list N :=
  let w := includes l is_word in
  let d := negb w && includes l is_digit in
  let s := includes l is_space in
  ((if w then [escape o 119] else []) ++ (if d then [escape o 100] else []) ++ (if s then [escape o 115] else []),
   filter (fun c => negb ((w && is_word c) || (d && is_digit c) || (s && is_space c))) l).
(** The runs of a sorted list. *)
Fixpoint runs_from (lo hi : N) (l : list N) : list (N * N) :=
  match l with
  | [] => [(lo, hi)]
  | c :: t => if c =? hi + 1 then runs_from lo c t else (lo, hi) :: runs_from c c t
  end.
Definition runs_of (l : list N) : list (N * N) := match l with [] => [] | c :: t => runs_from c c t end.
(** The inside of the brackets, with its size estimate: at most [max] items if [max]
    is not 0, and the last run only if it ends at 255. *)
Definition inside (p : profile) (o : cc_output) (max : N) (l : list N) : outcome (str * N) :=
  match runs_of l with
  | [r] => let! s := run_result p o r in Ret (s, 2)
  | _ =>
    let (abbr, rest) := abbreviations o l in
    let rs := runs_of rest in
    let items := abbr ++ map (run_text o) (removelast rs) in
    let n := N.of_nat (List.length items) in
    if (0 <? max) && (max <=? n) then Ret (List.concat (firstn (N.to_nat max) items) ++ lit "...]", max)
    else match rs with
         | [] => Ret (List.concat items, n)
         | _ :: _ =>
           let r := List.last rs (0, 0) in
           if snd r =? 255 then let! s := run_result p o r in Ret (List.concat items ++ s, n + 1) else Ret (List.concat items, n)
         end
  end.
Definition class_text (p : profile) (o : cc_output) (max : N) (b : bitfield) : outcome str :=
  let non := filter (fun c => negb (mem b c)) all_bytes in
  match elements b, non with
  | [], _ => Ret (lit "<empty>")
  | _, [] => Ret (lit "<any>")
  | [c], _ => Ret (describe_char c o)
  | _, [c] => Ret (lit "[^" ++ describe_char c o ++ lit "]")
  | l, _ =>
    let! (a, n) := inside p o max l in
    let! (b, _) := inside p o max non in
    Ret (if str_len a <=? str_len b then if 1 <? n then lit "[" ++ a ++ lit "]" else a else lit "[^" ++ b ++ lit "]")
  end.

(** Writing a class does not come to an end: there are at least two members and two
    non-members, and among those like 255 there is 254 but not all of 251 to 253. *)
Definition stuck (b : bitfield) : Prop :=
  (exists x y, x < y /\ byte y /\ mem b x = true /\ mem b y = true) /\
  (exists x y, x < y /\ byte y /\ mem b x = false /\ mem b y = false) /\
  mem b 254 = mem b 255 /\ ~ (mem b 253 = mem b 255 /\ mem b 252 = mem b 255 /\ mem b 251 = mem b 255).
(** What happens then. *)
Definition stopped {A} (p : profile) : outcome A := if overflow_checks p then Panic POverflow else Diverge.

(** ** Reading a class back *)
(** A text between brackets is a series of items, each standing for some bytes. *)
Inductive item := IChar (c : N) | IRange (lo hi : N) | IWord | IDigit | ISpace.
Definition item_text (o : cc_output) (i : item) : str :=
  match i with
  | IChar c => describe_char c o
  | IRange lo hi => describe_char lo o ++ [45] ++ describe_char hi o
  | IWord => escape o 119
  | IDigit => escape o 100
  | ISpace => escape o 115
  end.
Definition item_ok (i : item) : Prop := match i with IChar c => byte c | IRange lo hi => byte lo /\ byte hi | _ => True end.
Definition in_item (i : item) (c : N) : Prop :=
  match i with
  | IChar x => c = x
  | IRange lo hi => lo <= c <= hi
  | IWord => is_word c = true
  | IDigit => is_digit c = true
  | ISpace => is_space c = true
  end.
Definition in_items (is : list item) (c : N) : Prop := exists i, In i is /\ in_item i c.
(** The set a text stands for.  Without brackets there are at most four items. *)
Inductive denotes (o : cc_output) : str -> (N -> Prop) -> Prop :=
| d_empty : denotes o (lit "<empty>") (fun _ => False)
| d_any : denotes o (lit "<any>") byte
| d_bare : forall is, is <> [] -> (List.length is <= 4)%nat -> Forall item_ok is -> denotes o (flat_map (item_text o) is) (in_items is)
| d_set : forall is, is <> [] -> Forall item_ok is -> denotes o (lit "[" ++ flat_map (item_text o) is ++ lit "]") (in_items is)
| d_neg : forall is, is <> [] -> Forall item_ok is -> denotes o (lit "[^" ++ flat_map (item_text o) is ++ lit "]") (fun c => byte c /\ ~ in_items is c).
(** The same, by reading the text from left to right: a group, a character, or two
    characters around a dash; up to a closing bracket or the end. *)
Definition read_item (o : cc_output) (s : str) : option (item * str) :=
  match escaped o s with
  | Some (119 :: t) => Some (IWord, t)
  | Some (100 :: t) => Some (IDigit, t)
  | Some (115 :: t) => Some (ISpace, t)
  | _ =>
    match read_char o s with
    | None => None
    | Some (c, 45 :: t) => match read_char o t with Some (d, t') => Some (IRange c d, t') | None => None end
    | Some (c, t) => Some (IChar c, t)
    end
  end.
Fixpoint read_items (fuel : nat) (o : cc_output) (s : str) : option (list item * str) :=
  match s with
  | [] => Some ([], [])
  | 93 :: _ => Some ([], s)
  | _ =>
    match fuel, read_item o s with
    | S fuel', Some (i, t) => match read_items fuel' o t with Some (is, r) => Some (i :: is, r) | None => None end
    | _, _ => None
    end
  end.
(** A whole text: whether it is negated, and its items. *)
Definition read_class (o : cc_output) (s : str) : option (bool * list item) :=
  if str_eqb s (lit "<empty>") then Some (false, [])
  else if str_eqb s (lit "<any>") then Some (true, [])
  else
    let items neg t close := match read_items (List.length t) o t with Some (is, r) => if str_eqb r close then Some (neg, is) else None | None => None end in
    match s with
    | 91 :: 94 :: t => items true t [93]
    | 91 :: t => items false t [93]
    | _ => items false s []
    end.
Definition stands_for (r : bool * list item) (c : N) : Prop := byte c /\ (in_items (snd r) c <-> fst r = false).
(** The bytes that are not abbreviated; those of them that are left out: the
    highest run, if it does not end at 255 and is not all there is. *)
Definition unabbreviated (l : list N) : list N := snd (abbreviations Text l).
Definition left_out (l : list N) (c : N) : Prop :=
  (2 <= List.length (runs_of l))%nat /\ In c (unabbreviated l) /\ ~ In 255 (unabbreviated l) /\
  forall d x, In d (unabbreviated l) -> c <= x <= d -> In x (unabbreviated l).
(** The members written in a text of the class [b]: those of [b] or, after a caret,
    the others; and the texts in which nothing can be left out. *)
Definition written (b : bitfield) (s : str) : list N :=
  filter (fun c => Bool.eqb (mem b c) (negb (starts_with (lit "[^") s))) all_bytes.
Definition whole (b : bitfield) (s : str) : Prop :=
  (List.length (runs_of (written b s)) <= 1)%nat \/ In 255 (written b s) \/ unabbreviated (written b s) = [].

(** ** Trees *)
Definition line (d : nat) (s : str) : str := repeat 32 (2 * d) ++ s ++ [10].
(** The lines of one node at depth [d], given the text of its class. *)
Definition captured (i : option N) : str := match i with Some i => lit " (capture index " ++ show i ++ lit ")" | None => lit " (not captured)" end.
Definition named (n : option str) : str := match n with Some n => lit " (capture name '" ++ n ++ lit "')" | None => [] end.
Definition block (txt : ascii_class -> str) (d : nat) (n : node) : str :=
  match n with
  | NClass k => line d (lit "ASCII CLASS") ++ line (S d) (txt k)
  | NAlternation _ => line d (lit "ALTERNATION")
  | NSequence s => line d (lit "SEQUENCE" ++ captured (sq_capture_index s) ++ named (sq_capture_name s)) ++
                   match children n with [] => line (S d) (lit " <empty>") | _ => [] end
  end.
(** Positions from top to bottom, left to right. *)
Inductive earlier : list nat -> list nat -> Prop :=
| e_above : forall pos i a, earlier pos (pos ++ i :: a)
| e_left : forall pos i j a b, (i < j)%nat -> earlier (pos ++ i :: a) (pos ++ j :: b).
Definition preorder (root : node) (ps : list (list nat)) : Prop :=
  StronglySorted earlier ps /\ forall pos, In pos ps <-> exists n, node_at root pos = Some n.
Definition blocks (txt : ascii_class -> str) (root : node) (ps : list (list nat)) : str :=
  flat_map (fun pos => match node_at root pos with Some n => block txt (List.length pos) n | None => [] end) ps.
(** Two trees alike but for the names of their classes. *)
Inductive alike (txt : ascii_class -> str) : component -> component -> Prop :=
| al_class : forall k k', txt k = txt k' -> alike txt (CClass k) (CClass k')
| al_alternation : forall bs bs', Forall2 (alike_seqn txt) bs bs' -> alike txt (CAlternation bs) (CAlternation bs')
| al_sequence : forall s s', alike_seqn txt s s' -> alike txt (CSequence s) (CSequence s')
with alike_seqn (txt : ascii_class -> str) : seqn -> seqn -> Prop :=
| al_seqn : forall ch ch' alt alt' ci cn, Forall2 (alike txt) ch ch' -> alike_seqn txt (Seqn ch alt ci cn) (Seqn ch' alt' ci cn).
(** Without capture names, as all trees made by the parser. *)
Inductive unnamed : component -> Prop :=
| un_class : forall k, unnamed (CClass k)
| un_alternation : forall bs, Forall unnamed_seqn bs -> unnamed (CAlternation bs)
| un_sequence : forall s, unnamed_seqn s -> unnamed (CSequence s)
with unnamed_seqn : seqn -> Prop :=
| un_seqn : forall ch alt ci, Forall unnamed ch -> unnamed_seqn (Seqn ch alt ci None).
