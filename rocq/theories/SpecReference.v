(** A short independent account of a whole compilation, as a function of the
    arguments of the call: one pass over the text of each pattern with the list of
    the groups still open, and one list of the literals seen so far.  There are no
    parse trees, character classes, graphs, report tables or dictionaries here. *)
From Verif Require Import Base ModelUtil ModelCompiler SpecCompile.
Local Open Scope N_scope.
Local Open Scope list_scope.

(** What can be wrong with one pattern: an error, or a crash of the program. *)
Inductive complaint := Refused (k : error_kind) (reason : str) | Crash (why : panic).

(** ** Bytes and numbers *)
(** the UTF-8 encoding of a character, and the number of bytes of a text *)
Definition utf8_bytes (c : N) : list N :=
  if c <? 128 then [c]
  else if c <? 2048 then [192 + c / 64; 128 + c mod 64]
  else if c <? 65536 then [224 + c / 4096; 128 + (c / 64) mod 64; 128 + c mod 64]
  else [240 + c / 262144; 128 + (c / 4096) mod 64; 128 + (c / 64) mod 64; 128 + c mod 64].
Definition byte_length (s : str) : N := N.of_nat (List.length (flat_map utf8_bytes s)).
(** a number in decimal *)
Fixpoint digits (fuel : nat) (n : N) : str :=
  match fuel with O => [] | S f => (if n <? 10 then [] else digits f (n / 10)) ++ [48 + n mod 10] end.
Definition decimal (n : N) : str := digits (S (N.to_nat (N.log2 n))) n.

(** ** The verb in front of a pattern *)
(** the text before and after the first [c] *)
Fixpoint cut (c : N) (s : str) : option (str * str) :=
  match s with
  | [] => None
  | x :: t => if x =? c then Some ([], t) else match cut c t with Some (a, b) => Some (x :: a, b) | None => None end
  end.
Definition split_verb (s : str) : option (str * str) :=
  match s with
  | a :: b :: t =>
    if (a =? 40) && (b =? 42) then match cut 41 t with Some (x :: v, rest) => Some (x :: v, rest) | _ => None end else None
  | _ => None
  end.
Definition same_text (a b : str) : bool := if list_eq_dec N.eq_dec a b then true else false.
Definition begins (t s : str) : bool := same_text (firstn (List.length t) s) t.
Definition one_of (l : list str) (v : str) : bool := existsb (same_text v) l.

(** ** The text of a pattern *)
(** One more than the largest [usize]. *)
Definition word (p : profile) : N := match target p with W32 => 4294967296 | W64 => 18446744073709551616 end.
(** [pos] bytes have been read; [opened] are the positions of the groups still
    open, the innermost first. *)
Fixpoint read_text (p : profile) (pos : N) (opened : list N) (s : str) : option complaint :=
  match s with
  | [] =>
    match opened with
    | [] => None
    | a :: _ => Some (Refused EParse (lit "Missing close parenthesis for group started at index " ++ decimal ((word p - a) mod word p) ++ lit "."))
    end
  | c :: t =>
    if 128 <=? c then Some (Crash PAssert)
    else if c =? 40 then if overflow_checks p && negb (pos =? 0) then Some (Crash POverflow) else read_text p (pos + 1) (pos :: opened) t
    else if c =? 41 then match opened with [] => Some (Refused ELocatedParse (lit "Unmatched parentheses")) | _ :: o => read_text p (pos + 1) o t end
    else read_text p (pos + 1) opened t
  end.
Definition read_pattern (p : profile) (s : str) : option complaint :=
  match split_verb s with
  | None => read_text p 0 [] s
  | Some (v, rest) =>
    if one_of [lit "UTF8"; lit "UTF"; lit "UCP"] v then read_text p (3 + byte_length v) [] rest
    else
      let known := one_of [lit "UTF16"; lit "UTF32"; lit "CR"; lit "LF"; lit "CRLF"; lit "ANY"; lit "ANYCRLF"; lit "BSR_ANYCRLF"; lit "BSR_UNICODE";
                           lit "NO_START_OPT"; lit "NO_AUTO_POSSESS"] v || begins (lit "LIMIT_MATCH=") v || begins (lit "LIMIT_RECURSION=") v in
      Some (Refused ELocatedParse ((if known then lit "Unsupported" else lit "Unknown") ++ lit " control verb " ++ v ++ lit " at index 2"))
  end.
(** One pattern with its options. *)
Definition complaint_about (p : profile) (it : item) : option complaint :=
  if 16000 <? byte_length (it_expr it) then Some (Refused EOther (lit "Pattern length exceeds limit."))
  else if quiet it && som_leftmost it then Some (Refused EOther (lit "QUIET is not supported in combination with SOM_LEFTMOST."))
  else read_pattern p (it_expr it).

(** ** A set of patterns *)
(** the pattern (its verb apart) has no bar, and something besides parentheses *)
Definition plain_literal (it : item) : bool :=
  let body := match split_verb (it_expr it) with Some (_, rest) => rest | None => it_expr it end in
  negb (existsb (N.eqb 124) body) && existsb (fun c => negb (c =? 40) && negb (c =? 41)) body.
Definition disagreement (i : N) (it : item) (j : N) (a : item) : str :=
  lit "Expression (index " ++ decimal i ++ lit ") with match ID " ++ decimal (it_id it)
  ++ (if single_match it then lit " specified  SINGLEMATCH" else lit " did not sepcify  SINGLEMATCH")
  ++ lit " whereas previous expression (index " ++ decimal j ++ lit ") with the same match ID did"
  ++ (if single_match a then lit " not." else lit ".").
(** The patterns from index [i] on; [seen] are the literals before, in order. *)
Fixpoint read_items (p : profile) (i : N) (seen : list (N * item)) (l : list item) : outcome (result compile_error unit) :=
  match l with
  | [] => Ret (ROk tt)
  | it :: t =>
    match complaint_about p it with
    | Some (Crash w) => Panic w
    | Some (Refused k r) => Ret (RErr (CompileError k r (Some i)))
    | None =>
      if plain_literal it then
        match find (fun x => it_id (snd x) =? it_id it) seen with
        | Some (j, a) =>
          if Bool.eqb (single_match a) (single_match it) then read_items p (i + 1) (seen ++ [(i, it)]) t
          else if debug_assertions p then Panic PDebugAssert
          else Ret (RErr (CompileError EOther (disagreement i it j a) (Some i)))
        | None => read_items p (i + 1) (seen ++ [(i, it)]) t
        end
      else read_items p (i + 1) seen t
    end
  end.
(** The whole call. *)
Definition reference (p : profile) (es : list str) (fs ids : list N) (m : mode) : outcome (result compile_error database) :=
  match es with
  | [] => Ret (RErr (CompileError EOther (lit "Invalid parameter: expressions is empty") None))
  | _ :: _ =>
    if 8000000 <? N.of_nat (List.length es) then Ret (RErr (CompileError EOther (lit "Number of patterns too large") None))
    else
      match read_items p 0 [] (items_of es fs ids) with
      | Ret (ROk _) => Ret (ROk (Database (RoseEngine FullRose (scan_mode m))))
      | Ret (RErr e) => Ret (RErr e)
      | Panic w => Panic w
      | Diverge => Diverge
      end
  end.
