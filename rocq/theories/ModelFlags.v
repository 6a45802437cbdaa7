(** The rest of the public interface of [Flags] (lib.rs:134-148): what version 1 of the
    bitflags crate makes of the declaration.  [contains] and [!] are in ModelUtil.v.
    Left out is [from_bits_unchecked], an unsafe function. *)
From Verif Require Import Base ModelUtil ModelDebug.
Local Open Scope N_scope.
Local Open Scope list_scope.

(** lib.rs:136-146, in the order of the declaration *)
Definition flag_constants : list (str * flags) :=
  [(lit "CASELESS", CASELESS); (lit "DOTALL", DOTALL); (lit "MULTILINE", MULTILINE); (lit "SINGLEMATCH", SINGLEMATCH);
   (lit "ALLOWEMPTY", ALLOWEMPTY); (lit "UTF8", UTF8); (lit "UCP", UCP); (lit "PREFILTER", PREFILTER);
   (lit "SOM_LEFTMOST", SOM_LEFTMOST); (lit "COMBINATION", COMBINATION); (lit "QUIET", QUIET)].
Definition flags_empty : flags := 0.
(** all constants or-ed together *)
Definition flags_all : flags := fold_left (fun a c => N.lor a (snd c)) flag_constants 0.
Definition flags_from_bits (b : N) : option flags := if N.land b (bnot 16 flags_all) =? 0 then Some b else None.
Definition flags_from_bits_truncate (b : N) : flags := N.land b flags_all.
Definition flags_is_empty (f : flags) : bool := f =? flags_empty.
Definition flags_is_all (f : flags) : bool := N.lor flags_all f =? f.
Definition flags_intersects (f g : flags) : bool := negb (flags_is_empty (N.land f g)).
(** [|], [|=], [insert], [union] *)
Definition flags_or (f g : flags) : flags := N.lor f g.
(** [&], [&=], [intersection] *)
Definition flags_and (f g : flags) : flags := N.land f g.
(** [^], [^=], [toggle], [symmetric_difference] *)
Definition flags_xor (f g : flags) : flags := N.lxor f g.
(** [-], [-=], [remove], [difference] *)
Definition flags_sub (f g : flags) : flags := N.land f (bnot 16 g).
Definition flags_set (f g : flags) (value : bool) : flags := if value then flags_or f g else flags_sub f g.
(** [extend] and, from [flags_empty], [collect] *)
Definition flags_extend (f : flags) (gs : list flags) : flags := fold_left flags_or gs f.
(** derived [Ord] *)
Definition flags_cmp (f g : flags) : comparison := N.compare f g.

(** [Debug] with [{:?}]: [out] is what has been written, [first] whether that is nothing. *)
Definition debug_word (w : str) (s : str * bool) : str * bool :=
  let '(out, first) := s in ((if first then out else out ++ lit " | ") ++ w, false).
Definition debug_flags (f : flags) : str :=
  let s1 := fold_left (fun s c => if (if (snd c =? 0) && negb (f =? 0) then false else contains f (snd c)) then debug_word (fst c) s else s)
    flag_constants ([], true) in
  let extra := N.land f (bnot 16 flags_all) in
  let s2 := if negb (extra =? 0) then debug_word (lit "0x" ++ show_hex extra) s1 else s1 in
  if snd s2 then lit "(empty)" else fst s2.
