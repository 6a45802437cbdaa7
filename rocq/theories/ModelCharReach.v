(** Model of src/util/charreach.rs: [CharReach], a character class. *)
From Verif Require Import Base ModelUtil ModelBitField.
Local Open Scope N_scope.

(** charreach.rs:12-15: a wrapper around [BitField256]; the derived [Default],
    [PartialEq] and [Ord] are those of the field. *)
Definition charreach := bitfield.
(** charreach.rs:12 *)
Definition cr_default : charreach := bf_default.
(** charreach.rs:12 *)
Definition cr_eqb : charreach -> charreach -> bool := bf_eqb.
(** charreach.rs:12 *)
Definition cr_cmp : charreach -> charreach -> comparison := bf_cmp.

(** charreach.rs:58-60 *)
Definition cr_reset_all (cr : charreach) : charreach := bf_reset_all cr.
(** charreach.rs:63-65 *)
Definition cr_set_all (cr : charreach) : charreach := bf_set_all cr.
(** charreach.rs:69-71 *)
Definition cr_reset (p : profile) (cr : charreach) (c : N) : outcome charreach := bf_reset p cr c.
(** charreach.rs:74-76 *)
Definition cr_set (p : profile) (cr : charreach) (c : N) : outcome charreach := bf_set p cr c.
(** charreach.rs:80-82 *)
Definition cr_test (p : profile) (cr : charreach) (c : N) : outcome bool := bf_test p cr c.
(** charreach.rs:86-88 *)
Definition cr_flip_all (cr : charreach) : charreach := bf_flip_all cr.
(** charreach.rs:92-94 *)
Definition cr_flip (p : profile) (cr : charreach) (c : N) : outcome charreach := bf_flip p cr c.
(** charreach.rs:101-103 *)
Definition cr_set_range (p : profile) (cr : charreach) (from to : N) : outcome charreach :=
  bf_set_range p cr from to.
(** charreach.rs:106-110 *)
Fixpoint cr_set_bytes (p : profile) (cr : charreach) (bytes : list N) : outcome charreach :=
  match bytes with
  | [] => Ret cr
  | b :: t => let! cr' := cr_set p cr b in cr_set_bytes p cr' t
  end.
(** charreach.rs:114-116 *)
Definition cr_count (cr : charreach) : N := bf_count cr.
(** charreach.rs:121-123 *)
Definition cr_none (cr : charreach) : bool := bf_none cr.
(** charreach.rs:128-130 *)
Definition cr_any (cr : charreach) : bool := bf_any cr.
(** charreach.rs:135-137 *)
Definition cr_all (cr : charreach) : bool := bf_all cr.
(** charreach.rs:141-143 *)
Definition cr_find_first (p : profile) (cr : charreach) : outcome (option N) := bf_find_first p cr.
(** charreach.rs:148-150 *)
Definition cr_find_last (p : profile) (cr : charreach) : outcome (option N) := bf_find_last p cr.
(** charreach.rs:154-156 *)
Definition cr_find_next (p : profile) (cr : charreach) (last : N) : outcome (option N) :=
  bf_find_next p cr last.
(** charreach.rs:161-163 *)
Definition cr_find_nth (p : profile) (cr : charreach) (n : N) : outcome (option N) :=
  bf_find_nth p cr n.

(** charreach.rs:20-24 *)
Definition cr_from_char (p : profile) (c : N) : outcome charreach := cr_set p cr_default c.
(** charreach.rs:34-38 *)
Definition cr_from_range (p : profile) (from to : N) : outcome charreach :=
  cr_set_range p cr_default from to.
(** charreach.rs:43-47 *)
Definition cr_from_bytes (p : profile) (bytes : list N) : outcome charreach :=
  cr_set_bytes p cr_default bytes.
(** charreach.rs:52-54 *)
Definition cr_dot (p : profile) : outcome charreach := cr_from_range p 0 255.

(** charreach.rs:261-265, 249-259 *)
Definition cr_and_assign (cr a : charreach) : charreach := bf_and_assign cr a.
(** charreach.rs:249-259 *)
Definition cr_and (self rhs : charreach) : charreach := cr_and_assign rhs self.
(** charreach.rs:280-285, 268-278 *)
Definition cr_or_assign (cr a : charreach) : charreach := bf_or_assign cr a.
(** charreach.rs:268-278 *)
Definition cr_or (self rhs : charreach) : charreach := cr_or_assign rhs self.
(** charreach.rs:299-304, 287-297 *)
Definition cr_xor_assign (cr a : charreach) : charreach := bf_xor_assign cr a.
(** charreach.rs:287-297 *)
Definition cr_xor (self rhs : charreach) : charreach := cr_xor_assign rhs self.
(** charreach.rs:306-315 *)
Definition cr_not (cr : charreach) : charreach := bf_not cr.

(** The loop shape
    [let mut next = self.find_first(); while let Some(pos) = next { body; next = self.find_next(pos); }]
    used in charreach.rs:172-179, 197-204, 240-245, 336-340 and 355-360.  The
    body updates an accumulator and may leave the function early ([inr]).  A
    class has at most 256 members, so 257 tests of the loop condition suffice. *)
Definition LOOP_FUEL : nat := 257.
(** charreach.rs:172-179, 197-204, 240-245, 336-340, 355-360 *)
Fixpoint iter_loop {A R} (p : profile) (fuel : nat) (cr : charreach)
  (body : A -> N -> outcome (A + R)) (next : option N) (acc : A) : outcome (A + R) :=
  match fuel with
  | O => Diverge
  | S fuel' =>
    match next with
    | None => Ret (inl acc)
    | Some pos =>
      let! r := body acc pos in
      match r with
      | inr x => Ret (inr x)
      | inl acc' =>
        let! next' := cr_find_next p cr pos in
        iter_loop p fuel' cr body next' acc'
      end
    end
  end.

(** charreach.rs:168-180 *)
Definition cr_is_alphabetic (p : profile) (cr : charreach) : outcome bool :=
  if cr_none cr then Ret false
  else
    let! next := cr_find_first p cr in
    let! r := iter_loop p LOOP_FUEL cr
      (fun (acc : unit) pos => Ret (if negb (ourisalpha pos) then inr false else inl tt)) next tt in
    match r with inr b => Ret b | inl _ => Ret true end.

(** charreach.rs:184-191 *)
Definition cr_is_caseless_char (p : profile) (cr : charreach) : outcome bool :=
  if negb (cr_count cr =? 2) then Ret false
  else
    let! f := cr_find_first p cr in
    let! first := expect f in
    let! s := cr_find_next p cr first in
    let! second := expect s in
    Ret (first =? mytoupper second).

(** charreach.rs:196-205 *)
Definition cr_is_bit5_insensitive (p : profile) (cr : charreach) : outcome bool :=
  let! next := cr_find_first p cr in
  let! r := iter_loop p LOOP_FUEL cr
    (fun (acc : unit) pos =>
       let! t := cr_test p cr (N.lxor pos 32) in
       Ret (if negb t then inr false else inl tt)) next tt in
  match r with inr b => Ret b | inl _ => Ret true end.

(** charreach.rs:210-212 *)
Definition cr_is_subset_of (self rhs : charreach) : bool := bf_eqb (bf_and self rhs) self.
(** charreach.rs:217-219 *)
Definition cr_overlaps (self rhs : charreach) : bool := cr_any (cr_and self rhs).
(** charreach.rs:224-226 *)
Definition cr_is_ascii (p : profile) (cr : charreach) : outcome bool :=
  let! r := cr_from_range p 0 127 in
  Ret (cr_none (cr_and cr (cr_not r))).
(** charreach.rs:232-234 *)
Definition cr_is_utf8_start (p : profile) (cr : charreach) : outcome bool :=
  let! r := cr_from_range p 0 UTF_CONT_MAX in
  Ret (cr_none (cr_and cr r)).

(** charreach.rs:237-247 (Display): [pos as char] is the scalar value [pos]. *)
Definition cr_display (p : profile) (cr : charreach) : outcome str :=
  let! next := cr_find_first p cr in
  let! r := iter_loop p LOOP_FUEL cr
    (fun acc pos => Ret (@inl str unit (acc ++ [pos]))) next [] in
  match r with inl s => Ret s | inr _ => Ret [] (* the body never leaves early *) end.

(** charreach.rs:317-324: [for c in b'A'..=b'Z']. *)
Fixpoint make_caseless_loop (p : profile) (cs : list N) (cr : charreach) : outcome charreach :=
  match cs with
  | [] => Ret cr
  | c :: t =>
    let! t1 := cr_test p cr c in
    let! hit := (if t1 then Ret true else cr_test p cr (mytolower c)) in
    let! cr' :=
      (if hit : bool then
         let! cr1 := cr_set p cr c in
         cr_set p cr1 (mytolower c)
       else Ret cr) in
    make_caseless_loop p t cr'
  end.
(** charreach.rs:317-324 *)
Definition make_caseless (p : profile) (cr : charreach) : outcome charreach :=
  make_caseless_loop p (seqN 65 26) cr.

(** [bits[i] = f(bits[i])] on a byte slice. (charreach.rs:333,338) *)
Definition slice_upd (bits : list N) (i : N) (f : N -> outcome N) : outcome (list N) :=
  match nth_error bits (N.to_nat i) with
  | None => Panic PIndex
  | Some x => let! y := f x in Ret (list_upd bits (N.to_nat i) (fun _ => y))
  end.

(** charreach.rs:332-341: [bits[0..32]] panics for a short slice; [1 << (pos & 8)]
    is a shift of a u8. *)
Definition fill_bitvector (p : profile) (cr : charreach) (bits : list N) : outcome (list N) :=
  if (List.length bits <? 32)%nat then Panic PIndex
  else
    let bits0 := repeat 0 32 ++ skipn 32 bits in
    let! next := cr_find_first p cr in
    let! r := iter_loop p LOOP_FUEL cr
      (fun bs pos =>
         let! bs' := slice_upd bs (pos / 8) (fun x =>
           let! m := chk_shl p 8 1 (N.land pos 8) in Ret (N.lor x m)) in
         Ret (@inl (list N) unit bs')) next bits0 in
    match r with inl bs => Ret bs | inr _ => Ret bits0 (* the body never leaves early *) end.

(** charreach.rs:351-365; [lo] and [hi] are u8. *)
Definition make_and_cmp_mask (p : profile) (cr : charreach) : outcome (N * N) :=
  let! next := cr_find_first p cr in
  let! r := iter_loop p LOOP_FUEL cr
    (fun '(lo, hi) pos => Ret (@inl (N * N) unit (N.land lo pos, N.lor hi pos))) next (255, 0) in
  match r with
  | inl (lo, hi) => Ret (bnot 8 (N.lxor lo hi), lo)
  | inr _ => Ret (0, 0) (* the body never leaves early *)
  end.
