(** Model of src/util/bitfield.rs: [BitField256], a set of bytes in four u64
    words. *)
From Verif Require Import Base ModelUtil.
Local Open Scope N_scope.

(** bitfield.rs:4 *)
Definition BLOCK_SIZE : N := 64.
(** bitfield.rs:5 *)
Definition ALL_ONES : N := bnot 64 0.

(** bitfield.rs:9-11: [bits: [u64; 4]]. *)
Record bitfield := BF { w0 : N; w1 : N; w2 : N; w3 : N }.
(** derived [Default], bitfield.rs:8 *)
Definition bf_default : bitfield := BF 0 0 0 0.
(** the array as a list, for iteration ([self.bits.iter()]). (bitfield.rs:129,141,165,179) *)
Definition words (b : bitfield) : list N := [w0 b; w1 b; w2 b; w3 b].

(** [self.bits[i]]: panics when out of range. (bitfield.rs:42,153) *)
Definition get_block (b : bitfield) (i : N) : outcome N :=
  match i with
  | 0 => Ret (w0 b) | 1 => Ret (w1 b) | 2 => Ret (w2 b) | 3 => Ret (w3 b)
  | _ => Panic PIndex
  end.
(** [self.bits[i] = x] (bitfield.rs:86) *)
Definition put_block (b : bitfield) (i x : N) : outcome bitfield :=
  match i with
  | 0 => Ret (BF x (w1 b) (w2 b) (w3 b))
  | 1 => Ret (BF (w0 b) x (w2 b) (w3 b))
  | 2 => Ret (BF (w0 b) (w1 b) x (w3 b))
  | 3 => Ret (BF (w0 b) (w1 b) (w2 b) x)
  | _ => Panic PIndex
  end.
(** [self.bits[i] op= x] (bitfield.rs:32,37,55,72,81,92) *)
Definition upd_block (b : bitfield) (i : N) (f : N -> N) : outcome bitfield :=
  let! x := get_block b i in put_block b i (f x).

(** bitfield.rs:201-203 *)
Definition get_word (n : N) : N := n / BLOCK_SIZE.
(** bitfield.rs:205-207 *)
Definition mask_bit (p : profile) (n : N) : outcome N := chk_shl p 64 1 (n mod BLOCK_SIZE).

(** bitfield.rs:15-20 *)
Definition bf_reset_all (b : bitfield) : bitfield := BF 0 0 0 0.
(** bitfield.rs:23-28 *)
Definition bf_set_all (b : bitfield) : bitfield := BF ALL_ONES ALL_ONES ALL_ONES ALL_ONES.
(** bitfield.rs:31-33 *)
Definition bf_reset (p : profile) (b : bitfield) (n : N) : outcome bitfield :=
  let! m := mask_bit p n in
  upd_block b (get_word n) (fun x => N.land x (bnot 64 m)).
(** bitfield.rs:36-38 *)
Definition bf_set (p : profile) (b : bitfield) (n : N) : outcome bitfield :=
  let! m := mask_bit p n in
  upd_block b (get_word n) (fun x => N.lor x m).
(** bitfield.rs:41-43 *)
Definition bf_test (p : profile) (b : bitfield) (n : N) : outcome bool :=
  let! x := get_block b (get_word n) in
  let! m := mask_bit p n in
  Ret (negb (N.land x m =? 0)).
(** bitfield.rs:46-51 *)
Definition bf_flip_all (b : bitfield) : bitfield :=
  BF (bnot 64 (w0 b)) (bnot 64 (w1 b)) (bnot 64 (w2 b)) (bnot 64 (w3 b)).
(** bitfield.rs:54-56 *)
Definition bf_flip (p : profile) (b : bitfield) (n : N) : outcome bitfield :=
  let! m := mask_bit p n in
  upd_block b (get_word n) (fun x => N.lxor x m).

(** bitfield.rs:85-88: the [while] loop over whole blocks; [i] is a usize. *)
Fixpoint set_range_loop (p : profile) (fuel : nat) (b : bitfield) (i to : N)
  : outcome (bitfield * N) :=
  match fuel with
  | O => Diverge
  | S fuel' =>
    let! lhs := chk_add p (usize_bits p) i BLOCK_SIZE in
    let! rhs := chk_add p (usize_bits p) to 1 in
    if lhs <=? rhs then
      let! b' := put_block b (i / BLOCK_SIZE) ALL_ONES in
      let! i' := chk_add p (usize_bits p) i BLOCK_SIZE in
      set_range_loop p fuel' b' i' to
    else Ret (b, i)
  end.

(** bitfield.rs:63-94.  The loop needs at most five tests (fuel 6). *)
Definition bf_set_range (p : profile) (b : bitfield) (from to : N) : outcome bitfield :=
  let! _ := rs_assert (from <=? to) in
  if from / BLOCK_SIZE =? to / BLOCK_SIZE then
    let! block := chk_shl p 64 ALL_ONES (from mod BLOCK_SIZE) in
    let! block' :=
      (if negb (to mod BLOCK_SIZE =? BLOCK_SIZE - 1) then
         let! to1 := chk_add p 8 to 1 in
         let! m := mask_bit p to1 in
         let! m1 := chk_sub p 64 m 1 in
         Ret (N.land block m1)
       else Ret block) in
    upd_block b (from / BLOCK_SIZE) (fun x => N.lor x block')
  else
    let! (b1, i1) :=
      (if negb (from mod BLOCK_SIZE =? 0) then
         let! block := chk_shl p 64 ALL_ONES (from mod BLOCK_SIZE) in
         let! b' := upd_block b (from / BLOCK_SIZE) (fun x => N.lor x block) in
         let! i' := round_up_n p (usize_bits p) from BLOCK_SIZE in
         Ret (b', i')
       else Ret (b, from)) in
    let! (b2, i2) := set_range_loop p 6 b1 i1 to in
    if i2 <=? to then
      let! _ := rs_debug_assert_m p
        (let! d := chk_sub p (usize_bits p) to i2 in
         let! d1 := chk_add p (usize_bits p) d 1 in
         Ret (d1 <? BLOCK_SIZE)) in
      let! m := mask_bit p (wrapping_add 8 to 1) in
      let! m1 := chk_sub p 64 m 1 in
      upd_block b2 (i2 / BLOCK_SIZE) (fun x => N.lor x m1)
    else Ret b2.

(** bitfield.rs:97-104; the u32 sum is at most 256, so it is written without
    the overflow check. *)
Definition bf_count (b : bitfield) : N :=
  0 + count_ones64 (w0 b) + count_ones64 (w1 b) + count_ones64 (w2 b) + count_ones64 (w3 b).
(** bitfield.rs:107-109 *)
Definition bf_none (b : bitfield) : bool :=
  (w0 b =? 0) && (w1 b =? 0) && (w2 b =? 0) && (w3 b =? 0).
(** bitfield.rs:113-115 *)
Definition bf_any (b : bitfield) : bool := negb (bf_none b).
(** bitfield.rs:120-125 *)
Definition bf_all (b : bitfield) : bool :=
  (w0 b =? ALL_ONES) && (w1 b =? ALL_ONES) && (w2 b =? ALL_ONES) && (w3 b =? ALL_ONES).

(** the u8 expression [i as u8 * BLOCK_SIZE + x.trailing_zeros() as u8],
    bitfield.rs:132, 160, 168, 190. *)
Definition bit_index (p : profile) (i x : N) : outcome N :=
  let! m := chk_mul p 8 i BLOCK_SIZE in
  chk_add p 8 m (cast 8 (trailing_zeros64 x)).

(** the [for (i, &bits) in ...enumerate()] loops of bitfield.rs:129-134 and
    165-170: first non-zero word, [i] being its block number. *)
Fixpoint first_nonzero (p : profile) (i : N) (l : list N) : outcome (option N) :=
  match l with
  | [] => Ret None
  | x :: t =>
    if negb (x =? 0) then let! r := bit_index p (cast 8 i) x in Ret (Some r)
    else first_nonzero p (i + 1) t
  end.
(** bitfield.rs:128-136 *)
Definition bf_find_first (p : profile) (b : bitfield) : outcome (option N) :=
  first_nonzero p 0 (words b).

(** bitfield.rs:141-146: the reversed loop; [i] is the block number of the head. *)
Fixpoint last_nonzero (p : profile) (i : N) (l : list N) : outcome (option N) :=
  match l with
  | [] => Ret None
  | x :: t =>
    if negb (x =? 0) then
      let! m := chk_mul p 8 (cast 8 i) BLOCK_SIZE in
      let! s := chk_add p 8 m (BLOCK_SIZE - 1) in
      let! r := chk_sub p 8 s (cast 8 (leading_zeros64 x)) in
      Ret (Some r)
    else last_nonzero p (i - 1) t
  end.
(** bitfield.rs:140-148 *)
Definition bf_find_last (p : profile) (b : bitfield) : outcome (option N) :=
  last_nonzero p 3 (rev (words b)).

(** bitfield.rs:151-173 *)
Definition bf_find_next (p : profile) (b : bitfield) (last : N) : outcome (option N) :=
  let last_i := get_word last in
  let! last_word := get_block b last_i in
  let! early :=
    (if negb (last mod BLOCK_SIZE =? BLOCK_SIZE - 1) then
       let! s := chk_add p 8 (last mod BLOCK_SIZE) 1 in
       let! m := chk_shl p 64 ALL_ONES s in
       let lw := N.land last_word m in
       if negb (lw =? 0) then let! r := bit_index p last_i lw in Ret (Some r)
       else Ret None
     else Ret None) in
  match early with
  | Some r => Ret (Some r)
  | None =>
    let! last_i1 := chk_add p 8 last_i 1 in
    if 4 <? last_i1 then Panic PIndex  (* [self.bits[last_i..]] *)
    else first_nonzero p last_i1 (skipn (N.to_nat last_i1) (words b))
  end.

(** bitfield.rs:184-187: [for _ in sum..n { debug_assert!; block &= block - 1 }],
    [k] iterations. *)
Fixpoint drop_low_bits (p : profile) (k : nat) (block : N) : outcome N :=
  match k with
  | O => Ret block
  | S k' =>
    let! _ := rs_debug_assert p (0 <? block) in
    let! b1 := chk_sub p 64 block 1 in
    drop_low_bits p k' (N.land block b1)
  end.

(** bitfield.rs:179-195; [whole] is the whole field (for the assertion), [i]
    the block number of the head of [l].  [sum] and [n] are u32. *)
Fixpoint find_nth_loop (p : profile) (whole : bitfield) (n : N) (i sum : N) (l : list N)
  : outcome (option N) :=
  match l with
  | [] =>
    let! _ := rs_debug_assert p (bf_count whole <=? n) in
    Ret None
  | x :: t =>
    let! after_sum := chk_add p 32 sum (count_ones64 x) in
    if n <? after_sum then
      let! block := drop_low_bits p (N.to_nat (n - sum)) x in
      let! _ := rs_debug_assert p (0 <? block) in
      let! bit := bit_index p (cast 8 i) block in
      let! _ := rs_debug_assert_m p (bf_test p whole bit) in
      Ret (Some bit)
    else find_nth_loop p whole n (i + 1) after_sum t
  end.
(** bitfield.rs:177-199 *)
Definition bf_find_nth (p : profile) (b : bitfield) (n : N) : outcome (option N) :=
  find_nth_loop p b n 0 0 (words b).

(** bitfield.rs:221-229 *)
Definition bf_and_assign (b a : bitfield) : bitfield :=
  BF (N.land (w0 b) (w0 a)) (N.land (w1 b) (w1 a)) (N.land (w2 b) (w2 a)) (N.land (w3 b) (w3 a)).
(** bitfield.rs:210-219: [rhs &= self]. *)
Definition bf_and (self rhs : bitfield) : bitfield := bf_and_assign rhs self.
(** bitfield.rs:242-250 *)
Definition bf_or_assign (b a : bitfield) : bitfield :=
  BF (N.lor (w0 b) (w0 a)) (N.lor (w1 b) (w1 a)) (N.lor (w2 b) (w2 a)) (N.lor (w3 b) (w3 a)).
(** bitfield.rs:231-240 *)
Definition bf_or (self rhs : bitfield) : bitfield := bf_or_assign rhs self.
(** bitfield.rs:263-271 *)
Definition bf_xor_assign (b a : bitfield) : bitfield :=
  BF (N.lxor (w0 b) (w0 a)) (N.lxor (w1 b) (w1 a)) (N.lxor (w2 b) (w2 a)) (N.lxor (w3 b) (w3 a)).
(** bitfield.rs:252-261 *)
Definition bf_xor (self rhs : bitfield) : bitfield := bf_xor_assign rhs self.
(** bitfield.rs:273-284 *)
Definition bf_not (b : bitfield) : bitfield :=
  BF (bnot 64 (w0 b)) (bnot 64 (w1 b)) (bnot 64 (w2 b)) (bnot 64 (w3 b)).

(** derived [PartialEq], bitfield.rs:8 *)
Definition bf_eqb (a b : bitfield) : bool :=
  (w0 a =? w0 b) && (w1 a =? w1 b) && (w2 a =? w2 b) && (w3 a =? w3 b).
(** derived [Ord], bitfield.rs:8: lexicographic on the word array. *)
Definition bf_cmp (a b : bitfield) : comparison :=
  match w0 a ?= w0 b with
  | Eq => match w1 a ?= w1 b with
          | Eq => match w2 a ?= w2 b with
                  | Eq => w3 a ?= w3 b
                  | c => c end
          | c => c end
  | c => c end.
