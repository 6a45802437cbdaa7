(** Model of the bit vector a literal keeps its case flags in, as stored: the
    functions of bit-vec 0.6 that src/util/ue2string.rs calls, and that file's
    functions over them. *)
From Verif Require Import Base ModelUtil ModelLiteral.
Local Open Scope N_scope.

(** [BitVec<u32>]: 32-bit words and the number of bits in use. (ue2string.rs:8) *)
Record bitvec := BitVec { bv_storage : list N; bv_nbits : N }.
(** [BitVec::default]. (ue2string.rs:5) *)
Definition bv_default : bitvec := BitVec [] 0.
(** [BitVec::set]: refuses an index past the end, then sets or clears one bit
    of one word. (ue2string.rs:46) *)
Definition bv_set (p : profile) (v : bitvec) (i : N) (x : bool) : outcome bitvec :=
  let! _ := rs_assert (i <? bv_nbits v) in
  let w := i / 32 in
  let! flag := chk_shl p 32 1 (i mod 32) in
  match nth_error (bv_storage v) (N.to_nat w) with
  | None => Panic PIndex
  | Some b =>
    let b' := if x then N.lor b flag else N.land b (bnot 32 flag) in
    Ret (BitVec (list_upd (bv_storage v) (N.to_nat w) (fun _ => b')) (bv_nbits v))
  end.
(** [BitVec::push]: a new word when the last one is full, then [set] at the old
    end; the count is a checked sum. (ue2string.rs:46) *)
Definition bv_push (p : profile) (v : bitvec) (x : bool) : outcome bitvec :=
  let st := if bv_nbits v mod 32 =? 0 then bv_storage v ++ [0] else bv_storage v in
  let! n := expect (if bv_nbits v + 1 <? 2 ^ usize_bits p then Some (bv_nbits v + 1) else None) in
  bv_set p (BitVec st n) (bv_nbits v) x.
(** [BitVec::get]. (ue2string.rs:56) *)
Definition bv_get (v : bitvec) (i : N) : option bool :=
  if bv_nbits v <=? i then None
  else match nth_error (bv_storage v) (N.to_nat (i / 32)) with
       | None => None
       | Some b => Some (negb (N.land b (N.shiftl 1 (i mod 32)) =? 0))
       end.
(** [BitVec::none] and [BitVec::any]: over whole words. (ue2string.rs:34) *)
Definition bv_none (v : bitvec) : bool := forallb (fun b => b =? 0) (bv_storage v).
Definition bv_any (v : bitvec) : bool := negb (bv_none v).
(** [Iter::next] at index [i]: the bits of [0..nbits], each by [get] and
    [unwrap]. (ue2string.rs:84) *)
Definition bv_next (v : bitvec) (i : N) : outcome (option bool) :=
  if i <? bv_nbits v then let! b := expect (bv_get v i) in Ret (Some b) else Ret None.
(** [BitVec]'s [Ord]: [Iterator::cmp] of the two iterators, here from index [i];
    [fuel] bounds the number of steps, one more than the bits of the first being
    enough. (ue2string.rs:84) *)
Fixpoint bv_cmp_from (fuel : nat) (a b : bitvec) (i : N) : outcome comparison :=
  match fuel with
  | O => Diverge
  | S f =>
    let! x := bv_next a i in
    match x with
    | None => let! y := bv_next b i in Ret (match y with None => Eq | Some _ => Lt end)
    | Some x =>
      let! y := bv_next b i in
      match y with
      | None => Ret Gt
      | Some y => match bool_cmp x y with Eq => bv_cmp_from f a b (i + 1) | o => Ret o end
      end
    end
  end.
Definition bv_cmp (a b : bitvec) : outcome comparison := bv_cmp_from (S (N.to_nat (bv_nbits a))) a b 0.

(** ue2string.rs:6-9 *)
Record wliteral := WLiteral { wl_s : list N; wl_nocase : bitvec }.
(** ue2string.rs:5 *)
Definition wl_default : wliteral := WLiteral [] bv_default.
(** ue2string.rs:23-25 *)
Definition wl_len (l : wliteral) : N := N.of_nat (List.length (wl_s l)).
(** ue2string.rs:28-30 *)
Definition wl_is_empty (l : wliteral) : bool := match wl_s l with [] => true | _ => false end.
(** ue2string.rs:33-35 *)
Definition wl_any_nocase (l : wliteral) : bool := bv_any (wl_nocase l).
(** ue2string.rs:42-48 *)
Definition wl_push (p : profile) (l : wliteral) (c : N) (nc : bool) : outcome wliteral :=
  let c' := if nc then mytoupper c else c in
  let! v := bv_push p (wl_nocase l) nc in
  Ret (WLiteral (wl_s l ++ [c']) v).
(** ue2string.rs:51-60 *)
Definition wl_iter_next (l : wliteral) (idx : nat) : option (lit_elem * nat) :=
  match nth_error (wl_s l) idx with
  | None => None
  | Some c =>
    match bv_get (wl_nocase l) (N.of_nat idx) with
    | None => None
    | Some nc => Some (LitElem c nc, S idx)
    end
  end.
(** ue2string.rs:51-60 *)
Fixpoint wl_iter_from (fuel : nat) (l : wliteral) (idx : nat) : list lit_elem :=
  match fuel with
  | O => []
  | S f =>
    match wl_iter_next l idx with
    | None => []
    | Some (e, idx') => e :: wl_iter_from f l idx'
    end
  end.
(** ue2string.rs:38-40, 62-70 *)
Definition wl_iter (l : wliteral) : list lit_elem := wl_iter_from (S (List.length (wl_s l))) l 0.
(** ue2string.rs:72-77 *)
Definition wl_eq (a b : wliteral) : bool := listN_eqb (wl_s a) (wl_s b).
(** ue2string.rs:79-89 *)
Definition wl_cmp (a b : wliteral) : outcome comparison :=
  match lex_cmp N.compare (wl_s a) (wl_s b) with
  | Eq => bv_cmp (wl_nocase a) (wl_nocase b)
  | o => Ret o
  end.
