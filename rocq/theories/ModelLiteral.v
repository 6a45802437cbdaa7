(** Model of src/util/ue2string.rs: literals with per-byte case flags. *)
From Verif Require Import Base ModelUtil.
Local Open Scope N_scope.

(** ue2string.rs:6-9: the byte vector and the bit vector of case flags. *)
Record literal := Literal { lit_s : list N; lit_nocase : list bool }.
(** derived [Default], ue2string.rs:5 *)
Definition lit_default : literal := Literal [] [].
(** ue2string.rs:11-14 *)
Record lit_elem := LitElem { el_c : N; el_nocase : bool }.

(** ue2string.rs:23-25 *)
Definition lit_len (l : literal) : N := N.of_nat (List.length (lit_s l)).
(** ue2string.rs:28-30 *)
Definition lit_is_empty (l : literal) : bool :=
  match lit_s l with [] => true | _ => false end.
(** ue2string.rs:33-35; [BitVec::any]: some bit is set. *)
Definition lit_any_nocase (l : literal) : bool := existsb (fun b => b) (lit_nocase l).
(** ue2string.rs:42-48 *)
Definition lit_push (l : literal) (c : N) (nc : bool) : literal :=
  let c' := if nc then mytoupper c else c in
  Literal (lit_s l ++ [c']) (lit_nocase l ++ [nc]).
(** ue2string.rs:51-60: [next] on an iterator at index [idx]. *)
Definition lit_iter_next (l : literal) (idx : nat) : option (lit_elem * nat) :=
  match nth_error (lit_s l) idx with
  | None => None
  | Some c =>
    match nth_error (lit_nocase l) idx with
    | None => None
    | Some nc => Some (LitElem c nc, S idx)
    end
  end.
(** Running the iterator from index [idx] until [None]; [fuel] bounds the number
    of [next] calls, [length + 1] being enough. (ue2string.rs:51-60) *)
Fixpoint lit_iter_from (fuel : nat) (l : literal) (idx : nat) : list lit_elem :=
  match fuel with
  | O => []
  | S f =>
    match lit_iter_next l idx with
    | None => []
    | Some (e, idx') => e :: lit_iter_from f l idx'
    end
  end.
(** ue2string.rs:38-40 and 62-70: the elements the iterator yields. *)
Definition lit_iter (l : literal) : list lit_elem :=
  lit_iter_from (S (List.length (lit_s l))) l 0.

(** [Vec<u8>] equality, ue2string.rs:72-76 *)
Fixpoint listN_eqb (a b : list N) : bool :=
  match a, b with
  | [], [] => true
  | x :: a', y :: b' => (x =? y) && listN_eqb a' b'
  | _, _ => false
  end.
(** ue2string.rs:72-77 *)
Definition lit_eq (a b : literal) : bool := listN_eqb (lit_s a) (lit_s b).

(** lexicographic comparison of slices / iterators (std [Ord] for [Vec],
    [Iterator::cmp]). (ue2string.rs:82,84) *)
Fixpoint lex_cmp {A} (cmp : A -> A -> comparison) (a b : list A) : comparison :=
  match a, b with
  | [], [] => Eq
  | [], _ :: _ => Lt
  | _ :: _, [] => Gt
  | x :: a', y :: b' => match cmp x y with Eq => lex_cmp cmp a' b' | c => c end
  end.
(** [bool]'s order: false < true. (ue2string.rs:84) *)
Definition bool_cmp (a b : bool) : comparison :=
  match a, b with
  | false, true => Lt
  | true, false => Gt
  | _, _ => Eq
  end.
(** ue2string.rs:79-89 *)
Definition lit_cmp (a b : literal) : comparison :=
  match lex_cmp N.compare (lit_s a) (lit_s b) with
  | Eq => lex_cmp bool_cmp (lit_nocase a) (lit_nocase b)
  | o => o
  end.

(** ue2string.rs:106-115: the loop of [mixed_sensitivity]. *)
Fixpoint mixed_loop (es : list lit_elem) (cs nc : bool) : bool * bool :=
  match es with
  | [] => (cs, nc)
  | e :: t =>
    if negb (ourisalpha (el_c e)) then mixed_loop t cs nc
    else if el_nocase e then mixed_loop t cs true
    else mixed_loop t true nc
  end.
(** ue2string.rs:100-118 *)
Definition mixed_sensitivity (es : list lit_elem) : bool :=
  let (cs, nc) := mixed_loop es false false in cs && nc.
