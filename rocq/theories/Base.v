(** Base vocabulary of the model: outcomes, build profiles, machine integers,
    strings.  Nothing here models a particular function of /repo; it models the
    parts of the Rust language and standard library the crate relies on. *)
From Coq Require Export List Bool Arith NArith Lia.
From Coq Require Export Ascii String.
From Coq Require DecimalString HexadecimalString.
Export ListNotations.
Local Open Scope N_scope.
Local Open Scope list_scope.

(** Why a Rust computation panicked. *)
Inductive panic :=
| POverflow        (* arithmetic overflow with overflow checks on *)
| PAssert          (* assert! *)
| PDebugAssert     (* debug_assert! with debug assertions on *)
| PIndex           (* slice, Vec or graph index out of range *)
| PExpect          (* expect / unwrap on None or Err *)
| PCapacity        (* petgraph: node or edge index space exhausted *)
| PUnimplemented.  (* unimplemented! *)

(** Result of running Rust code: a value, a panic, or no result within the fuel
    given to a loop. *)
Inductive outcome (A : Type) :=
| Ret (a : A)
| Panic (why : panic)
| Diverge.
Arguments Ret {A} a.
Arguments Panic {A} why.
Arguments Diverge {A}.

Definition bind {A B} (m : outcome A) (k : A -> outcome B) : outcome B :=
  match m with
  | Ret a => k a
  | Panic w => Panic w
  | Diverge => Diverge
  end.

(** Rust's [Result<T, E>]. *)
Inductive result (E A : Type) :=
| ROk (a : A)
| RErr (e : E).
Arguments ROk {E A} a.
Arguments RErr {E A} e.

(** The [?] operator inside a function returning [Result]. *)
Definition bindr {E A B} (m : outcome (result E A))
  (k : A -> outcome (result E B)) : outcome (result E B) :=
  match m with
  | Ret (ROk a) => k a
  | Ret (RErr e) => Ret (RErr e)
  | Panic w => Panic w
  | Diverge => Diverge
  end.

Notation "'let!' x := e 'in' k" := (bind e (fun x => k))
  (at level 200, x pattern, e at level 100, k at level 200, right associativity).
Notation "'let?' x := e 'in' k" := (bindr e (fun x => k))
  (at level 200, x pattern, e at level 100, k at level 200, right associativity).

(** How the crate was built: the two switches of the cargo profile that change the
    meaning of the code, and the width of [usize] on the target.  [dev] is cargo's
    default debug profile, [release] its release profile, on a 64-bit target; [dev32]
    and [release32] the same on a 32-bit target. *)
Inductive pointer_width := W32 | W64.
Record profile := Profile { overflow_checks : bool; debug_assertions : bool; target : pointer_width }.
Definition dev := Profile true true W64.
Definition release := Profile false false W64.
Definition dev32 := Profile true true W32.
Definition release32 := Profile false false W32.
(** [usize::BITS] *)
Definition usize_bits (p : profile) : N := match target p with W32 => 32 | W64 => 64 end.

(** [assert!] *)
Definition rs_assert (b : bool) : outcome unit :=
  if b then Ret tt else Panic PAssert.
(** [debug_assert!] *)
Definition rs_debug_assert (p : profile) (b : bool) : outcome unit :=
  if debug_assertions p && negb b then Panic PDebugAssert else Ret tt.
(** [debug_assert!] whose condition can itself panic: evaluated only when debug
    assertions are on. *)
Definition rs_debug_assert_m (p : profile) (m : outcome bool) : outcome unit :=
  if debug_assertions p then
    bind m (fun b => if b then Ret tt else Panic PDebugAssert)
  else Ret tt.
(** [Option::expect], [Option::unwrap] *)
Definition expect {A} (o : option A) : outcome A :=
  match o with Some a => Ret a | None => Panic PExpect end.

(** Machine integers are [N]; [w] is the width in bits. *)
Definition chk_add (p : profile) (w a b : N) : outcome N :=
  if a + b <? 2 ^ w then Ret (a + b)
  else if overflow_checks p then Panic POverflow else Ret ((a + b) mod 2 ^ w).
Definition chk_sub (p : profile) (w a b : N) : outcome N :=
  if b <=? a then Ret (a - b)
  else if overflow_checks p then Panic POverflow else Ret ((2 ^ w + a - b) mod 2 ^ w).
Definition chk_mul (p : profile) (w a b : N) : outcome N :=
  if a * b <? 2 ^ w then Ret (a * b)
  else if overflow_checks p then Panic POverflow else Ret ((a * b) mod 2 ^ w).
(** [a << s]: bits shifted out are dropped; a shift of [w] or more panics, or
    uses the low bits of [s] when unchecked. *)
Definition chk_shl (p : profile) (w a s : N) : outcome N :=
  if s <? w then Ret (N.shiftl a s mod 2 ^ w)
  else if overflow_checks p then Panic POverflow
  else Ret (N.shiftl a (s mod w) mod 2 ^ w).
(** [!a] *)
Definition bnot (w a : N) : N := N.lxor a (N.ones w).
(** [a as uW] *)
Definition cast (w a : N) : N := a mod 2 ^ w.

(** [u8::wrapping_add] *)
Definition wrapping_add (w a b : N) : N := (a + b) mod 2 ^ w.

(** [n, n+1, ..., n+len-1]: the values of a Rust integer range. *)
Fixpoint seqN (start : N) (len : nat) : list N :=
  match len with
  | O => []
  | S k => start :: seqN (start + 1) k
  end.

(** [uW::count_ones], [trailing_zeros], [leading_zeros] for W = 64, by their
    documented meaning. *)
Definition count_ones64 (x : N) : N :=
  N.of_nat (List.length (filter (N.testbit x) (seqN 0 64))).
Definition trailing_zeros64 (x : N) : N :=
  match find (N.testbit x) (seqN 0 64) with Some i => i | None => 64 end.
Definition leading_zeros64 (x : N) : N :=
  match find (fun i => N.testbit x (63 - i)) (seqN 0 64) with Some i => i | None => 64 end.

(** ** Strings: [&str] / [String] as lists of Unicode scalar values. *)
Definition str := list N.

Definition lit (s : string) : str := map N_of_ascii (list_ascii_of_string s).

(** [char::len_utf8] *)
Definition char_len (c : N) : N :=
  if c <? 128 then 1 else if c <? 2048 then 2 else if c <? 65536 then 3 else 4.

(** [str::len]: length in bytes. *)
Fixpoint str_len (s : str) : N :=
  match s with [] => 0 | c :: t => char_len c + str_len t end.

(** [char::is_ascii] *)
Definition is_ascii_char (c : N) : bool := c <? 128.

(** [format!("{}", n)] for unsigned integers. *)
Definition show (n : N) : str := lit (DecimalString.NilZero.string_of_uint (N.to_uint n)).
(** [format!("{:2x}", n)]: lower-case hexadecimal, padded on the left with
    spaces to width 2. *)
Definition show_hex2 (n : N) : str :=
  let d := lit (HexadecimalString.NilZero.string_of_uint (N.to_hex_uint n)) in
  if (List.length d <? 2)%nat then 32 :: d else d.

Fixpoint str_eqb (a b : str) : bool :=
  match a, b with
  | [], [] => true
  | x :: a', y :: b' => (x =? y) && str_eqb a' b'
  | _, _ => false
  end.
(** [str::starts_with] *)
Fixpoint starts_with (pre s : str) : bool :=
  match pre, s with
  | [], _ => true
  | x :: pre', y :: s' => (x =? y) && starts_with pre' s'
  | _ :: _, [] => false
  end.

(** [Vec] index update. *)
Fixpoint list_upd {A} (l : list A) (i : nat) (f : A -> A) : list A :=
  match l, i with
  | [], _ => []
  | x :: t, O => f x :: t
  | x :: t, S j => x :: list_upd t j f
  end.

(** Association lists standing for HashMap / BTreeMap: at most one entry per
    key is ever stored because insertion happens only for absent keys. *)
Fixpoint assoc {K V} (eqb : K -> K -> bool) (m : list (K * V)) (k : K) : option V :=
  match m with
  | [] => None
  | (k', v) :: t => if eqb k k' then Some v else assoc eqb t k
  end.

(** Duplicate-free lists standing for HashSet. *)
Definition set_insert {A} (eqb : A -> A -> bool) (x : A) (s : list A) : list A :=
  if existsb (eqb x) s then s else s ++ [x].
Definition set_extend {A} (eqb : A -> A -> bool) (s xs : list A) : list A :=
  fold_left (fun acc x => set_insert eqb x acc) xs s.
