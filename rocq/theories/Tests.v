(** The crate's own unit tests, transcribed and run on the model with and without
    checks: what the developers expect of the code holds of the model.  Each test is
    a computation that panics when an assertion fails.  Two simplifications: [expect]
    is checked before the assertions on the mode that precede it, as both must hold;
    and after a failed read of a verb the next read starts from the default mode
    (a verb that is refused changes no mode, control_verbs.rs:11-50). *)
From Coq Require Import Ascii Permutation.
From Verif Require Import Base ModelUtil ModelBitField ModelCharReach ModelLiteral ModelParser ModelDump ModelCompiler
  SpecSet ProofBase ProofBitField ProofBitField2 PropSet.
Local Open Scope N_scope.
Local Open Scope list_scope.

Definition check (b : bool) : outcome unit := if b then Ret tt else Panic PAssert.
Definition is_true (o : outcome bool) : outcome unit := let! b := o in check b.
Definition is_false (o : outcome bool) : outcome unit := let! b := o in check (negb b).
Definition opt_eqb (a b : option N) : bool := match a, b with Some x, Some y => x =? y | None, None => true | _, _ => false end.
Definition is_opt (o : outcome (option N)) (v : option N) : outcome unit := let! x := o in check (opt_eqb x v).
(** [for x in l] over a state. *)
Fixpoint for_each {A S} (l : list A) (s : S) (f : A -> S -> outcome S) : outcome S :=
  match l with [] => Ret s | x :: t => let! s' := f x s in for_each t s' f end.
Definition for_all {A} (l : list A) (f : A -> outcome unit) : outcome unit := for_each l tt (fun x _ => f x).
(** [from..=to] with a step *)
Definition range_by (step from to : N) : list N :=
  map (fun i => from + step * N.of_nat i) (List.seq 0 (S (N.to_nat ((to - from) / step)))).
Definition range (from to : N) : list N := range_by 1 from to.
Definition passes (t : profile -> outcome unit) : Prop := t dev = Ret tt /\ t release = Ret tt.

(** Long sweeps are shown by the theorems about sets instead of by running them. *)
Lemma for_all_ok {A} : forall (l : list A) f, (forall x, In x l -> f x = Ret tt) -> for_all l f = Ret tt.
Proof.
  intros l f H. unfold for_all. induction l as [|x l IH]; [reflexivity|]. cbn [for_each]. rewrite (H x) by (left; reflexivity). cbn [bind].
  apply IH. intros y Hy. apply H. right. exact Hy.
Qed.
Lemma in_range : forall from to x, from <= to -> In x (range from to) -> from <= x <= to.
Proof.
  intros from to x L I. unfold range, range_by in I. apply in_map_iff in I. destruct I as (i & <- & I). apply in_seq in I. rewrite N.div_1_r in I. lia.
Qed.
Lemma seqN_NoDup : forall n s, NoDup (seqN s n).
Proof. induction n as [|n IH]; intro s; cbn [seqN]; constructor; [rewrite in_seqN; lia|apply IH]. Qed.
Lemma count_between : forall b from to, wf b -> to < 256 -> (forall x, byte x -> mem b x = (from <=? x) && (x <=? to)) -> cr_count b = to + 1 - from.
Proof.
  intros b from to W L M. rewrite C25_count by exact W.
  assert (P : Permutation (elements b) (seqN from (N.to_nat (to + 1 - from)))).
  { apply NoDup_Permutation.
    - unfold elements. apply NoDup_filter. rewrite all_bytes_seqN. apply seqN_NoDup.
    - apply seqN_NoDup.
    - intro x. rewrite in_seqN, in_elements by exact W. split.
      + intro H. assert (B : byte x) by (apply (in_elements_byte b); apply in_elements; assumption). rewrite M in H by exact B. lia.
      + intro H. rewrite M by (unfold byte; lia). lia. }
  rewrite (Permutation_length P), seqN_length. lia.
Qed.

(** bitfield.rs:291-296 *)
Definition bf_empty (p : profile) : outcome unit :=
  let a := bf_default in
  let! _ := check (bf_none a) in
  check (bf_count a =? 0).
Example bf_empty_passes : passes bf_empty.
Proof. split; vm_compute; reflexivity. Qed.

(** bitfield.rs:298-318 *)
Definition bf_set_1 (p : profile) : outcome unit :=
  let! _ := for_each (range 0 255) bf_default (fun i a =>
    let a := bf_reset_all a in
    let! _ := check (bf_none a) in
    let! a := bf_set p a i in
    let! _ := check (negb (bf_none a)) in
    let! _ := is_true (bf_test p a i) in
    let! _ := is_opt (bf_find_first p a) (Some i) in
    let! _ := is_opt (bf_find_next p a i) None in
    let! _ := check (bf_count a =? 1) in
    let! a := bf_reset p a i in
    let! _ := check (bf_none a) in
    let! _ := is_false (bf_test p a i) in
    let! _ := is_opt (bf_find_first p a) None in
    let! _ := check (bf_count a =? 0) in
    Ret a) in
  Ret tt.
Example bf_set_1_passes : passes bf_set_1.
Proof. split; vm_compute; reflexivity. Qed.

(** bitfield.rs:333-339: the loop of the next test. *)
Fixpoint set_n_loop (p : profile) (fuel : nat) (a : bitfield) (step count last : N) : outcome unit :=
  match fuel with
  | O => Diverge
  | S fuel' =>
    let! r := bf_find_next p a last in
    match r with
    | Some i => let! _ := check (i =? count * step) in set_n_loop p fuel' a step (count + 1) i
    | None => Ret tt
    end
  end.

(** bitfield.rs:320-341 *)
Definition bf_set_n (p : profile) : outcome unit :=
  for_all [80; 17; 7; 3] (fun step =>
    let! (a, num) := for_each (range_by step 0 255) (bf_default, 0) (fun i s =>
      let! a := bf_set p (fst s) i in Ret (a, snd s + 1)) in
    let! _ := check (bf_count a =? num) in
    let! _ := is_opt (bf_find_first p a) (Some 0) in
    set_n_loop p 300 a step 1 0).
Example bf_set_n_passes : passes bf_set_n.
Proof. split; vm_compute; reflexivity. Qed.

(** bitfield.rs:343-355 *)
Definition bf_all_bits (p : profile) : outcome unit :=
  let a := bf_set_all bf_default in
  let! _ := check (negb (bf_none a)) in
  let! _ := check (bf_all a) in
  let! _ := check (bf_count a =? 256) in
  let a := bf_flip_all a in
  let! _ := check (bf_none a) in
  let! _ := check (negb (bf_all a)) in
  check (bf_count a =? 0).
Example bf_all_bits_passes : passes bf_all_bits.
Proof. split; vm_compute; reflexivity. Qed.

(** bitfield.rs:357-370 *)
Definition bf_flip_n (p : profile) : outcome unit :=
  let a := bf_set_all bf_default in
  let! _ := check (negb (bf_none a)) in
  let! _ := check (bf_all a) in
  let! _ := check (bf_count a =? 256) in
  let! _ := for_each (range 0 255) a (fun i a =>
    let! a := bf_flip p a i in
    let! _ := is_false (bf_test p a i) in
    let! _ := check (bf_count a =? 255 - i) in
    Ret a) in
  Ret tt.
Example bf_flip_n_passes : passes bf_flip_n.
Proof. split; vm_compute; reflexivity. Qed.

(** bitfield.rs:372-384 *)
Definition bf_flip_on (p : profile) : outcome unit :=
  let a := bf_default in
  let! _ := check (bf_none a) in
  let! a := for_each (range 0 255) a (fun i a =>
    let! a := bf_flip p a i in
    let! _ := is_true (bf_test p a i) in
    let! _ := check (i + 1 =? bf_count a) in
    Ret a) in
  check (bf_all a).
Example bf_flip_on_passes : passes bf_flip_on.
Proof. split; vm_compute; reflexivity. Qed.

(** bitfield.rs:386-407 *)
Definition bf_trivial_operations (p : profile) : outcome unit :=
  let a := bf_not bf_default in
  let b := bf_default in
  let! _ := check (bf_all a) in
  let! _ := check (bf_none b) in
  let! _ := check (bf_eqb a (bf_not b)) in
  let! _ := check (bf_eqb b (bf_not a)) in
  let! _ := check (bf_eqb a (bf_or a b)) in
  let! _ := check (bf_eqb b (bf_and a b)) in
  let c := a in
  let! _ := check (bf_eqb c a) in
  let c := bf_and_assign c b in
  let! _ := check (bf_eqb c b) in
  let c := bf_or_assign c a in
  let! _ := check (bf_eqb c a) in
  let c := bf_xor a b in
  check (bf_eqb c a).
Example bf_trivial_operations_passes : passes bf_trivial_operations.
Proof. split; vm_compute; reflexivity. Qed.

(** bitfield.rs:409-437 *)
Definition bf_even_odd (p : profile) : outcome unit :=
  let! (even, odd) := for_each (range 0 255) (bf_default, bf_default) (fun i s =>
    if i mod 2 =? 0 then let! e := bf_set p (fst s) i in Ret (e, snd s)
    else let! o := bf_set p (snd s) i in Ret (fst s, o)) in
  let! _ := for_all (range 0 255) (fun i =>
    if i mod 2 =? 0 then let! _ := is_true (bf_test p even i) in is_false (bf_test p odd i)
    else let! _ := is_true (bf_test p odd i) in is_false (bf_test p even i)) in
  let! _ := check (negb (bf_eqb even odd)) in
  let! _ := check (bf_all (bf_or even odd)) in
  let! _ := check (bf_all (bf_xor even odd)) in
  check (bf_none (bf_and even odd)).
Example bf_even_odd_passes : passes bf_even_odd.
Proof. split; vm_compute; reflexivity. Qed.

(** bitfield.rs:439-452 *)
Definition bf_find_first_test (p : profile) : outcome unit :=
  let a := bf_set_all bf_default in
  let! _ := check (bf_all a) in
  let! a := for_each (range 0 255) a (fun i a =>
    let! _ := is_opt (bf_find_first p a) (Some i) in
    bf_reset p a i) in
  let! _ := check (bf_none a) in
  is_opt (bf_find_first p a) None.
Example bf_find_first_test_passes : passes bf_find_first_test.
Proof. split; vm_compute; reflexivity. Qed.

(** bitfield.rs:454-467 *)
Definition bf_find_last_test (p : profile) : outcome unit :=
  let a := bf_set_all bf_default in
  let! _ := check (bf_all a) in
  let! a := for_each (rev (range 0 255)) a (fun i a =>
    let! _ := is_opt (bf_find_last p a) (Some i) in
    bf_reset p a i) in
  let! _ := check (bf_none a) in
  is_opt (bf_find_last p a) None.
Example bf_find_last_test_passes : passes bf_find_last_test.
Proof. split; vm_compute; reflexivity. Qed.

(** bitfield.rs:469-481 *)
Definition bf_find_next_all (p : profile) : outcome unit :=
  let a := bf_set_all bf_default in
  let! _ := check (bf_all a) in
  let! _ := is_opt (bf_find_first p a) (Some 0) in
  let! _ := for_all (range 1 255) (fun i => is_opt (bf_find_next p a (i - 1)) (Some i)) in
  is_opt (bf_find_next p a 255) None.
Example bf_find_next_all_passes : passes bf_find_next_all.
Proof. split; vm_compute; reflexivity. Qed.

(** bitfield.rs:483-492 *)
Definition bf_find_next_none (p : profile) : outcome unit :=
  let! _ := for_each (range 0 255) bf_default (fun i a =>
    let a := bf_reset_all a in
    let! a := bf_set p a i in
    let! _ := is_opt (bf_find_first p a) (Some i) in
    let! _ := is_opt (bf_find_next p a i) None in
    Ret a) in
  Ret tt.
Example bf_find_next_none_passes : passes bf_find_next_none.
Proof. split; vm_compute; reflexivity. Qed.

(** bitfield.rs:494-504 *)
Definition bf_find_next_last (p : profile) : outcome unit :=
  let! _ := for_each (range 0 254) bf_default (fun i a =>
    let a := bf_reset_all a in
    let! a := bf_set p a i in
    let! a := bf_set p a 255 in
    let! _ := is_opt (bf_find_first p a) (Some i) in
    let! _ := is_opt (bf_find_next p a i) (Some 255) in
    Ret a) in
  Ret tt.
Example bf_find_next_last_passes : passes bf_find_next_last.
Proof. split; vm_compute; reflexivity. Qed.

(** bitfield.rs:506-515 *)
Definition bf_find_nth_one (p : profile) : outcome unit :=
  let! _ := for_each (range 0 255) bf_default (fun i a =>
    let a := bf_reset_all a in
    let! a := bf_set p a i in
    let! _ := is_opt (bf_find_nth p a 0) (Some i) in
    let! _ := is_opt (bf_find_nth p a 1) None in
    Ret a) in
  Ret tt.
Example bf_find_nth_one_passes : passes bf_find_nth_one.
Proof. split; vm_compute; reflexivity. Qed.

(** bitfield.rs:517-525 *)
Definition bf_find_nth_all (p : profile) : outcome unit :=
  let a := bf_set_all bf_default in
  for_all (range 0 255) (fun i => is_opt (bf_find_nth p a i) (Some i)).
Example bf_find_nth_all_passes : passes bf_find_nth_all.
Proof. split; vm_compute; reflexivity. Qed.

(** bitfield.rs:527-546 *)
Definition bf_find_nth_sparse (p : profile) : outcome unit :=
  let stride := 256 / 31 in
  let! (a, bits) := for_each (range_by stride 0 255) (bf_default, []) (fun i s =>
    let! a := bf_set p (fst s) i in Ret (a, snd s ++ [i])) in
  let! _ := check (bf_count a =? N.of_nat (List.length bits)) in
  for_all (combine (List.seq 0 (List.length bits)) bits) (fun x =>
    is_opt (bf_find_nth p a (N.of_nat (fst x))) (Some (snd x))).
Example bf_find_nth_sparse_passes : passes bf_find_nth_sparse.
Proof. split; vm_compute; reflexivity. Qed.

(** bitfield.rs:548-560 *)
Definition bf_set_range_one (p : profile) : outcome unit :=
  let! _ := for_each (range 0 255) bf_default (fun i a =>
    let a := bf_reset_all a in
    let! a := bf_set_range p a i i in
    let! b := bf_set p bf_default i in
    let! _ := check (bf_eqb a b) in
    Ret a) in
  Ret tt.
Example bf_set_range_one_passes : passes bf_set_range_one.
Proof. split; vm_compute; reflexivity. Qed.

(** bitfield.rs:562-571 *)
Definition bf_set_range_all (p : profile) : outcome unit :=
  let! a := bf_set_range p bf_default 0 255 in
  check (bf_eqb a (bf_set_all bf_default)).
Example bf_set_range_all_passes : passes bf_set_range_all.
Proof. split; vm_compute; reflexivity. Qed.

(** bitfield.rs:573-592 *)
Definition bf_set_range_part (p : profile) : outcome unit :=
  let part := 256 / 3 in
  let! _ := for_each (range 0 (256 - part - 1)) bf_default (fun i a =>
    let a := bf_reset_all a in
    let! a := bf_set_range p a i (i + part) in
    let! _ := for_all (range i (i + part)) (fun j => is_true (bf_test p a j)) in
    let! _ := check (part + 1 =? bf_count a) in
    Ret a) in
  Ret tt.
Example bf_set_range_part_passes : passes bf_set_range_part.
Proof. split; vm_compute; reflexivity. Qed.

(** charreach.rs:372-379 *)
Definition cr_init (p : profile) : outcome unit :=
  let cr := cr_default in
  let! _ := check (cr_count cr =? 0) in
  let! _ := check (cr_none cr) in
  check (negb (cr_all cr)).
Example cr_init_passes : passes cr_init.
Proof. split; vm_compute; reflexivity. Qed.

(** charreach.rs:381-389 *)
Definition cr_dot_test (p : profile) : outcome unit :=
  let! dot := cr_dot p in
  let! _ := check (cr_count dot =? 256) in
  let! _ := check (cr_all dot) in
  for_all (range 0 255) (fun i => is_true (cr_test p dot i)).
Example cr_dot_test_passes : passes cr_dot_test.
Proof. split; vm_compute; reflexivity. Qed.

(** charreach.rs:391-403 *)
Definition cr_set_test (p : profile) : outcome unit :=
  let cr := cr_default in
  let! _ := check (cr_count cr =? 0) in
  let! _ := check (cr_none cr) in
  let! _ := check (negb (cr_all cr)) in
  let! cr := cr_set p cr 113 in
  let! _ := check (cr_count cr =? 1) in
  let cr := cr_set_all cr in
  let! _ := check (cr_count cr =? 256) in
  check (cr_all cr).
Example cr_set_test_passes : passes cr_set_test.
Proof. split; vm_compute; reflexivity. Qed.

(** charreach.rs:405-426 *)
Definition cr_reset_test (p : profile) : outcome unit :=
  let cr := cr_default in
  let! _ := check (cr_count cr =? 0) in
  let! _ := check (cr_none cr) in
  let! _ := check (negb (cr_all cr)) in
  let! cr := cr_set p cr 113 in
  let! cr := cr_set p cr 117 in
  let! cr := cr_set p cr 97 in
  let! cr := cr_set p cr 114 in
  let! cr := cr_set p cr 107 in
  let! _ := check (cr_count cr =? 5) in
  let! cr := cr_reset p cr 114 in
  let! _ := check (cr_count cr =? 4) in
  let! _ := is_false (cr_test p cr 114) in
  let cr := cr_set_all cr in
  let! _ := check (cr_count cr =? 256) in
  let! _ := check (cr_all cr) in
  let! cr := cr_reset p cr 255 in
  check (negb (cr_all cr)).
Example cr_reset_test_passes : passes cr_reset_test.
Proof. split; vm_compute; reflexivity. Qed.

(** charreach.rs:428-446 *)
Definition cr_flip_test (p : profile) : outcome unit :=
  let cr := cr_default in
  let! _ := check (cr_count cr =? 0) in
  let! _ := check (cr_none cr) in
  let cr := cr_flip_all cr in
  let! _ := check (cr_count cr =? 256) in
  let! _ := check (cr_all cr) in
  let cr := cr_flip_all cr in
  let! _ := check (cr_count cr =? 0) in
  let! _ := check (cr_none cr) in
  let! cr := cr_flip p cr 25 in
  let! _ := check (negb (cr_none cr)) in
  let! _ := check (negb (cr_all cr)) in
  let! _ := check (cr_count cr =? 1) in
  let cr := cr_flip_all cr in
  check (cr_count cr =? 255).
Example cr_flip_test_passes : passes cr_flip_test.
Proof. split; vm_compute; reflexivity. Qed.

(** charreach.rs:460-465: the loop of the next test. *)
Fixpoint count_loop (p : profile) (fuel : nat) (cr : charreach) (i n : N) : outcome N :=
  match fuel with
  | O => Diverge
  | S fuel' => let! r := cr_find_next p cr n in match r with Some next => count_loop p fuel' cr (i + 1) next | None => Ret i end
  end.

(** charreach.rs:448-468 *)
Definition cr_count_test (p : profile) : outcome unit :=
  let cr := cr_default in
  let! cr := cr_set p cr 1 in
  let! cr := cr_set p cr 2 in
  let! cr := cr_set p cr 97 in
  let! cr := cr_set p cr 90 in
  let! cr := cr_set p cr 109 in
  let! cr := cr_set p cr 126 in
  let! cr := cr_set p cr 210 in
  let! f := cr_find_first p cr in
  match f with
  | None => Panic PExpect
  | Some n => let! i := count_loop p 300 cr 1 n in check (cr_count cr =? i)
  end.
Example cr_count_test_passes : passes cr_count_test.
Proof. split; vm_compute; reflexivity. Qed.

(** charreach.rs:470-489 *)
Definition cr_bytes_test (p : profile) : outcome unit :=
  let cr := cr_default in
  let! cr := cr_set p cr 1 in
  let! cr := cr_set p cr 2 in
  let! cr := cr_set p cr 97 in
  let! cr := cr_set p cr 90 in
  let! cr := cr_set p cr 109 in
  let! cr := cr_set p cr 126 in
  let! cr := cr_set p cr 210 in
  let! _ := is_false (cr_is_alphabetic p cr) in
  let! cr := cr_flip p cr 1 in
  let! cr := cr_flip p cr 2 in
  let! cr := cr_flip p cr 126 in
  let! cr := cr_flip p cr 210 in
  let! _ := is_true (cr_is_alphabetic p cr) in
  let! s := cr_display p cr in
  check (str_eqb (lit "Zam") s).
Example cr_bytes_test_passes : passes cr_bytes_test.
Proof. split; vm_compute; reflexivity. Qed.

(** charreach.rs:491-506 *)
Definition cr_alpha (p : profile) : outcome unit :=
  let cr := cr_default in
  let! _ := check (cr_count cr =? 0) in
  let! _ := is_false (cr_is_alphabetic p cr) in
  let! cr := cr_set p cr 97 in
  let! _ := check (negb (cr_count cr =? 0)) in
  let! _ := is_true (cr_is_alphabetic p cr) in
  let! cr := cr_set p cr 65 in
  let! cr := cr_set p cr 98 in
  let! cr := cr_set p cr 122 in
  let! _ := is_true (cr_is_alphabetic p cr) in
  let! cr := cr_set p cr 1 in
  is_false (cr_is_alphabetic p cr).
Example cr_alpha_passes : passes cr_alpha.
Proof. split; vm_compute; reflexivity. Qed.

(** charreach.rs:508-535 *)
Definition cr_alpha_all (p : profile) : outcome unit :=
  let! _ := for_all (range 0 255) (fun i =>
    let! cr := cr_from_char p i in
    let! b := cr_is_alphabetic p cr in
    check (Bool.eqb b (((65 <=? i) && (i <=? 90)) || ((97 <=? i) && (i <=? 122))))) in
  let! dot := cr_dot p in
  let! _ := is_false (cr_is_alphabetic p dot) in
  let! cr := cr_from_bytes p (lit "0123456789") in
  let! _ := is_false (cr_is_alphabetic p cr) in
  let! cr := cr_from_bytes p (lit "a0") in
  let! _ := is_false (cr_is_alphabetic p cr) in
  let! cr := cr_from_bytes p (lit "abcdef0") in
  let! _ := is_false (cr_is_alphabetic p cr) in
  let! cr := cr_from_range p 65 122 in
  let! _ := is_false (cr_is_alphabetic p cr) in
  let! cr := cr_from_range p 65 91 in
  let! _ := is_false (cr_is_alphabetic p cr) in
  let! cr := cr_from_range p 64 90 in
  let! _ := is_false (cr_is_alphabetic p cr) in
  let! cr := cr_from_range p 97 123 in
  let! _ := is_false (cr_is_alphabetic p cr) in
  let! cr := cr_from_range p 96 122 in
  let! _ := is_false (cr_is_alphabetic p cr) in
  let! cr := cr_from_range p 65 66 in
  let! _ := is_true (cr_is_alphabetic p cr) in
  let! cr := cr_from_range p 65 70 in
  let! _ := is_true (cr_is_alphabetic p cr) in
  let! cr := cr_from_range p 65 90 in
  let! _ := is_true (cr_is_alphabetic p cr) in
  let! cr := cr_from_range p 88 90 in
  let! _ := is_true (cr_is_alphabetic p cr) in
  let! cr := cr_from_range p 97 98 in
  let! _ := is_true (cr_is_alphabetic p cr) in
  let! cr := cr_from_range p 97 122 in
  let! _ := is_true (cr_is_alphabetic p cr) in
  let! cr := cr_from_bytes p (lit "ABCDEFabcdef") in
  is_true (cr_is_alphabetic p cr).
Example cr_alpha_all_passes : passes cr_alpha_all.
Proof. split; vm_compute; reflexivity. Qed.

(** charreach.rs:537-549 *)
Definition cr_caseless (p : profile) : outcome unit :=
  let cr := cr_default in
  let! cr := cr_set p cr 97 in
  let! _ := is_false (cr_is_caseless_char p cr) in
  let! cr := cr_set p cr 65 in
  let! _ := is_true (cr_is_caseless_char p cr) in
  let! cr := cr_set p cr 98 in
  let! _ := is_false (cr_is_caseless_char p cr) in
  let! cr := cr_set p cr 66 in
  is_false (cr_is_caseless_char p cr).
Example cr_caseless_passes : passes cr_caseless.
Proof. split; vm_compute; reflexivity. Qed.

(** charreach.rs:551-567 *)
Definition cr_caseless_all (p : profile) : outcome unit :=
  for_all (range 0 255) (fun i =>
    let! one := cr_from_char p i in
    let! _ := is_false (cr_is_caseless_char p one) in
    for_all (range 0 255) (fun j =>
      let! cr := cr_set p cr_default i in
      let! cr := cr_set p cr j in
      let upper_lower := ((65 <=? i) && (i <=? 90)) && (j =? N.lxor i 32) in
      let lower_upper := ((97 <=? i) && (i <=? 122)) && (j =? N.lxor i 32) in
      let! b := cr_is_caseless_char p cr in
      check (Bool.eqb b (upper_lower || lower_upper)))).
Example cr_caseless_all_passes : passes cr_caseless_all.
Proof.
  assert (T : forall p, cr_caseless_all p = Ret tt); [|split; apply T]. intro p. unfold cr_caseless_all. refine (for_all_ok _ _ _). intros i Ii. apply (in_range 0 255) in Ii; [|discriminate].
  destruct (proj1 (proj2 (C21_constructors p)) i) as (one & E1 & W1 & M1); [unfold byte; lia|]. rewrite E1. cbn [bind].
  destruct (C27_caseless_char p one W1) as (r & Er & Hr). unfold is_false. rewrite Er. cbn [bind]. destruct r.
  { exfalso. destruct (proj1 Hr eq_refl) as (u & Hu & Hc). assert (X : forall c, mem one c = true -> c = i).
    { intros c Hm. apply in_elements in Hm; [|exact W1]. rewrite M1 in Hm. destruct Hm as [<-|[]]. reflexivity. }
    pose proof (X u (proj2 (Hc u) (or_introl eq_refl))). pose proof (X (u + 32) (proj2 (Hc (u + 32)) (or_intror eq_refl))). lia. }
  cbn [negb check bind]. refine (for_all_ok _ _ _). intros j Ij. apply (in_range 0 255) in Ij; [|discriminate].
  destruct (C21_set p cr_default i wf_default ltac:(unfold byte; lia)) as (c1 & F1 & V1 & G1). rewrite F1. cbn [bind].
  destruct (C21_set p c1 j V1 ltac:(unfold byte; lia)) as (c2 & F2 & V2 & G2). rewrite F2. cbn [bind]. cbv zeta.
  destruct (C27_caseless_char p c2 V2) as (b & Eb & Hb). rewrite Eb. cbn [bind]. set (expected := _ || _).
  assert (Sw : forall x, x < 256 -> (65 <=? x) && (x <=? 90) = true -> N.lxor x 32 = x + 32).
  { assert (F : forallb (fun x => negb ((65 <=? x) && (x <=? 90)) || (N.lxor x 32 =? x + 32)) all_bytes = true) by (vm_compute; reflexivity).
    intros x Lx Ux. rewrite forallb_forall in F. specialize (F x). rewrite Ux in F. cbn [negb orb] in F. apply N.eqb_eq, F. apply in_all_bytes. exact Lx. }
  assert (Sl : forall x, x < 256 -> (97 <=? x) && (x <=? 122) = true -> N.lxor x 32 = x - 32).
  { assert (F : forallb (fun x => negb ((97 <=? x) && (x <=? 122)) || (N.lxor x 32 =? x - 32)) all_bytes = true) by (vm_compute; reflexivity).
    intros x Lx Ux. rewrite forallb_forall in F. specialize (F x). rewrite Ux in F. cbn [negb orb] in F. apply N.eqb_eq, F. apply in_all_bytes. exact Lx. }
  assert (Me : forall x, mem c2 x = true <-> x = j \/ x = i).
  { intro x. split.
    - intro H. assert (B : byte x) by (apply (in_elements_byte c2); apply in_elements; assumption). rewrite G2, G1 in H by exact B.
      unfold cr_default in H. rewrite mem_default in H. lia.
    - intro H. assert (B : byte x) by (unfold byte; lia). rewrite G2, G1 by exact B. lia. }
  assert (X : b = expected); [|rewrite X; destruct expected; reflexivity].
  apply Bool.eq_iff_eq_true. rewrite Hb. unfold expected. split.
  - intros (u & Hu & H). unfold is_upper in Hu. assert (A : forall x, (x = j \/ x = i) <-> (x = u \/ x = u + 32)) by (intro x; rewrite <- Me; apply H).
    pose proof (A i) as Ai. pose proof (A u) as Au. pose proof (A (u + 32)) as Av. destruct (N.eq_dec i u) as [Eu|Nu].
    + pose proof (Sw i ltac:(lia) ltac:(lia)) as Si. assert (j = u + 32) by lia. rewrite Si. lia.
    + pose proof (Sl i ltac:(lia) ltac:(lia)) as Si. assert (j = u) by lia. rewrite Si. lia.
  - intro H. apply orb_true_iff in H. destruct H as [H|H]; apply andb_true_iff in H; destruct H as [H1 H2]; apply N.eqb_eq in H2.
    + rewrite (Sw i) in H2 by (exact H1 || lia). exists i. split; [unfold is_upper; lia|]. intro x. rewrite Me. lia.
    + rewrite (Sl i) in H2 by (exact H1 || lia). exists j. split; [unfold is_upper; lia|]. intro x. rewrite Me. lia.
Qed.

(** charreach.rs:569-592 *)
Definition cr_bitwise (p : profile) : outcome unit :=
  let! cr1 := cr_set p cr_default 97 in
  let! cr2 := cr_set p cr_default 122 in
  let! cr3 := cr_set p cr_default 97 in
  let! cr3 := cr_set p cr3 122 in
  let! _ := check (match cr_cmp cr1 cr3 with Lt => true | _ => false end) in
  let cr4 := cr_or_assign cr_default cr1 in
  let cr4 := cr_or_assign cr4 cr2 in
  let! _ := check (cr_eqb cr3 cr4) in
  let! _ := check (cr_eqb (cr_or cr1 cr2) cr3) in
  let! _ := check (cr_eqb (cr_or cr1 cr2) cr4) in
  let! _ := check (cr_eqb (cr_and cr1 cr3) cr1) in
  let! _ := check (cr_eqb (cr_and cr2 cr3) cr2) in
  let cr3 := cr_and_assign cr3 cr1 in
  is_false (cr_test p cr3 122).
Example cr_bitwise_passes : passes cr_bitwise.
Proof. split; vm_compute; reflexivity. Qed.

(** charreach.rs:594-620 *)
Definition cr_bit5 (p : profile) : outcome unit :=
  let cr := cr_default in
  let! _ := is_true (cr_is_bit5_insensitive p cr) in
  let! cr := cr_set p cr 97 in
  let! _ := is_false (cr_is_bit5_insensitive p cr) in
  let! cr := cr_set p cr 65 in
  let! _ := is_true (cr_is_bit5_insensitive p cr) in
  let! cr := cr_set p cr 33 in
  let! _ := is_false (cr_is_bit5_insensitive p cr) in
  let! cr := cr_set p cr 1 in
  let! _ := is_true (cr_is_bit5_insensitive p cr) in
  let cr := cr_reset_all cr in
  let! cr := cr_set p cr 33 in
  let! cr := cr_set p cr 65 in
  let! _ := is_false (cr_is_bit5_insensitive p cr) in
  let cr := cr_reset_all cr in
  let! cr := cr_set p cr 65 in
  let! cr := cr_set p cr 98 in
  let! _ := is_false (cr_is_bit5_insensitive p cr) in
  let! cr := cr_set p cr 97 in
  let! cr := cr_set p cr 66 in
  is_true (cr_is_bit5_insensitive p cr).
Example cr_bit5_passes : passes cr_bit5.
Proof. split; vm_compute; reflexivity. Qed.

(** charreach.rs:622-634 *)
Definition cr_set_range_test (p : profile) : outcome unit :=
  for_all (range 0 255) (fun r =>
    for_all (range 0 (255 - r)) (fun from =>
      let to := from + r in
      let! cr := cr_set_range p cr_default from to in
      let! _ := is_opt (cr_find_first p cr) (Some from) in
      let! _ := is_opt (cr_find_last p cr) (Some to) in
      check (cr_count cr =? r + 1))).
Example cr_set_range_test_passes : passes cr_set_range_test.
Proof.
  assert (T : forall p, cr_set_range_test p = Ret tt); [|split; apply T]. intro p. unfold cr_set_range_test. refine (for_all_ok _ _ _). intros r Ir. apply (in_range 0 255) in Ir; [|discriminate].
  refine (for_all_ok _ _ _). intros from If. apply (in_range 0 (255 - r)) in If; [|lia]. cbv zeta.
  pose proof (C23_set_range p cr_default from (from + r) wf_default ltac:(unfold byte; lia) ltac:(unfold byte; lia)) as S.
  replace (from <=? from + r) with true in S by lia. destruct S as (b & E & W & M). rewrite E. cbn [bind].
  assert (Mb : forall x, mem b x = true <-> from <= x <= from + r).
  { intro x. split.
    - intro H. assert (B : byte x) by (apply (in_elements_byte b); apply in_elements; assumption). rewrite M in H by exact B.
      unfold cr_default in H. rewrite mem_default in H. lia.
    - intro H. rewrite M by (unfold byte; lia). lia. }
  destruct (C24_find_first p b W) as (f & Ef & Hf). destruct (C24_find_last p b W) as (l & El & Hl). unfold is_opt. rewrite Ef, El. cbn [bind].
  destruct f as [f|]; [|specialize (Hf from); exfalso; pose proof (proj2 (Mb from)); rewrite Hf in *; assert (false = true) by (auto with bool; apply H; lia); discriminate].
  destruct l as [l|]; [|specialize (Hl from); exfalso; pose proof (proj2 (Mb from)); rewrite Hl in *; assert (false = true) by (auto with bool; apply H; lia); discriminate].
  destruct Hf as [Hf1 Hf2]. destruct Hl as [Hl1 Hl2]. apply Mb in Hf1. apply Mb in Hl1.
  pose proof (Hf2 from (proj2 (Mb from) ltac:(lia))). pose proof (Hl2 (from + r) (proj2 (Mb (from + r)) ltac:(lia))).
  cbn [opt_eqb]. replace (f =? from) with true by lia. replace (l =? from + r) with true by lia. cbn [check bind].
  rewrite (count_between b from (from + r) W) by (try lia; intros x Bx; rewrite M by exact Bx; unfold cr_default; rewrite mem_default; apply orb_false_r).
  replace (from + r + 1 - from =? r + 1) with true by lia. reflexivity.
Qed.

(** charreach.rs:636-640 *)
Definition cr_find_empty (p : profile) : outcome unit :=
  let! _ := is_opt (cr_find_first p cr_default) None in
  is_opt (cr_find_next p cr_default 255) None.
Example cr_find_empty_passes : passes cr_find_empty.
Proof. split; vm_compute; reflexivity. Qed.

(** charreach.rs:642-664 *)
Definition cr_find_last_test (p : profile) : outcome unit :=
  let cr := cr_default in
  let! cr := cr_set p cr 97 in
  let! _ := is_opt (cr_find_last p cr) (Some 97) in
  let! cr := cr_set p cr 98 in
  let! _ := is_opt (cr_find_last p cr) (Some 98) in
  let! cr := cr_set p cr 192 in
  let! _ := is_opt (cr_find_last p cr) (Some 192) in
  let! cr := cr_set p cr 207 in
  let! _ := is_opt (cr_find_last p cr) (Some 207) in
  let! cr := cr_set p cr 223 in
  let! _ := is_opt (cr_find_last p cr) (Some 223) in
  let! cr := cr_set p cr 255 in
  let! _ := is_opt (cr_find_last p cr) (Some 255) in
  let cr := cr_reset_all cr in
  let! _ := is_opt (cr_find_last p cr) None in
  let! cr := cr_set p cr 0 in
  let! _ := is_opt (cr_find_last p cr) (Some 0) in
  let! cr := cr_set p cr 1 in
  is_opt (cr_find_last p cr) (Some 1).
Example cr_find_last_test_passes : passes cr_find_last_test.
Proof. split; vm_compute; reflexivity. Qed.

(** charreach.rs:666-698 *)
Definition cr_find_nth_test (p : profile) : outcome unit :=
  let! _ := for_all (range 0 255) (fun i =>
    let! cr := cr_from_char p i in
    let! _ := is_opt (cr_find_nth p cr 0) (Some i) in
    is_opt (cr_find_nth p cr 1) None) in
  let! dot := cr_dot p in
  let! _ := for_all (range 0 255) (fun i => is_opt (cr_find_nth p dot i) (Some i)) in
  let! _ := for_all (range 0 127) (fun i =>
    let! cr := cr_set p cr_default i in
    let! cr := cr_set p cr (255 - i) in
    let! _ := is_opt (cr_find_nth p cr 0) (Some i) in
    let! _ := is_opt (cr_find_nth p cr 1) (Some (255 - i)) in
    is_opt (cr_find_nth p cr 2) None) in
  let bytes := [1; 2; 3; 5; 6; 32] ++ lit "!#$%&./0123568:;ABCDEFMNOPUYZbcdefwxyz" in
  let! cr := cr_from_bytes p bytes in
  let! _ := for_all (combine (List.seq 0 (List.length bytes)) bytes) (fun x =>
    is_opt (cr_find_nth p cr (N.of_nat (fst x))) (Some (snd x))) in
  is_opt (cr_find_nth p cr (N.of_nat (List.length bytes))) None.
Example cr_find_nth_test_passes : passes cr_find_nth_test.
Proof. split; vm_compute; reflexivity. Qed.

(** control_verbs.rs:60-71 *)
Definition verbs_supported (p : profile) : outcome unit :=
  let m := mode_default in
  let! _ := check (negb (ucp m)) in
  let! r := read_control_verbs p (lit "(*UCP)test") 0 m in
  match r with
  | RErr _ => Panic PExpect
  | ROk (rest, m) =>
    let! _ := check (ucp m) in
    let! _ := check (str_eqb rest (lit "test")) in
    let! _ := check (negb (utf8 m)) in
    let! r := read_control_verbs p (lit "(*UTF)test") 0 m in
    match r with
    | RErr _ => Panic PExpect
    | ROk (rest, m) => let! _ := check (utf8 m) in check (str_eqb rest (lit "test"))
    end
  end.
Example verbs_supported_passes : passes verbs_supported.
Proof. split; vm_compute; reflexivity. Qed.

Definition fails_with (o : outcome (result compile_error (str * parse_mode))) (pre : str) : outcome unit :=
  let! r := o in match r with ROk _ => Panic PExpect | RErr e => check (starts_with pre (err_reason e)) end.

(** control_verbs.rs:73-86 *)
Definition verbs_unsupported (p : profile) : outcome unit :=
  let! _ := fails_with (read_control_verbs p (lit "(*ANY)test") 0 mode_default) (lit "Unsupported") in
  fails_with (read_control_verbs p (lit "(*LIMIT_MATCH=3)test") 0 mode_default) (lit "Unsupported").
Example verbs_unsupported_passes : passes verbs_unsupported.
Proof. split; vm_compute; reflexivity. Qed.

(** control_verbs.rs:88-96 *)
Definition verbs_unknown (p : profile) : outcome unit :=
  fails_with (read_control_verbs p (lit "(*XXX)test") 0 mode_default) (lit "Unknown").
Example verbs_unknown_passes : passes verbs_unknown.
Proof. split; vm_compute; reflexivity. Qed.

(** ue2string.rs:124-131 *)
Definition string_eq (p : profile) : outcome unit :=
  let! _ := check (lit_eq lit_default lit_default) in
  check (negb (negb (lit_eq lit_default lit_default))).
Example string_eq_passes : passes string_eq.
Proof. split; vm_compute; reflexivity. Qed.

(** lib.rs:154-157 *)
Definition compile_single (p : profile) : outcome unit :=
  let! r := compile p (lit "foobar") 0 Block in match r with ROk _ => Ret tt | RErr _ => Panic PAssert end.
Example compile_single_passes : passes compile_single.
Proof. split; vm_compute; reflexivity. Qed.

(** lib.rs:159-162 *)
Definition compile_multi_int_empty_input (p : profile) : outcome unit :=
  let! r := compile_multi_int p [] [] [] Block grey_default in match r with ROk _ => Panic PAssert | RErr _ => Ret tt end.
Example compile_multi_int_empty_input_passes : passes compile_multi_int_empty_input.
Proof. split; vm_compute; reflexivity. Qed.

Definition dumps_as (p : profile) (s : string) (lines : list string) : outcome unit :=
  let! r := parse p (lit s) mode_default in
  match r with
  | RErr _ => Panic PExpect
  | ROk (c, _) =>
    let! d := dump_tree p c in
    match d with RErr _ => Panic PExpect | ROk out => check (str_eqb out (flat_map (fun l => lit l ++ [10]) lines)) end
  end.

(** parser.rs:197-213 *)
Definition parse_alternation (p : profile) : outcome unit :=
  dumps_as p "|" ["SEQUENCE (capture index 0)"; "  ALTERNATION"; "    SEQUENCE (not captured)"; "       <empty>"; "    SEQUENCE (not captured)"; "       <empty>"]%string.
Example parse_alternation_passes : passes parse_alternation.
Proof. split; vm_compute; reflexivity. Qed.

(** parser.rs:215-228 *)
Definition parse_any (p : profile) : outcome unit :=
  dumps_as p "a" ["SEQUENCE (capture index 0)"; "  ASCII CLASS"; "    a"]%string.
Example parse_any_passes : passes parse_any.
Proof. split; vm_compute; reflexivity. Qed.

(** parser.rs:230-243 *)
Definition parse_capturing_group (p : profile) : outcome unit :=
  dumps_as p "()" ["SEQUENCE (capture index 0)"; "  SEQUENCE (capture index 1)"; "     <empty>"]%string.
Example parse_capturing_group_passes : passes parse_capturing_group.
Proof. split; vm_compute; reflexivity. Qed.
