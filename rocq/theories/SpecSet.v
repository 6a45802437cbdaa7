(** Specification vocabulary for byte sets: what a 256-bit field means, with no
    reference to the operations of the model. *)
From Verif Require Import Base ModelBitField.
Local Open Scope N_scope.

(** A byte. *)
Definition byte (c : N) : Prop := c < 256.
(** All bytes in increasing order. *)
Definition all_bytes : list N := map N.of_nat (List.seq 0 256).

(** The four words hold 64-bit values. *)
Definition wf (b : bitfield) : Prop :=
  w0 b < 2 ^ 64 /\ w1 b < 2 ^ 64 /\ w2 b < 2 ^ 64 /\ w3 b < 2 ^ 64.

(** The field read as one 256-bit number, word 0 least significant. *)
Definition value (b : bitfield) : N :=
  w0 b + 2 ^ 64 * w1 b + 2 ^ 128 * w2 b + 2 ^ 192 * w3 b.

(** [c] is a member: bit [c] of that number. *)
Definition mem (b : bitfield) (c : N) : bool := N.testbit (value b) c.

(** The members in increasing order. *)
Definition elements (b : bitfield) : list N := filter (mem b) all_bytes.

(** [c] decides that [a] comes before [b]: in the first block of 64 bytes in which the two
    differ, it is the highest byte in which they do, and [b] has it. *)
Definition decides (a b : bitfield) (c : N) : Prop :=
  byte c /\ mem a c = false /\ mem b c = true /\
  forall d, byte d -> d / 64 < c / 64 \/ (d / 64 = c / 64 /\ c < d) -> mem a d = mem b d.

(** Same members. *)
Definition same (a b : bitfield) : Prop := forall c, byte c -> mem a c = mem b c.

(** ASCII letters and the change of case of a letter. *)
Definition is_upper (c : N) : Prop := 65 <= c <= 90.
Definition is_lower (c : N) : Prop := 97 <= c <= 122.
Definition is_letter (c : N) : Prop := is_upper c \/ is_lower c.
Definition other_case (c : N) : N :=
  if (65 <=? c) && (c <=? 90) then c + 32
  else if (97 <=? c) && (c <=? 122) then c - 32
  else c.
Definition upper_case (c : N) : N := if (97 <=? c) && (c <=? 122) then c - 32 else c.
