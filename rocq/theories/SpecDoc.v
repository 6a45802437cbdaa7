(** The [# Panics] sections of the code. *)
From Verif Require Import Base.
Local Open Scope N_scope.

Definition panics {A} (o : outcome A) : Prop := exists why, o = Panic why.
(** What [describe_range] prints, with its documented condition unchecked, if the
    first byte comes after the second: a range, or some of the bytes from the first to
    255 and on from 0. *)
Definition reversed_text (describe : N -> str) (c1 c2 : N) : str :=
  if 4 <=? 256 - (c1 - c2) then describe c1 ++ [45] ++ describe c2
  else if c1 <? 255 then describe c1
  else describe 255 ++ flat_map (fun i => describe (N.of_nat i)) (List.seq 0 (S (N.to_nat c2))).
