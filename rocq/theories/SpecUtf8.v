(** The UTF-8 encoding of a text, as RFC 3629 has it. *)
From Verif Require Import Base ModelUtil.
Local Open Scope N_scope.
Local Open Scope list_scope.

(** A Unicode scalar value: a code point that is not a surrogate. *)
Definition scalar (c : N) : Prop := c < 55296 \/ (57344 <= c /\ c < 1114112).
(** One to four bytes, six bits of the code point in each byte after the first. *)
Definition encode_char (c : N) : list N :=
  if c <? 128 then [c]
  else if c <? 2048 then [192 + c / 64; 128 + c mod 64]
  else if c <? 65536 then [224 + c / 4096; 128 + c / 64 mod 64; 128 + c mod 64]
  else [240 + c / 262144; 128 + c / 4096 mod 64; 128 + c / 64 mod 64; 128 + c mod 64].
Definition encode (s : str) : list N := flat_map encode_char s.
Definition scalars (s : str) : Prop := Forall scalar s.
(** The same outcome with the text of its message, if any, encoded. *)
Definition encode_error (e : compile_error) : compile_error := CompileError (err_kind e) (encode (err_reason e)) (err_index e).
Definition encoded {A} (o : outcome (result compile_error A)) : outcome (result compile_error A) :=
  match o with Ret (RErr e) => Ret (RErr (encode_error e)) | _ => o end.
(** Offset [k] of the encoded text is between two characters, or at an end. *)
Definition seam (s : str) (k : N) : Prop := exists a b, s = a ++ b /\ k = N.of_nat (List.length (encode a)).
