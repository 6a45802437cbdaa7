(** The [Debug] texts of [CompileError] and [ErrorKind] (compile_error.rs:4-26, both
    derived), with [{:?}] and with [{:#?}].  The fields are private, so this text is
    the only way for a user of the crate to see the kind of an error. *)
From Coq Require Import HexadecimalString.
From Verif Require Import Base ModelUtil.
Local Open Scope N_scope.
Local Open Scope list_scope.

(** How the standard library writes the characters of a string in [{:?}]: it decides by
    its Unicode tables which ones are shown as they are, and versions differ in how
    they write the character 0.  Both are parameters. *)
Record escapes := Escapes { short_nul : bool; shown : N -> bool }.
Definition show_hex (n : N) : str := lit (NilZero.string_of_uint (N.to_hex_uint n)).
(** [char::escape_debug_ext] as called for a [str]: a single quote stays, a double one
    does not. *)
Definition escape (x : escapes) (c : N) : str :=
  if (c =? 0) && short_nul x then lit "\0"
  else if c =? 9 then lit "\t"
  else if c =? 10 then lit "\n"
  else if c =? 13 then lit "\r"
  else if c =? 34 then [92; 34]
  else if c =? 92 then [92; 92]
  else if shown x c then [c]
  else lit "\u{" ++ show_hex c ++ lit "}".
(** [impl Debug for str] *)
Definition debug_str (x : escapes) (s : str) : str := [34] ++ flat_map (escape x) s ++ [34].
(** compile_error.rs:16-26 *)
Definition debug_kind (k : error_kind) : str :=
  match k with EParse => lit "Parse" | ELocatedParse => lit "LocatedParse" | EResourceLimit => lit "ResourceLimit" | EOther => lit "Other" end.
(** compile_error.rs:4-13, [{:?}] *)
Definition debug_error (x : escapes) (e : compile_error) : str :=
  lit "CompileError { kind: " ++ debug_kind (err_kind e) ++ lit ", reason: " ++ debug_str x (err_reason e)
  ++ lit ", index: " ++ (match err_index e with None => lit "None" | Some i => lit "Some(" ++ show i ++ lit ")" end) ++ lit " }".
(** [{:#?}] *)
Definition line (indent : nat) (t : str) : str := repeat 32 (4 * indent) ++ t ++ [10].
Definition debug_error_pretty (x : escapes) (e : compile_error) : str :=
  line 0 (lit "CompileError {") ++ line 1 (lit "kind: " ++ debug_kind (err_kind e) ++ lit ",")
  ++ line 1 (lit "reason: " ++ debug_str x (err_reason e) ++ lit ",")
  ++ (match err_index e with
      | None => line 1 (lit "index: None,")
      | Some i => line 1 (lit "index: Some(") ++ line 2 (show i ++ lit ",") ++ line 1 (lit "),")
      end) ++ lit "}".
