(** Model of [bytes_to_string_contents], /repo/pico_utils.py l.354-359, which user scripts call to put data into a program. *)
From Verif Require Import M_Base M_Token M_Str M_Charset.
Open Scope Z_scope.

Section Contents.
Context (isdigit : Z -> bool).
(** [is_bytes]: the input is a bytes object, not a string; [[1:-1]] of a text of two characters or more *)
Definition bytes_to_string_contents (is_bytes : bool) (input : list Z) : res (list Z) :=
  let input := if is_bytes then decode_p8str input else input in
  text <- format_string_literal isdigit true true (Some false) (Some 34) input ;;
  Ok (removelast (skipn 1 text)).
End Contents.
