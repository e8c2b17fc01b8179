(** Texts that end with a zero, in data. *)
From Coq Require Import List ZArith.
Import ListNotations.
Open Scope Z_scope.

(** At [at_] in the data there is the text [z], up to the next zero; it begins with [prefix] and has [infix] in it. *)
Definition zstr_at (data prefix infix : list Z) (at_ : nat) (z : list Z) : Prop :=
  (exists before after, data = before ++ z ++ 0 :: after /\ length before = at_) /\ ~ In 0 z /\
  (exists t, z = prefix ++ t) /\ exists u v, z = u ++ infix ++ v.
