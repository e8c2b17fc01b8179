(** Specification vocabulary for bit streams: a number as the list of its low
    bits (least significant first), and a byte string as a list of bits. *)
From Verif Require Import M_Base.
Open Scope Z_scope.

Fixpoint bits_of (n : nat) (v : Z) : list bool :=
  match n with O => [] | S n => Z.odd v :: bits_of n (v / 2) end.

Definition bits_of_bytes (l : list Z) : list bool := concat (map (bits_of 8) l).

(** Number of bytes needed for [n] bits. *)
Definition bytes_for_bits (n : nat) : nat := Nat.div (n + 7) 8.
