(** What number literals mean, independently of the tool's parser. *)
From Coq Require Import List ZArith.
Import ListNotations.
Open Scope Z_scope.

(** The value of a digit character: 0-9, a-f. *)
Definition digit_value (c : Z) : Z := if c <? 58 then c - 48 else c - 87.
Definition is_digit (base c : Z) : Prop :=
  (48 <= c <= 57 \/ 97 <= c <= 102) /\ digit_value c < base.

(** A sequence of digits read in a base. *)
Fixpoint digits_value (base acc : Z) (s : list Z) : Z :=
  match s with [] => acc | c :: s => digits_value base (acc * base + digit_value c) s end.

(** An unsigned literal denotes the rational [n/d]: an optional 0x, digits, and
    optionally a dot and more digits; at least one digit in all. *)
Definition unsigned_literal (s : list Z) (n d : Z) : Prop :=
  exists base prefix ip fp tail,
    (base = 10 /\ prefix = [] \/ base = 16 /\ prefix = [48; 120]) /\
    (tail = [] /\ fp = [] \/ tail = 46 :: fp) /\
    s = prefix ++ ip ++ tail /\
    Forall (is_digit base) ip /\ Forall (is_digit base) fp /\ ip ++ fp <> [] /\
    n = digits_value base 0 (ip ++ fp) /\ d = base ^ Z.of_nat (length fp).

(** The 16.16 constant (an unsigned 32-bit number) that an unsigned literal stands for:
    the number of whole 65536ths, modulo 2^32. *)
Definition unsigned_constant (s : list Z) (v : Z) : Prop :=
  exists n d, unsigned_literal s n d /\ v = (n * 65536 / d) mod 2 ^ 32.

(** A literal with the unary operator that may stand before it: - negates, ~ inverts all bits. *)
Definition fix_constant (s : list Z) (v : Z) : Prop :=
  unsigned_constant s v \/
  (exists t w, s = 45 :: t /\ unsigned_constant t w /\ v = (- w) mod 2 ^ 32) \/
  (exists t w, s = 126 :: t /\ unsigned_constant t w /\ v = 2 ^ 32 - 1 - w).

(** 64-bit integers: a decimal literal must be below 2^63 to be an integer at all, a
    hexadecimal one wraps around. *)
Definition signed64 (x : Z) : Z := (x + 2 ^ 63) mod 2 ^ 64 - 2 ^ 63.
Definition int_literal (s : list Z) (v : Z) : Prop :=
  (Forall (is_digit 10) s /\ s <> [] /\ digits_value 10 0 s < 2 ^ 63 /\ v = digits_value 10 0 s) \/
  (exists t, s = 48 :: 120 :: t /\ Forall (is_digit 16) t /\ t <> [] /\ v = signed64 (digits_value 16 0 t)).
Definition int_constant (s : list Z) (v : Z) : Prop :=
  int_literal s v \/
  (exists t w, s = 45 :: t /\ int_literal t w /\ v = signed64 (- w)) \/
  (exists t w, s = 126 :: t /\ int_literal t w /\ v = - w - 1).
