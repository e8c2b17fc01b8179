(** Number properties: C30, C31, C58. *)
From Verif Require Import M_Base M_Num S_Num L_NumFmt.
Open Scope Z_scope.

(** C30: printing any 16.16 constant succeeds for every requested sign and base, the text
    denotes the constant, and the tool's own parser reads it back. *)
Theorem C30_fixnum_roundtrip : forall sign base v, 0 <= v < 2 ^ 32 ->
  exists s, format_fixnum sign base v = Ok s /\ fix_constant s v /\ parse_fixnum s = Ok v.
Proof. exact format_fixnum_ok. Qed.

(** The sign asked for is the one printed; without one the literal is unsigned. *)
Theorem C30_requested_sign : forall base v, 0 <= v < 2 ^ 32 ->
  (exists s, format_fixnum SNeg base v = Ok (45 :: s)) /\ (exists s, format_fixnum SNot base v = Ok (126 :: s)) /\
  (exists s, format_fixnum SEmpty base v = Ok s /\ unsigned_constant s v).
Proof. exact format_fixnum_sign. Qed.

(** C58: reading an unsigned literal gives the exact number of 65536ths, although the
    code computes with floats. *)
Theorem C58_literal_exact : forall s n d, unsigned_literal s n d -> d <= 1000000 -> n < d * 131071 ->
  parse_fixnum s = Ok ((n * 65536 / d) mod 2 ^ 32).
Proof. exact parse_exact. Qed.

(** C31: printing any 64-bit integer, unless base 10 is forced: the text denotes the integer,
    and behind the split-off unary operator the parser reads the operand. *)
Theorem C31_luaint_roundtrip : forall sign base allow_not v, - 2 ^ 63 <= v < 2 ^ 63 -> base <> B10 ->
  int_constant (format_luaint sign base allow_not v) v /\
  exists pre t w, format_luaint sign base allow_not v = pre ++ t /\ parse_luanum t = Ok (LInt w) /\
    (pre = [] /\ v = w \/ pre = [45] /\ v = signed64 (- w) \/ pre = [126] /\ v = - w - 1).
Proof. exact format_luaint_ok. Qed.

(** With base 10 forced (Picotron data): correct above -10^18 ... *)
Theorem C31_decimal_partial : forall v, - 10 ^ 18 < v < 2 ^ 63 ->
  int_constant (format_luaint SNone B10 false v) v /\
  exists pre t w, format_luaint SNone B10 false v = pre ++ t /\ parse_luanum t = Ok (LInt w) /\
    (pre = [] /\ v = w \/ pre = [45] /\ v = signed64 (- w) \/ pre = [126] /\ v = - w - 1).
Proof. exact format_luaint_dec_ok. Qed.
(** ... and wrong at -10^18, which is printed as an unsigned number and read as a float. *)
Theorem C31_decimal_refuted : exists v, - 2 ^ 63 <= v < 2 ^ 63 /\
  parse_luanum (format_luaint SNone B10 false v) = Ok LFloat.
Proof. exists (- 10 ^ 18). split; [lia|vm_compute; reflexivity]. Qed.

(** Concrete cases: 1/65536 needs the rounded-up digit, -1.5 uses its sign, a large
    constant prefers hexadecimal. *)
Example ex_tiny : format_fixnum SNone BNone 1 = Ok [46; 48; 48; 48; 48; 50].          (* .00002 *)
Proof. vm_compute. reflexivity. Qed.
Example ex_neg : format_fixnum SNone BNone 0xfffe8000 = Ok [45; 49; 46; 53].          (* -1.5 *)
Proof. vm_compute. reflexivity. Qed.
Example ex_min_int : format_luaint SNone BNone true (- 2 ^ 63)
  = [48; 120; 56; 48; 48; 48; 48; 48; 48; 48; 48; 48; 48; 48; 48; 48; 48; 48].        (* 0x8000000000000000 *)
Proof. vm_compute. reflexivity. Qed.
Example ex_literal : unsigned_literal [49; 50; 46; 53] 125 10 /\ parse_fixnum [49; 50; 46; 53] = Ok 0xc8000.
Proof.
  split; [|vm_compute; reflexivity]. exists 10, [], [49; 50], [53], [46; 53].
  repeat split; auto; try (repeat constructor; unfold digit_value; cbn; lia). discriminate.
Qed.

Print Assumptions C30_fixnum_roundtrip.
Print Assumptions C30_requested_sign.
Print Assumptions C58_literal_exact.
Print Assumptions C31_luaint_roundtrip.
Print Assumptions C31_decimal_partial.
Print Assumptions C31_decimal_refuted.
