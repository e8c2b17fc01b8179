(** What string literals mean, independently of the tool's parser: the PICO-8 and Lua
    manuals' rules. *)
From Coq Require Import List ZArith Bool.
From Verif Require Import M_Fold S_Num.
Import ListNotations.
Open Scope Z_scope.

(** A backslash and this character stand for that character. *)
Definition named_escapes : list (Z * Z) :=
  [(97, 7); (98, 8); (116, 9); (110, 10); (118, 11); (102, 12); (114, 13);   (* a b t n v f r *)
   (92, 92); (34, 34); (39, 39); (10, 10);                                   (* \ double and single quote, newline *)
   (42, 1); (35, 2); (45, 3); (124, 4); (43, 5); (94, 6)].                   (* PICO-8: * # - | + ^ *)

(** The character for a byte given by number.  In Picotron strings are bytes, kept in
    Python as surrogates when not ASCII. *)
Definition byte_char (lang : language) (n : Z) : Z :=
  match lang with Pico8 => n | Picotron => if n <? 128 then n else 0xdc00 + n end.

Definition space (c : Z) : Prop := c = 32 \/ c = 9 \/ c = 13 \/ c = 10.
Definition lower_hex (c : Z) : Z := if ((65 <=? c) && (c <=? 70))%bool then c + 32 else c.
Definition starts (P : Z -> Prop) (s : list Z) : Prop := exists c t, s = c :: t /\ P c.

(** [quoted lang q body v]: the text [body] between quotes [q] stands for the string [v].
    (The Lua 5.4 escape \u is left out.) *)
Inductive quoted (lang : language) (q : Z) : list Z -> list Z -> Prop :=
  | q_end : quoted lang q [] []
  | q_plain c s v : c <> 10 -> c <> 13 -> c <> 92 -> c <> q -> quoted lang q s v -> quoted lang q (c :: s) (c :: v)
  | q_named e c s v : In (e, c) named_escapes -> quoted lang q s v -> quoted lang q (92 :: e :: s) (c :: v)
  | q_decimal d s v :
      Forall (is_digit 10) d -> (1 <= length d <= 3)%nat -> (length d = 3%nat \/ ~ starts (is_digit 10) s) ->
      digits_value 10 0 d < 256 ->
      quoted lang q s v -> quoted lang q (92 :: d ++ s) (byte_char lang (digits_value 10 0 d) :: v)
  | q_hex h l s v :
      is_digit 16 (lower_hex h) -> is_digit 16 (lower_hex l) ->
      quoted lang q s v ->
      quoted lang q (92 :: 120 :: h :: l :: s) (byte_char lang (16 * digit_value (lower_hex h) + digit_value (lower_hex l)) :: v)
  | q_skip w s v : Forall space w -> ~ starts space s -> quoted lang q s v -> quoted lang q (92 :: 122 :: w ++ s) v.

(** A literal in quotes. *)
Definition quoted_literal (lang : language) (text v : list Z) : Prop :=
  exists q body, (q = 34 \/ q = 39) /\ text = q :: body ++ [q] /\ quoted lang q body v.

(** A literal in long brackets: the first closing bracket of the opening one's level ends it;
    a newline right after the opening bracket is dropped.  (Carriage returns left out.) *)
Definition closing (n : nat) : list Z := 93 :: repeat 61 n ++ [93].
Definition long_literal (text v : list Z) : Prop :=
  exists n body, text = 91 :: repeat 61 n ++ 91 :: body ++ closing n /\ ~ In 13 body /\
    (forall x y, body ++ closing n = x ++ closing n ++ y -> y = []) /\
    (body = 10 :: v \/ body = v /\ hd 0 v <> 10).

(** The lowest level whose closing bracket does not occur in [v]. *)
Definition level (v : list Z) (n : nat) : Prop :=
  (forall x y, v <> x ++ closing n ++ y) /\ (forall m, (m < n)%nat -> exists x y, v = x ++ closing m ++ y).
