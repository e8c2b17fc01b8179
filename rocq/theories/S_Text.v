(** Specification vocabulary for the .p8 text format. *)
From Coq Require Import List ZArith.
From Verif Require Import M_Base M_Memory M_Rom S_Rom M_Text S_Num S_Fold.
Import ListNotations.
Open Scope Z_scope.

(** What is assumed of Python's [int(s, 16)], [int(s)] and [str.lower]: that they are right
    on plain digits and on ASCII. *)
Definition hex_reader (int16 : list Z -> option Z) : Prop :=
  forall s, s <> [] -> Forall (is_digit 16) s -> int16 s = Some (digits_value 16 0 s).
Definition decimal_reader (int10 : list Z -> option Z) : Prop := forall s v, is_decimal s v -> int10 s = Some v.
Definition ascii_lower (lower : Z -> list Z) : Prop :=
  forall c, 0 <= c < 128 -> lower c = [if ((65 <=? c) && (c <=? 90))%bool then c + 32 else c].

(** A line of a text. *)
Definition is_line (text l : list Z) : Prop := (exists x y, 10 :: text ++ [10] = x ++ 10 :: l ++ 10 :: y) /\ ~ In 10 l.
(** A line that begins with "__" and ends with "__", maybe with whitespace behind. *)
Definition header_like (space : Z -> Prop) (l : list Z) : Prop :=
  (exists r, l = 95 :: 95 :: r) /\ exists r w, l = r ++ 95 :: 95 :: w /\ Forall space w.
Definition plain_line (space : Z -> Prop) (l : list Z) : Prop := ~ header_like space l /\ forall r, l <> r ++ [13].
(** Code (in PICO-8 characters) that can stand in a section: no line looks like a section
    header and none ends with a carriage return. *)
Definition p8_space (c : Z) : Prop := c = 32 \/ c = 9 \/ c = 13.
Definition plain_code (code : list Z) : Prop := forall l, is_line code l -> plain_line p8_space l.
(** The same for further sections, given by their lines of Unicode text. *)
Definition plain_meta (meta : list (list Z * list (list Z))) : Prop :=
  NoDup (map fst meta) /\
  Forall (fun '(k, v) => ~ In 10 k /\ v <> [] /\
    Forall (fun l => ~ In 10 l /\ plain_line (fun c => py_isspace c = true) l) v) meta.

(** The part of the rom a section covers. *)
Definition in_section (name : list Z) (i : Z) : bool :=
  if zeqb_list name str_gfx then (0 <=? i) && (i <? 0x2000)
  else if zeqb_list name str_map then (0x2000 <=? i) && (i <? 0x3000)
  else if zeqb_list name str_gff then (0x3000 <=? i) && (i <? 0x3100)
  else if zeqb_list name str_music then (0x3100 <=? i) && (i <? 0x3200)
  else if zeqb_list name str_sfx then (0x3200 <=? i) && (i <? 0x4300)
  else false.

(** A label that is not all black. *)
Definition shown (label : option (list (list Z))) : option (list (list Z)) :=
  match label with Some l => if existsb (fun v => negb (v =? 0)) (concat l) then label else None | None => None end.

(** Carts that can be written: a rom of 0x4300 bytes, code of bytes without odd lines, a
    label of 128 rows of 128 values below 32, plain further sections. *)
Definition text_cart_ok (c : cart) : Prop :=
  bytes_ok (c_rom c) /\ zlen (c_rom c) = 0x4300 /\ bytes_ok (c_code c) /\ plain_code (c_code c) /\
  match c_label c with Some l => label_ok 32 l | None => True end /\ plain_meta (c_meta c) /\ 0 <= c_version_id c.
(** Reading without preprocessing. *)
Definition as_is (code : list Z) (line : Z) : res (list Z) := Ok code.
(** The further sections among the requested ones. *)
Definition requested (names : list (list Z)) (meta : list (list Z * list (list Z))) : list (list Z * list (list Z)) :=
  filter (fun '(k, _) => existsb (zeqb_list (str_meta ++ k)) names) meta.
