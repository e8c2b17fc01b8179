(** Specification vocabulary for the binary cart formats. *)
From Coq Require Import Sorted.
From Verif Require Import M_Base M_Memory M_Lz77 M_Compress M_Rom.
Open Scope Z_scope.

(** A cart a user can have: full data memory, code of 1-byte characters without NUL
    and below 64k, one-byte version fields. *)
Definition byte_version (v : vtuple) : Prop :=
  let '(a, b, c, d) := v in (0 <= a < 256 /\ 0 <= b < 256) /\ (0 <= c < 256 /\ 0 <= d < 256).
Definition cart_ok (c : cart) : Prop :=
  bytes_ok (c_rom c) /\ zlen (c_rom c) = 0x4300 /\
  Forall (fun x => 0 < x < 256) (c_code c) /\ zlen (c_code c) < 0x10000 /\
  0 <= c_version_id c < 256 /\ byte_version (c_version c) /\ 0 <= c_platform c < 256.

(** A digest function: twenty bytes for any input.  Nothing else is assumed of sha1. *)
Definition digest_fun (sha : list Z -> list Z) : Prop := forall d, zlen (sha d) = 20 /\ bytes_ok (sha d).

(** The condition of C02: in the default pxa mode the parser's positions never go back. *)
Definition parse_ordered (o : copts) (code : list Z) : Prop :=
  o_old o = false -> o_fast o = false -> (k_code_size <= zlen code \/ o_force o = true) ->
  forall its, new_items false code = Ok its -> Sorted Z.le (map fst its).

(** The old format has no explicit end: it needs two spare zero bytes in the code area. *)
Definition old_fits (o : copts) (code : list Z) : Prop :=
  o_old o = true -> forall d, compress_code o code = Ok d -> zlen d + 2 <= k_code_size.

(** The one code string whose stored form looks like an old-format header: [":c:"]. *)
Definition not_marker (o : copts) (code : list Z) : Prop := o_force o = false -> code <> [58; 99; 58].

(** What a user sees of a cart in a binary format. *)
Definition same_cart (a b : cart) : Prop :=
  c_rom a = c_rom b /\ c_code a = c_code b /\
  c_version_id a = c_version_id b /\ c_version a = c_version b /\ c_platform a = c_platform b.

Definition px_ok (p : px) : Prop :=
  let '(r, g, b, a) := p in (0 <= r < 256 /\ 0 <= g < 256) /\ (0 <= b < 256 /\ 0 <= a < 256).
(** Same top six bits in every channel. *)
Definition px_close (p q : px) : Prop :=
  let '(r, g, b, a) := p in let '(r2, g2, b2, a2) := q in
  (r / 4 = r2 / 4 /\ g / 4 = g2 / 4) /\ (b / 4 = b2 / 4 /\ a / 4 = a2 / 4).

Definition label_ok (hi : Z) (l : list (list Z)) : Prop :=
  length l = 128%nat /\ Forall (fun r => length r = 128%nat /\ Forall (fun v => 0 <= v < hi) r) l.
