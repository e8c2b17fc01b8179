(** Model of the icon of the app for macOS that an export has: [create_icns_data], /repo/pico_export.py l.740-766, and the writer it uses,
    /repo/utils.py ([BinaryWriter], big-endian). *)
From Coq Require Import String List ZArith Bool.
From Verif Require Import M_Base M_Expr M_Export.
Import ListNotations.
Open Scope list_scope.
Open Scope Z_scope.

(** 0x80, the width and height *)
Definition side : nat := 128.
Definition pixels : nat := side * side.
(** l.741 *)
Definition num_chan (has_alpha : bool) : nat := if has_alpha then 4 else 3.
(** [raw_data[i]] *)
Definition at_ (raw : list Z) (i : nat) : Z := nth i raw 0.
(** l.751-755: a row of a colour, with the byte before it *)
Definition icns_row (raw : list Z) (chans chan y : nat) : list Z := 127 :: map (fun x => at_ raw ((x + y * side) * chans + chan)) (seq 0 side).
Definition icns_colours (raw : list Z) (chans : nat) : list Z := flat_map (fun chan => flat_map (icns_row raw chans chan) (seq 0 side)) (seq 0 3).
(** l.757-761 *)
Definition icns_mask (raw : list Z) (has_alpha : bool) : list Z :=
  flat_map (fun y => map (fun x => if has_alpha then at_ raw ((x + y * side) * num_chan has_alpha + 3) else 255) (seq 0 side)) (seq 0 side).
(** l.740-766.  The last byte of the last pixel is read, so shorter data ends with an IndexError; that it does so only after something has
    been written into memory makes no difference. The length is written over the 0 at the start at the end (l.764-765). *)
Definition create_icns_data (raw : list Z) (has_alpha : bool) : res (list Z) :=
  if (length raw <? pixels * num_chan has_alpha)%nat then Err EIndex
  else
    n1 <- w_u32be (12 + 128 * 129 * 3) ;;
    zero <- w_u32be 0 ;;
    n2 <- w_u32be (8 + 128 * 128) ;;
    let data := asc "it32" ++ n1 ++ zero ++ icns_colours raw (num_chan has_alpha) ++ asc "t8mk" ++ n2 ++ icns_mask raw has_alpha in
    n <- w_u32be (4 + 4 + Z.of_nat (length data)) ;;
    Ok (asc "icns" ++ n ++ data).
