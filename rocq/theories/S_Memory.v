(** Specification vocabulary for cart memory: the addressable cells of the rom
    sections, in the coordinates a user knows. *)
From Verif Require Import M_Base M_Memory.
Open Scope Z_scope.

Inductive cell :=
  | Sprite (x y : Z)       (* a pixel of the sprite sheet *)
  | MapTile (x y : Z)      (* a map tile; rows 32..63 are the shared half *)
  | Flag (t y : Z)         (* flags of sprite t + 128*y *)
  | Music (p ch : Z)       (* a channel byte of a music pattern *)
  | Note (s n : Z)         (* a 16-bit note of a sound *)
  | SfxInfo (s i : Z).     (* an info byte of a sound *)

Definition cell_ok (c : cell) : Prop :=
  match c with
  | Sprite x y => 0 <= x < 128 /\ 0 <= y < 128
  | MapTile x y => 0 <= x < 128 /\ 0 <= y < 64
  | Flag t y => 0 <= t < 128 /\ 0 <= y < 2
  | Music p ch => 0 <= p < 64 /\ 0 <= ch < 4
  | Note s n => 0 <= s < 64 /\ 0 <= n < 32
  | SfxInfo s i => 0 <= s < 64 /\ 0 <= i < 4
  end.

(** Values a cell can hold. *)
Definition cell_size (c : cell) : Z :=
  match c with Sprite _ _ => 16 | Note _ _ => 65536 | _ => 256 end.

Definition read_cell (m : list Z) (c : cell) : res Z :=
  match c with
  | Sprite x y => get4 m (mem_sprite_addr x y)
  | MapTile x y => get8 m (mem_map_addr x y)
  | Flag t y => get8 m (mem_flag_addr t y)
  | Music p ch => get8 m (mem_music_addr p ch)
  | Note s n => get16 m (mem_sfx_addr s n)
  | SfxInfo s i => get8 m (mem_sfx_info_addr s i)
  end.
Definition write_cell (m : list Z) (c : cell) (v : Z) : res (list Z) :=
  match c with
  | Sprite x y => set4 m (mem_sprite_addr x y) v
  | MapTile x y => set8 m (mem_map_addr x y) v
  | Flag t y => set8 m (mem_flag_addr t y) v
  | Music p ch => set8 m (mem_music_addr p ch) v
  | Note s n => set16 m (mem_sfx_addr s n) v
  | SfxInfo s i => set8 m (mem_sfx_info_addr s i) v
  end.

(** The documented overlap: sprite rows 64..127 are map rows 32..63, 64 bytes of
    sprite data (128 pixels) per sprite row, 128 tiles per map row. *)
Definition shared_cells (a b : cell) : Prop :=
  match a, b with
  | Sprite x y, MapTile tx ty | MapTile tx ty, Sprite x y =>
      64 <= y /\ 32 <= ty /\ (y - 64) * 64 + x / 2 = (ty - 32) * 128 + tx
  | _, _ => False
  end.
