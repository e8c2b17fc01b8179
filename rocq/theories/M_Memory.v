(** Model of the [Memory] class and the rom layout, /repo/pico_defs.py l.7-118.
    A [Memory] is a bytearray, here the list of its bytes. *)
From Verif Require Import M_Base.
Open Scope Z_scope.

(** Python index into a sequence of length [n]: negative indices count from the end. *)
Definition py_index (n i : Z) : option nat :=
  let j := if i <? 0 then n + i else i in
  if (0 <=? j) && (j <? n) then Some (Z.to_nat j) else None.

(** [get8], l.22-23. *)
Definition get8 (m : list Z) (i : Z) : res Z :=
  match py_index (zlen m) i with
  | Some k => Ok (nth k m 0)
  | None => Err EIndex
  end.

(** [set8], l.25-26.  bytearray item assignment checks the value first. *)
Definition set8 (m : list Z) (i v : Z) : res (list Z) :=
  if is_byte v then
    match py_index (zlen m) i with
    | Some k => Ok (list_upd m k v)
    | None => Err EIndex
    end
  else Err EValue.

(** [get_block], l.28-29 (start, size >= 0: slices are clipped). *)
Definition get_block (m : list Z) (start size : Z) : list Z := slice m start (start + size).

(** [set_block], l.31-32: slice assignment; past the end it extends the array. *)
Definition set_block (m : list Z) (start : Z) (src : list Z) : list Z :=
  firstn (Z.to_nat start) m ++ src ++ skipn (Z.to_nat (start + zlen src)) m.

(** [copyfrom8], l.37-38 via [copy8], l.34-35. *)
Definition copyfrom8 (m : list Z) (addr size : Z) (src : list Z) : list Z :=
  set_block m addr (get_block src addr size).
(** [fill8], l.40-41. *)
Definition fill8 (m : list Z) (dest value size : Z) : list Z :=
  set_block m dest (repeat value (Z.to_nat size)).
(** [cmpeqwith8], l.46-47. *)
Definition cmpeqwith8 (m : list Z) (src size : Z) (other : list Z) : bool :=
  zeqb_list (get_block m src size) (get_block other src size).

(** [get16]/[set16], l.49-54. *)
Definition get16 (m : list Z) (i : Z) : res Z :=
  a <- get8 m i ;; b <- get8 m (i + 1) ;; Ok (Z.lor a (Z.shiftl b 8)).
Definition set16 (m : list Z) (i v : Z) : res (list Z) :=
  m <- set8 m i (Z.land v 0xff) ;; set8 m (i + 1) (Z.land (Z.shiftr v 8) 0xff).

(** [get32]/[set32], l.56-61. *)
Definition get32 (m : list Z) (i : Z) : res Z :=
  a <- get16 m i ;; b <- get16 m (i + 2) ;; Ok (Z.lor a (Z.shiftl b 16)).
Definition set32 (m : list Z) (i v : Z) : res (list Z) :=
  m <- set16 m i (Z.land v 0xffff) ;; set16 m (i + 2) (Z.land (Z.shiftr v 16) 0xffff).

(** [get8_bits]/[set8_bits], l.63-67. *)
Definition get8_bits (m : list Z) (i shift mask : Z) : res Z :=
  a <- get8 m i ;; Ok (Z.land (Z.shiftr a shift) mask).
Definition set8_bits (m : list Z) (i shift mask v : Z) : res (list Z) :=
  a <- get8 m i ;;
  set8 m i (Z.lor (Z.land a (Z.lnot (Z.shiftl mask shift))) (Z.shiftl (Z.land v mask) shift)).

(** [get4]/[set4], l.69-75; an address is (byte address, high nibble?). *)
Definition get4 (m : list Z) (ix : Z * Z) : res Z :=
  get8_bits m (fst ix) (if snd ix =? 0 then 0 else 4) 0xf.
Definition set4 (m : list Z) (ix : Z * Z) (v : Z) : res (list Z) :=
  set8_bits m (fst ix) (if snd ix =? 0 then 0 else 4) 0xf v.

(** Layout, l.77-106. *)
Definition k_mem_sprites_addr : Z := 0.
Definition k_mem_map_addr : Z := 0x2000.
Definition k_mem_flag_addr : Z := 0x3000.
Definition k_mem_music_addr : Z := 0x3100.
Definition k_mem_sfx_addr : Z := 0x3200.

Definition mem_sprite_addr (x y : Z) : Z * Z :=
  (k_mem_sprites_addr + y * 0x40 + Z.shiftr x 1, Z.land x 1).
Definition mem_map_addr (x y : Z) : Z :=
  let y := if 0x20 <=? y then y - 0x40 else y in k_mem_map_addr + y * 0x80 + x.
Definition mem_flag_addr (tile y : Z) : Z := k_mem_flag_addr + y * 0x80 + tile.
Definition mem_music_addr (music ch : Z) : Z := k_mem_music_addr + music * 0x4 + ch.
Definition mem_sfx_addr (sound note : Z) : Z := k_mem_sfx_addr + sound * 0x44 + note * 0x2.
Definition mem_sfx_info_addr (sound i : Z) : Z := mem_sfx_addr sound 0x20 + i.

(** Sizes, l.116-121. *)
Definition k_rom_size : Z := 0x4300.
Definition k_cart_size : Z := 0x8000.
Definition k_trailer_size : Z := 0x20.
Definition k_url_size : Z := 2040.
Definition k_url_prefix_size : Z := 4.

(** [mem_create_rom], l.108-114. *)
Fixpoint default_music (n : nat) (i ch : Z) (m : list Z) : res (list Z) :=
  match n with
  | O => Ok m
  | S n => m <- set8 m (mem_music_addr i ch) (0x41 + ch) ;; default_music n i (ch + 1) m
  end.
Fixpoint default_rows (n : nat) (i : Z) (m : list Z) : res (list Z) :=
  match n with
  | O => Ok m
  | S n =>
      m <- set8 m (mem_sfx_info_addr i 1) (if i =? 0 then 0x1 else 0x10) ;;
      m <- default_music 4 i 0 m ;;
      default_rows n (i + 1) m
  end.
Definition mem_create_rom : res (list Z) := default_rows 64 0 (repeat 0 (Z.to_nat k_rom_size)).
