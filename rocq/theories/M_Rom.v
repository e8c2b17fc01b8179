(** Model of the binary cart formats: /repo/pico_cart.py l.38-316 (rom, tiny rom,
    cart image, label and sprite sheet images). *)
From Verif Require Import M_Base M_Memory M_Compress.
Open Scope Z_scope.

(** [get_pico8_version_tuple], /repo/pico_defs.py l.363-377 (the warning is omitted;
    the default version id is the built-in 42, no environment override). *)
Definition vtuple := (Z * Z * Z * Z)%type.
Definition k_version_tuples : list (Z * vtuple) :=
  [(28, (0,2,0,0)); (29, (0,2,1,0)); (30, (0,2,2,0)); (31, (0,2,2,1)); (32, (0,2,2,2)); (33, (0,2,3,0));
   (34, (0,2,4,0)); (35, (0,2,4,1)); (36, (0,2,4,2)); (37, (0,2,5,0)); (38, (0,2,5,2)); (39, (0,2,5,4));
   (40, (0,2,5,5)); (41, (0,2,5,6)); (42, (0,2,6,1)); (43, (0,2,7,0))].
Definition k_default_version : Z := 42.
Fixpoint assoc_z {A} (k : Z) (l : list (Z * A)) : option A :=
  match l with [] => None | (x, v) :: l => if x =? k then Some v else assoc_z k l end.
Definition get_pico8_version_tuple (id : Z) : vtuple :=
  match assoc_z id k_version_tuples with
  | Some v => v
  | None =>
      if 28 <=? id then (0,2,6,1)
      else if 19 <=? id then (0,2,0,0)
      else if 8 <=? id then (0, 1, 5 + id, 0)
      else (0,0,0,0)
  end.

(** [Cart], l.38-53.  [path], [name] and [code_map] are not modelled.  A label is
    its 128 rows of 128 values; meta is an insertion-ordered dictionary from
    section names to lines. *)
Record cart := mkcart {
  c_version_id : Z; c_version : vtuple; c_platform : Z;
  c_default_version : bool; c_default_platform : bool;
  c_rom : list Z; c_code : list Z; c_code_rom : option (list Z);
  c_label : option (list (list Z)); c_meta : list (list Z * list (list Z)) }.

(** [Cart()]: the platform default is that of Linux, 'l'. *)
Definition new_cart (rom : list Z) : cart :=
  mkcart k_default_version (get_pico8_version_tuple k_default_version) 108 true true rom [] None None [].

Definition with_code (c : cart) (code : list Z) (code_rom : option (list Z)) : cart :=
  mkcart (c_version_id c) (c_version c) (c_platform c) (c_default_version c) (c_default_platform c)
         (c_rom c) code code_rom (c_label c) (c_meta c).
Definition with_label (c : cart) (label : option (list (list Z))) : cart :=
  mkcart (c_version_id c) (c_version c) (c_platform c) (c_default_version c) (c_default_platform c)
         (c_rom c) (c_code c) (c_code_rom c) label (c_meta c).
Definition with_rom (c : cart) (rom : list Z) : cart :=
  mkcart (c_version_id c) (c_version c) (c_platform c) (c_default_version c) (c_default_platform c)
         rom (c_code c) (c_code_rom c) (c_label c) (c_meta c).

(** [read_code_from_rom], l.90-98, on the bytes at the reader's position. *)
Definition read_code_from_rom (keep : bool) (d : list Z) : res (list Z * option (list Z)) :=
  let code_rom :=
    if keep then Some (set_block (repeat 0 (Z.to_nat k_code_size)) 0 (firstn (Z.to_nat k_code_size) d)) else None in
  code <- uncompress_code true k_code_size d ;; Ok (code, code_rom).

(** [read_cart_from_rom], l.101-124.  [sha] stands for [hashlib.sha1(..).digest()]. *)
Definition read_cart_from_rom (sha : list Z -> list Z) (allow_tiny keep : bool) (buffer : list Z) : res cart :=
  rom0 <- mem_create_rom ;;
  let cart := new_cart rom0 in
  if (zlen buffer <? k_cart_size) && allow_tiny then
    '(code, code_rom) <- read_code_from_rom keep buffer ;; Ok (with_code cart code code_rom)
  else
    let rom := firstn (Z.to_nat k_rom_size) buffer in
    _ <- (if zlen rom =? k_rom_size then Ok tt else Err EStruct) ;;
    '(code, code_rom) <- read_code_from_rom keep (skipn (Z.to_nat k_rom_size) buffer) ;;
    if k_cart_size <? zlen buffer then
      let d := skipn (Z.to_nat k_cart_size) buffer in
      '(vid, d) <- get_u8 d ;;
      '(v0, d) <- get_u8 d ;;
      '(v1, d) <- get_u8 d ;;
      '(v2, d) <- get_u8 d ;;
      '(pl, d) <- get_u8 d ;;
      '(v3, d) <- get_u8 d ;;
      let hash := firstn 20 d in
      _ <- (if zlen hash =? 20 then Ok tt else Err EStruct) ;;
      if negb (zeqb_list hash (repeat 0 20)) && negb (zeqb_list hash (sha (firstn (Z.to_nat k_cart_size) buffer)))
      then Err ECheck
      else Ok (mkcart vid (v0, v1, v2, v3) pl false false rom code code_rom None [])
    else Ok (with_code (with_rom cart rom) code code_rom).

(** [write_cart_to_rom], l.126-147.  The writer starts on zeros; [set_block] is a
    BytesIO write at a position inside the buffer (it extends the buffer if the data
    does not fit). *)
Definition write_cart_to_rom (sha : list Z -> list Z) (with_trailer keep : bool) (o : copts) (c : cart)
  : res (list Z) :=
  let io := repeat 0 (Z.to_nat (k_cart_size + (if with_trailer then k_trailer_size else 0))) in
  let io := set_block io 0 (c_rom c) in
  code <- (match keep, c_code_rom c with
           | true, Some cr => Ok cr
           | _, _ => compress_code o (c_code c)
           end) ;;
  let io := set_block io (zlen (c_rom c)) code in
  if with_trailer then
    let '(v0, v1, v2, v3) := c_version c in
    b0 <- put_u8 (c_version_id c) ;;
    b1 <- put_u8 v0 ;; b2 <- put_u8 v1 ;; b3 <- put_u8 v2 ;;
    b4 <- put_u8 (c_platform c) ;; b5 <- put_u8 v3 ;;
    let t := b0 ++ b1 ++ b2 ++ b3 ++ b4 ++ b5 in
    let io := set_block io k_cart_size t in
    Ok (set_block io (k_cart_size + zlen t) (sha (firstn (Z.to_nat k_cart_size) io)))
  else Ok io.

(** [write_cart_to_tiny_rom], l.149-164. *)
Definition force_copts (o : copts) : copts := mkcopts true (o_fail o) (o_fast o) (o_old o) (o_be o).
Definition write_cart_to_tiny_rom (keep : bool) (o : copts) (c : cart) : res (list Z) :=
  match keep, c_code_rom c with
  | true, Some cr =>
      size <- get_compressed_size true k_code_size cr ;; Ok (get_block cr 0 size)
  | _, _ =>
      io <- compress_code (force_copts o) (c_code c) ;;
      if zlen (c_code c) <? zlen io then
        if forallb is_byte (c_code c) then Ok (c_code c) else Err EValue
      else Ok io
  end.

(** *** Cart image *)
Definition px := (Z * Z * Z * Z)%type.
Definition k_image_w : Z := 160.
Definition k_image_h : Z := 205.

(** The byte hidden in a pixel, l.213-215. *)
Definition px_byte (p : px) : Z :=
  let '(r, g, b, a) := p in
  Z.lor (Z.lor (Z.lor (Z.shiftl (Z.land b 3) 0) (Z.shiftl (Z.land g 3) 2)) (Z.shiftl (Z.land r 3) 4))
        (Z.shiftl (Z.land a 3) 6).
(** Hiding a byte in a pixel, l.275-280. *)
Definition px_hide (byte : Z) (p : px) : px :=
  let '(r, g, b, a) := p in
  let b := Z.lor (Z.land b (Z.lnot 3)) (Z.land byte 3) in
  let g := Z.lor (Z.land g (Z.lnot 3)) (Z.land (Z.shiftr byte 2) 3) in
  let r := Z.lor (Z.land r (Z.lnot 3)) (Z.land (Z.shiftr byte 4) 3) in
  let a := Z.lor (Z.land a (Z.lnot 3)) (Z.land (Z.shiftr byte 6) 3) in
  (r, g, b, a).

(** The loops of l.210-216 and l.270-280; an image is its pixels row by row. *)
Definition image_bytes (pixels : list px) : list Z := map px_byte pixels.
Fixpoint image_hide (output : list Z) (pixels : list px) : res (list px) :=
  match pixels with
  | [] => Ok []
  | p :: ps =>
      match output with
      | [] => Err EIndex
      | byte :: output => rest <- image_hide output ps ;; Ok (px_hide byte p :: rest)
      end
  end.

(** [k_palette], /repo/pico_defs.py l.124-158. *)
Definition k_palette : list px :=
  [(0x00, 0x00, 0x00, 0xff); (0x1d, 0x2b, 0x53, 0xff); (0x7e, 0x25, 0x53, 0xff); (0x00, 0x87, 0x51, 0xff);
   (0xab, 0x52, 0x36, 0xff); (0x5f, 0x57, 0x4f, 0xff); (0xc2, 0xc3, 0xc7, 0xff); (0xff, 0xf1, 0xe8, 0xff);
   (0xff, 0x00, 0x4d, 0xff); (0xff, 0xa3, 0x00, 0xff); (0xff, 0xec, 0x27, 0xff); (0x00, 0xe4, 0x36, 0xff);
   (0x29, 0xad, 0xff, 0xff); (0x83, 0x76, 0x9c, 0xff); (0xff, 0x77, 0xa8, 0xff); (0xff, 0xcc, 0xaa, 0xff);
   (0x29, 0x18, 0x14, 0xff); (0x11, 0x1D, 0x35, 0xff); (0x42, 0x21, 0x36, 0xff); (0x12, 0x53, 0x59, 0xff);
   (0x74, 0x2F, 0x29, 0xff); (0x49, 0x33, 0x3B, 0xff); (0xA2, 0x88, 0x79, 0xff); (0xF3, 0xEF, 0x7D, 0xff);
   (0xBE, 0x12, 0x50, 0xff); (0xFF, 0x6C, 0x24, 0xff); (0xA8, 0xE7, 0x2E, 0xff); (0x00, 0xB5, 0x43, 0xff);
   (0x06, 0x5A, 0xB5, 0xff); (0x75, 0x46, 0x65, 0xff); (0xFF, 0x6E, 0x59, 0xff); (0xFF, 0x9D, 0x81, 0xff)].

(** [k_palette_rgb_6bpp_map], l.173: a dict comprehension, so the last index wins. *)
Definition rgb6 (p : px) : Z * Z * Z :=
  let '(r, g, b, _) := p in (Z.land r (Z.lnot 3), Z.land g (Z.lnot 3), Z.land b (Z.lnot 3)).
Definition rgb_eqb (a b : Z * Z * Z) : bool :=
  let '(r, g, b') := a in let '(r2, g2, b2) := b in (r =? r2) && (g =? g2) && (b' =? b2).
Fixpoint pal_find (c : Z * Z * Z) (i : Z) (pal : list px) (found : Z) : Z :=
  match pal with
  | [] => found
  | p :: pal => pal_find c (i + 1) pal (if rgb_eqb c (rgb6 p) then i else found)
  end.
(** [.get(.., 0)], l.199. *)
Definition px_colour (p : px) : Z := pal_find (rgb6 p) 0 k_palette 0.

(** [k_palette[i]] for the label values; negative Python indices are not modelled. *)
Definition pal_get (i : Z) : res px :=
  match znth k_palette i with Some p => Ok p | None => Err EIndex end.

(** [create_screenshot_surface], l.240-251. *)
Definition cell_px (transparent : bool) (i : Z) : res px :=
  '(r, g, b, a) <- pal_get i ;; Ok (r, g, b, if transparent && (i =? 0) then 0 else a).
Definition create_screenshot_surface (transparent : bool) (label : list (list Z)) : res (list (list px)) :=
  map_res (map_res (cell_px transparent)) label.
(** [surface_pixels_to_screenshot], l.192-201, at offset zero of a 128x128 image. *)
Definition surface_to_screenshot (img : list (list px)) : list (list Z) := map (map px_colour) img.

(** [read_cart_label]/[write_cart_label], l.288-292, l.305-307 (image decoding and
    encoding, which are lossless, are left out: the format is its pixels). *)
Definition blank_label : list (list Z) := repeat (repeat 0 128) 128.
Definition write_cart_label (c : cart) : res (list (list px)) :=
  create_screenshot_surface true (match c_label c with Some l => l | None => blank_label end).
Definition read_cart_label (img : list (list px)) : list (list Z) := surface_to_screenshot img.

(** [write_cart_spritesheet], l.309-316. *)
Definition write_cart_spritesheet (c : cart) : res (list (list px)) :=
  sheet <- map_res (fun y => map_res (fun x => get4 (c_rom c) (mem_sprite_addr x y)) (map Z.of_nat (seq 0 128)))
             (map Z.of_nat (seq 0 128)) ;;
  create_screenshot_surface false sheet.
(** [read_cart_spritesheet], l.294-303. *)
Fixpoint put_sheet_row (x y : Z) (row : list Z) (m : list Z) : res (list Z) :=
  match row with
  | [] => Ok m
  | v :: row => m <- set4 m (mem_sprite_addr x y) (Z.land v 0xf) ;; put_sheet_row (x + 1) y row m
  end.
Fixpoint put_sheet (y : Z) (rows : list (list Z)) (m : list Z) : res (list Z) :=
  match rows with
  | [] => Ok m
  | row :: rows => m <- put_sheet_row 0 y row m ;; put_sheet (y + 1) rows m
  end.
Definition read_cart_spritesheet (img : list (list px)) : res (list Z) :=
  m <- mem_create_rom ;; put_sheet 0 (surface_to_screenshot img) m.

(** [image.draw(label_surf, k_label_offset)], l.264-266: PIL's alpha compositing of a
    pixel that is either opaque (it replaces the pixel) or fully transparent (it leaves
    the pixel).  [k_label_offset] = (16, 24). *)
Definition label_at (label : list (list Z)) (x y : Z) : Z := nth (Z.to_nat x) (nth (Z.to_nat y) label []) 0.
Definition draw_label_px (label : list (list Z)) (i : Z) (p : px) : res px :=
  let x := i mod k_image_w - 16 in
  let y := i / k_image_w - 24 in
  if (0 <=? x) && (x <? 128) && (0 <=? y) && (y <? 128) then
    q <- cell_px true (label_at label x y) ;;
    Ok (if label_at label x y =? 0 then p else q)
  else Ok p.
Fixpoint draw_label (label : list (list Z)) (i : Z) (pixels : list px) : res (list px) :=
  match pixels with
  | [] => Ok []
  | p :: ps => q <- draw_label_px label i p ;; rest <- draw_label label (i + 1) ps ;; Ok (q :: rest)
  end.

(** [write_cart_to_image], l.253-286.  [template] is the template picture with the
    title text already drawn on it (the text area, rows 167-182, is disjoint from the
    label area, rows 24-151); the PNG coding around the pixels is lossless and left out. *)
Definition write_cart_to_image (sha : list Z -> list Z) (keep : bool) (o : copts) (template : list px) (c : cart)
  : res (list px) :=
  output <- write_cart_to_rom sha true keep o c ;;
  image <- (match c_label c with Some l => draw_label l 0 template | None => Ok template end) ;;
  image_hide output image.

(** [read_cart_from_image], l.204-219. *)
Definition image_label (pixels : list px) : list (list Z) :=
  map (fun y => map (fun x => px_colour (nth (Z.to_nat ((x + 16) + (y + 24) * k_image_w)) pixels (0,0,0,0)))
                    (map Z.of_nat (seq 0 128)))
      (map Z.of_nat (seq 0 128)).
Definition read_cart_from_image (sha : list Z -> list Z) (keep : bool) (pixels : list px) : res cart :=
  _ <- (if zlen pixels =? k_image_w * k_image_h then Ok tt else Err ECheck) ;;
  c <- read_cart_from_rom sha false keep (image_bytes pixels) ;;
  Ok (with_label c (Some (image_label pixels))).
