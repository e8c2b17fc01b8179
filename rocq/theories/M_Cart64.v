(** Model of Picotron roms and images, /repo/picotron_cart.py l.157-422.  A path is the
    bytes [encode_luastr] gives for it; a file is its bytes ([data]), a directory is
    [None].  The dictionary [cart.files] is [files] of M_Files. *)
From Verif Require Import M_Base M_BitIO M_Compress M_Rom M_Text M_Files M_Lz4 M_Pxu M_Zbytes.
Open Scope Z_scope.

(** [Cart64], l.45-52: the version and the files; the raw_ fields, which override
    metadata, are left out *)
Record cart64 := mkcart64 { c64_version : Z; c64_files : @files (list Z) }.

(* ------------------------------------------------------------------ *)
(** * The order of files *)

(** [str_split_last(s, "/")], /repo/utils.py l.1556-1559 *)
Fixpoint upto_slash (s : list Z) : list Z :=
  match s with
  | [] => []
  | c :: s' => if c =? 47 then [] else c :: upto_slash s'
  end.
Definition split_last_slash (s : list Z) : list Z * list Z :=
  (before_last_slash s, rev (upto_slash (rev s))).

(** [path_extension], /repo/utils.py l.2405-2407, of a name without "/":
    [os.path.splitext(name)[1]], from the last dot on unless only dots precede it *)
Fixpoint upto_dot (s : list Z) : option (list Z * list Z) :=
  match s with
  | [] => None
  | c :: s' =>
      if c =? 46 then Some ([], s')
      else match upto_dot s' with Some (a, b) => Some (c :: a, b) | None => None end
  end.
Definition path_extension (name : list Z) : list Z :=
  match upto_dot (rev name) with
  | None => []
  | Some (ext, before) => if forallb (Z.eqb 46) before then [] else 46 :: rev ext
  end.

(** tuples of a number and three strings, in the order of Python.  Strings are compared
    by their bytes; Python compares code points, which differs for some names that are
    not UTF-8. *)
Definition order_key := (Z * list Z * list Z * list Z)%type.
Definition str_lex (a b : list Z) (rest : bool) : bool :=
  if zeqb_list a b then rest else str_leb a b.
Definition key_leb (a b : order_key) : bool :=
  let '(n, x, y, z) := a in
  let '(n', x', y', z') := b in
  (n <? n') || ((n =? n') && str_lex x x' (str_lex y y' (str_leb z z'))).

(** [ext_order_key], l.203-226 *)
Definition ext_lua : list Z := [46;108;117;97].
Definition main_lua : list Z := [109;97;105;110] ++ ext_lua.
Definition ext_order_key (p : list Z) : order_key :=
  let '(dirname, filename) := split_last_slash p in
  if zeqb_list filename [] then (-10, [], dirname, filename) else
  let ext := path_extension filename in
  let order :=
    if zeqb_list filename main_lua then 1
    else if zeqb_list ext ext_lua then 0
    else if zeqb_list ext [46;112;111;100] then 2
    else if zeqb_list ext [46;103;102;120] then 3
    else if zeqb_list ext [46;115;102;120] then 4
    else if zeqb_list ext [46;109;97;112] then 5
    else 6 in
  (order, ext, filename, dirname).

(** [sorted(items, key=key)]: a stable sort *)
Fixpoint insert_by {A} (leb : A -> A -> bool) (x : A) (l : list A) : list A :=
  match l with
  | [] => [x]
  | y :: l' => if leb y x then y :: insert_by leb x l' else x :: l
  end.
Definition sorted_by {A} (leb : A -> A -> bool) (l : list A) : list A :=
  fold_left (fun acc x => insert_by leb x acc) l [].
Definition ext_leb {A} (x y : list Z * A) : bool := key_leb (ext_order_key (fst x)) (ext_order_key (fst y)).

(* ------------------------------------------------------------------ *)
(** * Roms *)

Definition k_cart64_size : Z := 0x40000.
Definition k_rom_header_sig : list Z := [112; 54; 52].
Definition k_rom_header_size : Z := 8.

(** [while not r.eof(): ...], l.178-188; each round reads a byte, so the number of bytes
    is enough fuel *)
Fixpoint read_rom_files (fuel : nat) (d : list Z) (fs : @files (list Z)) : res (@files (list Z)) :=
  match d with
  | [] => Ok fs
  | _ =>
      match fuel with
      | O => Err EFuel
      | S fuel =>
          '(fspath, d) <- read_zbytes None 1 false d ;;
          if ends_with [47] fspath then read_rom_files fuel d (set fs fspath None)
          else
            '(size, d) <- r_u8 d ;;
            '(size, d) <- (if size =? 0xff then r_u32 d else Ok (size, d)) ;;
            '(data, d) <- r_bytes (Z.to_nat size) false d ;;
            read_rom_files fuel d (set fs fspath (Some data))
      end
  end.

(** [read_cart64_from_rom], l.166-201 (without the size and debug reports).  [version] is
    the version a new cart starts with, l.48. *)
Definition read_cart64_from_rom (version : Z) (allow_tiny : bool) (buffer : list Z) : res cart64 :=
  '(sig, d) <- r_bytes 3 false buffer ;;
  if zeqb_list sig k_rom_header_sig then
    '(version_id, d) <- r_u8 d ;;
    '(size, d) <- r_u32 d ;;
    '(compressed, _) <- r_bytes (Z.to_nat size) false d ;;
    uncbuffer <- lz4_uncompress compressed ;;
    fs <- read_rom_files (length uncbuffer) uncbuffer [] ;;
    Ok (mkcart64 version_id fs)
  else if allow_tiny then
    (* sys.maxsize *)
    tiny_code <- uncompress_code true 0x7fffffffffffffff buffer ;;
    (* encode_p8str, pico_defs.py l.222-224 *)
    if forallb is_byte tiny_code then Ok (mkcart64 version (set [] main_lua (Some tiny_code))) else Err EValue
  else Err ECheck.

(** one round of the loop of l.233-243 *)
Definition write_rom_file (f : list Z * option (list Z)) : res (list Z) :=
  let '(fspath, file) := f in
  name <- write_zbytes fspath None 1 ;;
  _ <- check_ (negb (Bool.eqb (ends_with [47] fspath) (match file with Some _ => true | None => false end))) ;;
  match file with
  | None => Ok name
  | Some data =>
      size <- (if zlen data <? 0xff then w_u8 (zlen data)
               else a <- w_u8 0xff ;; b <- w_u32 (zlen data) ;; Ok (a ++ b)) ;;
      Ok (name ++ size ++ data)
  end.

(** [write_cart64_to_rom], l.228-261 (without the size report) *)
Definition write_cart64_to_rom (padding : nat) (limit : option Z) (fast : bool) (cart : cart64) : res (list Z) :=
  io <- map_res write_rom_file (sorted_by ext_leb (c64_files cart)) ;;
  compressed <- lz4_compress (concat io) fast ;;
  let size := k_rom_header_size + zlen compressed in
  _ <- (match limit with
        | Some limit => if limit =? 0 then Ok tt else check_ (size <=? limit)
        | None => Ok tt
        end) ;;
  v <- w_u8 (c64_version cart) ;;
  n <- w_u32 (zlen compressed) ;;
  Ok (k_rom_header_sig ++ v ++ n ++ compressed ++ repeat 0 padding).

(** [write_cart64_to_tiny_rom], l.263-288: from the payload of main.lua (its contents
    after any metadata).  [version] is the version a new cart starts with. *)
Definition write_cart64_to_tiny_rom (version : Z) (fast : bool) (data : list Z) : res (list Z) :=
  compressed_lz4 <- write_cart64_to_rom 0 None fast (mkcart64 version (set [] main_lua (Some data))) ;;
  compressed_pxa <- compress_code (mkcopts true true false false true) data ;;
  let result := data in
  let result := if zlen compressed_pxa <? zlen result then compressed_pxa else result in
  let result := if zlen compressed_lz4 <? zlen result then compressed_lz4 else result in
  Ok result.

(* ------------------------------------------------------------------ *)
(** * Images *)

Definition k_cart64_image_w : Z := 512.
Definition k_cart64_image_h : Z := 384.

(** l.306-307 *)
Definition px_word (p : px) : Z :=
  let '(r, g, b, a) := p in
  Z.lor (Z.lor (Z.lor (Z.land r 7) (Z.shiftl (Z.land g 7) 3)) (Z.shiftl (Z.land b 7) 6)) (Z.shiftl (Z.land a 3) 9).
(** l.303-309; the bits left over are not flushed before [io.getvalue()] *)
Definition image64_bytes (pixels : list px) : list Z :=
  bw_out (fold_left (fun w p => bw_bits 11 (px_word p) w) pixels bw_init).

(** l.405-410 *)
Definition px_hide64 (word : Z) (p : px) : px :=
  let '(r, g, b, a) := p in
  (Z.lor (Z.land r (Z.lnot 7)) (Z.land word 7),
   Z.lor (Z.land g (Z.lnot 7)) (Z.land (Z.shiftr word 3) 7),
   Z.lor (Z.land b (Z.lnot 7)) (Z.land (Z.shiftr word 6) 7),
   Z.lor (Z.land a (Z.lnot 3)) (Z.land (Z.shiftr word 9) 3)).
(** the loop of l.400-411; [br.pos() < end_pos] *)
Fixpoint image64_hide (len : Z) (r : br) (pixels : list px) : res (list px) :=
  match pixels with
  | [] => Ok []
  | p :: ps =>
      let end_pos := len - 2 in
      '(word, r) <- (if len - zlen (br_rest r) <? end_pos then br_bits 11 r else Ok (0, r)) ;;
      rest <- image64_hide len r ps ;;
      Ok (px_hide64 word p :: rest)
  end.

(** [write_cart64_to_image], l.375-416.  [image] is the template with the label and the
    title drawn on it; the PNG coding around the pixels is lossless and left out. *)
Definition write_cart64_to_image (fast : bool) (image : list px) (cart : cart64) : res (list px) :=
  output <- write_cart64_to_rom 4 (Some k_cart64_size) fast cart ;;
  _ <- check_ (zlen image =? k_cart64_image_w * k_cart64_image_h) ;;
  image64_hide (zlen output) (br_init output) image.

Definition label_qoi : list Z := [108;97;98;101;108;46;113;111;105].
Definition label_png : list Z := [108;97;98;101;108;46;112;110;103].
(** l.318-321 *)
Definition px_label (p : px) : px :=
  let '(r, g, b, a) := p in (Z.land r (Z.lnot 7), Z.land g (Z.lnot 7), Z.land b (Z.lnot 7), 0xff).
Definition image64_label (pixels : list px) : list px :=
  concat (map (fun y => map (fun x =>
    px_label (nth ((38 + y) * 512 + (16 + x)) pixels (0, 0, 0, 0))) (seq 0 480)) (seq 0 270)).

(** [read_cart64_from_image], l.295-327; [save_qoi] and [save_png] are the encoders of the
    label picture, the first of which may be missing (KeyError) *)
Definition read_cart64_from_image (save_qoi : list px -> option (list Z)) (save_png : list px -> list Z)
    (version : Z) (pixels : list px) : res cart64 :=
  _ <- check_ (zlen pixels =? k_cart64_image_w * k_cart64_image_h) ;;
  cart <- read_cart64_from_rom version false (image64_bytes pixels) ;;
  match get (c64_files cart) label_qoi, get (c64_files cart) label_png with
  | None, None =>
      let label := image64_label pixels in
      let fs := match save_qoi label with
                | Some data => set (c64_files cart) label_qoi (Some data)
                | None => set (c64_files cart) label_png (Some (save_png label))
                end in
      Ok (mkcart64 (c64_version cart) fs)
  | _, _ => Ok cart
  end.
