(** Model of URL carts, clipboard carts and merging: /repo/pico_cart.py l.532-660 and
    l.753-773. *)
From Verif Require Import M_Base M_Memory M_Compress M_Rom M_Text.
Open Scope Z_scope.

(** [k_base64_chars], l.537: A-Z, a-z, 0-9, "_" and "-". *)
Definition b64c (v : Z) : Z :=
  if v <? 26 then 65 + v else if v <? 52 then 97 + (v - 26) else if v <? 62 then 48 + (v - 52)
  else if v =? 62 then 95 else 45.
(** [k_base64_char_map[ch]], l.539 ([None]: KeyError). *)
Definition b64_map (ch : Z) : option Z :=
  if (65 <=? ch) && (ch <=? 90) then Some (ch - 65)
  else if (97 <=? ch) && (ch <=? 122) then Some (ch - 97 + 26)
  else if (48 <=? ch) && (ch <=? 57) then Some (ch - 48 + 52)
  else if ch =? 95 then Some 62 else if ch =? 45 then Some 63 else None.
(** What [base64.b64decode] accepts once the alternative characters have been
    translated to "+" and "/", which therefore still work themselves. *)
Definition b64_val (ch : Z) : res Z :=
  if ch =? 43 then Ok 62 else if ch =? 47 then Ok 63
  else match b64_map ch with Some v => Ok v | None => Err EValue end.

(** [pico_base64_encode], l.541-542: [base64.b64encode], three bytes to four characters,
    the last group padded with "=". *)
Fixpoint b64_encode (d : list Z) : list Z :=
  match d with
  | a :: b :: c :: t =>
      b64c (a / 4) :: b64c (a mod 4 * 16 + b / 16) :: b64c (b mod 16 * 4 + c / 64) :: b64c (c mod 64) :: b64_encode t
  | [a; b] => [b64c (a / 4); b64c (a mod 4 * 16 + b / 16); b64c (b mod 16 * 4); 61]
  | [a] => [b64c (a / 4); b64c (a mod 4 * 16); 61; 61]
  | [] => []
  end.
(** [pico_base64_decode(.., validate=True)], l.544-545: [base64.b64decode].  Texts whose
    length is not a multiple of four, or with padding elsewhere than at the end of the
    last group, are errors here; some Python versions accept a few of them. *)
Fixpoint b64_decode (s : list Z) : res (list Z) :=
  match s with
  | [] => Ok []
  | c1 :: c2 :: c3 :: c4 :: t =>
      v1 <- b64_val c1 ;; v2 <- b64_val c2 ;;
      let x := v1 * 4 + v2 / 16 in
      if c4 =? 61 then
        match t with
        | [] =>
            if c3 =? 61 then Ok [x]
            else v3 <- b64_val c3 ;; Ok [x; v2 mod 16 * 16 + v3 / 4]
        | _ => Err EValue
        end
      else
        v3 <- b64_val c3 ;; v4 <- b64_val c4 ;;
        rest <- b64_decode t ;;
        Ok (x :: v2 mod 16 * 16 + v3 / 4 :: v3 mod 4 * 64 + v4 :: rest)
  | _ => Err EValue
  end.

(** [s.split(ch, 1)] ([None]: [ch] is not in [s]) and [s.split(ch)]. *)
Fixpoint split_first (ch : Z) (s : list Z) : option (list Z * list Z) :=
  match s with
  | [] => None
  | c :: t =>
      if c =? ch then Some ([], t)
      else match split_first ch t with Some (a, b) => Some (c :: a, b) | None => None end
  end.
Fixpoint split_all (ch : Z) (cur s : list Z) : list (list Z) :=
  match s with
  | [] => [rev cur]
  | c :: t => if c =? ch then rev cur :: split_all ch [] t else split_all ch (c :: cur) t
  end.

(** The parameters of the url, l.557-570. *)
Fixpoint url_params (code gfx : list Z) (ps : list (list Z)) : res (list Z * list Z) :=
  match ps with
  | [] => Ok (code, gfx)
  | p :: ps =>
      match split_first 61 p with
      | None => Err ECheck
      | Some (key, value) =>
          if zeqb_list key [99] then url_params value gfx ps
          else if zeqb_list key [103] then url_params code value ps
          else Err ECheck
      end
  end.

(** [iter_rect(128, 128)], l.532-535, from its [pos]-th item on, and l.592-594: paint the
    next [n] pixels.  The [StopIteration] raised past the last pixel is an [EIndex] here. *)
Definition k_pixels : Z := 0x4000.
Fixpoint paint (n : nat) (pos color : Z) (m : list Z) : res (list Z) :=
  match n with
  | O => Ok m
  | S n =>
      if pos <? k_pixels then
        m <- set4 m (mem_sprite_addr (pos mod 128) (pos / 128)) color ;; paint n (pos + 1) color m
      else Err EIndex
  end.
(** l.580-594. *)
Definition b64_key (ch : Z) : res Z := match b64_map ch with Some v => Ok v | None => Err EKey end.
Fixpoint read_gfx (gfx : list Z) (pos : Z) (m : list Z) : res (list Z) :=
  match gfx with
  | [] => Ok m
  | ch :: t =>
      val <- b64_key ch ;;
      let color := Z.land val 0xf in
      let count := Z.shiftr val 4 + 1 in
      if count =? 4 then
        match t with
        | [] => Err EIndex
        | ch2 :: t2 =>
            v2 <- b64_key ch2 ;;
            m <- paint (Z.to_nat (count + v2)) pos color m ;; read_gfx t2 (pos + (count + v2)) m
        end
      else m <- paint (Z.to_nat count) pos color m ;; read_gfx t (pos + count) m
  end.

(** [read_cart_from_url], l.550-596 (without the size report). *)
Definition ljust (d : list Z) (n : Z) : list Z := d ++ repeat 0 (Z.to_nat (n - zlen d)).
Definition read_cart_from_url (keep : bool) (url : list Z) : res cart :=
  match split_first 63 url with
  | None => Err ECheck
  | Some (_, params) =>
      '(code, gfx) <- url_params [] [] (split_all 38 [] params) ;;
      rom <- mem_create_rom ;;
      let c := new_cart rom in
      c <- (match code with
            | [] => Ok c
            | _ => d <- b64_decode code ;;
                   '(s, code_rom) <- read_code_from_rom keep (ljust d k_code_size) ;;
                   Ok (with_code c s code_rom)
            end) ;;
      rom <- read_gfx gfx 0 (c_rom c) ;;
      Ok (with_rom c rom)
  end.

(** l.622-630: the characters of a run; [n] bounds the number of rounds. *)
Fixpoint run_chars (n : nat) (color total : Z) : list Z :=
  match n with
  | O => []
  | S n =>
      if 0 <? total then
        let count := Z.min total (63 + 4) in
        let val := Z.lor (Z.shiftl (Z.min (count - 1) 3) 4) color in
        b64c val :: (if 4 <=? count then [b64c (count - 4)] else []) ++ run_chars n color (total - count)
      else []
  end.
(** l.604-630, on the colours in the order of [iter_rect] (the code reads them one at a
    time): [color], [count] is the run so far. *)
Fixpoint gfx_runs (color count : Z) (rest : list Z) : list Z :=
  match rest with
  | [] => let total := if color =? 0 then 0 else count in run_chars (Z.to_nat total) color total
  | c :: rest =>
      if c =? color then gfx_runs color (count + 1) rest
      else run_chars (Z.to_nat count) color count ++ gfx_runs c 1 rest
  end.
Definition pixel (m : list Z) (pos : Z) : res Z := get4 m (mem_sprite_addr (pos mod 128) (pos / 128)).
Definition write_gfx (m : list Z) : res (list Z) :=
  ps <- map_res (pixel m) (zrange_from 0 (Z.to_nat k_pixels)) ;;
  match ps with [] => Ok [] | c :: rest => Ok (gfx_runs c 1 rest) end.

(** [write_cart_to_url], l.600-641.  "/?c=" and "&g=". *)
Definition write_cart_to_url (prefix : list Z) (keep : bool) (o : copts) (c : cart) : res (list Z) :=
  raw <- write_cart_to_tiny_rom keep o c ;;
  gfx <- write_gfx (c_rom c) ;;
  let url := prefix ++ [47; 63; 99; 61] ++ b64_encode raw ++
             (match gfx with [] => [] | _ => [38; 103; 61] ++ gfx end) in
  if zlen url - k_url_prefix_size <=? k_url_size then Ok url else Err ECheck.

(** *** Clipboard, l.643-660 *)
Definition k_clip_prefix : list Z := [91; 99; 97; 114; 116; 93].
Definition k_clip_suffix : list Z := [91; 47; 99; 97; 114; 116; 93].
(** [bytes.hex()] and [bytes.fromhex] (which skips ASCII whitespace before each byte). *)
Definition bytes_hex (d : list Z) : list Z := concat (map hex2 d).
Definition hex_digit (ch : Z) : res Z :=
  if (48 <=? ch) && (ch <=? 57) then Ok (ch - 48)
  else if (97 <=? ch) && (ch <=? 102) then Ok (ch - 87)
  else if (65 <=? ch) && (ch <=? 70) then Ok (ch - 55)
  else Err EValue.
Definition hex_space (ch : Z) : bool := ((9 <=? ch) && (ch <=? 13)) || (ch =? 32).
Fixpoint bytes_fromhex (s : list Z) : res (list Z) :=
  match s with
  | [] => Ok []
  | c1 :: t1 =>
      if hex_space c1 then bytes_fromhex t1
      else match t1 with
           | [] => Err EValue
           | c2 :: t2 => h <- hex_digit c1 ;; l <- hex_digit c2 ;; rest <- bytes_fromhex t2 ;; Ok (h * 16 + l :: rest)
           end
  end.
(** [read_raw_from_clip], l.646-650.  The slice of a text that is shorter than prefix and
    suffix together (they can overlap in no text) cannot occur. *)
Definition read_raw_from_clip (clip : list Z) : res (list Z) :=
  if starts_with k_clip_prefix clip && ends_with k_clip_suffix clip then
    bytes_fromhex (slice clip (zlen k_clip_prefix) (zlen clip - zlen k_clip_suffix))
  else Err ECheck.
(** [write_raw_to_clip], l.656-657. *)
Definition write_raw_to_clip (d : list Z) : list Z := k_clip_prefix ++ bytes_hex d ++ k_clip_suffix.
(** [read_cart_from_clip]/[write_cart_to_clip], l.652-654, l.659-660.  [dec] and [enc]
    stand for the image library's PNG decoding and encoding. *)
Definition write_cart_to_clip (enc : list px -> list Z) (sha : list Z -> list Z) (keep : bool) (o : copts)
  (template : list px) (c : cart) : res (list Z) :=
  img <- write_cart_to_image sha keep o template c ;; Ok (write_raw_to_clip (enc img)).
Definition read_cart_from_clip (dec : list Z -> res (list px)) (sha : list Z -> list Z) (keep : bool) (clip : list Z)
  : res cart :=
  d <- read_raw_from_clip clip ;; img <- dec d ;; read_cart_from_image sha keep img.

(** *** Merging, [merge_cart], l.753-773 (the code map is not modelled) *)
Definition merge_section (dest src : cart) (section : list Z) : res cart :=
  let copy lo hi := Ok (with_rom dest (copyfrom8 (c_rom dest) lo (hi - lo) (c_rom src))) in
  if zeqb_list section str_lua then Ok (with_code dest (c_code src) (c_code_rom src))
  else if zeqb_list section str_gfx then copy k_mem_sprites_addr k_mem_map_addr
  else if zeqb_list section str_map then copy k_mem_map_addr k_mem_flag_addr
  else if zeqb_list section str_gff then copy k_mem_flag_addr k_mem_music_addr
  else if zeqb_list section str_music then copy k_mem_music_addr k_mem_sfx_addr
  else if zeqb_list section str_sfx then copy k_mem_sfx_addr k_rom_size
  else if zeqb_list section str_label then Ok (with_label dest (c_label src))
  else if starts_with str_meta section then
    Err EType (* l.771: [src.name[meta_name]] indexes a string with a string *)
  else Err ECheck.
Fixpoint merge_cart (dest src : cart) (sections : list (list Z)) : res cart :=
  match sections with
  | [] => Ok dest
  | s :: sections => dest <- merge_section dest src s ;; merge_cart dest src sections
  end.
