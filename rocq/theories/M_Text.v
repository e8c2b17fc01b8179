(** Model of the .p8 text format, /repo/pico_cart.py l.316-530.
    The file's text is a list of code points. *)
From Verif Require Import M_Base M_Memory M_Compress M_Charset M_Fold M_Rom.
Open Scope Z_scope.

(** [str.isspace] of one code point, as used by [str.strip()] and [str.split()]. *)
Definition py_isspace (c : Z) : bool :=
  ((9 <=? c) && (c <=? 13)) || ((28 <=? c) && (c <=? 32)) || (c =? 0x85) || (c =? 0xa0) || (c =? 0x1680)
  || ((0x2000 <=? c) && (c <=? 0x200a)) || (c =? 0x2028) || (c =? 0x2029) || (c =? 0x202f) || (c =? 0x205f) || (c =? 0x3000).
Fixpoint lstrip (s : list Z) : list Z :=
  match s with c :: t => if py_isspace c then lstrip t else s | [] => [] end.
Definition rstrip (s : list Z) : list Z := rev (lstrip (rev s)).
Definition strip (s : list Z) : list Z := rstrip (lstrip s).
Definition starts_with (p s : list Z) : bool := zeqb_list p (firstn (length p) s).
Definition ends_with (p s : list Z) : bool := starts_with (rev p) (rev s).

(** [str.split()]: the words between whitespace. *)
Fixpoint split_words (cur : list Z) (s : list Z) : list (list Z) :=
  match s with
  | [] => match cur with [] => [] | _ => [rev cur] end
  | c :: t =>
      if py_isspace c then match cur with [] => split_words [] t | _ => rev cur :: split_words [] t end
      else split_words (c :: cur) t
  end.

(** [re.split("\r?\n", str)], l.342: pieces between newlines, each (but the last) without
    one carriage return right before the newline. *)
Definition drop_cr (s : list Z) : list Z := match s with c :: t => if c =? 13 then t else s | [] => [] end.
Fixpoint split_nl (cur : list Z) (s : list Z) : list (list Z) :=
  match s with
  | [] => [rev cur]
  | c :: t =>
      if c =? 10 then rev (drop_cr cur) :: split_nl [] t
      else split_nl (c :: cur) t
  end.
(** [p8_split_lines], l.341-345. *)
Definition p8_split_lines (s : list Z) : list (list Z) :=
  let l := split_nl [] s in
  match rev l with [] :: r => rev r | _ => l end.

(** [line[i:i+n].ljust(n, "0")] for i = 0, n, 2n, ... *)
Definition ljust0 (n : nat) (s : list Z) : list Z := s ++ repeat 48 (n - length s).
Fixpoint groups (fuel : nat) (n : nat) (s : list Z) : list (list Z) :=
  match fuel, s with
  | _, [] | O, _ => []
  | S fuel, _ => ljust0 n (firstn n s) :: groups fuel n (skipn n s)
  end.
Definition groups_of (n : nat) (s : list Z) : list (list Z) := groups (length s) n s.

Definition str_lua : list Z := [108; 117; 97].
Definition str_gfx : list Z := [103; 102; 120].
Definition str_map : list Z := [109; 97; 112].
Definition str_gff : list Z := [103; 102; 102].
Definition str_sfx : list Z := [115; 102; 120].
Definition str_music : list Z := [109; 117; 115; 105; 99].
Definition str_label : list Z := [108; 97; 98; 101; 108].
(** [k_meta_prefix], l.317. *)
Definition str_meta : list Z := [109; 101; 116; 97; 58].
(** [k_p8_prefix], l.316. *)
Definition str_prefix : list Z := [112; 105; 99; 111; 45; 56; 32; 99; 97; 114; 116; 114; 105; 100; 103; 101].
(** " // http://www.pico-8.com" *)
Definition str_url : list Z :=
  [32; 47; 47; 32; 104; 116; 116; 112; 58; 47; 47; 119; 119; 119; 46; 112; 105; 99; 111; 45; 56; 46; 99; 111; 109].
(** "version " *)
Definition str_version : list Z := [118; 101; 114; 115; 105; 111; 110; 32].
(** "__", put around a section's name. *)
Definition under : list Z := [95; 95].
Definition header_line (name : list Z) : list Z := under ++ name ++ under.

(** [cart.meta[key].append(line)] on the defaultdict. *)
Fixpoint meta_append (key line : list Z) (m : list (list Z * list (list Z))) : list (list Z * list (list Z)) :=
  match m with
  | [] => [(key, [line])]
  | (k, v) :: m => if zeqb_list k key then (k, v ++ [line]) :: m else (k, v) :: meta_append key line m
  end.

(** [MultidimArray(k_label_size, 0)] and item assignment, by rows. *)
Definition blank_label : list (list Z) := repeat (repeat 0 128) 128.
Definition label_set (l : list (list Z)) (x y v : Z) : list (list Z) :=
  list_upd l (Z.to_nat y) (list_upd (nth (Z.to_nat y) l []) (Z.to_nat x) v).

Definition with_meta (c : cart) (meta : list (list Z * list (list Z))) : cart :=
  mkcart (c_version_id c) (c_version c) (c_platform c) (c_default_version c) (c_default_platform c)
         (c_rom c) (c_code c) (c_code_rom c) (c_label c) meta.
(** [Cart.set_version], l.85-88. *)
Definition set_version (c : cart) (id : Z) : cart :=
  mkcart id (get_pico8_version_tuple id) (c_platform c) false (c_default_platform c)
         (c_rom c) (c_code c) (c_code_rom c) (c_label c) (c_meta c).

Section Reader.
(** Python's [int(s, 16)] and [int(s)] ([None]: ValueError) and [str.lower] of one character;
    they also accept characters beyond ASCII, so they are arguments. *)
Context (int16 int10 : list Z -> option Z) (lower : Z -> list Z).

Definition int_ (f : list Z -> option Z) (s : list Z) : res Z := match f s with Some v => Ok v | None => Err EValue end.

(** [ext_nybbles], l.334-339, one character; strings compare lexicographically. *)
Definition ext_nybble (b : Z) : res Z :=
  let l := lower b in
  let le_v := match l with [] => true | c :: t => (c <? 118) || ((c =? 118) && match t with [] => true | _ => false end) end in
  let ge_g := match l with [] => false | c :: _ => 103 <=? c end in
  if le_v && ge_g then match l with [c] => Ok (c - 103 + 16) | _ => Err EType end else int_ int16 [b].

(** l.371-376 and l.417-420: one value per character. *)
Fixpoint gfx_row (rom : list Z) (y x : Z) (s : list Z) : res (list Z) :=
  match s with
  | [] => Ok rom
  | c :: s =>
      b <- int_ int16 [c] ;;
      if x <? 0x80 then rom <- set4 rom (mem_sprite_addr x y) b ;; gfx_row rom y (x + 1) s else gfx_row rom y x s
  end.
Fixpoint label_row (label : list (list Z)) (y x : Z) (s : list Z) : res (list (list Z)) :=
  match s with
  | [] => Ok label
  | c :: s =>
      b <- ext_nybble c ;;
      if x <? 0x80 then label_row (label_set label x y b) y (x + 1) s else label_row label y x s
  end.
(** l.380-384, l.388-392: one value per two characters, to the address [addr x]. *)
Fixpoint byte_row (addr : Z -> Z) (rom : list Z) (x : Z) (g : list (list Z)) : res (list Z) :=
  match g with
  | [] => Ok rom
  | p :: g =>
      b <- int_ int16 p ;;
      if x <? 0x80 then rom <- set8 rom (addr x) b ;; byte_row addr rom (x + 1) g else byte_row addr rom x g
  end.
(** l.396-399: at most four bytes. *)
Fixpoint info_row (rom : list Z) (y x : Z) (g : list (list Z)) : res (list Z) :=
  match g with
  | [] => Ok rom
  | p :: g => b <- int_ int16 p ;; rom <- set8 rom (mem_sfx_info_addr y x) b ;; info_row rom y (x + 1) g
  end.
(** l.401-405. *)
Definition note_value (bph bpl bw bv be : Z) : Z :=
  Z.lor (Z.lor (Z.lor (Z.lor (Z.lor bpl (Z.shiftl (Z.land bph 0x3) 4)) (Z.shiftl (Z.land bw 0x7) 6))
    (Z.shiftl (Z.land bv 0x7) 9)) (Z.shiftl (Z.land be 0x7) 12)) (Z.shiftl (Z.land bw 0x8) 12).
Fixpoint note_row (rom : list Z) (y x : Z) (g : list (list Z)) : res (list Z) :=
  match g with
  | [] => Ok rom
  | p :: g =>
      v <- map_res (fun c => int_ int16 [c]) p ;;
      match v with
      | [bph; bpl; bw; bv; be] =>
          if x <? 0x20 then rom <- set16 rom (mem_sfx_addr y x) (note_value bph bpl bw bv be) ;; note_row rom y (x + 1) g
          else note_row rom y x g
      | _ => Err EValue
      end
  end.
(** l.411-415. *)
Fixpoint music_row (rom : list Z) (flags y x : Z) (g : list (list Z)) : res (list Z) :=
  match g with
  | [] => Ok rom
  | p :: g =>
      b <- int_ int16 p ;;
      if x <? 4 then
        rom <- set8 rom (mem_music_addr y x) (Z.lor b (Z.shiftl (Z.land (Z.shiftr flags x) 1) 7)) ;; music_row rom flags y (x + 1) g
      else music_row rom flags y x g
  end.

(** The loop's state, l.350-354: the section ([None] before the first), its line counter,
    the code so far, the line number its last part starts at. *)
Record rstate := mkrs { r_header : option (list Z); r_y : Z; r_code : list Z; r_code_line : Z; r_cart : cart }.

Definition is_header (h : option (list Z)) (name : list Z) : bool :=
  match h with Some s => zeqb_list s name | None => false end.

(** One line, l.356-433. *)
Definition read_line (raw : bool) (st : rstate) (line_i : Z) (line : list Z) : res rstate :=
  let clean := strip line in
  let h := r_header st in
  let y := r_y st in
  let c := r_cart st in
  let some := negb (zeqb_list clean []) in
  let upd_rom rom := mkrs h (y + 1) (r_code st) (r_code_line st) (with_rom c rom) in
  if starts_with under line && ends_with under clean && negb raw then
    Ok (mkrs (Some (slice clean 2 (zlen clean - 2))) 0 (r_code st) (r_code_line st) c)
  else if is_header h str_lua then
    p <- to_p8str line ;;
    Ok (mkrs h (y + 1) (r_code st ++ (if y =? 0 then [] else [10]) ++ p) (if y =? 0 then line_i else r_code_line st) c)
  else if is_header h str_gfx && some && (y <? 0x80) then
    rom <- gfx_row (c_rom c) y 0 clean ;; Ok (upd_rom rom)
  else if is_header h str_map && some && (y <? 0x40) then
    rom <- byte_row (fun x => mem_map_addr x y) (c_rom c) 0 (groups_of 2 clean) ;; Ok (upd_rom rom)
  else if is_header h str_gff && some && (y <? 2) then
    rom <- byte_row (fun x => mem_flag_addr x y) (c_rom c) 0 (groups_of 2 clean) ;; Ok (upd_rom rom)
  else if is_header h str_sfx && some && (y <? 0x40) then
    rom <- info_row (c_rom c) y 0 (groups_of 2 (firstn 8 clean)) ;;
    rom <- note_row rom y 0 (groups_of 5 (skipn 8 clean)) ;; Ok (upd_rom rom)
  else if is_header h str_music && some && (y <? 0x40) then
    flags <- int_ int16 (ljust0 2 (firstn 2 clean)) ;;
    rom <- music_row (c_rom c) flags y 0 (groups_of 2 (skipn 3 clean)) ;; Ok (upd_rom rom)
  else if is_header h str_label && some && (y <? 0x80) then
    l <- label_row (match c_label c with Some l => l | None => blank_label end) y 0 clean ;;
    Ok (mkrs h (y + 1) (r_code st) (r_code_line st) (with_label c (Some l)))
  else match h with
  | Some s =>
      if starts_with str_meta s then
        Ok (mkrs h y (r_code st) (r_code_line st) (with_meta c (meta_append (skipn (length str_meta) s) line (c_meta c))))
      else Ok st
  | None =>
      if starts_with str_version clean then
        match split_words [] clean with
        | _ :: w :: _ => v <- int_ int10 w ;; Ok (mkrs h y (r_code st) (r_code_line st) (set_version c v))
        | _ => Err EIndex
        end
      else Ok st
  end.
(** l.432-433: a ValueError becomes an error message. *)
Definition checked {A} (m : res A) : res A := match m with Err EValue => Err ECheck | _ => m end.
Fixpoint read_lines (raw : bool) (st : rstate) (line_i : Z) (lines : list (list Z)) : res rstate :=
  match lines with
  | [] => Ok st
  | l :: lines => st <- checked (read_line raw st line_i l) ;; read_lines raw st (line_i + 1) lines
  end.

(** [read_cart_from_source], l.319-438.  [preprocess code code_line] stands for the
    preprocessing hook (its code; the code map is not modelled here). *)
Definition read_cart_from_source (preprocess : list Z -> Z -> res (list Z)) (raw : bool) (data : list Z) : res cart :=
  rom <- mem_create_rom ;;
  let raw := raw || (negb (starts_with str_prefix data) && negb (starts_with (header_line str_lua) data)) in
  st <- read_lines raw (mkrs (if raw then Some str_lua else None) 0 [] 0 (new_cart rom)) 0 (p8_split_lines data) ;;
  code <- preprocess (r_code st) (r_code_line st) ;;
  Ok (with_code (r_cart st) code (c_code_rom (r_cart st))).
End Reader.

(** Writing: ['%01x' % b] for [b < 16] and ['%02x' % b] for [b < 256]; the callers only
    pass such values. *)
Definition hexc (d : Z) : Z := if d <? 10 then 48 + d else 87 + d.
Definition hex2 (b : Z) : list Z := [hexc (b / 16); hexc (b mod 16)].
(** [ext_nybbles], l.453-454. *)
Definition ext_hexc (b : Z) : Z := if b <? 16 then hexc b else b - 16 + 103.

Definition zrange_from (a : Z) (n : nat) : list Z := map (fun i => a + Z.of_nat i) (seq 0 n).

(** [get_needed_lines], l.456-463: [n] is the number of rows still possibly needed. *)
Fixpoint needed_lines (rom defrom : list Z) (addr : Z -> Z) (size : Z) (n : nat) : nat :=
  match n with
  | O => O
  | S k => if cmpeqwith8 rom (addr (Z.of_nat k)) size defrom then needed_lines rom defrom addr size k else n
  end.

(** l.469-474 *)
Definition gfx_text (rom : list Z) (y : Z) : res (list Z) :=
  map_res (fun x => b <- get4 rom (mem_sprite_addr x y) ;; Ok (hexc b)) (zrange_from 0 128).
(** l.476-490 *)
Definition bytes_text (addr : Z -> Z) (rom : list Z) (n : nat) : res (list Z) :=
  l <- map_res (fun x => b <- get8 rom (addr x) ;; Ok (hex2 b)) (zrange_from 0 n) ;; Ok (concat l).
(** l.496-499 *)
Definition note_text (n : Z) : list Z :=
  map hexc [Z.land (Z.shiftr n 4) 0x3; Z.land n 0xf; Z.lor (Z.land (Z.shiftr n 6) 0x7) (Z.land (Z.shiftr n 12) 0x8);
            Z.land (Z.shiftr n 9) 0x7; Z.land (Z.shiftr n 12) 0x7].
Definition sfx_text (rom : list Z) (y : Z) : res (list Z) :=
  info <- bytes_text (fun x => mem_sfx_info_addr y x) rom 4 ;;
  notes <- map_res (fun x => n <- get16 rom (mem_sfx_addr y x) ;; Ok (note_text n)) (zrange_from 0 32) ;;
  Ok (info ++ concat notes).
(** l.505-509 *)
Definition music_flags (chans : list Z) : Z :=
  fold_right Z.add 0 (map (fun '(i, ch) => Z.shiftl (Z.land (Z.shiftr ch 7) 1) i) (combine (zrange_from 0 (length chans)) chans)).
Definition music_text (rom : list Z) (y : Z) : res (list Z) :=
  chans <- map_res (fun x => get8 rom (mem_music_addr y x)) (zrange_from 0 4) ;;
  Ok (hex2 (music_flags chans) ++ [32] ++ concat (map (fun ch => hex2 (Z.land ch 0x7f)) chans)).

(** [write_cart_to_source], l.440-524: [sections] as the list of names to include. *)
Definition section_lines (on : bool) (name : list Z) (n : nat) (row : Z -> res (list Z)) : res (list (list Z)) :=
  if on && negb (Nat.eqb n 0) then rows <- map_res row (zrange_from 0 n) ;; Ok (header_line name :: rows) else Ok [].
Definition join_nl (lines : list (list Z)) : list Z := concat (map (fun l => l ++ [10]) lines).
(** [include], l.445-446: no list of sections means all. *)
Definition included (sections : option (list (list Z))) (s : list Z) : bool :=
  match sections with None => true | Some l => existsb (zeqb_list s) l end.
Definition write_cart_to_source (unicaps : bool) (sections : option (list (list Z))) (c : cart) : res (list Z) :=
  defrom <- mem_create_rom ;;
  let rom := c_rom c in
  let include := included sections in
  lua <- (if include str_lua then code <- from_p8str unicaps (c_code c) ;; Ok [header_line str_lua; code] else Ok []) ;;
  gfx <- section_lines (include str_gfx) str_gfx (needed_lines rom defrom (fun y => fst (mem_sprite_addr 0 y)) 0x40 0x80)
           (gfx_text rom) ;;
  map <- section_lines (include str_map) str_map (needed_lines rom defrom (fun y => mem_map_addr 0 y) 0x80 0x20)
           (fun y => bytes_text (fun x => mem_map_addr x y) rom 128) ;;
  gff <- section_lines (include str_gff) str_gff (needed_lines rom defrom (fun y => mem_flag_addr 0 y) 0x80 2)
           (fun y => bytes_text (fun x => mem_flag_addr x y) rom 128) ;;
  sfx <- section_lines (include str_sfx) str_sfx (needed_lines rom defrom (fun y => mem_sfx_addr y 0) 0x44 0x40)
           (sfx_text rom) ;;
  music <- section_lines (include str_music) str_music (needed_lines rom defrom (fun y => mem_music_addr y 0) 0x4 0x40)
           (music_text rom) ;;
  let label := match c_label c with
    | Some l => if include str_label && existsb (fun v => negb (v =? 0)) (concat l)
                then header_line str_label :: List.map (List.map ext_hexc) l else []
    | None => [] end in
  let meta := concat (List.map (fun '(k, v) => if include (str_meta ++ k) then header_line (str_meta ++ k) :: v else []) (c_meta c)) in
  Ok (join_nl ([str_prefix ++ str_url; str_version ++ dec_str (c_version_id c)]
               ++ lua ++ gfx ++ map ++ gff ++ sfx ++ music ++ label ++ meta)).

(** [write_cart_to_raw_source], l.526-530. *)
Definition write_cart_to_raw_source (with_header unicaps : bool) (c : cart) : res (list Z) :=
  source <- from_p8str unicaps (c_code c) ;;
  Ok (if with_header then header_line str_lua ++ [10] ++ source else source).
