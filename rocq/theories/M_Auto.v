(** Model of carts as files: [read_cart], [write_cart] and [read_cart_autodetect] of /repo/pico_cart.py l.662-733, with the text files of
    /repo/utils.py l.2233-2308, and [read_cart64_autodetect] of /repo/picotron_cart.py l.604-626 for a file (a directory is in M_Fs).

    Simplifications: [enc] and [dec] stand for the PNG coder; of the formats, the exports, pictures of labels and of sprite sheets are left out
    (C46, C55, C56). *)
From Coq Require Import String.
From Verif Require Import M_Base M_Memory M_Charset M_Compress M_Rom M_Text M_Url M_Expr M_Pod M_Files M_Cart64 M_P64.
Open Scope Z_scope.

(* ------------------------------------------------------------------ *)
(** * Text files *)
(** A code point of [str.encode("utf-8")] without an error handler: surrogates are errors, l.2305-2308 *)
Fixpoint encode_text (s : list Z) : res (list Z) :=
  match s with
  | [] => Ok []
  | c :: s => if (0xd800 <=? c) && (c <=? 0xdfff) then Err EValue else a <- utf8_encode c ;; b <- encode_text s ;; Ok (a ++ b)
  end.
(** [open(path, "r", newline=None)], l.2233-2238: every kind of line break is read as a newline *)
Fixpoint universal (s : list Z) : list Z :=
  match s with
  | [] => []
  | c :: t => if c =? 13 then 10 :: match t with d :: t' => if d =? 10 then universal t' else universal t | [] => [] end else c :: universal t
  end.
(** [file_read_maybe_text], l.2292-2293, and [file_read_text], l.2287-2290, where a byte that is no text is an error *)
Definition maybe_text (data : list Z) : list Z := universal (decode_luastr data).
Definition file_text (data : list Z) : res (list Z) :=
  if existsb (fun c => (0xdc80 <=? c) && (c <=? 0xdcff)) (decode_luastr data) then Err EValue else Ok (maybe_text data).

(* ------------------------------------------------------------------ *)
(** * PICO-8 *)
Inductive format := P8 | Png | RomF | TinyRom | Clip | Url | LuaF | CodeF.
(** pico_cart.py l.174, l.598 *)
Definition k_png_header : list Z := [137; 80; 78; 71; 13; 10; 26; 10].
Definition k_url_prefix : list Z := asc "https://www.pico-8-edu.com".

Section Pico8.
Context (int16 int10 : list Z -> option Z) (lower : Z -> list Z) (preprocess : list Z -> Z -> res (list Z)).
Context (enc : list px -> list Z) (dec : list Z -> res (list px)) (sha : list Z -> list Z) (template : list px).
Context (keep : bool).

(** [write_cart], l.710-733; [trailer]: that of roms; [o]: how to compress; [unicaps]: how capitals are written *)
Definition write_cart (unicaps trailer : bool) (o : copts) (f : format) (c : cart) : res (list Z) :=
  match f with
  | P8 => t <- write_cart_to_source unicaps None c ;; encode_text t
  | Png => img <- write_cart_to_image sha keep o template c ;; Ok (enc img)
  | RomF => write_cart_to_rom sha trailer keep o c
  | TinyRom => write_cart_to_tiny_rom keep o c
  | Clip => t <- write_cart_to_clip enc sha keep o template c ;; encode_text t
  | Url => t <- write_cart_to_url k_url_prefix keep o c ;; encode_text t
  | LuaF => t <- write_cart_to_raw_source false unicaps c ;; encode_text t
  | CodeF => t <- write_cart_to_raw_source true unicaps c ;; encode_text t
  end.

(** [read_cart_autodetect], l.662-684 *)
Definition read_cart_autodetect (data : list Z) : res cart :=
  if starts_with k_png_header data then img <- dec data ;; read_cart_from_image sha keep img
  else
    let text := decode_luastr data in
    if starts_with str_prefix text || starts_with (header_line str_lua) text then read_cart_from_source int16 int10 lower preprocess false text
    else if starts_with k_clip_prefix text then read_cart_from_clip dec sha keep (rstrip text)
    else if starts_with k_url_prefix text then read_cart_from_url keep (rstrip text)
    else read_cart_from_source int16 int10 lower preprocess true text.

(** [read_cart], l.686-708; no format: [None] *)
Definition read_cart (f : option format) (data : list Z) : res cart :=
  match f with
  | None => read_cart_autodetect data
  | Some (P8 | CodeF) => read_cart_from_source int16 int10 lower preprocess false (maybe_text data)
  | Some Png => img <- dec data ;; read_cart_from_image sha keep img
  | Some (RomF | TinyRom) => read_cart_from_rom sha true keep data
  | Some Clip => t <- file_text data ;; read_cart_from_clip dec sha keep (rstrip t)
  | Some Url => t <- file_text data ;; read_cart_from_url keep (rstrip t)
  | Some LuaF => read_cart_from_source int16 int10 lower preprocess true (maybe_text data)
  end.
End Pico8.

(* ------------------------------------------------------------------ *)
(** * Picotron *)
(** [read_cart64_autodetect], picotron_cart.py l.604-626, of the contents of a file; [png]: [read_cart64_from_image] of the picture
    [dec] finds; [version]: the version a new cart starts with *)
Definition read_cart64_autodetect (int10 : list Z -> option Z) (png : list Z -> res cart64) (version : Z) (data : list Z) : res cart64 :=
  if starts_with k_p64_prefix data then read_cart64_from_source int10 version false data
  else if starts_with k_png_header data then png data
  else if starts_with k_rom_header_sig data && existsb (Z.eqb 0) (firstn (Z.to_nat k_rom_header_size) data) then read_cart64_from_rom version false data
  else read_cart64_from_source int10 version true data.
