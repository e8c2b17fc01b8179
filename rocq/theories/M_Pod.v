(** Model of Picotron pods and of the files that hold them: /repo/picotron_fs.py l.9-172,
    l.267-302 and l.383-530, with the text encoding of /repo/pico_defs.py l.233-239.

    Texts are lists of code points, as in Python.  Floats are not modelled: [VFloat] is some
    float, and printing one is an error here.  Python's limit on recursion is not modelled,
    except for pods inside pods ([unpod]). *)
From Coq Require Import String List.
From Verif Require Import M_Base M_Charset M_Fold M_Num M_Token M_Str M_Expr M_Text M_Lz4 M_Pxu M_Url M_P64.
Import ListNotations.
Open Scope Z_scope.

(* ------------------------------------------------------------------ *)
(** * Text and bytes *)

(** [encode_luastr], /repo/pico_defs.py l.235-236 *)
Fixpoint encode_luastr (s : list Z) : res (list Z) :=
  match s with
  | [] => Ok []
  | c :: s => a <- utf8_encode c ;; b <- encode_luastr s ;; Ok (a ++ b)
  end.

(** [decode_luastr], l.238-239.  A byte that does not begin a valid sequence is escaped; the
    bytes of a broken sequence are none of them valid beginnings, so it does not matter that
    Python escapes them together. *)
Definition cont (b : Z) : bool := (0x80 <=? b) && (b <=? 0xbf).
Definition utf8_2 (a b : Z) : bool := (0xc2 <=? a) && (a <=? 0xdf) && cont b.
Definition utf8_3 (a b c : Z) : bool :=
  (0xe0 <=? a) && (a <=? 0xef) && cont b && cont c
  && ((negb (a =? 0xe0)) || (0xa0 <=? b)) && ((negb (a =? 0xed)) || (b <=? 0x9f)).
Definition utf8_4 (a b c d : Z) : bool :=
  (0xf0 <=? a) && (a <=? 0xf4) && cont b && cont c && cont d
  && ((negb (a =? 0xf0)) || (0x90 <=? b)) && ((negb (a =? 0xf4)) || (b <=? 0x8f)).
Fixpoint decode_luastr (s : list Z) : list Z :=
  match s with
  | [] => []
  | a :: s1 =>
      if a <? 0x80 then a :: decode_luastr s1
      else match s1 with
      | [] => [0xdc00 + a]
      | b :: s2 =>
          if utf8_2 a b then (a - 0xc0) * 64 + (b - 0x80) :: decode_luastr s2
          else match s2 with
          | [] => 0xdc00 + a :: decode_luastr s1
          | c :: s3 =>
              if utf8_3 a b c then (a - 0xe0) * 4096 + (b - 0x80) * 64 + (c - 0x80) :: decode_luastr s3
              else match s3 with
              | [] => 0xdc00 + a :: decode_luastr s1
              | d :: s4 =>
                  if utf8_4 a b c d
                  then (a - 0xf0) * 262144 + (b - 0x80) * 4096 + (c - 0x80) * 64 + (d - 0x80) :: decode_luastr s4
                  else 0xdc00 + a :: decode_luastr s1
              end
          end
      end
  end.

(* ------------------------------------------------------------------ *)
(** * Values *)

(** None, bool, int, float, str, [UserData], dict (in insertion order) *)
Inductive pod :=
| VNil | VBool (b : bool) | VInt (z : Z) | VFloat | VStr (s : list Z) | VUser (u : userdata) | VTable (t : entries)
with entries := ENil | ECons (k v : pod) (t : entries).

Definition is_nil (v : pod) : bool := match v with VNil => true | _ => false end.
Definition ud_eqb (a b : userdata) : bool :=
  zeqb_list (ud_type a) (ud_type b) && (ud_width a =? ud_width b) && (ud_height a =? ud_height b) && zeqb_list (ud_data a) (ud_data b).
(** Python's [==] on keys: a bool is the number 0 or 1 *)
Definition number_of (v : pod) : option Z := match v with VInt z => Some z | VBool b => Some (Z.b2z b) | _ => None end.
Definition key_eqb (a b : pod) : bool :=
  match number_of a, number_of b with
  | Some x, Some y => x =? y
  | None, None =>
      match a, b with
      | VStr s, VStr s' => zeqb_list s s'
      | VUser u, VUser u' => ud_eqb u u'
      | VNil, VNil => true
      | _, _ => false
      end
  | _, _ => false
  end.
(** [table[key] = value]: an equal key keeps its place and its object *)
Fixpoint dict_set (t : entries) (k v : pod) : entries :=
  match t with
  | ENil => ECons k v ENil
  | ECons k' v' t => if key_eqb k' k then ECons k' v t else ECons k' v' (dict_set t k v)
  end.
Fixpoint dict_get (t : entries) (k : pod) : option pod :=
  match t with ENil => None | ECons k' v t => if key_eqb k' k then Some v else dict_get t k end.
Fixpoint dict_del (t : entries) (k : pod) : entries :=
  match t with ENil => ENil | ECons k' v t => if key_eqb k' k then t else ECons k' v (dict_del t k) end.
(** Only a dict cannot be a key. *)
Definition hashable (k : pod) : bool := match k with VTable _ => false | _ => true end.

(* ------------------------------------------------------------------ *)
(** * Printing *)

(** [is_identifier], /repo/pico_tokenize.py l.302-303, for Picotron; a character of an
    identifier is a digit for [str.isdigit] if it is one of 0-9 *)
Definition is_identifier (s : list Z) : bool :=
  match s with [] => false | c :: _ => forallb (is_ident_char Picotron) s && negb (is_dec_digit c) && negb (is_keyword s) end.

(** [sep.join(parts)] *)
Fixpoint join (sep : list Z) (parts : list (list Z)) : list Z :=
  match parts with [] => [] | [p] => p | p :: ps => p ++ sep ++ join sep ps end.

Section Format.
(** [str.isdigit]; [ud_handler]: it gets the userdata and its text, and keeps some bytes in
    its place if it returns true *)
Context (isdigit : Z -> bool) (ud_handler : userdata -> list Z -> res (option (list Z))).

(** [format_pod] of an int and of a str, l.121-124 *)
Definition format_int (z : Z) : list Z := format_luaint SNone B10 false z.
Definition format_str (s : list Z) : res (list Z) := format_string_literal isdigit true true (Some false) (Some 34) s.

(** l.126-135: the text without the handler *)
Definition format_user (u : userdata) : res (list Z) :=
  type <- format_str (ud_type u) ;;
  data <- format_str (ud_data u) ;;
  let width := format_int (ud_width u) in
  let height := format_int (ud_height u) in
  Ok (asc "userdata(" ++ join (asc ",") (if ud_height u =? 0 then [type; width; data] else [type; width; height; data]) ++ asc ")").

(** [format_pod], l.113-150: the text and the bytes kept by the handler, in order *)
Fixpoint format_pod (v : pod) : res (list Z * list (list Z)) :=
  match v with
  | VNil => Ok (asc "nil", [])
  | VBool b => Ok (asc (if b then "true" else "false")%string, [])
  | VInt z => Ok (format_int z, [])
  | VFloat => Err EValue                               (* not modelled *)
  | VStr s => t <- format_str s ;; Ok (t, [])
  | VUser u =>
      result <- format_user u ;;
      h <- ud_handler u result ;;
      Ok match h with Some data => ([0], [data]) | None => (result, []) end
  | VTable t => '(parts, kept) <- format_entries 1 t ;; Ok (asc "{" ++ join (asc ",") parts ++ asc "}", kept)
  end
with format_entries (index : Z) (t : entries) : res (list (list Z) * list (list Z)) :=
  match t with
  | ENil => Ok ([], [])
  | ECons k v t =>
      if match number_of k with Some z => z =? index | None => false end then
        '(part, kept) <- format_pod v ;;
        '(parts, kept') <- format_entries (index + 1) t ;;
        Ok (part :: parts, kept ++ kept')
      else
        '(part, kept) <-
          match (match k with VStr s => if is_identifier s then Some s else None | _ => None end) with
          | Some s => '(value, kept) <- format_pod v ;; Ok (s ++ asc "=" ++ value, kept)
          | None =>
              '(key, kept) <- format_pod k ;;
              '(value, kept') <- format_pod v ;;
              Ok (asc "[" ++ key ++ asc "]=" ++ value, kept ++ kept')
          end ;;
        '(parts, kept') <- format_entries index t ;;
        Ok (part :: parts, kept ++ kept')
  end.
End Format.
Definition no_handler (u : userdata) (text : list Z) : res (option (list Z)) := Ok None.

(** [escape_meta], l.152-158: [rfind] and [str_replace_at] *)
Fixpoint rfind_sub (pat s : list Z) : option (list Z * list Z) :=
  match s with
  | [] => if is_prefix pat s then Some ([], skipn (length pat) s) else None
  | c :: t =>
      match rfind_sub pat t with
      | Some (a, b) => Some (c :: a, b)
      | None => if is_prefix pat s then Some ([], skipn (length pat) s) else None
      end
  end.
Fixpoint escape_loop (fuel : nat) (s : list Z) : res (list Z) :=
  match rfind_sub (asc "]]") s with
  | None => Ok s
  | Some (a, b) => match fuel with O => Err EFuel | S fuel => escape_loop fuel (a ++ asc "\93]" ++ b) end
  end.
(** each round takes away a pair of brackets *)
Definition escape_meta (s : list Z) : res (list Z) := escape_loop (length s) s.

(** [format_meta_pod], l.160-172 *)
Definition k_pod_prefix_strs : list (list Z) := map asc ["pod_format"; "pod_type"]%string.
Definition format_meta_pod (isdigit : Z -> bool) (t : entries) : res (list Z) :=
  '(prefix, t) <-
    match List.find (fun s => match dict_get t (VStr s) with Some _ => true | None => false end) k_pod_prefix_strs with
    | Some s =>
        match dict_get t (VStr s) with
        | Some v => '(text, _) <- format_pod isdigit no_handler v ;; Ok (s ++ asc "=" ++ text, dict_del t (VStr s))
        | None => Err EKey
        end
    | None => Ok (asc "pod", t)
    end ;;
  '(text, _) <- format_pod isdigit no_handler (VTable t) ;;
  let rest := slice_ends 1 text in
  escape_meta (match rest with [] => prefix | _ => prefix ++ asc "," ++ rest end).

(* ------------------------------------------------------------------ *)
(** * Parsing *)

Definition k_b64_prefix : list Z := asc "b64:".
Definition k_lz4_prefix : list Z := asc "lz4" ++ [0].
Definition k_userdata : list Z := asc "userdata()".

(** [isinstance(v, int)]; a bool counts as one *)
Definition as_int (v : pod) : option Z := number_of v.

Section Parse.
(** [parse_function] and the recursive call of [read_pod] *)
Context (read_function : list tok -> res (list tok * list tok)) (unpod : list Z -> res pod).

(** [node_to_value], l.36-90; the userdatas not yet handed out are passed along.  A reported
    error, which makes [parse_pod] raise in the end, is raised at once.  l.61 and l.87 call
    [add_error] without its second argument. *)
Definition number_value (neg : bool) (v : list Z) : res pod :=
  n <- parse_luanum v ;; Ok (match n with LInt w => VInt (if neg then - w else w) | LFloat => VFloat end).
Definition userdata_value (args : list pod) (q : list userdata) : res (pod * list userdata) :=
  match (match args with
         | [VStr type; width; VStr data] => match as_int width with Some w => Some (mkud type w 0 data) | _ => None end
         | [VStr type; width; height; VStr data] =>
             match as_int width, as_int height with Some w, Some h => Some (mkud type w h data) | _, _ => None end
         | _ => None
         end), args, q with
  | Some u, _, _ => Ok (VUser u, q)
  | None, [], u :: q => Ok (VUser u, q)
  | None, _, _ => Err EType
  end.
Fixpoint node_to_value (e : expr) (q : list userdata) {struct e} : res (pod * list userdata) :=
  match e with
  | Const (Tok TNumber v) => v <- number_value false v ;; Ok (v, q)
  | Const (Tok TString v) => s <- parse_string_literal Picotron v ;; Ok (VStr s, q)
  | Const (Tok _ v) =>
      Ok (if zeqb_list v (asc "false") then VBool false else if zeqb_list v (asc "true") then VBool true else VNil, q)
  | Unary op (Const (Tok TNumber v)) => if zeqb_list op (asc "-") then v <- number_value true v ;; Ok (v, q) else Err ECheck
  | Table its => '(t, q) <- items_to_values its 1 ENil q ;; Ok (VTable t, q)
  | Call (Var name) _ args =>
      if zeqb_list name (asc "userdata") then '(vs, q) <- args_to_values args q ;; userdata_value vs q
      else if zeqb_list name (asc "unpod") then
        match args with
        | ACons a ANil =>
            '(v, q) <- node_to_value a q ;;
            match v with
            | VStr s => b <- encode_luastr s ;; v <- unpod b ;; Ok (v, q)
            | _ => Err EType
            end
        | _ => Err ECheck
        end
      else Err ECheck
  | _ => Err ECheck
  end
with args_to_values (args : exprs) (q : list userdata) {struct args} : res (list pod * list userdata) :=
  match args with
  | ANil => Ok ([], q)
  | ACons e args => '(v, q) <- node_to_value e q ;; '(vs, q) <- args_to_values args q ;; Ok (v :: vs, q)
  end
with items_to_values (its : items) (index : Z) (t : entries) (q : list userdata) {struct its} : res (entries * list userdata) :=
  match its with
  | TNil => Ok (t, q)
  | TIndex k v _ its =>
      '(key, q) <- node_to_value k q ;;
      '(value, q) <- node_to_value v q ;;
      t <- (if is_nil key || is_nil value then Ok t else if hashable key then Ok (dict_set t key value) else Err EType) ;;
      items_to_values its index t q
  | TMember name v _ its =>
      '(value, q) <- node_to_value v q ;;
      items_to_values its index (if is_nil value then t else dict_set t (VStr name) value) q
  | TItem e _ its =>
      '(value, q) <- node_to_value e q ;;
      items_to_values its (index + 1) (if is_nil value then t else dict_set t (VInt index) value) q
  end.

(** [parse_pod], l.24-103, given the userdatas its handler hands out *)
Definition is_err (t : tok) : bool := match t with TErr => true | _ => false end.
Definition parse_pod (text : list Z) (q : list userdata) : res pod :=
  ts <- tokenize Picotron text ;;
  if existsb is_err ts then Err ECheck else
  match ts with
  | [] => Ok VNil
  | _ =>
      '(e, rest) <- parse_expr Picotron read_function ts ;;
      match rest with
      | [] => '(v, _) <- node_to_value e q ;; Ok v
      | _ => Err ECheck
      end
  end.

(** [parse_meta_pod], l.105-111 *)
Definition k_pod_prefix_str : list Z := asc "pod,".
Definition parse_meta_pod (text : list Z) : res pod :=
  if zeqb_list text (asc "pod") then Ok (VTable ENil)
  else
    let text := if starts_with k_pod_prefix_str text then skipn 4 text else text in
    parse_pod (asc "{" ++ text ++ asc "}") [].
End Parse.

(* ------------------------------------------------------------------ *)
(** * Compression *)

(** the loop of l.286-295; a userdata is longer than its header, so the length is enough fuel *)
Fixpoint unpack_pxus (fuel : nat) (value : list Z) (pxu_i : nat) (userdatas : list userdata) : res (list Z * list userdata) :=
  match find_sub k_pxu_prefix (skipn pxu_i value) with
  | None => Ok (value, userdatas)
  | Some (a, _) =>
      match fuel with
      | O => Err EFuel
      | S fuel =>
          let pxu_i := (pxu_i + length a)%nat in
          '(ud, end_i) <- read_pxu value pxu_i ;;
          unpack_pxus fuel (firstn pxu_i value ++ k_userdata ++ skipn end_i value) pxu_i (userdatas ++ [ud])
      end
  end.

(** l.270-284: base64 and LZ4 *)
Definition unpack_lz4 (value : list Z) : res (list Z) :=
  if starts_with k_lz4_prefix value then
    '(size, d) <- r_u32 (skipn 4 value) ;;
    '(_, d) <- r_u32 d ;;
    let missing := size - zlen d in
    if 0 <? missing then lz4_uncompress (d ++ repeat 125 (Z.to_nat missing))
    else lz4_uncompress (firstn (Z.to_nat size) d)
  else Ok value.
Definition unpack (value : list Z) : res (list Z) :=
  value <- (if starts_with k_b64_prefix value then b64_loose (skipn 4 value) else Ok value) ;;
  unpack_lz4 value.

(** [read_pod], l.267-302; [depth] is how many pods may be inside each other before Python's
    recursion limit is reached *)
Fixpoint read_pod (read_function : list tok -> res (list tok * list tok)) (depth : nat) (value : list Z) : res pod :=
  match depth with
  | O => Err ERecursion
  | S depth =>
      value <- unpack value ;;
      '(value, userdatas) <- unpack_pxus (length value) value 0 [] ;;
      parse_pod read_function (read_pod read_function depth) (decode_luastr value) userdatas
  end.

Record write_opts := mkwo { wo_compress : bool; wo_pxu : bool; wo_base64 : bool; wo_runtime : Z }.

(** the loop of l.397-405 *)
Fixpoint put_pxus (pxu_i : nat) (value : list Z) (pxu_datas : list (list Z)) : res (list Z) :=
  match pxu_datas with
  | [] => Ok value
  | data :: pxu_datas =>
      match find_sub [0] (skipn pxu_i value) with
      | None => Err EAssert
      | Some (a, b) => let before := firstn pxu_i value ++ a in put_pxus (length before + length data) (before ++ data ++ b) pxu_datas
      end
  end.

(** [write_pod], l.383-420; the [handle_userdata] of l.387-393 *)
Section WritePod.
Context (isdigit : Z -> bool) (int16 : list Z -> option Z) (o : write_opts).
Definition pxu_handler (u : userdata) (text : list Z) : res (option (list Z)) :=
  if wo_pxu o then
    d <- write_pxu int16 u (wo_runtime o) ;;
    Ok match d with Some d => if zlen d <? zlen text then Some d else None | None => None end
  else Ok None.
Definition write_pod (v : pod) : res (list Z) :=
  '(text, pxu_datas) <- format_pod isdigit pxu_handler v ;;
  value <- encode_luastr text ;;
  value <- put_pxus 0 value pxu_datas ;;
  value <- (if wo_compress o then
              compressed <- lz4_compress value false ;;
              s <- w_u32 (zlen compressed) ;;
              u <- w_u32 (zlen value) ;;
              let compressed_value := k_lz4_prefix ++ s ++ u ++ compressed in
              Ok (if zlen compressed_value <? zlen value then compressed_value else value)
            else Ok value) ;;
  Ok (if wo_base64 o then k_b64_prefix ++ b64_encode value else value).
End WritePod.

(* ------------------------------------------------------------------ *)
(** * Files *)

(** [PicotronFile], l.422-530, as its [data], without the caches (which hold what was just
    stored); a directory has no data and is left out *)
Definition k_meta_prefix : list Z := asc "--[[".
Definition k_meta_pod_prefix : list Z := asc "--[[pod".
Definition k_meta_pod_raw_prefix : list Z := asc "--[[pod_format=" ++ [34] ++ asc "raw" ++ [34].
Definition k_meta_suffix : list Z := asc "]]".
Definition file_is_raw (data : list Z) : bool := negb (starts_with k_meta_pod_prefix data) || starts_with k_meta_pod_raw_prefix data.
(** l.454-461 and l.489-497: the getters *)
Definition raw_metadata (data : list Z) : option (list Z) :=
  if starts_with k_meta_pod_prefix data then
    match find_sub k_meta_suffix data with
    | Some (a, _) => Some (skipn 4 a)
    | None => Some (skipn 4 data)
    end
  else None.
Definition raw_payload (data : list Z) : list Z :=
  if starts_with k_meta_pod_prefix data then
    match find_sub k_meta_suffix data with Some (_, b) => b | None => [] end
  else data.
(** l.463-470 and l.499-507: the setters *)
Definition set_raw_metadata (data : list Z) (value : option (list Z)) : list Z :=
  match value with None => raw_payload data | Some m => k_meta_prefix ++ m ++ k_meta_suffix ++ raw_payload data end.
Definition set_raw_payload (data value : list Z) : list Z :=
  match raw_metadata data with Some m => k_meta_prefix ++ m ++ k_meta_suffix ++ value | None => value end.

(** l.472-487 *)
Definition file_metadata (read_function : list tok -> res (list tok * list tok)) (depth : nat) (data : list Z) : res (option pod) :=
  match raw_metadata data with
  | None => Ok None
  | Some m => v <- parse_meta_pod read_function (read_pod read_function depth) (decode_luastr m) ;; Ok (Some v)
  end.
Definition set_metadata (isdigit : Z -> bool) (data : list Z) (value : option entries) : res (list Z) :=
  match value with
  | None => Ok (set_raw_metadata data None)
  | Some t => text <- format_meta_pod isdigit t ;; m <- encode_luastr text ;; Ok (set_raw_metadata data (Some m))
  end.
(** l.509-530: a payload is a pod or, in a raw file, bytes *)
Definition file_payload (read_function : list tok -> res (list tok * list tok)) (depth : nat) (data : list Z) : res (list Z + pod) :=
  if file_is_raw data then Ok (inl (raw_payload data))
  else v <- read_pod read_function depth (raw_payload data) ;; Ok (inr v).
Definition set_payload (isdigit : Z -> bool) (int16 : list Z -> option Z) (o : write_opts) (data : list Z) (value : list Z + pod) : res (list Z) :=
  match value with
  | inl b => if file_is_raw data then Ok (set_raw_payload data b) else Err ECheck
  | inr v => if file_is_raw data then Err EType else b <- write_pod isdigit int16 o v ;; Ok (set_raw_payload data b)
  end.
