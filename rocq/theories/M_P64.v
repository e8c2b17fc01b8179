(** Model of Picotron text carts (.p64), /repo/picotron_cart.py l.432-545.  A file is its
    bytes; a path is the bytes [encode_luastr] gives for it. *)
From Verif Require Import M_Base M_Fold M_Text M_Url M_Files M_Pxu M_Cart64.
Open Scope Z_scope.

(** l.432-437 *)
Definition k_p64_prefix : list Z := [112;105;99;111;116;114;111;110;32;99;97;114;116;114;105;100;103;101].
Definition k_p64_file_prefix : list Z := [58;58;32].
Definition k_p64_b64_prefix : list Z := [98;54;52;36].
Definition k_p64_end_file : list Z := [91;101;111;99;93].
Definition p64_version : list Z := [118;101;114;115;105;111;110;32].
Definition p64_url : list Z := [32;47;47;32;119;119;119;46;112;105;99;111;116;114;111;110;46;110;101;116].

(** [bytes.splitlines]: lines end at "\n", "\r" and "\r\n" *)
Fixpoint splitlines (cur d : list Z) : list (list Z) :=
  match d with
  | [] => match cur with [] => [] | _ => [rev cur] end
  | c :: t =>
      if c =? 10 then rev cur :: splitlines [] t
      else if c =? 13 then
        match t with
        | e :: u => if e =? 10 then rev cur :: splitlines [] u else rev cur :: splitlines [] t
        | [] => rev cur :: splitlines [] t
        end
      else splitlines (c :: cur) t
  end.

(** whitespace of [bytes.strip] and [bytes.split] *)
Definition b_isspace (c : Z) : bool := ((9 <=? c) && (c <=? 13)) || (c =? 32).
Fixpoint b_lstrip (s : list Z) : list Z :=
  match s with c :: t => if b_isspace c then b_lstrip t else s | [] => [] end.
Definition b_strip (s : list Z) : list Z := rev (b_lstrip (rev (b_lstrip s))).
Fixpoint b_split (cur s : list Z) : list (list Z) :=
  match s with
  | [] => match cur with [] => [] | _ => [rev cur] end
  | c :: t =>
      if b_isspace c then match cur with [] => b_split [] t | _ => rev cur :: b_split [] t end
      else b_split (c :: cur) t
  end.

(** [b"\n".join(lines)] *)
Fixpoint nl_join (lines : list (list Z)) : list Z :=
  match lines with
  | [] => []
  | [l] => l
  | l :: ls => l ++ 10 :: nl_join ls
  end.

(** [pico_base64_decode] without validation, /repo/pico_cart.py l.544-545: other characters
    are dropped.  What Python makes of misplaced padding is an error here. *)
Definition b64_loose (s : list Z) : res (list Z) :=
  b64_decode (filter (fun c => is_ok (b64_val c) || (c =? 61)) s).

Section Read.
(** [int(bytes)] *)
Context (int10 : list Z -> option Z).

Record p64_state := mkp64 { p_fspath : option (list Z); p_lines : list (list Z); p_version : Z; p_files : @files (list Z) }.

(** [flush], l.449-458 *)
Definition p64_flush (st : p64_state) : res (@files (list Z)) :=
  match p_fspath st with
  | None | Some [] => Ok (p_files st)
  | Some fspath =>
      if ends_with [47] fspath then Ok (set (p_files st) fspath None)
      else
        let data := nl_join (p_lines st) in
        data <- (if starts_with k_p64_b64_prefix data then b64_loose (skipn 4 data) else Ok data) ;;
        Ok (set (p_files st) fspath (Some data))
  end.

(** the loop of l.460-474; line numbers are left out *)
Definition p64_line (raw : bool) (st : p64_state) (line : list Z) : res p64_state :=
  if starts_with k_p64_file_prefix line && negb raw then
    fs <- p64_flush st ;;
    let fspath := b_strip (skipn 3 line) in
    Ok (mkp64 (if zeqb_list fspath k_p64_end_file then None else Some fspath) [] (p_version st) fs)
  else if match p_fspath st with None => starts_with p64_version line | _ => false end then
    match b_split [] line with
    | _ :: w :: _ =>
        match int10 w with
        | Some v => Ok (mkp64 (p_fspath st) (p_lines st) v (p_files st))
        | None => Err EValue
        end
    | _ => Err EIndex
    end
  else Ok (mkp64 (p_fspath st) (p_lines st ++ [line]) (p_version st) (p_files st)).
Fixpoint p64_lines (raw : bool) (st : p64_state) (lines : list (list Z)) : res p64_state :=
  match lines with
  | [] => Ok st
  | line :: lines => st <- p64_line raw st line ;; p64_lines raw st lines
  end.

(** [read_cart64_from_source], l.439-481; [version] is the version a new cart starts with *)
Definition read_cart64_from_source (version : Z) (raw : bool) (data : list Z) : res cart64 :=
  let raw := raw || (negb (starts_with k_p64_prefix data) && negb (starts_with k_p64_file_prefix data)) in
  st <- p64_lines raw (mkp64 (if raw then Some main_lua else None) [] version []) (splitlines [] data) ;;
  if raw then fs <- p64_flush st ;; Ok (mkcart64 (p_version st) fs)
  else match p_fspath st with
       | None | Some [] => Ok (mkcart64 (p_version st) (p_files st))
       | Some _ => Err ECheck
       end.
End Read.

(** l.483-484: the regular expressions, in multiline mode *)
Definition max_bad_char (c : Z) : bool :=
  ((0 <=? c) && (c <=? 8)) || ((11 <=? c) && (c <=? 12)) || ((14 <=? c) && (c <=? 31)) || (127 <=? c).
Fixpoint file_at_line (start : bool) (d : list Z) : bool :=
  (start && starts_with k_p64_file_prefix d) ||
  match d with [] => false | c :: t => file_at_line (c =? 10) t end.
Definition bad_p64 (avoid_base64 : bool) (data : list Z) : bool :=
  existsb (if avoid_base64 then Z.eqb 0 else max_bad_char) data || file_at_line true data.

(** [preview_order_key], l.486-502 *)
Definition preview_key (p : list Z) : list Z * Z * list Z :=
  let '(dirname, filename) := split_last_slash p in
  let order :=
    if zeqb_list filename [] then -3
    else if zeqb_list filename main_lua then -2
    else if ends_with ext_lua filename then -1
    else if zeqb_list filename label_qoi || zeqb_list filename label_png then 1
    else if starts_with [46] filename then 2
    else 0 in
  (dirname, order, filename).
Definition preview_leb {A} (x y : list Z * A) : bool :=
  let '(d, o, f) := preview_key (fst x) in
  let '(d', o', f') := preview_key (fst y) in
  str_lex d d' ((o <? o') || ((o =? o') && str_leb f f')).

(** the lines of one file, l.513-521 *)
Definition p64_file_lines (avoid_base64 : bool) (f : list Z * option (list Z)) : list (list Z) :=
  let '(fspath, file) := f in
  (k_p64_file_prefix ++ fspath) ::
  match file with
  | None => []
  | Some data =>
      if bad_p64 avoid_base64 data then
        let data := k_p64_b64_prefix ++ b64_encode data in
        chunks (length data) 76 data
      else [data]
  end.

(** [write_cart64_to_source], l.504-525 *)
Definition write_cart64_to_source (avoid_base64 : bool) (cart : cart64) : list Z :=
  let lines := [k_p64_prefix ++ p64_url;
                p64_version ++ (if c64_version cart <? 0 then 45 :: dec_str (- c64_version cart) else dec_str (c64_version cart));
                []] ++
    concat (map (p64_file_lines avoid_base64) (sorted_by preview_leb (c64_files cart))) ++
    [k_p64_file_prefix ++ k_p64_end_file] in
  nl_join lines ++ [10].

(** [write_cart64_to_raw_source], l.527-530 *)
Definition write_cart64_to_raw_source (cart : cart64) : res (list Z) :=
  match get (c64_files cart) main_lua with
  | Some (Some data) => Ok data
  | Some None => Err EType
  | None => Err ECheck
  end.
