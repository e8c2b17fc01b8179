(** Model of string literals: /repo/pico_tokenize.py l.828-923 and
    /repo/pico_output.py l.209-257.  Characters are code points. *)
From Verif Require Import M_Base M_Compress M_Fold M_Num M_Token.
Open Scope Z_scope.

(** [k_char_escapes], l.828-832. *)
Definition k_char_escapes : list (Z * Z) :=
  [(42, 1); (35, 2); (45, 3); (124, 4); (43, 5); (94, 6); (97, 7); (98, 8); (116, 9); (110, 10); (118, 11); (102, 12);
   (114, 13); (92, 92); (34, 34); (39, 39); (10, 10)].
Fixpoint assoc (c : Z) (l : list (Z * Z)) : option Z :=
  match l with [] => None | (k, v) :: l => if k =? c then Some v else assoc c l end.

(** [lang_chr], l.834-838. *)
Definition lang_chr (lang : language) (v : Z) : Z := if is_pico8 lang || (v <? 0x80) then v else 0xdc00 + v.

(** [ext_unicode_to_lang_str], l.840-850; the loop ends as [value] shrinks. *)
Fixpoint ext_unicode_loop (fuel : nat) (lang : language) (value count : Z) (suffix : list Z) : res (list Z) :=
  match fuel with
  | O => Err EFuel
  | S fuel =>
      if Z.shiftr 0x40 count <=? value
      then ext_unicode_loop fuel lang (Z.shiftr value 6) (count + 1) (lang_chr lang (0x80 + Z.land value 0x3f) :: suffix)
      else Ok (lang_chr lang (Z.land (Z.shiftr (-0x80) count) 0xff + value) :: suffix)
  end.
Definition ext_unicode_to_lang_str (lang : language) (value : Z) : res (list Z) :=
  if value <? 0x80 then Ok [lang_chr lang value] else ext_unicode_loop 8 lang value 0 [].

(** [maybe_int(s, base)], /repo/utils.py l.2515-2520, on digits; the signs, spaces and
    underscores that Python's [int] also takes are not modelled (None). *)
Definition maybe_int (digits s : list Z) : option Z :=
  match int_of_digits digits (lower s) with Ok v => Some v | Err _ => None end.

(** [str_get(str, end) in k_wspace] raises TypeError at the end of the string (None). *)
Fixpoint skip_wspace (s : list Z) : res (list Z) :=
  match s with
  | [] => Err EType
  | c :: t => if mem c k_wspace then skip_wspace t else Ok s
  end.

(** The decimal digits of an escape, at most [n]. *)
Fixpoint span_max (n : nat) (f : Z -> bool) (s : list Z) : list Z * list Z :=
  match n, s with
  | S n, c :: t => if f c then let '(a, b) := span_max n f t in (c :: a, b) else ([], s)
  | _, _ => ([], s)
  end.

(** [parse_char_escape], l.852-895, from behind the backslash: the characters and the rest. *)
Definition parse_char_escape (lang : language) (s : list Z) : res (list Z * list Z) :=
  match s with
  | [] => Err EType                                   (* '0' <= None *)
  | esc :: t =>
      match assoc esc k_char_escapes with
      | Some ch => Ok ([ch], t)
      | None =>
          if esc =? 122 then r <- skip_wspace t ;; Ok ([], r)
          else if esc =? 120 then
            match maybe_int k_digits16 (firstn 2 t) with
            | None => Err ECheck
            | Some v => Ok ([lang_chr lang v], skipn 2 t)
            end
          else if is_dec_digit esc then
            let '(d, r) := span_max 2 is_dec_digit t in
            match maybe_int k_digits10 (esc :: d) with
            | Some v => if 256 <=? v then Err ECheck else Ok ([lang_chr lang v], r)
            | None => Err ECheck
            end
          else if negb (is_pico8 lang) && (esc =? 117) then
            match t with
            | 123 :: t =>
                match find_sub [125] t with
                | None => Err ECheck
                | Some (d, r) =>
                    match maybe_int k_digits16 d with
                    | None => Err ECheck
                    | Some v => if 0x80000000 <=? v then Err ECheck
                                else u <- ext_unicode_to_lang_str lang v ;; Ok (u, r)
                    end
                end
            | _ => Err ECheck
            end
          else Err ECheck
      end
  end.

(** The loop of l.911-921; the stretches between backslashes are copied character by
    character here.  Each step consumes a character. *)
Fixpoint parse_quoted (fuel : nat) (lang : language) (s : list Z) : res (list Z) :=
  match s with
  | [] => Ok []
  | c :: t =>
      match fuel with
      | O => Err EFuel
      | S fuel =>
          if c =? 92 then
            ' (a, r) <- parse_char_escape lang t ;; b <- parse_quoted fuel lang r ;; Ok (a ++ b)
          else b <- parse_quoted fuel lang t ;; Ok (c :: b)
      end
  end.

(** re.sub(r"\n\r?|\r\n?", "\n", s) *)
Fixpoint norm_newlines (s : list Z) : list Z :=
  match s with
  | 10 :: (13 :: t) => 10 :: norm_newlines t
  | 13 :: (10 :: t) => 10 :: norm_newlines t
  | 13 :: t => 10 :: norm_newlines t
  | c :: t => c :: norm_newlines t
  | [] => []
  end.

(** [s[i:-i]], i > 0 *)
Definition slice_ends {A} (i : nat) (s : list A) : list A := firstn (length s - 2 * i) (skipn i s).

(** [parse_string_literal], l.897-923. *)
Definition parse_string_literal (lang : language) (s : list Z) : res (list Z) :=
  match s with
  | 91 :: t =>
      match index_of 91 t with                         (* str.index("[", 1) *)
      | None => Err EValue
      | Some i =>
          let lit := norm_newlines (slice_ends (i + 2) s) in
          Ok (match lit with 10 :: l => l | _ => lit end)
      end
  | _ => let s := slice_ends 1 s in parse_quoted (length s) lang s
  end.

(** [k_char_escapes_rev], [k_char_escapes_rev_min], l.209-212. *)
Definition k_char_escapes_rev : list (Z * list Z) :=
  [(1, [42]); (2, [35]); (3, [45]); (4, [124]); (5, [43]); (6, [94]); (7, [97]); (8, [98]); (9, [116]); (10, [110]);
   (11, [118]); (12, [102]); (13, [114]); (92, [92]); (34, [34]); (39, [39]); (0, [48]); (14, [49; 52]); (15, [49; 53])].
Definition k_char_escapes_rev_min : list (Z * list Z) :=
  [(10, [110]); (13, [114]); (92, [92]); (34, [34]); (39, [39]); (0, [48])].
Fixpoint assoc_str (c : Z) (l : list (Z * list Z)) : option (list Z) :=
  match l with [] => None | (k, v) :: l => if k =? c then Some v else assoc_str c l end.

(** [get_long_brackets_equals], l.214-218: the number of equal signs.  A terminator longer
    than the string cannot occur in it, so the length is enough fuel. *)
Definition long_end (n : nat) : list Z := 93 :: repeat 61 n ++ [93].
Definition contains (pat s : list Z) : bool := match find_sub pat s with Some _ => true | None => false end.
Fixpoint equals_loop (fuel i : nat) (value : list Z) : res nat :=
  match fuel with
  | O => Err EFuel
  | S fuel => if contains (long_end i) value then equals_loop fuel (S i) value else Ok i
  end.
Definition get_long_brackets_equals (value : list Z) : res nat := equals_loop (S (length value)) 0 value.

Definition count_ch (c : Z) (s : list Z) : nat := length (filter (Z.eqb c) s).

(** [format_string_literal], l.220-257.  [isdigit] is Python's [str.isdigit] on one
    character, about which only the ASCII digits matter. *)
Section Format.
Context (isdigit : Z -> bool).

Fixpoint escape_body (table : list (Z * list Z)) (exclude : Z) (s : list Z) : list Z :=
  match s with
  | [] => []
  | ch :: t =>
      (match assoc_str ch table with
       | Some esc =>
           if ch =? exclude then [ch]
           else
             let esc := if forallb isdigit esc && next_is isdigit t then zero_pad 3 esc else esc in
             92 :: esc
       | None => [ch]
       end) ++ escape_body table exclude t
  end.
Definition format_quoted (use_ctrl_chars : bool) (quote : option Z) (value : list Z) : list Z :=
  let quote := match quote with
               | Some q => q
               | None => if (count_ch 34 value <=? count_ch 39 value)%nat then 34 else 39
               end in
  let exclude_esc := if quote =? 34 then 39 else 34 in
  quote :: escape_body (if use_ctrl_chars then k_char_escapes_rev_min else k_char_escapes_rev) exclude_esc value
    ++ [quote].

Definition format_long (value : list Z) : res (list Z) :=
  let newline := match value with 10 :: _ => [10] | _ => [] end in
  n <- get_long_brackets_equals value ;;
  Ok (91 :: repeat 61 n ++ 91 :: newline ++ value ++ long_end n).

Definition format_string_literal (use_ctrl_chars use_complex_long : bool) (long : option bool) (quote : option Z)
    (value : list Z) : res (list Z) :=
  let strlit := format_quoted use_ctrl_chars quote value in
  match long with
  | Some false => Ok strlit
  | _ =>
      if negb (mem 0 value) && negb (mem 13 value) && (use_complex_long || negb (contains [93; 93] value)) then
        strlong <- format_long value ;;
        match long with
        | Some true => Ok strlong
        | _ => Ok (if zlen strlong <? zlen strlit then strlong else strlit)
        end
      else Ok strlit
  end.
End Format.

(** [minify_string_literal], /repo/pico_minify.py l.13-21: [focus_chars] and [version] select
    the form, [token_text] is the literal's source text and [value] its value. *)
Definition minify_string_literal (isdigit : Z -> bool) (focus_chars : bool) (version : Z) (token_text value : list Z)
    : res (list Z) :=
  if focus_chars then format_string_literal isdigit true (40 <=? version) None None value
  else format_string_literal isdigit true true (Some (match token_text with c :: _ => c =? 91 | [] => false end)) None value.
