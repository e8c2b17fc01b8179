(** Model of the preprocessor and of source locations: /repo/pico_preprocess.py,
    /repo/pico_process.py l.82-147. *)
From Verif Require Import M_Base M_Text.
Open Scope nat_scope.

(** [CodeMapping], pico_preprocess.py l.3-5. *)
Record mapping := mkmap { m_idx : nat; m_path : list Z; m_code : list Z; m_src : nat; m_line : nat }.

(** [s.find(sub)]: the first place where [sub] stands. *)
Fixpoint find (sub s : list Z) : option nat :=
  if starts_with sub s then Some 0
  else match s with [] => None | _ :: t => option_map S (find sub t) end.

(** [k_long_brackets_re.match], l.7, at the start of [s]: the length of the match of
    "[" "="* "[" .. "]" "="* "]" with the nearest closing bracket.  *)
Fixpoint count_eq (s : list Z) : nat := match s with c :: t => if (c =? 61)%Z then S (count_eq t) else 0 | [] => 0 end.
Definition close_bracket (n : nat) : list Z := [93%Z] ++ repeat 61%Z n ++ [93%Z].
Definition long_brackets (s : list Z) : option nat :=
  match s with
  | o :: t =>
      if (o =? 91)%Z then
        let n := count_eq t in
        match skipn n t with
        | o2 :: u =>
            if (o2 =? 91)%Z then
              match find (close_bracket n) u with Some k => Some (1 + n + 1 + k + (n + 2)) | None => None end
            else None
        | [] => None
        end
      else None
  | [] => None
  end.

(** The rest of a line, l.42-43. *)
Fixpoint line_len (s : list Z) : nat := match s with c :: t => if (c =? 10)%Z then 0 else S (line_len t) | [] => 0 end.
(** A string after its opening quote [q], l.49-52 (the index may end up past the end). *)
Fixpoint string_len (q : Z) (s : list Z) : nat :=
  match s with
  | [] => 1
  | c :: t =>
      if (c =? q)%Z then 1
      else if (c =? 92)%Z then match t with [] => 3 | _ :: t' => 2 + string_len q t' end
      else S (string_len q t)
  end.
(** [k_wspace], l.8. *)
Definition k_wspace (c : Z) : bool := ((c =? 32) || (c =? 9) || (c =? 13) || (c =? 10))%Z.
(** l.60-66: how far back the line starts, if there is only whitespace before; the text
    before is given backwards. *)
Fixpoint back_to_line (r : list Z) : option nat :=
  match r with
  | [] => Some 0
  | c :: t => if k_wspace c then if (c =? 10)%Z then Some 0 else option_map S (back_to_line t) else None
  end.
(** [split(maxsplit=1)], l.72: the first word and the rest without the space between. *)
Fixpoint word_len (s : list Z) : nat := match s with c :: t => if py_isspace c then 0 else S (word_len t) | [] => 0 end.
Definition split_once (s : list Z) : list (list Z) :=
  let s := lstrip s in
  match s with
  | [] => []
  | _ => let n := word_len s in
         match lstrip (skipn n s) with [] => [firstn n s] | rest => [firstn n s; rest] end
  end.
(** "#include" *)
Definition str_include : list Z := [35; 105; 110; 99; 108; 117; 100; 101]%Z.

(** *** Tabs: [trim_cart_to_tab], l.111-142.  "\n-->8\n" *)
Definition k_tab_break : list Z := [10; 45; 45; 62; 56; 10]%Z.
Fixpoint tab_range (fuel : nat) (code : list Z) (tab start target : nat) : res (nat * nat) :=
  match fuel with
  | O => Err EFuel
  | S fuel =>
      if start <? length code then
        let end_ := match find k_tab_break (skipn start code) with Some k => start + k | None => length code end in
        if tab =? target then Ok (start, end_)
        else tab_range fuel code (S tab) (end_ + length k_tab_break) target
      else Err ECheck
  end.
Definition text_slice (code : list Z) (a b : nat) : list Z := firstn (b - a) (skipn a code).
Fixpoint trim_map (path : list Z) (start end_ : nat) (acc : list mapping) (maps : list mapping) : list mapping :=
  match maps with
  | [] => acc
  | m :: maps =>
      if end_ <? m_idx m then acc
      else
        let acc := if m_idx m <=? start then [] else acc in
        trim_map path start end_
          (acc ++ [mkmap (m_idx m - start) (m_path m) (m_code m)
                         (m_src m + (if zeqb_list (m_path m) path then start else 0)) (m_line m)]) maps
  end.
(** An included cart: its path, code and code map. *)
Record icart := mkicart { i_path : list Z; i_code : list Z; i_map : list mapping }.
Definition trim_cart_to_tab (c : icart) (target : nat) : res icart :=
  '(start, end_) <- tab_range (S (length (i_code c))) (i_code c) 0 0 target ;;
  Ok (mkicart (i_path c) (text_slice (i_code c) start end_) (trim_map (i_path c) start end_ [] (i_map c))).

(** [read_included_cart], l.83-109.  [load] stands for finding and reading the cart
    named in the directive (l.89-99). *)
Definition hex_value (c : Z) : option nat :=
  if ((48 <=? c) && (c <=? 57))%Z then Some (Z.to_nat (c - 48))
  else if ((97 <=? c) && (c <=? 102))%Z then Some (Z.to_nat (c - 87))
  else if ((65 <=? c) && (c <=? 70))%Z then Some (Z.to_nat (c - 55)) else None.
Definition tab_suffix (name : list Z) : option (list Z * nat) :=
  match rev name with
  | d :: c :: r => if (c =? 58)%Z then match hex_value d with Some v => Some (rev r, v) | None => None end else None
  | _ => None
  end.
Definition shift_map (k : nat) (m : mapping) : mapping := mkmap (k + m_idx m) (m_path m) (m_code m) (m_src m) (m_line m).
Section Preprocess.
Context (load : list Z -> res icart).
Definition read_included_cart (name : list Z) : res icart :=
  match tab_suffix name with
  | Some (name, tab) => c <- load name ;; trim_cart_to_tab c tab
  | None => load name
  end.
Definition included_map (out_i : nat) (c : icart) : list mapping :=
  match i_map c with
  | [] => [mkmap out_i (i_path c) (i_code c) 0 0]
  | maps => map (shift_map out_i) maps
  end.

(** [preprocess_code], l.10-78. *)
Context (path code : list Z) (start_line : nat).
Record pstate := mkps { p_i : nat; p_start : nat; p_out_i : nat; p_parts : list (list Z); p_maps : list mapping }.
Definition goto (st : pstate) (i : nat) : pstate := mkps i (p_start st) (p_out_i st) (p_parts st) (p_maps st).
Definition flush_output (st : pstate) : pstate :=
  if p_start st <? p_i st then
    mkps (p_i st) (p_i st) (p_out_i st + (p_i st - p_start st))
      (p_parts st ++ [text_slice code (p_start st) (p_i st)])
      (p_maps st ++ [mkmap (p_out_i st) path code (p_start st) start_line])
  else mkps (p_i st) (p_i st) (p_out_i st) (p_parts st) (p_maps st).
Fixpoint pre_loop (fuel : nat) (st : pstate) : res pstate :=
  match fuel with
  | O => Err EFuel
  | S fuel =>
      let i := p_i st in
      let s := skipn i code in
      match s with
      | [] => Ok (flush_output st)
      | ch :: t =>
          let next := match t with c :: _ => c | [] => (-1)%Z end in
          if ((ch =? 45) && (next =? 45))%Z then
            let u := skipn (i + 2) code in
            match long_brackets u with
            | Some n => pre_loop fuel (goto st (i + 2 + n))
            | None => pre_loop fuel (goto st (i + 2 + line_len u))
            end
          else if ((ch =? 91) && (next =? 91))%Z then
            match long_brackets s with
            | Some n => pre_loop fuel (goto st (i + n))
            | None => pre_loop fuel st
            end
          else if ((ch =? 34) || (ch =? 39))%Z then pre_loop fuel (goto st (i + 1 + string_len ch t))
          else if negb (ch =? 35)%Z then pre_loop fuel (goto st (i + 1))
          else if negb (match t with [] => true | c :: _ => k_wspace c end) && negb (next =? 40)%Z then
            match back_to_line (rev (firstn i code)) with
            | None => pre_loop fuel (goto st (i + 1))
            | Some k =>
                let st := flush_output (goto st (i - k)) in
                let n := line_len s in
                match split_once (firstn n s) with
                | [w; name] =>
                    if zeqb_list w str_include then
                      c <- read_included_cart name ;;
                      pre_loop fuel (mkps (i + n) (i + n) (p_out_i st + length (i_code c)) (p_parts st ++ [i_code c])
                                          (p_maps st ++ included_map (p_out_i st) c))
                    else pre_loop fuel (goto st (i + 1))
                | _ => pre_loop fuel (goto st (i + 1))
                end
            end
          else pre_loop fuel (goto st (i + 1))
      end
  end.
Definition preprocess_code (fuel : nat) : res (list Z * list mapping) :=
  st <- pre_loop fuel (mkps 0 0 0 [] []) ;; Ok (concat (p_parts st), p_maps st).
End Preprocess.

(** Included carts are themselves read and preprocessed (l.99; pico_cart.py l.436-437 for
    the text): [fs] gives a file's code and the line it starts on, [resolve] the path of a
    name included from a path (l.89-94), [depth] bounds the nesting as Python's recursion
    limit does. *)
Fixpoint read_cart_code (fs : list Z -> res (list Z * nat)) (resolve : list Z -> list Z -> res (list Z)) (depth : nat) (path : list Z) : res icart :=
  match depth with
  | O => Err ERecursion
  | S depth =>
      '(text, line) <- fs path ;;
      '(out, maps) <- preprocess_code (fun name => p <- resolve path name ;; read_cart_code fs resolve depth p)
                        path text line (S (length text)) ;;
      Ok (mkicart path out maps)
  end.

(** *** Locations, pico_process.py *)
(** [get_line_col], l.82-92. *)
Fixpoint line_col (fuel : nat) (text : list Z) (idx start line : nat) : res (nat * Z) :=
  match fuel with
  | O => Err EFuel
  | S fuel =>
      let done := Ok (line, (Z.of_nat idx - Z.of_nat start)%Z) in
      if start <? idx then
        match find [10%Z] (skipn start text) with
        | None => done
        | Some k => if idx <=? start + k then done else line_col fuel text idx (S (start + k)) (S line)
        end
      else done
  end.
Definition get_line_col (text : list Z) (idx start : nat) : res (nat * Z) := line_col (S idx) text idx start 0.
(** [get_tab_line_col], l.94-105. *)
Fixpoint tab_line_col (fuel : nat) (text : list Z) (idx start tab : nat) : res (nat * (nat * Z)) :=
  match fuel with
  | O => Err EFuel
  | S fuel =>
      let done := lc <- get_line_col text idx start ;; Ok (tab, lc) in
      if (start <? idx) && (tab <? 15) then
        match find k_tab_break (skipn start text) with
        | None => done
        | Some k => if idx <=? start + k then done else tab_line_col fuel text idx (start + k + length k_tab_break) (S tab)
        end
      else done
  end.
Definition get_tab_line_col (text : list Z) (idx : nat) : res (nat * (nat * Z)) := tab_line_col (S idx) text idx 0 0.

(** [CartSource.get_location], l.140-146: the file, its text and the place in it ([path],
    [text]: those of the cart itself), and the first line's number; [get_source_location],
    l.111-116, adds that number to the line. *)
Definition get_location (path text : list Z) (maps : list mapping) (idx : nat) : list Z * list Z * nat * nat :=
  match List.find (fun m => m_idx m <=? idx) (rev maps) with
  | Some m => (m_path m, m_code m, m_src m + (idx - m_idx m), m_line m)
  | None => (path, text, idx, 0)
  end.
Definition get_source_location (path text : list Z) (idx start_line : nat) : res (list Z * nat * Z) :=
  '(line, col) <- get_line_col text idx 0 ;; Ok (path, line + start_line, col).
