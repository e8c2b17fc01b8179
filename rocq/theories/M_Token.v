(** Model of the tokenizer, /repo/pico_tokenize.py l.298-305 and l.319-708, without a
    context: no hints, no dynamic includes, no sublanguages; comments are dropped
    ([all_comments] false).  Positions are not kept: a token is its type and text. *)
From Verif Require Import M_Base M_Fold.
Open Scope Z_scope.

Inductive ttype := TNumber | TIdent | TKeyword | TString | TPunct.
(** [TErr] is the valueless token that [add_error] (l.391-393) adds; every such token comes
    with one entry in [errors]. *)
Inductive tok := Tok (ty : ttype) (value : list Z) | TErr.

Definition mem (c : Z) (l : list Z) : bool := existsb (Z.eqb c) l.
Definition is_pico8 (lang : language) : bool := match lang with Pico8 => true | Picotron => false end.

(** [k_wspace], /repo/pico_preprocess.py l.8. *)
Definition k_wspace : list Z := [32; 9; 13; 10].

(** [is_ident_char], l.298-300. *)
Definition is_ident_char (lang : language) (c : Z) : bool :=
  ((48 <=? c) && (c <=? 57)) || ((97 <=? c) && (c <=? 122)) || ((65 <=? c) && (c <=? 90)) || (c =? 95)
  || (is_pico8 lang && ((c =? 30) || (c =? 31) || (128 <=? c))).
Definition is_dec_digit (c : Z) : bool := (48 <=? c) && (c <=? 57).

(** [keywords], l.5-10. *)
Definition keywords : list (list Z) :=
  [ [97;110;100]; [98;114;101;97;107]; [100;111]; [101;108;115;101]; [101;108;115;101;105;102]; [101;110;100];
    [102;97;108;115;101]; [102;111;114]; [102;117;110;99;116;105;111;110]; [103;111;116;111]; [105;102]; [105;110];
    [108;111;99;97;108]; [110;105;108]; [110;111;116]; [111;114]; [114;101;112;101;97;116]; [114;101;116;117;114;110];
    [116;104;101;110]; [116;114;117;101]; [117;110;116;105;108]; [119;104;105;108;101] ].
Definition is_keyword (s : list Z) : bool := existsb (zeqb_list s) keywords.

(** The longest prefix of characters satisfying [f], and the rest. *)
Fixpoint span (f : Z -> bool) (s : list Z) : list Z * list Z :=
  match s with
  | c :: t => if f c then let '(a, b) := span f t in (c :: a, b) else ([], s)
  | [] => ([], [])
  end.

(** [tokenize_number], l.575-612.  In Picotron, a sign continues the number after an
    exponent letter ([prev] is [peek(-1)]). *)
Fixpoint number_picotron (is_hex : bool) (prev : Z) (s : list Z) : list Z * list Z :=
  match s with
  | c :: t =>
      if is_ident_char Picotron c || (c =? 46)
         || (mem c [45; 43] && mem prev (if is_hex then [112; 80] else [101; 69]))
      then let '(a, b) := number_picotron is_hex c t in (c :: a, b)
      else ([], s)
  | [] => ([], [])
  end.
Definition hex_digits : list Z := [48;49;50;51;52;53;54;55;56;57;97;65;98;66;99;67;100;68;101;69;102;70].
Definition starts_with2 (a : Z) (bs : list Z) (s : list Z) : bool :=
  match s with x :: y :: _ => (x =? a) && mem y bs | _ => false end.
Definition number_pico8 (s : list Z) : list Z * list Z :=
  let dig d c := mem c d || (c =? 46) in
  if starts_with2 48 [98; 66] s then let '(a, b) := span (dig [48; 49]) (skipn 2 s) in (firstn 2 s ++ a, b)
  else if starts_with2 48 [120; 88] s then let '(a, b) := span (dig hex_digits) (skipn 2 s) in (firstn 2 s ++ a, b)
  else span (fun c => is_dec_digit c || (c =? 46)) s.
Definition scan_number (lang : language) (s : list Z) : list Z * list Z :=
  match lang with
  | Pico8 => number_pico8 s
  | Picotron => number_picotron (starts_with2 48 [120; 88] s) 0 s
  end.

(** [tokenize_ident], l.614-624. *)
Definition ident_tok (s : list Z) : tok := Tok (if is_keyword s then TKeyword else TIdent) s.

(** [tokenize_string], l.626-650, from behind the opening quote.  [SLoop]: [peek()] is the
    empty string at the end of the text, which Python finds "in" [k_wspace], so the loop of
    l.639-640 never ends. *)
Inductive sscan := SDone (consumed rest : list Z) | SUnterm (consumed rest : list Z) | SLoop.
Definition scons (c : Z) (r : sscan) : sscan :=
  match r with SDone a b => SDone (c :: a) b | SUnterm a b => SUnterm (c :: a) b | SLoop => SLoop end.
Inductive smode := MText | MEscape | MSkip.
Fixpoint scan_string (quote : Z) (mode : smode) (s : list Z) : sscan :=
  match s with
  | [] => match mode with MSkip => SLoop | _ => SUnterm [] [] end
  | c :: t =>
      let text :=
        if c =? 10 then SUnterm [c] t
        else if c =? 92 then scons c (scan_string quote MEscape t)
        else if c =? quote then SDone [c] t
        else scons c (scan_string quote MText t) in
      match mode with
      | MEscape => scons c (scan_string quote (if c =? 122 then MSkip else MText) t)
      | MSkip => if mem c k_wspace then scons c (scan_string quote MSkip t) else text
      | MText => text
      end
  end.

(** [text.find(pat, idx)]: what precedes the first occurrence, and what follows it. *)
Definition is_prefix (p s : list Z) : bool := zeqb_list p (firstn (length p) s).
Fixpoint find_sub (pat s : list Z) : option (list Z * list Z) :=
  if is_prefix pat s then Some ([], skipn (length pat) s)
  else match s with
       | [] => None
       | c :: t => match find_sub pat t with Some (a, b) => Some (c :: a, b) | None => None end
       end.

(** [tokenize_long_brackets], l.546-564, from the first bracket.  [LOk]: the text of the
    whole bracketed part and the rest; [LUnterm]: opened but not closed; [LNo]: not opened.
    The last two carry what follows the characters accepted so far. *)
Inductive lscan := LOk (value inner rest : list Z) | LUnterm (rest : list Z) | LNo (rest : list Z).
Definition scan_long (s : list Z) : lscan :=
  match s with
  | 91 :: t =>
      let '(pad, u) := span (Z.eqb 61) t in
      match u with
      | 91 :: v =>
          match find_sub (93 :: pad ++ [93]) v with
          | Some (inner, rest) => LOk (91 :: pad ++ 91 :: inner ++ 93 :: pad ++ [93]) inner rest
          | None => LUnterm v
          end
      | _ => LNo u
      end
  | _ => LNo s
  end.

(** [tokenize_line_comment], l.537-544: what follows the line. *)
Fixpoint skip_line (s : list Z) : list Z :=
  match s with [] => [] | c :: t => if c =? 10 then t else skip_line t end.

(** Punctuation, l.683-696, from behind the first character [c]: the further characters
    accepted and the rest. *)
Definition accept (c : Z) (s : list Z) : list Z * list Z :=
  match s with x :: t => if x =? c then ([x], t) else ([], s) | [] => ([], []) end.
Definition scan_punct (lang : language) (c : Z) (s : list Z) : list Z * list Z :=
  let '(a1, s1) := if mem c [46; 58; 47; 94; 60; 62] then accept c s else ([], s) in
  match a1 with
  | _ :: _ =>
      let '(a2, s2) := if mem c (if is_pico8 lang then [46; 62] else [46]) then accept c s1 else ([], s1) in
      match a2 with
      | _ :: _ => if c =? 62 then let '(a3, s3) := accept 61 s2 in (a1 ++ a2 ++ a3, s3) else (a1 ++ a2, s2)
      | [] =>
          let '(a2, s2) :=
            if mem c [60; 62] && is_pico8 lang then accept (if c =? 60 then 62 else 60) s1 else ([], s1) in
          match a2 with
          | _ :: _ => let '(a3, s3) := accept 61 s2 in (a1 ++ a2 ++ a3, s3)
          | [] =>
              if mem c [46; 47; 94; 60; 62] then let '(a3, s3) := accept 61 s1 in (a1 ++ a3, s3) else (a1, s1)
          end
      end
  | [] =>
      if mem c [43; 45; 42; 47; 92; 37; 38; 124; 94; 60; 62; 61; 126] then accept 61 s else ([], s)
  end.
(** "+-*/\%&|^<>=~#()[]{};,?@$.:" *)
Definition punct_chars : list Z :=
  [43; 45; 42; 47; 92; 37; 38; 124; 94; 60; 62; 61; 126; 35; 40; 41; 91; 93; 123; 125; 59; 44; 63; 64; 36; 46; 58].

(** One round of the main loop, l.658-702, on a non-empty text: the tokens added and the
    remaining text, or an endless loop. *)
Inductive round := Round (toks : list tok) (rest : list Z) | Hang.
Definition next_is (f : Z -> bool) (s : list Z) : bool := match s with c :: _ => f c | [] => false end.
Definition tok_round (lang : language) (ch : Z) (t : list Z) : round :=
  let s := ch :: t in
  if mem ch k_wspace then Round [] t
  else if is_dec_digit ch || ((ch =? 46) && next_is is_dec_digit t) then
    let '(a, r) := scan_number lang s in Round [Tok TNumber a] r
  else if is_ident_char lang ch then
    let '(a, r) := span (is_ident_char lang) s in Round [ident_tok a] r
  else if (ch =? 34) || (ch =? 39) then
    match scan_string ch MText t with
    | SDone a r => Round [Tok TString (ch :: a)] r
    | SUnterm a r => Round [TErr; Tok TString (ch :: a)] r
    | SLoop => Hang
    end
  else if (ch =? 91) && next_is (fun c => mem c [61; 91]) t then
    match scan_long s with
    | LOk v _ r => Round [Tok TString v] r
    | LUnterm r => Round [TErr; TErr] r
    | LNo r => Round [TErr] r
    end
  else if (ch =? 45) && next_is (Z.eqb 45) t then
    let t := skipn 1 t in
    match scan_long t with
    | LOk _ _ r => Round [] r
    | LUnterm _ => Round [TErr] (skip_line t)
    | LNo _ => Round [] (skip_line t)
    end
  else if (ch =? 47) && is_pico8 lang && next_is (Z.eqb 47) t then Round [] (skip_line (skipn 1 t))
  else if mem ch punct_chars then
    let '(a, r) := scan_punct lang ch t in Round [Tok TPunct (ch :: a)] r
  else if (ch =? 33) && next_is (Z.eqb 61) t then Round [Tok TPunct [33; 61]] (skipn 1 t)
  else Round [TErr] t.

(** [tokenize], l.319-708.  Each round consumes a character, so the text's length is enough
    fuel; [Err EFuel] is left for the endless loop. *)
Fixpoint tok_loop (fuel : nat) (lang : language) (s : list Z) : res (list tok) :=
  match s with
  | [] => Ok []
  | ch :: t =>
      match fuel with
      | O => Err EFuel
      | S fuel =>
          match tok_round lang ch t with
          | Hang => Err EFuel
          | Round a r => b <- tok_loop fuel lang r ;; Ok (a ++ b)
          end
      end
  end.
Definition tokenize (lang : language) (s : list Z) : res (list tok) := tok_loop (length s) lang s.

(** [need_whitespace_between], /repo/pico_output.py l.259-265, for two tokens. *)
Definition ttype_eqb (a b : ttype) : bool :=
  match a, b with
  | TNumber, TNumber | TIdent, TIdent | TKeyword, TKeyword | TString, TString | TPunct, TPunct => true
  | _, _ => false
  end.
Definition tok_eqb (a b : tok) : bool :=
  match a, b with
  | Tok ta va, Tok tb vb => ttype_eqb ta tb && zeqb_list va vb
  | TErr, TErr => true
  | _, _ => false
  end.
Definition tok_value (t : tok) : list Z := match t with Tok _ v => v | TErr => [] end.
Definition need_whitespace_between (lang : language) (prev next : tok) : res bool :=
  ts <- tokenize lang (tok_value prev ++ tok_value next) ;;
  Ok match ts with
     | [a; b] => negb (tok_eqb a prev && tok_eqb b next)
     | _ => true
     end.

(** The same with the tokens' start positions ([Token.idx]); [endidx] is the position behind
    the token's text. *)
Fixpoint tok_loop_pos (fuel : nat) (lang : language) (idx : nat) (s : list Z) : res (list (nat * tok)) :=
  match s with
  | [] => Ok []
  | ch :: t =>
      match fuel with
      | O => Err EFuel
      | S fuel =>
          match tok_round lang ch t with
          | Hang => Err EFuel
          | Round a r =>
              b <- tok_loop_pos fuel lang (idx + (length s - length r)) r ;; Ok (map (fun x => (idx, x)) a ++ b)
          end
      end
  end.
Definition tokenize_pos (lang : language) (s : list Z) : res (list (nat * tok)) := tok_loop_pos (length s) lang 0 s.

(** [output_node], /repo/pico_output.py l.297-385, with [minify_wspace] and without comments,
    on the sequence of tokens the traversal visits.  [o_glued]: the token stood directly
    behind the previous one in the same source and neither was modified; [o_linebreak]:
    a short-form statement has ended since the previous token; [o_newline]: line breaks are
    kept and the token's line differs from the previous one's. *)
Record out_item := mkout { o_tok : tok; o_glued : bool; o_linebreak : bool; o_newline : bool }.
Fixpoint output_loop (lang : language) (prev : option tok) (need_linebreak : bool) (l : list out_item) : res (list Z) :=
  match l with
  | [] => Ok []
  | x :: l =>
      let need_linebreak := need_linebreak || o_linebreak x in
      ' (sep, need_linebreak) <-
        match prev with
        | None => Ok ([], need_linebreak)
        | Some p =>
            if o_glued x then Ok ([], need_linebreak)
            else if need_linebreak || o_newline x then Ok ([10], false)
            else w <- need_whitespace_between lang p (o_tok x) ;; Ok (if w then [32] else [], need_linebreak)
        end ;;
      rest <- output_loop lang (Some (o_tok x)) need_linebreak l ;;
      Ok (sep ++ tok_value (o_tok x) ++ rest)
  end.
Definition output_tokens (lang : language) (l : list out_item) : res (list Z) := output_loop lang None false l.
