(** Model of printing with the whitespace and the comments of the source: [get_orig_wspace] and [output_node], /repo/pico_output.py l.272-373,
    without [minify_wspace] and [exclude_comments], on the sequence of tokens the traversal visits, as in M_Token, each with its comments. *)
From Coq Require Import String List ZArith Bool.
From Verif Require Import M_Base M_Fold M_Token M_Str M_Expr M_Keep.
Import ListNotations.
Open Scope list_scope.
Open Scope Z_scope.

(** A [Comment]: its text in the source, with the line break if it goes to the end of the line; [isblock]; the source between the token or
    comment before it and it (l.274); whether it is on another line than that. *)
Record ocomment := mkoc { oc_value : list Z; oc_block : bool; oc_text : list Z; oc_newline : bool }.
(** A token with its comments; [oi_allow]: it is on another line than the token before it; [oi_text], [oi_newline] are about the last of its comments, if
    there is one; [oi_linebreak]: a shorthand has ended before it. *)
Record oitem := mkoi { oi_comments : list ocomment; oi_allow : bool; oi_tok : tok; oi_text : list Z; oi_newline : bool; oi_linebreak : bool }.

Section orig.
(** [isspace]: of a character. [spans]: where the first of the tokens in a text begins and the last ends, if there are any (l.277-281); these are removed tokens. *)
Context (isspace : Z -> bool) (spans : list Z -> option (nat * nat)) (lang : language).

Definition leading_spaces (s : list Z) : nat := length (fst (span (Z.eqb 32) s)).
(** [text[text.rfind("\n")+1:]] *)
Definition after_last_break (s : list Z) : list Z := rev (fst (span (fun c => negb (c =? 10)) (rev s))).
Definition before_first_break (s : list Z) : list Z := fst (span (fun c => negb (c =? 10)) s).
(** l.272-295 *)
Definition get_orig_wspace (text : list Z) (allow_linebreaks need_linebreak : bool) : list Z :=
  let '(text, need_linebreak) :=
    match text with
    | [] => ([], need_linebreak)
    | _ :: _ =>
        if forallb isspace text then (text, need_linebreak)
        else
          let '(text, need_linebreak) :=
            match spans text with
            | Some (first_idx, last_endidx) =>
                (match skipn last_endidx text with [] => firstn first_idx text | t => t end, need_linebreak || has_break text && allow_linebreaks)
            | None => (text, need_linebreak)
            end in
          let newlines := Nat.min (count_ch 10 text) 2 in
          let text := match newlines with O => text | S _ => after_last_break text end in
          (repeat 10 newlines ++ repeat 32 (Nat.max (leading_spaces text) (leading_spaces (rev text))), need_linebreak)
    end in
  let text := if negb allow_linebreaks && has_break text then before_first_break text ++ [32] else text in
  if need_linebreak && negb (has_break text) then text ++ [10] else text.

(** [re.sub(r"\n\s*", " ", s)], l.348 *)
Fixpoint join_lines (skip : bool) (s : list Z) : list Z :=
  match s with
  | [] => []
  | c :: s => if skip && isspace c then join_lines true s else if c =? 10 then 32 :: join_lines true s else c :: join_lines false s
  end.
(** l.345-353 *)
Definition comment_text (allow_linebreaks : bool) (c : ocomment) : res (list Z) :=
  if negb allow_linebreaks && has_break (oc_value c) then
    if oc_block c then Ok (join_lines false (oc_value c))
    else n <- get_long_brackets_equals (oc_value c) ;;
         Ok (asc "--[" ++ repeat 61 n ++ [91] ++ removelast (skipn 2 (oc_value c)) ++ [93] ++ repeat 61 n ++ [93])
  else Ok (oc_value c).
(** [comment_output], l.337-361, for the comments of a token *)
Fixpoint orig_comments (allow_linebreaks need_linebreak : bool) (cs : list ocomment) : res (list Z * bool) :=
  match cs with
  | [] => Ok ([], need_linebreak)
  | c :: cs =>
      let wspace := get_orig_wspace (oc_text c) (oc_newline c) false in
      out <- comment_text allow_linebreaks c ;;
      ' (rest, need_linebreak) <- orig_comments allow_linebreaks (need_linebreak && negb (has_break wspace) && negb (has_break out)) cs ;;
      Ok (wspace ++ out ++ rest, need_linebreak)
  end.
(** [token_output], l.363-373; at the end the token without a value, with the last comments *)
Fixpoint output_orig_loop (prev : option tok) (need_linebreak : bool) (l : list oitem) (end_allow : bool) (ends : list ocomment) : res (list Z) :=
  match l with
  | [] => ' (out, _) <- orig_comments end_allow need_linebreak ends ;; Ok out
  | x :: l =>
      ' (comments, need_linebreak) <- orig_comments (oi_allow x) (need_linebreak || oi_linebreak x) (oi_comments x) ;;
      let wspace := get_orig_wspace (oi_text x) (oi_newline x) need_linebreak in
      wspace <-
        match wspace, prev, oi_comments x with
        | [], Some p, [] => w <- need_whitespace_between lang p (oi_tok x) ;; Ok (if w then [32] else [])
        | _, _, _ => Ok wspace
        end ;;
      rest <- output_orig_loop (Some (oi_tok x)) (need_linebreak && negb (has_break wspace)) l end_allow ends ;;
      Ok (comments ++ wspace ++ tok_value (oi_tok x) ++ rest)
  end.
Definition output_orig (l : list oitem) (end_allow : bool) (ends : list ocomment) : res (list Z) := output_orig_loop None false l end_allow ends.
End orig.
