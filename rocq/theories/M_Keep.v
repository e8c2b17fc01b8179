(** Model of the comments that minifying keeps: [output_node], /repo/pico_output.py l.297-385, with [minify_wspace] and [exclude_comments], on
    the sequence of tokens the traversal visits, as in M_Token, each with the comments before it.

    Simplifications: of the comments, only those with [CommentHint.keep] are there, as the others are passed over (l.345). *)
From Coq Require Import String List ZArith Bool.
From Verif Require Import M_Base M_Fold M_Token M_Expr M_Hints.
Import ListNotations.
Open Scope list_scope.
Open Scope Z_scope.

(** A [Comment]: its text in the source with its marks and, if it goes to the end of the line, with the line break; [hintprefix];
    [k_glued]: it stood directly behind the previous token or comment; [k_newline]: line breaks are kept and its line is another one. *)
Record kcomment := mkkept { k_value : list Z; k_prefix : list Z; k_glued : bool; k_newline : bool }.
(** A token with its comments; [o_glued] and [o_newline] of the token are about the last of them, if there is one. *)
Record kitem := mkitem { k_comments : list kcomment; k_item : out_item }.
Definition k_keep_prefix : list Z := asc "keep:".
(** l.342: [comment.value.replace(comment.hintprefix + k_keep_prefix, "", 1)] *)
Definition comment_out (c : kcomment) : list Z :=
  match find_sub (k_prefix c ++ k_keep_prefix) (k_value c) with Some (a, b) => a ++ b | None => k_value c end.
Definition has_break (s : list Z) : bool := existsb (Z.eqb 10) s.
(** [comment_output], l.337-361, for the comments of a token: [wspace_output] (l.309-325) with [can_need_linebreak] false, where
    [need_whitespace_between] is always false (l.260); [first]: nothing is before it *)
Fixpoint out_comments (first need_linebreak : bool) (cs : list kcomment) : list Z * bool :=
  match cs with
  | [] => ([], need_linebreak)
  | c :: cs =>
      let '(sep, need_linebreak) := if first || k_glued c then ([], need_linebreak) else if k_newline c then ([10], false) else ([], need_linebreak) in
      let out := comment_out c in
      let '(rest, need_linebreak) := out_comments false (need_linebreak && negb (has_break out)) cs in
      (sep ++ out ++ rest, need_linebreak)
  end.
Definition is_first (prev : option tok) : bool := match prev with None => true | Some _ => false end.
(** [token_output], l.363-373; at the end the token without a value, with the last comments *)
Fixpoint output_kept (lang : language) (prev : option tok) (need_linebreak : bool) (l : list kitem) (ends : list kcomment) : res (list Z) :=
  match l with
  | [] => Ok (fst (out_comments (is_first prev) need_linebreak ends))
  | x :: l =>
      let t := k_item x in
      let '(comments, need_linebreak) := out_comments (is_first prev) (need_linebreak || o_linebreak t) (k_comments x) in
      ' (sep, need_linebreak) <-
        match prev, k_comments x with
        | None, [] => Ok ([], need_linebreak)
        | Some p, [] =>
            if o_glued t then Ok ([], need_linebreak)
            else if need_linebreak || o_newline t then Ok ([10], false)
            else w <- need_whitespace_between lang p (o_tok t) ;; Ok (if w then [32] else [], need_linebreak)
        | _, _ :: _ =>
            if o_glued t then Ok ([], need_linebreak)
            else if need_linebreak || o_newline t then Ok ([10], false)
            else Ok ([], need_linebreak)
        end ;;
      rest <- output_kept lang (Some (o_tok t)) need_linebreak l ends ;;
      Ok (comments ++ sep ++ tok_value (o_tok t) ++ rest)
  end.
Definition output_with_kept (lang : language) (l : list kitem) (ends : list kcomment) : res (list Z) := output_kept lang None false l ends.
