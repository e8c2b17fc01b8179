(** Comments and whitespace of the source, and in the output. *)
From Coq Require Import String List ZArith.
From Verif Require Import M_Base M_Fold M_Token S_Token M_Expr M_Hints S_Gap S_Hints M_Orig.
Import ListNotations.
Open Scope list_scope.
Open Scope Z_scope.

(** A text that is all whitespace is so to the tokenizer too. *)
Definition space_only (isspace : Z -> bool) (text : list Z) : Prop := forallb isspace text = true.
Definition text_ok (isspace : Z -> bool) (text : list Z) : Prop := space_only isspace text -> forall c, In c text -> In c [32; 9; 13; 10].
(** A text with its line breaks, and the whitespace behind each of them, replaced by a space *)
Inductive joined (isspace : Z -> bool) : list Z -> list Z -> Prop :=
| joined_end : joined isspace [] []
| joined_char c s t : c <> 10 -> joined isspace s t -> joined isspace (c :: s) (c :: t)
| joined_break w s t : Forall (fun c => isspace c = true) w -> (forall c s', s = c :: s' -> isspace c = false) -> joined isspace s t -> joined isspace (10 :: w ++ s) (32 :: t).
(** A comment of the source and what it becomes, where line breaks are allowed and where not.  Where not, one to the end of the line
    becomes one in brackets; its text must not end with a bracket and equal signs. *)
Inductive stays (isspace : Z -> bool) (lang : language) (c : ocomment) : bool -> comment -> Prop :=
| stays_line c0 text : oc_block c = false -> oc_value c = c0 ++ [10] -> line_text lang c0 text -> stays isspace lang c true (false, text)
| stays_block allow text : oc_block c = true -> block_text (oc_value c) text -> (allow = true \/ ~ In 10 text) -> stays isspace lang c allow (true, text)
| line_joined c0 text : oc_block c = false -> oc_value c = c0 ++ [10] -> line_text lang c0 text -> (forall x k, text <> x ++ 93 :: repeat 61 k) ->
    stays isspace lang c false (true, text)
| block_joined text text' : oc_block c = true -> block_text (oc_value c) text -> In 10 text -> joined isspace text text' -> stays isspace lang c false (true, text').
(** The comment may follow the token: there is whitespace between them, or it can begin right behind it. *)
Definition may_follow (isspace : Z -> bool) (lang : language) (p : tok) (c : ocomment) : Prop :=
  oc_text c <> [] /\ space_only isspace (oc_text c) \/
  exists x, head (oc_value c) = Some x /\ tokenize lang (tok_value p ++ [x]) = Ok [p; Tok TPunct [x]] /\ tokenize lang (tok_value p ++ [45]) = Ok [p; Tok TPunct [45]].
Definition comments_ok (isspace : Z -> bool) (lang : language) (allow : bool) (prev : option tok) (cs : list ocomment) (os : list comment) : Prop :=
  Forall2 (fun c o => stays isspace lang c allow o /\ text_ok isspace (oc_text c)) cs os /\
  match prev, cs with Some p, c :: _ => may_follow isspace lang p c | _, _ => True end.
(** The comments behind the last token; the very last one may end with the text. *)
Definition ends_stay (isspace : Z -> bool) (lang : language) (allow : bool) (prev : option tok) (ends : list ocomment) (eos : list comment) : Prop :=
  comments_ok isspace lang allow prev ends eos \/
  exists cs c os text, ends = cs ++ [c] /\ eos = os ++ [(false, text)] /\ text_ok isspace (oc_text c) /\ line_text lang (oc_value c) text /\
    Forall2 (fun c o => stays isspace lang c allow o /\ text_ok isspace (oc_text c)) cs os /\
    match prev, ends with Some p, c :: _ => may_follow isspace lang p c | _, _ => True end.
(** The comments behind the last token are [ends]; what all become is [oss] and [eos]. *)
Fixpoint oitems_ok (isspace : Z -> bool) (lang : language) (end_allow : bool) (ends : list ocomment) (eos : list comment)
    (prev : option tok) (l : list oitem) (oss : list (list comment)) : Prop :=
  match l, oss with
  | [], [] => ends_stay isspace lang end_allow prev ends eos
  | x :: l, os :: oss =>
      lexeme lang (oi_tok x) /\ text_ok isspace (oi_text x) /\ comments_ok isspace lang (oi_allow x) prev (oi_comments x) os /\
      oitems_ok isspace lang end_allow ends eos (Some (oi_tok x)) l oss
  | _, _ => False
  end.
(** All that is before a token is on the line of the one before it. *)
Definition same_line (x : oitem) : Prop :=
  oi_allow x = false /\ oi_newline x = false /\ oi_linebreak x = false /\ forall c, In c (oi_comments x) -> oc_newline c = false.
(** No comment in brackets goes over lines. *)
Definition no_long_blocks (x : oitem) : Prop := forall c, In c (oi_comments x) -> oc_block c = true -> ~ In 10 (oc_value c).
(** If the token is on another line than the one before it, there is a line break in the source that is not in a comment in brackets, as the
    lines of the tokenizer are counted: it ends a comment, or is in the text before a comment or token, which then is on another line too. *)
Definition break_seen (x : oitem) : Prop := oi_allow x = true ->
  (exists c, In c (oi_comments x) /\ (oc_block c = false \/ oc_newline c = true /\ In 10 (oc_text c))) \/ oi_newline x = true /\ In 10 (oi_text x).
(** The output: before each token its comments and whitespace; a line break where a shorthand has ended, and none where all was on one line. *)
Inductive orig_text (lang : language) (eos : list comment) : list Z -> list oitem -> list (list comment) -> Prop :=
| orig_end g : (gap_of lang g eos \/ exists g' os c text, g = g' ++ c /\ eos = os ++ [(false, text)] /\ gap_of lang g' os /\ line_text lang c text) -> orig_text lang eos g [] []
| orig_token g os n x rest l oss : gap_of lang g os -> gap lang g n ->
    (no_long_blocks x \/ break_seen x -> oi_linebreak x = true -> 1 <= n) -> (same_line x -> n = 0) ->
    orig_text lang eos rest l oss -> orig_text lang eos (g ++ tok_value (oi_tok x) ++ rest) (x :: l) (os :: oss).
