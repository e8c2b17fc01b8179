(** What stands between the tokens of a program, and the line a token is on. *)
From Coq Require Import List ZArith.
From Verif Require Import M_Base M_Fold M_Token S_Token M_Expr M_Stmt.
Import ListNotations.
Open Scope Z_scope.

(** What a comment to the end of the line begins with *)
Inductive mark (lang : language) : list Z -> Prop :=
| mark_lua : mark lang [45; 45]
| mark_c : lang = Pico8 -> mark lang [47; 47].
(** A comment that goes on to the end of the line, without the end: not one in brackets; the text behind its mark *)
Definition line_text (lang : language) (c body : list Z) : Prop :=
  exists m, c = m ++ body /\ mark lang m /\ ~ In 10 body /\ (m = [45; 45] -> forall k x, body <> 91 :: repeat 61 k ++ 91 :: x).
Definition line_comment (lang : language) (c : list Z) : Prop := exists body, line_text lang c body.
(** A comment in brackets, which ends with the first closing bracket of its level; the text in them *)
Definition block_text (c inner : list Z) : Prop :=
  exists k, c = [45; 45; 91] ++ repeat 61 k ++ [91] ++ inner ++ [93] ++ repeat 61 k ++ [93] /\
    forall x y, inner ++ [93] ++ repeat 61 k ++ [93] = x ++ [93] ++ repeat 61 k ++ [93] ++ y -> y = [].
Definition block_comment (c : list Z) : Prop := exists inner, block_text c inner.

(** Whitespace and comments, and the line breaks in them; those in brackets do not count. *)
Inductive gap (lang : language) : list Z -> Z -> Prop :=
| gap_none : gap lang [] 0
| gap_space c g n : c = 32 \/ c = 9 \/ c = 13 -> gap lang g n -> gap lang (c :: g) n
| gap_break g n : gap lang g n -> gap lang (10 :: g) (1 + n)
| gap_line c g n : line_comment lang c -> gap lang g n -> gap lang (c ++ 10 :: g) (1 + n)
| gap_block c g n : block_comment c -> gap lang g n -> gap lang (c ++ g) n.

(** The text is these tokens, each on its line, with gaps between them; it is on line [line] at first. *)
Inductive lined_up (lang : language) (line : Z) : list Z -> list ltok -> Prop :=
| up_end g n : gap lang g n -> lined_up lang line g []
| up_comment g n c : gap lang g n -> line_comment lang c -> lined_up lang line (g ++ c) []
| up_token g n t rest ts : gap lang g n -> lexeme lang t -> lined_up lang (line + n) rest ts ->
    lined_up lang line (g ++ tok_value t ++ rest) ((t, line + n) :: ts).
