(** The comments of a program, and what is listed in them. *)
From Coq Require Import String List ZArith.
From Verif Require Import M_Base M_Fold M_Token S_Token M_Expr M_Hints S_Gap S_Hints.
Import ListNotations.
Open Scope Z_scope.

(** All comments of a text, in order *)
Inductive text_comments (lang : language) : list Z -> list comment -> Prop :=
| text_end g cs : gap_of lang g cs -> text_comments lang g cs
| text_line g cs c body : gap_of lang g cs -> line_text lang c body -> text_comments lang (g ++ c) (cs ++ [(false, body)])
| text_token g cs t rest cs' : gap_of lang g cs -> lexeme lang t -> text_comments lang rest cs' -> text_comments lang (g ++ tok_value t ++ rest) (cs ++ cs').

(** All the words in the comments that list some, in order *)
Inductive listed (has : comment -> list (list Z) -> Prop) : list comment -> list (list Z) -> Prop :=
| listed_none : listed has [] []
| listed_skip c cs ws : (forall l, ~ has c l) -> listed has cs ws -> listed has (c :: cs) ws
| listed_one c l cs ws : has c l -> listed has cs ws -> listed has (c :: cs) (l ++ ws).
(** The words behind "preserve:" and behind "lint:" *)
Definition preserves (isspace : Z -> bool) : list comment -> list (list Z) -> Prop := listed (fun c l => hint_of isspace c (HPreserve l)).
Definition lints (isspace : Z -> bool) : list comment -> list (list Z) -> Prop := listed (fun c l => hint_of isspace c (HLint l)).

(** A hint that ends the count is before this token. *)
Definition stop_before (m : mods) : Prop := exists ws, In (HLint ws) (m_comments m) /\ In (asc "count::stop") ws.
