(** Specification: reading and writing text. *)
From Coq Require Import List ZArith Bool.
From Verif Require Import M_Base M_Fold M_Token M_Expr M_Stmt M_Lines.
Import ListNotations.

(** A text is read as a program: its tokens, on their lines, none of them an error, are parsed as it. *)
Definition reads (lang : language) (text : list Z) (b : blk) : Prop :=
  exists ts, tokenize_lines lang text = Ok ts /\ ~ In TErr (map fst ts) /\ parse_prog lang ts = Ok b.

(** Which tokens the printer may put behind the one before without looking: those on the same line that, put together,
    are read as the two. *)
Fixpoint may_glue (lang : language) (prev : option ltok) (ts : list ltok) (glued : list bool) : Prop :=
  match ts, glued with
  | [], [] => True
  | t :: ts, g :: glued =>
      match prev with
      | Some p => g = true -> snd t = snd p /\ tokenize lang (tok_value (fst p) ++ tok_value (fst t)) = Ok [fst p; fst t]
      | None => True
      end /\ may_glue lang (Some t) ts glued
  | _, _ => False
  end.
