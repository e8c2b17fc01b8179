(** What a run should do with carts. *)
From Coq Require Import List ZArith Bool.
From Verif Require Import M_Cli.
Import ListNotations.

(** Something is asked for that looks at the code; for all but counting it is parsed. *)
Definition asked (w : wishes) : bool := w_lint w || w_minify w || w_unminify w || w_count w || w_preproc w.
Definition parsed_for (w : wishes) : bool := w_lint w || w_minify w || w_unminify w || w_preproc w.

Section cli.
Context (text toks root err : Type) (tokenize : text -> toks * list err) (parse : text -> toks -> root -> root * list err).
(** The files can be read one after the other: as tokens and, if they are parsed, as a program. *)
Inductive readable (parsed : bool) : root -> list text -> root -> Prop :=
| readable_none r : readable parsed r [] r
| readable_file r t ts r' source r'' : tokenize t = (ts, []) -> (if parsed then parse t ts r = (r', []) else r' = r) -> readable parsed r' source r'' ->
    readable parsed r (t :: source) r''.
Context (root0 : root) (sort_root : root -> root) (lint_code : root -> list err) (preproc simplify_code transform_code : root -> root * list err) (rename_tokens minify_code : root -> root).
Context (output_code unminify_code : root -> nat -> text).
(** The tree a cart is read as *)
Definition tree_of (parsed : bool) (cart : list text) (r : root) : Prop := exists r', readable parsed root0 cart r' /\ r = sort_root r'.
(** What is said about it: by the linter, and by the script *)
Definition warned (w : wishes) (r : root) : Prop := (w_lint w = true /\ lint_code r <> []) \/ (w_preproc w = true /\ snd (preproc r) <> []).
(** The tree after the script, and after all passes of the minifier *)
Definition looked_at (w : wishes) (r : root) : root := if w_preproc w then fst (preproc r) else r.
Definition small (w : wishes) (r : root) : root :=
  let r := fst (simplify_code r) in minify_code (fst (transform_code (if w_rename w then rename_tokens r else r))).
(** The files that should be written: of the tree they are read as, what is asked for *)
Definition wanted (w : wishes) (cart new : list text) : Prop :=
  length new = length cart /\
  if asked w then exists r, tree_of (parsed_for w) cart r /\
    forall i t, nth_error new i = Some t ->
      match w_minify w, w_unminify w with
      | true, false => t = output_code (small w (looked_at w r)) i
      | false, true => t = unminify_code (looked_at w r) i
      | true, true => t = unminify_code (small w (looked_at w r)) i
      | false, false => nth_error cart i = Some t
      end
  else new = cart.
End cli.
