(** Model of the last steps of minifying: [minify_code] and [output_code], called from [process_code]
    in /repo/pico_process.py l.365-378, on the tree the renaming left behind, to text. *)
From Coq Require Import List ZArith Bool.
From Verif Require Import M_Base M_Fold M_Token M_Expr M_Stmt M_Emit M_Tidy M_Short M_Lines.
Import ListNotations.

(** /repo/pico_minify.py l.352-482 (shorthands, tokens), then /repo/pico_output.py l.297-385 *)
Definition minify_text (lang : language) (version : Z) (o : opts) (b : blk) (glued : list bool) : res (list Z) :=
  print_lines lang (emit (tidy lang version (switch o b))) glued.
