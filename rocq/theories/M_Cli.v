(** Model of what a run does with carts: [process_code], /repo/pico_process.py l.327-403, and [handle_processing], [handle_output] and the end of
    [main_inner], /repo/run_shrinko.py l.485-496, l.593-748.

    Simplifications: the passes are any functions, modelled elsewhere; what is printed (errors, counts) and exceptions other than these errors
    are left out, and so are scripts that change a cart before or after; writing succeeds. *)
From Coq Require Import List ZArith Bool.
Import ListNotations.

(** [need_lint], [need_minify], [need_rename], [need_unminify], l.329-332; [w_count]: a count is asked for and not optional (l.334);
    [w_preproc]: a script looks at the tree; [w_no_lint_fail]: --no-lint-fail *)
Record wishes := mkw { w_lint : bool; w_minify : bool; w_rename : bool; w_unminify : bool; w_count : bool; w_preproc : bool; w_no_lint_fail : bool }.

Section cli.
Context (text toks root err out : Type).
(** [tokenize] and [parse], with the tree of the files before it; [create_super_root] or None; [sort_root] or nothing *)
Context (tokenize : text -> toks * list err) (parse : text -> toks -> root -> root * list err) (root0 : root) (sort_root : root -> root).
(** [lint_code], the script, [simplify_code], [rename_tokens], [transform_code], [minify_code]; [output_code] and [unminify_code] of a file *)
Context (lint_code : root -> list err) (preproc simplify_code transform_code : root -> root * list err) (rename_tokens minify_code : root -> root).
Context (output_code unminify_code : root -> nat -> text).

Definition is_nil {A} (l : list A) : bool := match l with [] => true | _ :: _ => false end.
(** l.334 *)
Definition needed (w : wishes) : bool := w_lint w || w_minify w || w_unminify w || w_count w || w_preproc w.
(** l.337 *)
Definition need_parse (w : wishes) : bool := w_lint w || w_minify w || w_unminify w || w_preproc w.
(** l.343-349 *)
Fixpoint read_sources (w : wishes) (r : root) (source : list text) : root + list err :=
  match source with
  | [] => inl r
  | t :: source =>
      let '(ts, errors) := tokenize t in
      let '(r, errors) := if is_nil errors && need_parse w then parse t ts r else (r, errors) in
      match errors with [] => read_sources w r source | _ :: _ => inr errors end
  end.
Definition files (f : root -> nat -> text) (r : root) (source : list text) : list text := map (f r) (seq 0 (length source)).
(** [process_code]: whether it is ok, the errors, and the files *)
Definition process_code (w : wishes) (source : list text) : bool * list err * list text :=
  if negb (needed w) then (true, [], source)
  else match read_sources w root0 source with
  | inr errors => (false, errors, source)
  | inl r =>
      match source with
      | [] => (true, [], source)
      | _ :: _ =>
          let r := sort_root r in
          let errors := if w_lint w then lint_code r else [] in
          let '(r, more) := if w_preproc w then preproc r else (r, []) in
          let errors := errors ++ more in
          if is_nil errors || w_no_lint_fail w then
            let '(r, errors, source) :=
              if w_minify w then
                let '(r, more) := simplify_code r in
                let r := if w_rename w then rename_tokens r else r in
                let '(r, more') := transform_code r in
                let r := minify_code r in
                (r, errors ++ more ++ more', files output_code r source)
              else (r, errors, source) in
            let source := if w_unminify w then files unminify_code r source else source in
            (true, errors, source)
          else (true, errors, source)
      end
  end.
(** [handle_processing]: [passed], [ok], and the carts *)
Fixpoint handle_processing (w : wishes) (carts : list (list text)) : bool * bool * list (list text) :=
  match carts with
  | [] => (true, true, [])
  | c :: carts =>
      let '(ok, errors, c) := process_code w c in
      if negb (is_nil errors) && (negb ok || w_lint w && negb (w_no_lint_fail w)) then (false, ok, c :: carts)
      else let '(passed, ok, carts) := handle_processing w carts in (passed, ok, c :: carts)
  end.
(** The end of [main_inner]: the exit code and what is written where *)
Definition run (w : wishes) (outputs : list out) (carts : list (list text)) : Z * list (out * list (list text)) :=
  let '(passed, ok, carts) := handle_processing w carts in
  if negb passed then ((if ok then 2 else 1)%Z, []) else (0%Z, map (fun o => (o, carts)) outputs).
End cli.
