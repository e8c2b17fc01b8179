(** Model of what is done with the hints in comments that are lists (M_Hints): /repo/pico_rename.py l.118-126, /repo/pico_lint.py l.29-37 and
    /repo/pico_tokenize.py l.711-729.

    The tokens are gone through in the order of the text, and the token at the end, which has the hints behind the last one, comes last. *)
From Coq Require Import String List ZArith Bool.
From Verif Require Import M_Base M_Fold M_Token M_Expr M_Hints M_Count M_Rename M_Lint.
Import ListNotations.
Open Scope list_scope.
Open Scope Z_scope.

Notation hinted_tokens := (list (tok * mods) * mods)%type.
(** [token.children] of all tokens, in order *)
Definition children (p : hinted_tokens) : list (list hint) := map (fun x => m_comments (snd x)) (fst p) ++ [m_comments (snd p)].

(** [collect_chars] of [rename_tokens], pico_rename.py l.118-126, behind the rules of the options, l.112-113 *)
Definition preserve_hint (rs : rules) (h : hint) : rules := match h with HPreserve ws => fold_left add_rule ws rs | _ => rs end.
Definition rules_with_hints (builtins builtin_members opts : list name) (p : hinted_tokens) : rules :=
  fold_left (fun rs hs => fold_left preserve_hint hs rs) (children p) (read_rules builtins builtin_members opts).

(** [preprocess_tokens], pico_lint.py l.29-37; the sets are lists *)
Definition lint_word (s : list name * list name) (w : name) : list name * list name :=
  match find_sub (asc "::") w with
  | None => (fst s ++ [w], snd s)
  | Some _ => if pre "used::" w then (fst s, snd s ++ [str_after_first w (asc "::")]) else s
  end.
Definition lint_hint (s : list name * list name) (h : hint) := match h with HLint ws => fold_left lint_word ws s | _ => s end.
Definition opts_with_hints (o : lint_opts) (p : hinted_tokens) : lint_opts :=
  let s := fold_left (fun s hs => fold_left lint_hint hs s) (children p) (o_globals o, o_used o) in
  {| o_undefined := o_undefined o; o_unused := o_unused o; o_unused_global := o_unused_global o; o_duplicate := o_duplicate o;
     o_duplicate_global := o_duplicate_global o; o_globals := fst s; o_used := snd s |}.

(** [count_tokens], pico_tokenize.py l.711-729, with the hints that end the count; each token with whether the next one is right behind it (M_Count),
    and its hints.  The token at the end has no value, so it never counts. *)
Definition ends_count (m : mods) : bool :=
  existsb (fun h => match h with HLint ws => existsb (zeqb_list (asc "count::stop")) ws | _ => false end) (m_comments m).
Fixpoint count_hints (prev : option tok) (l : list ((tok * bool) * mods)) : nat :=
  match l with
  | [] => 0%nat
  | ((t, glued), m) :: l => if ends_count m then 0%nat else (cost prev t glued (map fst l) + count_hints (Some t) l)%nat
  end.
Definition count_text_hints (isspace : Z -> bool) (lang : language) (src : list Z) : res nat :=
  l <- tokenize_pos lang src ;; p <- tokenize_hints isspace lang src ;; Ok (count_hints None (combine (gaps l) (map snd (fst p)))).
