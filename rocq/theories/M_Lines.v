(** Model of the lines of tokens: [Token.vline], which [tokenize] counts (/repo/pico_tokenize.py l.319-708), and the
    line breaks of the output (/repo/pico_output.py l.297-385) as characters.

    Simplification: as in M_Token, no comments that are kept, no hints. *)
From Coq Require Import List ZArith Bool.
From Verif Require Import M_Base M_Fold M_Token M_Expr M_Stmt.
Import ListNotations.
Open Scope Z_scope.

(** How far a round of the main loop counts [vline] up: a newline between tokens (l.661-663) or the end of a
    comment that goes to the end of the line (l.537-544, l.677-682); newlines in strings and in comments in brackets do not count. *)
Definition vline_step (lang : language) (ch : Z) (t : list Z) : Z :=
  if mem ch k_wspace then if ch =? 10 then 1 else 0
  else if (ch =? 45) && next_is (Z.eqb 45) t then match scan_long (skipn 1 t) with LOk _ _ _ => 0 | _ => 1 end
  else if (ch =? 47) && is_pico8 lang && next_is (Z.eqb 47) t then 1
  else 0.
(** [tokenize], with the lines: [add_token], l.363-367, gives the token the current one *)
Fixpoint tok_loop_lines (fuel : nat) (lang : language) (vline : Z) (s : list Z) : res (list ltok) :=
  match s with
  | [] => Ok []
  | ch :: t =>
      match fuel with
      | O => Err EFuel
      | S fuel =>
          match tok_round lang ch t with
          | Hang => Err EFuel
          | Round a r => b <- tok_loop_lines fuel lang (vline + vline_step lang ch t) r ;; Ok (map (fun x => (x, vline)) a ++ b)
          end
      end
  end.
Definition tokenize_lines (lang : language) (s : list Z) : res (list ltok) := tok_loop_lines (length s) lang 0 s.

(** [output_node]: what is printed for tokens with the lines of M_Emit: a break where the line changes, nothing where the token is
    glued to the one before (l.333-361), else a space if one is needed.  [glued]: for each token whether it is. *)
Fixpoint items_of (line : Z) (ts : list ltok) (glued : list bool) : list out_item :=
  match ts, glued with
  | (t, l) :: ts, g :: glued => mkout t g (line <? l) false :: items_of l ts glued
  | _, _ => []
  end.
Definition print_lines (lang : language) (ts : list ltok) (glued : list bool) : res (list Z) :=
  output_tokens lang (items_of match ts with (_, l) :: _ => l | [] => 0 end ts glued).
