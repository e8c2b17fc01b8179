(** Model of counting tokens: [count_tokens] of /repo/pico_tokenize.py l.711-729.  Hints in
    comments that end the count (l.714-717) are left out. *)
From Coq Require Import String List ZArith Bool.
From Verif Require Import M_Base M_Fold M_Token M_Expr.
Import ListNotations.
Open Scope Z_scope.

Definition one_of (l : list string) (v : list Z) : bool := existsb (zeqb_list v) (map asc l).
(** l.719 *)
Definition free_word (v : list Z) : bool := one_of [","; "."; ":"; ";"; "::"; ")"; "]"; "}"; "end"; "local"]%string v.
(** l.722 *)
Definition sign_word (v : list Z) : bool := one_of ["-"; "~"]%string v.
(** l.724-725: a sign behind this token counts *)
Definition value_end (t : tok) : bool :=
  match t with
  | Tok (TNumber | TString | TIdent) _ => true
  | t => one_of [")"; "]"; "}"; ";"; "end"]%string (tok_value t)
  end.
(** Each token comes with whether the next one is right behind it ([token.endidx] is the next
    one's [idx], l.723). *)
Definition before_number (l : list (tok * bool)) : bool := match l with (Tok TNumber _, _) :: _ => true | _ => false end.
Definition cost (prev : option tok) (t : tok) (glued : bool) (l : list (tok * bool)) : nat :=
  if free_word (tok_value t) then 0%nat
  else if sign_word (tok_value t) && before_number l && glued && match prev with Some p => negb (value_end p) | None => false end then 0%nat
  else 1%nat.
(** l.711-729 *)
Fixpoint count (prev : option tok) (l : list (tok * bool)) : nat :=
  match l with
  | [] => 0%nat
  | (t, glued) :: l => (cost prev t glued l + count (Some t) l)%nat
  end.
Definition count_tokens (l : list (tok * bool)) : nat := count None l.
(** The tokens of a text that tokenize_pos found, with whether the next one is right behind. *)
Fixpoint gaps (l : list (nat * tok)) : list (tok * bool) :=
  match l with
  | [] => []
  | (i, t) :: l => (t, match l with (j, _) :: _ => Nat.eqb (i + length (tok_value t)) j | [] => false end) :: gaps l
  end.
Definition count_text (lang : language) (src : list Z) : res nat := l <- tokenize_pos lang src ;; Ok (count_tokens (gaps l)).
