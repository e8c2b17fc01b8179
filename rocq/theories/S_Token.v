(** What is claimed about token sequences, in terms of the tool's own tokenizer. *)
From Coq Require Import List ZArith.
From Verif Require Import M_Base M_Fold M_Token S_Str.
Import ListNotations.
Open Scope Z_scope.

(** The token's text, alone, is that one token. *)
Definition lexeme (lang : language) (t : tok) : Prop := t <> TErr /\ tokenize lang (tok_value t) = Ok [t].

(** The text is one string token, whatever follows. *)
Definition one_token (lang : language) (text : list Z) : Prop :=
  forall rest, tokenize lang (text ++ rest) = (ts <- tokenize lang rest ;; Ok (Tok TString text :: ts)).

(** The text ends with backslash, z and whitespace. *)
Definition final_skip (s : list Z) : Prop := exists x w, s = x ++ 92 :: 122 :: w /\ Forall space w.

(** The printer is given the source's tokens, and only marks a token as standing directly
    behind the previous one when it does so in the source. *)
Fixpoint glued_adjacent (prev : option (nat * tok)) (l : list (nat * tok)) (items : list out_item) : Prop :=
  match l, items with
  | [], [] => True
  | (q, t) :: l, x :: items =>
      o_tok x = t /\
      (o_glued x = true -> match prev with Some (p, t0) => q = (p + length (tok_value t0))%nat | None => True end) /\
      glued_adjacent (Some (q, t)) l items
  | _, _ => False
  end.

(** No token is marked as standing directly behind a token it would fuse with. *)
Fixpoint glued_apart (lang : language) (prev : option tok) (l : list out_item) : Prop :=
  match l with
  | [] => True
  | x :: l =>
      match prev with
      | Some p => o_glued x = true -> tokenize lang (tok_value p ++ tok_value (o_tok x)) = Ok [p; o_tok x]
      | None => True
      end /\ glued_apart lang (Some (o_tok x)) l
  end.
