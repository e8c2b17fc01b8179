(** Comments that are kept, in the source and in the output. *)
From Coq Require Import String List ZArith.
From Verif Require Import M_Base M_Fold M_Token S_Token M_Expr M_Hints S_Gap S_Hints M_Keep.
Import ListNotations.
Open Scope list_scope.
Open Scope Z_scope.

(** The comment is "keep:" and this text, with a "$" before it or not. *)
Definition keep_body (c : kcomment) (text : list Z) : list Z := k_prefix c ++ asc "keep:" ++ text.
Definition dollar_or_not (c : kcomment) : Prop := k_prefix c = [] \/ k_prefix c = [36].
(** One that goes to the end of the line; its text must not make it one in brackets. *)
Definition kept_line (lang : language) (c : kcomment) (text : list Z) (tail : list Z) : Prop :=
  dollar_or_not c /\ exists m, mark lang m /\ k_value c = m ++ keep_body c text ++ tail /\ line_text lang (m ++ text) text.
Definition kept_block (c : kcomment) (text : list Z) : Prop := dollar_or_not c /\ block_text (k_value c) (keep_body c text).
(** What is kept of it *)
Inductive keeps (lang : language) (c : kcomment) : comment -> Prop :=
| keeps_line text : kept_line lang c text [10] -> keeps lang c (false, text)
| keeps_block text : kept_block c text -> keeps lang c (true, text).

(** The character a comment begins with can stand right behind the token. *)
Definition meets (lang : language) (t : tok) (c : kcomment) : Prop :=
  exists x, head (k_value c) = Some x /\ tokenize lang (tok_value t ++ [x]) = Ok [t; Tok TPunct [x]].
(** Where a shorthand has ended there will be a line break: a comment to the end of the line, or a break that is kept, or no break in the
    comments and a token that is not right behind one. *)
Definition breaks (lang : language) (x : kitem) : Prop :=
  (exists c text, In c (k_comments x) /\ kept_line lang c text [10]) \/
  o_glued (k_item x) = false /\ forall c, In c (k_comments x) -> ~ In 10 (k_value c).
Definition item_ok (lang : language) (prev : option tok) (x : kitem) : Prop :=
  lexeme lang (o_tok (k_item x)) /\ Forall (fun c => exists o, keeps lang c o) (k_comments x) /\
  match prev with
  | None => o_linebreak (k_item x) = false
  | Some p =>
      (o_linebreak (k_item x) = true -> breaks lang x) /\
      match k_comments x with
      | c :: _ => meets lang p c
      | [] => o_glued (k_item x) = true -> tokenize lang (tok_value p ++ tok_value (o_tok (k_item x))) = Ok [p; o_tok (k_item x)]
      end
  end.
Fixpoint items_ok (lang : language) (prev : option tok) (l : list kitem) (ends : list kcomment) : Prop :=
  match l with
  | [] => match prev, ends with Some p, c :: _ => meets lang p c | _, _ => True end
  | x :: l => item_ok lang prev x /\ items_ok lang (Some (o_tok (k_item x))) l ends
  end.
(** The comments behind the last token; the very last one may end with the text. *)
Definition ends_ok (lang : language) (ends : list kcomment) (os : list comment) : Prop :=
  Forall2 (keeps lang) ends os \/
  exists cs c os' text, ends = cs ++ [c] /\ os = os' ++ [(false, text)] /\ Forall2 (keeps lang) cs os' /\ kept_line lang c text [].

(** The output: before each token what is kept of its comments, and only that, with a line break where a shorthand has ended. *)
Inductive kept_text (lang : language) (ends : list kcomment) : bool -> list Z -> list kitem -> Prop :=
| kept_end first g os : ends_ok lang ends os -> (gap_of lang g os \/ exists g' os' c text, g = g' ++ c /\ os = os' ++ [(false, text)] /\ gap_of lang g' os' /\ line_text lang c text) ->
    kept_text lang ends first g []
| kept_token first g os n x rest l : Forall2 (keeps lang) (k_comments x) os -> gap_of lang g os -> gap lang g n ->
    (first = false -> o_linebreak (k_item x) = true -> 1 <= n) ->
    kept_text lang ends false rest l -> kept_text lang ends first (g ++ tok_value (o_tok (k_item x)) ++ rest) (x :: l).
