(** C95, C96: behind which tokens a comment can always stand. *)
From Coq Require Import String.
From Coq Require Import List ZArith Bool Lia.
From Verif Require Import M_Base L_Util M_Fold M_Token S_Token M_Expr M_Hints S_Gap S_Hints M_Keep S_Keep L_Unmin L_Keep M_Orig S_Orig P_Hints.
Import ListNotations.
Open Scope list_scope.
Open Scope Z_scope.

(** Names, keywords, strings and brackets *)
Definition word_or_bracket (t : tok) : Prop :=
  match t with
  | Tok TIdent _ | Tok TKeyword _ | Tok TString _ => True
  | Tok TPunct v => In v (map asc ["("; ")"; "["; "]"; "{"; "}"]%string)
  | _ => False
  end.
(** What a comment begins with *)
Definition comment_start (lang : language) (x : Z) : Prop := x = 45 \/ x = 47 /\ lang = Pico8.
Lemma word_passes lang t x : lexeme lang t -> word_or_bracket t -> comment_start lang x -> tokenize lang (tok_value t ++ [x]) = Ok [t; Tok TPunct [x]].
Proof.
  intros L W S. assert (P : passes lang t x).
  { destruct t as [[] v|]; try contradiction.
    - apply pass_word; auto. destruct S as [->|(-> & ->)]; [destruct lang|]; reflexivity.
    - apply pass_word; auto. destruct S as [->|(-> & ->)]; [destruct lang|]; reflexivity.
    - now apply pass_string.
    - cbn in W. destruct W as [<-|[<-|[<-|[<-|[<-|[<-|[]]]]]]].
      + apply (pass_single lang "("). cbn; tauto.
      + apply (pass_single lang ")"). cbn; tauto.
      + apply (pass_bracket lang); destruct S as [->|(-> & _)]; lia.
      + apply (pass_single lang "]"). cbn; tauto.
      + apply (pass_single lang "{"). cbn; tauto.
      + apply (pass_single lang "}"). cbn; tauto. }
  apply (P [] [Tok TPunct [x]]). destruct S as [->|(-> & ->)]; [destruct lang|]; reflexivity.
Qed.
(** Behind names, keywords, strings and brackets any comment can stand that is kept. *)
Theorem C95_where : forall lang t c text, lexeme lang t -> word_or_bracket t ->
  kept_line lang c text [10] \/ kept_line lang c text [] \/ kept_block c text -> meets lang t c.
Proof.
  intros lang t c text L W K. assert (S : exists x, head (k_value c) = Some x /\ comment_start lang x).
  { assert (KL : forall tail, kept_line lang c text tail -> exists x, head (k_value c) = Some x /\ comment_start lang x).
    { intros tail (_ & m & M & -> & _). inversion M; subst; cbn [app head]; eexists; (split; [reflexivity|]); [now left|right; auto]. }
    destruct K as [K|[K|(_ & k & -> & _)]]; [eauto|eauto|]. exists 45. split; [reflexivity|now left]. }
  destruct S as (x & E & S). exists x. split; [exact E|]. now apply word_passes.
Qed.
(** So it is with those of the source. *)
Theorem C96_where : forall isspace lang t c allow o, lexeme lang t -> word_or_bracket t ->
  stays isspace lang c allow o \/ line_comment lang (oc_value c) -> may_follow isspace lang t c.
Proof.
  intros isspace lang t c allow o L W K. assert (LT : forall v, line_comment lang v -> exists x r, v = x :: r /\ comment_start lang x).
  { intros v (body & m & -> & M & _). inversion M; subst; cbn [app]; eexists _, _; (split; [reflexivity|]); [now left|right; auto]. }
  assert (S : exists x, head (oc_value c) = Some x /\ comment_start lang x).
  { assert (BT : forall text, block_text (oc_value c) text -> exists x, head (oc_value c) = Some x /\ comment_start lang x) by (intros text (k & -> & _); exists 45; split; [reflexivity|now left]).
    destruct K as [[c0 text _ V T|a text _ T _|c0 text _ V T _|text text' _ T _ _]|K].
    - destruct (LT c0 (ex_intro _ text T)) as (x & r & -> & S). exists x. rewrite V. auto.
    - eauto.
    - destruct (LT c0 (ex_intro _ text T)) as (x & r & -> & S). exists x. rewrite V. auto.
    - eauto.
    - destruct (LT _ K) as (x & r & -> & S). exists x. auto. }
  destruct S as (x & E & S). right. exists x. split; [exact E|]. split; apply word_passes; auto. now left.
Qed.
Print Assumptions C95_where.
Print Assumptions C96_where.
(** ** Cases: a name and a bracket, but not a minus *)
Example ex_where : lexeme Pico8 (Tok TIdent (asc "a")) /\ word_or_bracket (Tok TIdent (asc "a")) /\ word_or_bracket (Tok TPunct (asc ")")) /\ ~ word_or_bracket (Tok TPunct (asc "-")) /\
  tokenize Pico8 (asc "--") = Ok [].
Proof. split; [split; [discriminate|reflexivity]|]. split; [exact I|]. split; [cbn; tauto|]. split; [|reflexivity]. cbn. intros [H|[H|[H|[H|[H|[H|[]]]]]]]; discriminate H. Qed.
