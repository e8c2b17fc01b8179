(** C95: comments that are kept. *)
From Coq Require Import String.
From Coq Require Import List ZArith Bool Lia.
From Verif Require Import M_Base L_Util M_Fold M_Token S_Token M_Expr M_Stmt M_Lines M_Hints S_Gap S_Hints M_Keep S_Keep L_Keep.
Import ListNotations.
Open Scope list_scope.
Open Scope Z_scope.

(** Minifying a program with comments that are kept succeeds; the tokens of the output are those of the program; and between them is what is
    kept of the comments, each before its token, and nothing else, with a line break where a shorthand has ended. *)
Theorem C95_kept_partial : forall lang l ends os, items_ok lang None l ends -> ends_ok lang ends os ->
  exists out, output_with_kept lang l ends = Ok out /\ tokenize lang out = Ok (map (fun x => o_tok (k_item x)) l) /\ kept_text lang ends true out l.
Proof.
  intros lang l ends os H E. destruct (kept_loop lang ends os E l None H) as (out & O & K & T & _); [discriminate|]. exists out. auto.
Qed.

(** ** Cases *)
(** What is kept is the comment without the word, and with no comments this is the output of C34. *)
Theorem C95_text : forall lang c text, (kept_line lang c text [10] -> exists m, mark lang m /\ comment_out c = m ++ text ++ [10]) /\
  (kept_block c text -> exists k, comment_out c = [45; 45; 91] ++ repeat 61 k ++ [91] ++ text ++ [93] ++ repeat 61 k ++ [93]).
Proof.
  intros lang c text. split; intros K.
  - apply line_out in K as (m & E & M & _). exists m. split; [exact M|]. now rewrite E, <- app_assoc.
  - apply block_out in K as ((k & E & _) & _). exists k. exact E.
Qed.
Lemma none_loop lang : forall l prev nl, output_kept lang prev nl (map (mkitem []) l) [] = output_loop lang prev nl l.
Proof.
  induction l as [|x l IH]; intros prev nl; cbn [map output_kept output_loop out_comments k_comments k_item fst]; [reflexivity|].
  destruct prev as [p|].
  - destruct (o_glued x); [cbn; now rewrite IH|]. destruct ((nl || o_linebreak x) || o_newline x); [cbn; now rewrite IH|].
    destruct (need_whitespace_between lang p (o_tok x)) as [w|e]; cbn; [now rewrite IH|reflexivity].
  - cbn. now rewrite IH.
Qed.
Theorem C95_none : forall lang l, output_with_kept lang (map (mkitem []) l) [] = output_tokens lang l.
Proof. intros lang l. apply none_loop. Qed.
Print Assumptions C95_kept_partial.
Print Assumptions C95_text.
Print Assumptions C95_none.

(** ** Where it fails *)
Definition name (s : string) : out_item := mkout (Tok TIdent (asc s)) false false false.
Definition punct (s : string) : out_item := mkout (Tok TPunct (asc s)) false false false.
Definition line (s : string) : kcomment := mkkept (asc s ++ [10]) [] false false.
Definition block (s : string) : kcomment := mkkept (asc s) [] false false.
Definition output (l : list kitem) : list Z := match output_with_kept Pico8 l [] with Ok out => out | Err _ => [] end.
Definition tokens (l : list kitem) : list tok := map (fun x => o_tok (k_item x)) l.

(** The word goes, and the comment becomes one in brackets, which is never closed. *)
Definition ex_opened : list kitem := [mkitem [line "--keep:[[x"] (name "b")].
Theorem C95_opened_refuted : tokenize Pico8 (asc "--keep:[[x" ++ 10 :: asc "b") = Ok (tokens ex_opened) /\
  output_with_kept Pico8 ex_opened [] = Ok (asc "--[[x" ++ 10 :: asc "b") /\ tokenize Pico8 (output ex_opened) <> Ok (tokens ex_opened).
Proof. split; [reflexivity|]. split; [reflexivity|]. vm_compute. discriminate. Qed.
(** A minus and a comment become a comment to the end of the line. *)
Definition ex_minus : list kitem := [mkitem [] (name "a"); mkitem [] (punct "-"); mkitem [block "--[[keep:x]]"] (mkout (Tok TIdent (asc "b")) true false false)].
Theorem C95_minus_refuted : tokenize Pico8 (asc "a - --[[keep:x]]b") = Ok (tokens ex_minus) /\
  output_with_kept Pico8 ex_minus [] = Ok (asc "a---[[x]]b") /\ tokenize Pico8 (output ex_minus) = Ok [Tok TIdent (asc "a")].
Proof. split; [reflexivity|]. split; reflexivity. Qed.
(** A shorthand does not end: in the text the name behind it is on another line, in the output on the same. *)
Definition short : list kitem := [mkitem [] (mkout (Tok TKeyword (asc "if")) false false false); mkitem [] (punct "("); mkitem [] (name "a"); mkitem [] (punct ")"); mkitem [] (name "b"); mkitem [] (punct "("); mkitem [] (punct ")")].
Definition ex_glued : list kitem := short ++ [mkitem [block "--[[keep:x]]"] (mkout (Tok TIdent (asc "c")) true true false)].
Theorem C95_glued_refuted :
  tokenize_lines Pico8 (asc "if(a)b()" ++ 10 :: asc "--[[keep:x]]c") = Ok (combine (tokens ex_glued) [0; 0; 0; 0; 0; 0; 0; 1]) /\
  output_with_kept Pico8 ex_glued [] = Ok (asc "if(a)b()--[[x]]c") /\
  tokenize_lines Pico8 (output ex_glued) = Ok (combine (tokens ex_glued) [0; 0; 0; 0; 0; 0; 0; 0]).
Proof. split; [reflexivity|]. split; reflexivity. Qed.
(** So too when the comment has a line break in its brackets. *)
Definition ex_inner : list kitem := short ++ [mkitem [mkkept (asc "--[[keep:" ++ 10 :: asc "]]") [] false false] (mkout (Tok TIdent (asc "c")) false true false)].
Theorem C95_inner_refuted :
  tokenize_lines Pico8 (asc "if(a)b()" ++ 10 :: asc "--[[keep:" ++ 10 :: asc "]] c") = Ok (combine (tokens ex_inner) [0; 0; 0; 0; 0; 0; 0; 1]) /\
  output_with_kept Pico8 ex_inner [] = Ok (asc "if(a)b()--[[" ++ 10 :: asc "]]c") /\
  tokenize_lines Pico8 (output ex_inner) = Ok (combine (tokens ex_inner) [0; 0; 0; 0; 0; 0; 0; 0]).
Proof. split; [reflexivity|]. split; reflexivity. Qed.

(** ** A case: "--keep:x", a line, "if(a)b()", a line, "--$keep:y", a line, "c", a comment in brackets, "d", "--keep:z" *)
Definition ex_list : list kitem :=
  [mkitem [line "--keep:x"] (mkout (Tok TKeyword (asc "if")) false false false)] ++ tl short ++
  [mkitem [mkkept (asc "--$keep:y" ++ [10]) [36] false false] (mkout (Tok TIdent (asc "c")) false true false);
   mkitem [block "--[=[keep:]]]=]"] (mkout (Tok TIdent (asc "d")) true false false)].
Definition ex_ends : list kcomment := [mkkept (asc "--keep:z") [] false false].
Example ex_list_ok : items_ok Pico8 None ex_list ex_ends /\ ends_ok Pico8 ex_ends [(false, asc "z")].
Proof.
  assert (LT : forall s, ~ In 10 (asc s) -> hd 0 (asc s) <> 91 -> line_text Pico8 ([45; 45] ++ asc s) (asc s)).
  { intros s N H. exists [45; 45]. split; [reflexivity|]. split; [constructor|]. split; [exact N|]. intros _ k x E. rewrite E in H. now apply H. }
  assert (X : kept_line Pico8 (line "--keep:x") (asc "x") [10]).
  { split; [now left|]. exists [45; 45]. split; [constructor|]. split; [reflexivity|]. apply LT; cbn; lia. }
  assert (Y : kept_line Pico8 (mkkept (asc "--$keep:y" ++ [10]) [36] false false) (asc "y") [10]).
  { split; [now right|]. exists [45; 45]. split; [constructor|]. split; [reflexivity|]. apply LT; cbn; lia. }
  assert (Z : kept_line Pico8 (mkkept (asc "--keep:z") [] false false) (asc "z") []).
  { split; [now left|]. exists [45; 45]. split; [constructor|]. split; [reflexivity|]. apply LT; cbn; lia. }
  assert (B : kept_block (block "--[=[keep:]]]=]") (asc "]]")).
  { split; [now left|]. exists 1%nat. split; [reflexivity|]. intros x y E. cbn in E.
    repeat (destruct x as [|? x]; cbn in E; [first [discriminate E|now injection E as <-]|first [discriminate E|injection E as _ E]]). }
  split.
  - unfold ex_list, short, ex_ends. cbn [app tl items_ok]. unfold item_ok. cbn [k_item k_comments o_tok o_linebreak o_glued name punct].
    repeat match goal with |- _ /\ _ => split end; try discriminate; try reflexivity; try (constructor; fail);
      try (constructor; [eexists; constructor; eassumption|constructor]); try (eexists; split; reflexivity); try (split; [discriminate|reflexivity]).
    intros _. left. eexists _, _. split; [now left|exact Y].
  - right. exists [], (mkkept (asc "--keep:z") [] false false), [], (asc "z"). split; [reflexivity|]. split; [reflexivity|]. split; [constructor|exact Z].
Qed.
Example ex_list_out : output_with_kept Pico8 ex_list ex_ends = Ok (asc "--x" ++ 10 :: asc "if(a)b()--y" ++ 10 :: asc "c--[=[]]]=]d--z").
Proof. reflexivity. Qed.
Print Assumptions C95_opened_refuted.
Print Assumptions C95_minus_refuted.
Print Assumptions C95_glued_refuted.
Print Assumptions C95_inner_refuted.
