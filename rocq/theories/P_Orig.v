(** C96: printing with the whitespace and the comments of the source. *)
From Coq Require Import String.
From Coq Require Import List ZArith Bool Lia.
From Verif Require Import M_Base L_Util M_Fold M_Token S_Token M_Str M_Expr M_Stmt M_Hints S_Gap S_Hints M_Keep L_Token L_Keep M_Orig S_Orig L_Orig P_Hints.
Import ListNotations.
Open Scope list_scope.
Open Scope Z_scope.

(** If whitespace and comments are not minified the tokens of the output are those given, whatever was done with the tokens between and around
    them; each token has its comments before it, and whitespace; there is a line break where a shorthand has ended, and tokens that are on
    one line stay on one line.  [spans]: where in a text tokens are that were removed, any positions. *)
Theorem C96_orig_partial : forall isspace spans lang end_allow ends eos l oss, ascii_isspace isspace ->
  oitems_ok isspace lang end_allow ends eos None l oss ->
  exists out, output_orig isspace spans lang l end_allow ends = Ok out /\ tokenize lang out = Ok (map oi_tok l) /\ orig_text lang eos out l oss.
Proof.
  intros isspace spans lang end_allow ends eos l oss A H. destruct (orig_loop isspace spans lang A end_allow ends eos l oss None H) as (out & O & K & T & _); [discriminate|]. exists out. auto.
Qed.
(** So it is for any tokens without comments, and any text between them. *)
Theorem C96_tokens : forall isspace spans lang l, ascii_isspace isspace ->
  Forall (fun x => lexeme lang (oi_tok x) /\ text_ok isspace (oi_text x) /\ oi_comments x = []) l ->
  exists out, output_orig isspace spans lang l true [] = Ok out /\ tokenize lang out = Ok (map oi_tok l) /\ orig_text lang [] out l (map (fun _ => []) l).
Proof.
  intros isspace spans lang l A F. apply C96_orig_partial; [exact A|].
  assert (K : forall prev, oitems_ok isspace lang true [] [] prev l (map (fun _ => []) l)); [|apply K].
  induction F as [|x l (L & T & E) F IH]; intros prev; cbn [map oitems_ok].
  - left. split; [constructor|]. now destruct prev.
  - split; [exact L|]. split; [exact T|]. split; [|apply IH]. rewrite E. split; [constructor|]. now destruct prev.
Qed.
(** The comment to the end of a line that must become one in brackets: it does, with its text, if that does not end with a bracket. *)
Theorem C96_line : forall isspace lang c c0 text, oc_block c = false -> oc_value c = c0 ++ [10] -> line_text lang c0 text ->
  (forall x k, text <> x ++ 93 :: repeat 61 k) ->
  exists out n, comment_text isspace false c = Ok out /\ out = [45; 45; 91] ++ repeat 61 n ++ [91] ++ text ++ [93] ++ repeat 61 n ++ [93] /\ forall s, tokenize lang (out ++ s) = tokenize lang s.
Proof.
  intros isspace lang c c0 text B V T N. unfold comment_text. cbn [negb andb].
  assert (Hb : has_break (oc_value c) = true) by (apply break_iff; rewrite V; apply in_or_app; right; now left). rewrite Hb, B.
  destruct (L_Str.equals_loop_ok (S (length (oc_value c))) 0 (oc_value c) ltac:(lia) ltac:(lia)) as (n & En & Hc). unfold get_long_brackets_equals. rewrite En. cbn [M_Base.bind].
  destruct T as (m & Ec & M & _ & _).
  assert (Er : removelast (skipn 2 (oc_value c)) = text).
  { rewrite V, Ec. inversion M; subst m; cbn [app skipn]; rewrite removelast_app by discriminate; cbn [removelast]; apply app_nil_r. }
  rewrite Er. eexists _, n. split; [reflexivity|]. split; [reflexivity|]. intros s. apply (block_skipped lang _ text). exists n. split; [reflexivity|].
  apply (line_closed (fun _ => None) n text m [10]); [|exact N]. rewrite V, Ec, <- app_assoc in Hc. exact Hc.
Qed.
Print Assumptions C96_orig_partial.
Print Assumptions C96_tokens.
Print Assumptions C96_line.

(** ** Where it fails: a text that ends with a bracket ends the comment early. *)
Definition no_spans (s : list Z) : option (nat * nat) := None.
Definition on_line (cs : list ocomment) (text s : string) : oitem := mkoi cs false (Tok TIdent (asc s)) (asc text) false false.
Definition ex_bracket : list oitem := [on_line [] "" "a"; on_line [mkoc (asc "--x]" ++ [10]) false [] false] "" "b"].
Theorem C96_bracket_refuted : tokenize Pico8 (asc "a--x]" ++ 10 :: asc "b") = Ok (map oi_tok ex_bracket) /\
  output_orig some_space no_spans Pico8 ex_bracket true [] = Ok (asc "a--[[x]]]b") /\
  tokenize Pico8 (asc "a--[[x]]]b") = Ok [Tok TIdent (asc "a"); Tok TPunct (asc "]"); Tok TIdent (asc "b")].
Proof. split; [reflexivity|]. split; reflexivity. Qed.
Print Assumptions C96_bracket_refuted.

(** ** A case: comments of both kinds in a line, a space that is missing, a line break that must be there, one that is in the source *)
Definition ex_items : list oitem :=
  [on_line [] "" "a"; on_line [mkoc (asc "--x" ++ [10]) false (asc " ") false] "  " "b"; on_line [mkoc (asc "--[[y" ++ 10 :: asc "  z]]") true [] false] "" "c";
   on_line [] "" "d"; mkoi [] true (Tok TIdent (asc "e")) (asc " ") true true; mkoi [] true (Tok TIdent (asc "f")) (10 :: asc " ") true false].
Definition ex_oss : list (list comment) := [[]; [(true, asc "x")]; [(true, asc "y z")]; []; []; []].
Example ex_items_ok : oitems_ok some_space Pico8 true [] [] None ex_items ex_oss.
Proof.
  assert (TO : forall s, (forall c, In c s -> In c [32; 9; 13; 10]) -> text_ok some_space s) by (intros s H _; exact H).
  assert (X : stays some_space Pico8 (mkoc (asc "--x" ++ [10]) false (asc " ") false) false (true, asc "x")).
  { apply (line_joined _ _ _ (asc "--x")); [reflexivity|reflexivity| |].
    - exists [45; 45]. split; [reflexivity|]. split; [constructor|]. split; [cbn; lia|]. intros _ k y E. discriminate E.
    - intros y k E. destruct y as [|c [|d y]]; cbn in E; discriminate E. }
  assert (Y : stays some_space Pico8 (mkoc (asc "--[[y" ++ 10 :: asc "  z]]") true [] false) false (true, asc "y z")).
  { apply (block_joined _ _ _ (asc "y" ++ 10 :: asc "  z")); [reflexivity| |cbn; auto|].
    - exists 0%nat. split; [reflexivity|]. intros x y E. cbn in E. repeat (destruct x as [|? x]; cbn in E; [first [discriminate E|now injection E as <-]|first [discriminate E|injection E as _ E]]).
    - change (joined some_space [121; 10; 32; 32; 122] [121; 32; 122]). apply joined_char; [lia|]. apply (joined_break _ [32; 32] [122] [122]).
      + repeat constructor.
      + intros c s [= <- <-]. reflexivity.
      + apply joined_char; [lia|constructor]. }
  cbn [ex_items ex_oss oitems_ok on_line oi_tok oi_text oi_comments oi_allow]. unfold comments_ok.
  repeat match goal with |- _ /\ _ => split end; try exact I; try (constructor; fail); try discriminate; try reflexivity; try (apply TO; cbn; intuition lia);
    try (constructor; [split; [assumption|apply TO; cbn; intuition lia]|constructor]);
    try match goal with |- lexeme _ _ => split; [discriminate|reflexivity] end.
  - left. split; [discriminate|reflexivity].
  - right. exists 45. repeat split; reflexivity.
  - left. split; [constructor|exact I].
Qed.
Example ex_items_out : output_orig some_space no_spans Pico8 ex_items true [] = Ok (asc "a --[[x]]  b--[[y z]]c d " ++ 10 :: asc "e" ++ 10 :: asc " f").
Proof. reflexivity. Qed.
(** A case with a line break that must be there and a comment before it, and a last comment that ends with the text *)
Definition ex_last : list oitem := [on_line [] "" "a"; mkoi [mkoc (asc "--[[x]]") true (asc " ") false] true (Tok TIdent (asc "b")) (asc " ") true true].
Definition ex_ends : list ocomment := [mkoc (asc "--end") false (asc " ") false].
Example ex_last_ok : oitems_ok some_space Pico8 false ex_ends [(false, asc "end")] None ex_last [[]; [(true, asc "x")]].
Proof.
  assert (TO : forall s, (forall c, In c s -> In c [32; 9; 13; 10]) -> text_ok some_space s) by (intros s H _; exact H).
  assert (W : text_ok some_space (asc " ")) by (apply TO; cbn; intuition lia).
  cbn [ex_last oitems_ok on_line oi_tok oi_text oi_comments oi_allow]. split; [split; [discriminate|reflexivity]|]. split; [apply TO; intros c []|]. split; [split; [constructor|exact I]|].
  split; [split; [discriminate|reflexivity]|]. split; [exact W|]. split.
  - split; [|left; split; [discriminate|reflexivity]]. constructor; [|constructor]. split; [|exact W]. apply stays_block; [reflexivity| |now left].
    exists 0%nat. split; [reflexivity|]. intros x y E. cbn in E. repeat (destruct x as [|? x]; cbn in E; [first [discriminate E|now injection E as <-]|first [discriminate E|injection E as _ E]]).
  - right. exists [], (mkoc (asc "--end") false (asc " ") false), [], (asc "end"). split; [reflexivity|]. split; [reflexivity|]. split; [exact W|]. split; [|split; [constructor|left; split; [discriminate|reflexivity]]].
    exists [45; 45]. split; [reflexivity|]. split; [constructor|]. split; [cbn; lia|]. intros _ k y E. discriminate E.
Qed.
Example ex_last_out : output_orig some_space no_spans Pico8 ex_last false ex_ends = Ok (asc "a --[[x]] " ++ 10 :: asc "b --end").
Proof. reflexivity. Qed.
(** A comment over two lines before a token on the next line: the break is seen. *)
Definition ex_long : oitem := mkoi [mkoc (asc "--[[x" ++ 10 :: asc "y]]") true (asc " ") false] true (Tok TIdent (asc "b")) (10 :: asc " ") true true.
Example ex_long_seen : break_seen ex_long /\ ~ no_long_blocks ex_long.
Proof. split; [intros _; right; split; [reflexivity|now left]|]. intros H. apply (H _ (or_introl eq_refl) eq_refl). cbn. auto 10. Qed.
