(** C93: hints in comments. *)
From Coq Require Import String.
From Coq Require Import List ZArith Bool Lia.
From Verif Require Import M_Base L_Util M_Fold M_Token S_Token M_Expr M_Stmt M_Hints S_Gap S_Hints L_Token L_TokenSeq L_Pipe P_Gap L_Hints L_Unmin8.
Import ListNotations.
Open Scope list_scope.
Open Scope Z_scope.

Lemma gap_of_app lang g cs g' cs' : gap_of lang g cs -> gap_of lang g' cs' -> gap_of lang (g ++ g') (cs ++ cs').
Proof.
  induction 1; intros G; cbn [app].
  - exact G.
  - apply of_space; auto.
  - rewrite <- app_assoc. apply of_line; auto.
  - rewrite <- app_assoc. apply of_block; auto.
Qed.
Lemma take_line_spec : forall s, (~ In 10 s /\ take_line s = s /\ skip_line s = []) \/ exists x, ~ In 10 x /\ take_line s = x ++ [10] /\ s = x ++ 10 :: skip_line s.
Proof.
  induction s as [|c s IH]; cbn [skip_line take_line]; [left; auto|]. destruct (Z.eqb_spec c 10) as [->|N].
  - right. exists []. auto.
  - destruct IH as [(A & B & C)|(x & A & B & C)]; [left|right].
    + split; [intros [K|K]; auto|]. now rewrite B.
    + exists (c :: x). split; [intros [K|K]; auto|]. rewrite B. cbn [app]. now rewrite <- C.
Qed.

(** What a round without a token reads *)
Definition reads (lang : language) (s r : list Z) (o : option (bool * list Z)) : Prop :=
  (exists c, s = c :: r /\ In c [32; 9; 13; 10] /\ o = None) \/
  (exists c i, s = c ++ r /\ block_text c i /\ o = Some (true, i)) \/
  (exists c x, s = c ++ 10 :: r /\ line_text lang c x /\ o = Some (false, x ++ [10])) \/
  (exists x, r = [] /\ line_text lang s x /\ o = Some (false, x)).
Lemma reads_line lang m t : mark lang m -> (m = [45; 45] -> forall k x, t <> 91 :: repeat 61 k ++ 91 :: x) -> reads lang (m ++ t) (skip_line t) (Some (false, take_line t)).
Proof.
  intros M N. destruct (take_line_spec t) as [(A & B & C)|(x & A & B & C)].
  - right; right; right. exists t. rewrite B. split; [exact C|]. split; [|reflexivity]. exists m. auto.
  - right; right; left. rewrite B. set (e := skip_line t) in *. clearbody e. exists (m ++ x), x. split; [rewrite C; now rewrite <- app_assoc|]. split; [|reflexivity].
    exists m. repeat split; auto. intros Em k y K. apply (N Em k (y ++ 10 :: e)). rewrite C, K. cbn [app]. now rewrite <- app_assoc.
Qed.
Lemma round_reads lang ch t r : tok_round lang ch t = Round [] r -> reads lang (ch :: t) r (round_comment lang ch t).
Proof.
  intros E. unfold tok_round in E. unfold round_comment. destruct (mem ch k_wspace) eqn:W.
  { injection E as <-. left. exists ch. split; [reflexivity|]. split; [|reflexivity]. unfold mem, k_wspace in W. apply existsb_exists in W as (x & I & K). apply Z.eqb_eq in K. subst. exact I. }
  destruct (is_dec_digit ch || ((ch =? 46) && next_is is_dec_digit t)); [destruct (scan_number lang (ch :: t)); discriminate|].
  destruct (is_ident_char lang ch); [destruct (span (is_ident_char lang) (ch :: t)); discriminate|].
  destruct ((ch =? 34) || (ch =? 39)); [destruct (scan_string ch MText t); discriminate|].
  destruct ((ch =? 91) && next_is (fun c => mem c [61; 91]) t); [destruct (scan_long (ch :: t)); discriminate|].
  destruct ((ch =? 45) && next_is (Z.eqb 45) t) eqn:D.
  { apply andb_prop in D as [D1 D2]. apply Z.eqb_eq in D1. subst ch. destruct t as [|d t]; [discriminate D2|]. cbn [next_is] in D2. apply Z.eqb_eq in D2. subst d. cbn [skipn] in *.
    destruct (scan_long t) as [v i r'|r'|r'] eqn:S; [| discriminate |].
    - injection E as ->. apply long_ok in S as (c & B & K). right; left. exists c, i. auto.
    - injection E as <-. change (45 :: 45 :: t) with ([45; 45] ++ t). apply reads_line; [constructor|intros _; eapply long_no; eassumption]. }
  destruct ((ch =? 47) && is_pico8 lang && next_is (Z.eqb 47) t) eqn:C.
  { apply andb_prop in C as [C C3]. apply andb_prop in C as [C1 C2]. apply Z.eqb_eq in C1. subst ch. destruct t as [|d t]; [discriminate C3|]. cbn [next_is] in C3. apply Z.eqb_eq in C3. subst d. cbn [skipn] in *.
    injection E as <-. change (47 :: 47 :: t) with ([47; 47] ++ t). apply reads_line; [constructor; destruct lang; [reflexivity|discriminate]|discriminate]. }
  destruct (mem ch punct_chars); [destruct (scan_punct lang ch t); discriminate|].
  destruct ((ch =? 33) && next_is (Z.eqb 61) t); discriminate.
Qed.
(** ... and one with a token reads no comment. *)
Lemma token_no_comment lang ch t ty v r : tok_round lang ch t = Round [Tok ty v] r -> round_comment lang ch t = None.
Proof.
  unfold tok_round, round_comment. destruct (mem ch k_wspace); [discriminate|].
  destruct ((ch =? 45) && next_is (Z.eqb 45) t) eqn:A.
  - apply andb_prop in A as [A B]. apply Z.eqb_eq in A. subst ch. replace (is_ident_char lang 45) with false by (destruct lang; reflexivity).
    change (is_dec_digit 45 || _) with false. change (45 =? 91) with false. change ((45 =? 34) || _) with false. cbn [andb]. destruct (scan_long (skipn 1 t)); discriminate.
  - destruct ((ch =? 47) && is_pico8 lang && next_is (Z.eqb 47) t) eqn:B; [|reflexivity]. pose proof B as B'. apply andb_prop in B' as [B' _]. apply andb_prop in B' as [B' _]. apply Z.eqb_eq in B'. subst ch.
    replace (is_ident_char lang 47) with false by (destruct lang; reflexivity). change (is_dec_digit 47 || _) with false. change (47 =? 91) with false. change ((47 =? 34) || _) with false. cbn [andb]. discriminate.
Qed.

Section Hints.
Context (isspace : Z -> bool) (SP : ascii_isspace isspace).
Notation said := (said isspace).
(** [hinted], where the comments [cs0] were before *)
Inductive from (lang : language) (cs0 : list comment) : list Z -> list (tok * mods) -> mods -> Prop :=
| from_end g cs e : gap_of lang g cs -> said (cs0 ++ cs) e -> from lang cs0 g [] e
| from_comment g cs c body e : gap_of lang g cs -> line_text lang c body -> said (cs0 ++ cs ++ [(false, body)]) e -> from lang cs0 (g ++ c) [] e
| from_token g cs t m rest hts e : gap_of lang g cs -> lexeme lang t -> said (cs0 ++ cs) m -> hinted isspace lang rest hts e ->
    from lang cs0 (g ++ tok_value t ++ rest) ((t, m) :: hts) e.
Lemma from_gap lang cs0 g cs s hts e : gap_of lang g cs -> from lang (cs0 ++ cs) s hts e -> from lang cs0 (g ++ s) hts e.
Proof.
  intros G F. inversion F as [g' cs' ? G' S|g' cs' c body ? G' C S|g' cs' t m rest hts' ? G' L S H]; subst.
  - eapply from_end; [eapply gap_of_app; eassumption|]. now rewrite app_assoc.
  - rewrite app_assoc. eapply from_comment; [eapply gap_of_app; eassumption|eassumption|]. now rewrite <- app_assoc, app_assoc.
  - rewrite app_assoc. eapply from_token; [eapply gap_of_app; eassumption|assumption| |assumption]. now rewrite app_assoc.
Qed.
Lemma from_none lang s hts e : from lang [] s hts e -> hinted isspace lang s hts e.
Proof. intros F. inversion F; subst; cbn [app] in *; [eapply hinted_end|eapply hinted_comment|eapply hinted_token]; eassumption. Qed.

Lemma all_hinted : forall n lang m s hts e cs0, tok_loop_hints isspace n lang m s = Ok (hts, e) -> Forall (lexeme lang) (map fst hts) -> said cs0 m -> from lang cs0 s hts e.
Proof.
  assert (Nil : forall lang cs0 m, said cs0 m -> from lang cs0 [] [] m) by (intros; eapply from_end; [constructor|now rewrite app_nil_r]).
  induction n as [|n IH]; intros lang m [|ch t] hts e cs0 E F S; cbn [tok_loop_hints] in E; try discriminate E.
  1,2: apply Ok_inj in E; injection E as <- <-; now apply Nil.
  destruct (tok_round lang ch t) as [a r|] eqn:R; [|discriminate E]. cbv zeta in E.
  set (m1 := match a with [] => m | _ => no_mods end) in *. set (m2 := match round_comment lang ch t with Some (b, c) => process_comment isspace b c m1 | None => m1 end) in *.
  destruct (tok_loop_hints isspace n lang m2 r) as [[b' e']|] eqn:L; [|discriminate E]. cbn [bind fst snd] in E. apply Ok_inj in E. injection E as <- <-.
  rewrite map_app, Forall_app in F. destruct F as [Fa Fb].
  destruct (round_shape _ _ _ _ _ R) as [->|[(ty & v & ->)|(x & -> & _)]].
  - cbn [attach app]. subst m1. apply round_reads in R. destruct R as [(c & Es & I & O)|[(c & i & Es & B & O)|[(c & x & Es & C & O)|(x & Er & C & O)]]]; unfold m2 in L; rewrite O in L; clear m2; rewrite ?Es.
    + change (c :: r) with ([c] ++ r). apply from_gap with (cs := []); [apply of_space; [exact I|constructor]|]. rewrite app_nil_r. eapply IH; eassumption.
    + apply from_gap with (cs := [(true, i)]); [rewrite <- (app_nil_r c); apply of_block; [exact B|constructor]|]. eapply IH; [exact L|exact Fb|]. now apply said_step.
    + replace (c ++ 10 :: r) with ((c ++ [10]) ++ r) by now rewrite <- app_assoc. apply from_gap with (cs := [(false, x)]); [apply of_line; [exact C|constructor]|].
      rewrite process_break in L by exact SP. eapply IH; [exact L|exact Fb|]. now apply said_step.
    + subst r. assert (K : b' = [] /\ e' = process_comment isspace false x m) by (destruct n; cbn in L; apply Ok_inj in L; injection L as <- <-; auto). destruct K as [-> ->].
      change (ch :: t) with ([] ++ ch :: t). eapply from_comment; [constructor|exact C|]. cbn [app]. now apply said_step.
  - unfold m2 in L. rewrite (token_no_comment _ _ _ _ _ _ R) in L. subst m1. clear m2. apply round_tok in R as (x & -> & -> & _). cbn [map app attach fst] in *.
    change (ch :: x ++ r) with ([] ++ tok_value (Tok ty (ch :: x)) ++ r). eapply from_token; [constructor|now inversion Fa|now rewrite app_nil_r|].
    apply from_none. eapply IH; [exact L|exact Fb|]. apply said_none.
  - exfalso. cbn in Fa. inversion Fa as [|? ? [K _]]. now apply K.
Qed.
Lemma hints_map : forall n lang m s, match tok_loop_hints isspace n lang m s with Ok r => tok_loop n lang s = Ok (map fst (fst r)) | Err e => tok_loop n lang s = Err e end.
Proof.
  induction n as [|n IH]; intros lang m [|c t]; cbn [tok_loop_hints tok_loop]; try reflexivity.
  destruct (tok_round lang c t) as [a r|]; [|reflexivity]. cbv zeta.
  match goal with |- context [tok_loop_hints isspace n lang ?m r] => specialize (IH lang m r); destruct (tok_loop_hints isspace n lang m r) as [[b e]|e]; rewrite IH; cbn [bind fst snd]; [|reflexivity] end.
  f_equal. rewrite map_app. f_equal. destruct a as [|x a]; cbn [attach map fst]; [reflexivity|]. f_equal. rewrite map_map. cbn. now rewrite map_id.
Qed.
End Hints.

(** Each token has the hints in the comments between it and the token before, and no others; of hints that say different things the last
    one counts; a comment that is no hint changes nothing. *)
Theorem C93_hints : forall isspace, ascii_isspace isspace -> forall lang src hts e, tokenize_hints isspace lang src = Ok (hts, e) ->
  ~ In TErr (map fst hts) -> hinted isspace lang src hts e.
Proof.
  intros isspace SP lang src hts e E N. apply from_none. eapply all_hinted; [exact SP|exact E| |apply said_none].
  apply (lexemes lang src); [|exact N]. pose proof (hints_map isspace (length src) lang no_mods src) as M. unfold tokenize_hints in E. now rewrite E in M.
Qed.
(** Hints do not change how a program is cut into tokens. *)
Theorem C93_tokens : forall isspace lang src,
  match tokenize_hints isspace lang src with Ok (hts, _) => tokenize lang src = Ok (map fst hts) | Err e => tokenize lang src = Err e end.
Proof.
  intros isspace lang src. pose proof (hints_map isspace (length src) lang no_mods src) as M. unfold tokenize_hints. now destruct (tok_loop_hints isspace (length src) lang no_mods src) as [[hts e]|e].
Qed.

(** A case: "--[[global]]a--preserve: b,c", on the next line "d--[[$rename::e]]--[[member]]--[[preserve]]f--lint: func::g". *)
Definition some_space (c : Z) : bool := ((9 <=? c) && (c <=? 13)) || ((28 <=? c) && (c <=? 32)).
Example ex_space : ascii_isspace some_space.
Proof. intros c _. reflexivity. Qed.
Example ex_hints : tokenize_hints some_space Pico8 (asc "--[[global]]a--preserve: b,c" ++ 10 :: asc "d--[[$rename::e]]--[[member]]--[[preserve]]f--lint: func::g") =
  Ok ([(Tok TIdent [97], set_var no_mods KGlobal); (Tok TIdent [100], add_comment no_mods (HPreserve [[98]; [99]]));
       (Tok TIdent [102], set_rename (set_var no_mods KPreserve) [101])], add_comment (set_func no_mods [103]) (HLint [asc "func::g"])).
Proof. reflexivity. Qed.
Print Assumptions C93_hints.
Print Assumptions C93_tokens.
