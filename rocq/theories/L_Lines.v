(** Lemmas: the lines of printed tokens. *)
From Coq Require Import List ZArith Bool Lia.
From Verif Require Import M_Base L_Util M_Fold M_Token S_Token M_Expr M_Stmt M_Lines L_Token L_TokenSeq L_TokenTotal.
Import ListNotations.
Open Scope Z_scope.

Lemma lines_map : forall n lang l s, match tok_loop_lines n lang l s with Ok ts => tok_loop n lang s = Ok (map fst ts) | Err e => tok_loop n lang s = Err e end.
Proof.
  induction n as [|n IH]; intros lang l [|c t]; cbn [tok_loop_lines tok_loop]; try reflexivity.
  destruct (tok_round lang c t) as [a r|]; [|reflexivity]. specialize (IH lang (l + vline_step lang c t) r).
  destruct (tok_loop_lines n lang _ r) as [b|e]; rewrite IH; cbn; [|reflexivity]. f_equal. rewrite map_app, map_map. cbn. now rewrite map_id.
Qed.
Lemma tokenize_lines_fst lang s ts : tokenize_lines lang s = Ok ts -> tokenize lang s = Ok (map fst ts).
Proof. intros E. unfold tokenize_lines in E. pose proof (lines_map (length s) lang 0 s) as M. now rewrite E in M. Qed.

Definition lines_from (lang : language) (l : Z) (s : list Z) : res (list ltok) := tok_loop_lines (length s) lang l s.
Lemma lines_enough : forall n lang l s, (length s <= n)%nat -> forall m, (length s <= m)%nat -> tok_loop_lines m lang l s = tok_loop_lines n lang l s.
Proof.
  induction n as [|n IH]; intros lang l [|c t] Hn m Hm; cbn in Hn; try lia; [destruct m; reflexivity|destruct m; reflexivity|].
  destruct m as [|m]; cbn in Hm; [lia|]. cbn [tok_loop_lines].
  destruct (tok_round lang c t) as [a r|] eqn:E; [|reflexivity]. apply round_len in E.
  now rewrite (IH lang _ r ltac:(lia) m ltac:(lia)).
Qed.
Lemma lines_cons : forall lang l ch t, lines_from lang l (ch :: t) =
  match tok_round lang ch t with
  | Hang => Err EFuel
  | Round a r => b <- lines_from lang (l + vline_step lang ch t) r ;; Ok (map (fun x => (x, l)) a ++ b)
  end.
Proof.
  intros lang l ch t. unfold lines_from at 1. cbn [length tok_loop_lines].
  destruct (tok_round lang ch t) as [a r|] eqn:E; [|reflexivity]. apply round_len in E.
  unfold lines_from. now rewrite (lines_enough (length r) lang _ r ltac:(lia) (length t) ltac:(lia)).
Qed.
Lemma no_step lang ch t ty v r : tok_round lang ch t = Round [Tok ty v] r -> vline_step lang ch t = 0.
Proof.
  unfold tok_round, vline_step. destruct (mem ch k_wspace); [discriminate|].
  destruct ((ch =? 45) && next_is (Z.eqb 45) t) eqn:A.
  - apply andb_prop in A as [A B]. apply Z.eqb_eq in A. subst ch. replace (is_ident_char lang 45) with false by (destruct lang; reflexivity).
    change (is_dec_digit 45 || _) with false. change (45 =? 91) with false. change ((45 =? 34) || _) with false. cbn [andb]. destruct (scan_long (skipn 1 t)); discriminate.
  - destruct ((ch =? 47) && is_pico8 lang && next_is (Z.eqb 47) t) eqn:B; [|reflexivity]. pose proof B as B'. apply andb_prop in B' as [B' _]. apply andb_prop in B' as [B' _]. apply Z.eqb_eq in B'. subst ch.
    replace (is_ident_char lang 47) with false by (destruct lang; reflexivity).
    change (is_dec_digit 47 || _) with false. change (47 =? 91) with false. change ((47 =? 34) || _) with false. cbn [andb]. discriminate.
Qed.
Lemma lines_step : forall lang l ty v r r', (exists ch x, v = ch :: x /\ tok_round lang ch (x ++ r) = Round [Tok ty v] r) ->
  head_ok r r' -> forall ts, lines_from lang l r' = Ok ts -> lines_from lang l (v ++ r') = Ok ((Tok ty v, l) :: ts).
Proof.
  intros lang l ty v r r' [ch [x [-> R]]] H ts E. apply round_tok in R as [x' [Ex [Er K]]].
  injection Ex as <-. cbn [app]. rewrite lines_cons, (K r' H), (no_step _ _ _ _ _ _ (K r' H)), Z.add_0_r, E. reflexivity.
Qed.

(** the lines go up by one *)
Fixpoint climbs (l : Z) (ts : list ltok) : Prop :=
  match ts with [] => True | (_, l') :: ts => (l' = l \/ l' = l + 1) /\ climbs l' ts end.
(** a glued token is on the line of the one before *)
Fixpoint glue_ok (l : Z) (ts : list ltok) (glued : list bool) : Prop :=
  match ts, glued with
  | (_, l') :: ts, g :: glued => (g = true -> l' = l) /\ glue_ok l' ts glued
  | _, _ => True
  end.
Lemma printed_lines : forall lang ts glued prev l out, length glued = length ts -> Forall (lexeme lang) (map fst ts) -> climbs l ts -> glue_ok l ts glued ->
  glued_ok lang prev (items_of l ts glued) -> output_loop lang prev false (items_of l ts glued) = Ok out ->
  match prev with
  | None => match ts with (_, l') :: _ => l' = l | [] => True end -> lines_from lang l out = Ok ts
  | Some p => lexeme lang p -> lines_from lang l (tok_value p ++ out) = Ok ((p, l) :: ts)
  end.
Proof.
  intros lang. induction ts as [|(t & l') ts IH]; intros [|g glued] prev l out Len Hl C G Hg E; try discriminate Len.
  - injection E as <-. destruct prev as [p|]; [|reflexivity]. intros Hp. destruct p as [ty v|]; [|destruct Hp; contradiction]. rewrite app_nil_r.
    apply lexeme_round in Hp as Hr. pose proof (lines_step lang l ty v [] [] Hr I [] eq_refl) as K. now rewrite app_nil_r in K.
  - cbn [map fst] in Hl. inversion Hl as [|? ? Ht Hts]. subst. destruct C as (C & C'), G as (G & G'). cbn [items_of glued_ok o_tok o_glued] in Hg. destruct Hg as (Hg1 & Hg2).
    cbn [items_of output_loop o_tok o_glued o_linebreak o_newline orb] in E. rewrite orb_false_r in E.
    destruct prev as [p|].
    + intros Hp. destruct p as [pty pv|]; [|destruct Hp; contradiction]. pose proof (lexeme_round _ _ _ Hp) as Hr. cbn [tok_value].
      assert (X : exists sep rest, output_loop lang (Some t) false (items_of l' ts glued) = Ok rest /\ out = sep ++ tok_value t ++ rest /\
        (l' = l + 1 /\ sep = [10] \/ l' = l /\ (sep = [32] \/ sep = [] /\ need_whitespace_between lang (Tok pty pv) t = Ok false))).
      { destruct g.
        - specialize (G eq_refl). subst l'. rewrite Z.ltb_irrefl in E. cbn [bind] in E. destruct (output_loop lang (Some t) false _) as [rest|] eqn:R; [|discriminate E].
          apply Ok_inj in E. exists [], rest. split; [reflexivity|]. split; [now symmetry|]. right. split; [reflexivity|]. right. auto.
        - destruct C as [-> | ->].
          + rewrite Z.ltb_irrefl in E. destruct (need_whitespace_between lang (Tok pty pv) t) as [w|] eqn:W; [|discriminate E]. cbn [bind] in E.
            destruct (output_loop lang (Some t) false _) as [rest|] eqn:R; [|discriminate E]. apply Ok_inj in E. destruct w; eexists _, rest; (split; [reflexivity|]); (split; [symmetry; exact E|]); right; (split; [reflexivity|]); auto.
          + replace (l <? l + 1) with true in E by (symmetry; apply Z.ltb_lt; lia). cbn [bind] in E. destruct (output_loop lang (Some t) false _) as [rest|] eqn:R; [|discriminate E].
            apply Ok_inj in E. exists [10], rest. split; [reflexivity|]. split; [now symmetry|]. left. auto. }
      destruct X as (sep & rest & R & -> & X). pose proof (IH glued (Some t) l' rest (f_equal pred Len) Hts C' G' Hg2 R Ht) as K. clear IH R. destruct X as [(-> & ->)|(-> & [-> | (-> & W)])].
      * apply (lines_step lang l pty pv [] _ Hr); [left; reflexivity|]. cbn [app]. rewrite lines_cons. cbn -[lines_from]. now rewrite K.
      * apply (lines_step lang l pty pv [] _ Hr); [left; reflexivity|]. cbn [app]. rewrite lines_cons. cbn -[lines_from]. rewrite Z.add_0_r. now rewrite K.
      * cbn [app]. apply no_ws_round in W as [ty [v [ch [y [E1 [E2 [R _]]]]]]]; [|apply Hp]. injection E1 as <- <-. subst pv.
        apply (lines_step lang l pty _ (tok_value t)); [eauto| |exact K].
        pose proof (lexeme_value _ _ Ht) as V. destruct (tok_value t) as [|c w]; [contradiction|]. right. reflexivity.
    + intros ->. rewrite Z.ltb_irrefl in E. cbn [bind] in E. destruct (output_loop lang (Some t) false _) as [rest|] eqn:R; [|discriminate E]. apply Ok_inj in E. subst out. cbn [app].
      exact (IH glued (Some t) l rest (f_equal pred Len) Hts C' G' Hg2 R Ht).
Qed.
