(** Laying out a program: everything together. *)
From Coq Require Import String List ZArith Lia Bool.
From Verif Require Import M_Base L_Util M_Fold M_Token S_Token L_TokenSeq M_Expr S_Expr L_Expr L_ExprPrint M_Stmt S_Stmt L_Stmt L_StmtEq L_StmtRead M_Emit S_Emit L_Emit L_Emit2 L_Emit3 L_Emit7 M_Tidy S_Tidy L_Tidy L_Tidy2 L_Tidy3 M_Unmin S_Unmin L_Unmin2 L_Unmin3 L_Unmin4 L_Unmin5 L_Unmin6 L_Unmin7.
Import ListNotations.
Open Scope Z_scope.

Lemma lexemes lang s ts : tokenize lang s = Ok ts -> ~ In TErr ts -> Forall (lexeme lang) ts.
Proof.
  intros E N. pose proof (pos_map (length s) lang 0 s) as P. unfold tokenize in E. destruct (tok_loop_pos (length s) lang 0 s) as [l|] eqn:El; [|congruence]. assert (ts = map snd l) by congruence. subst ts.
  apply Forall_forall. intros t I. apply in_map_iff in I. destruct I as ((p, t') & <- & I). apply in_split in I. destruct I as (l1 & l2 & ->). apply (source_lexeme lang s l1 p t' l2); [exact El|].
  apply Forall_forall. intros x I X. apply N. rewrite <- X. now apply in_map.
Qed.
Lemma lexemes_ok lang ts : Forall (lexeme lang) ts -> ~ In TErr ts.
Proof. intros F I. rewrite Forall_forall in F. now destruct (F _ I). Qed.

Lemma runs_lexemes lang s l s' : runs lang s l s' -> Forall (lexeme lang) (etoks l).
Proof. induction 1; cbn [etoks]; auto. Qed.

Lemma unminified lang b ts : program lang b ts -> Forall (lexeme lang) (map fst ts) -> neat_blk b -> lua (long_blk b) ->
  forall ind, wspace ind -> forall sub, exists out, unminify ind sub b = Ok out /\ tokenize lang out = Ok (toks (m_blk (long_blk b))) /\ Forall (lexeme lang) (toks (m_blk (long_blk b))).
Proof.
  intros P F N L ind Ind sub. destruct P as (W & Lay). destruct (all_toks lang) as (_ & _ & _ & _ & T & _). rewrite (T _ _ _ _ Lay) in F.
  assert (R : runs lang Loose (enclosed ind 0 [] (u_blk ind (if sub then 1%nat else 0%nat) false None b)) Loose).
  { apply enclosed_runs; [exact Ind|]. destruct (all_runs lang ind Ind) as (_ & _ & _ & _ & B & _). now apply B. }
  destruct (runs_text _ _ _ _ R None eq_refl) as (out & E & Rd). exists out. split; [exact E|]. cbn [reads] in Rd.
  assert (Et : etoks (enclosed ind 0 [] (u_blk ind (if sub then 1%nat else 0%nat) false None b)) = toks (m_blk (long_blk b))) by (rewrite etoks_enclosed; destruct (all_etoks lang ind) as (_ & _ & _ & _ & K & _); cbn [etoks app]; now rewrite K).
  rewrite <- Et. split; [exact Rd|exact (runs_lexemes _ _ _ _ R)].
Qed.
Lemma long_program lang b ts : program lang b ts -> neat_blk b -> lua (long_blk b) -> forall ts', map fst ts' = toks (m_blk (long_blk b)) -> program lang (long_blk b) ts'.
Proof.
  intros P N L ts' E. pose proof (program_apart lang b ts P) as A. destruct P as (W & _). split; [now apply all_wf_long|].
  destruct (all_lay lang) as (_ & _ & _ & _ & B & _). apply B; [exact W| |exact E|now left]. destruct (all_ap_long lang) as (_ & _ & _ & _ & C & _). apply (C b W false true None None); auto. exact I.
Qed.

(** * Again *)
Definition I_ex e := long_ex (long_ex e) = long_ex e /\ long_ex (without_parens (long_ex e)) = without_parens (long_ex e).
Lemma all_idem : (forall e, I_ex e) /\ (forall e, long_exs (long_exs e) = long_exs e) /\ (forall e, long_its (long_its e) = long_its e) /\ (forall s, long_st (long_st s) = long_st s) /\ (forall b, long_blk (long_blk b) = long_blk b) /\
  (forall i, long_ifs (long_ifs i) = long_ifs i) /\ (forall e, long_els (long_els e) = long_els e).
Proof.
  apply prog_all; unfold I_ex; intros; repeat match goal with H : _ /\ _ |- _ => destruct H end; try (split; cbn [long_ex without_parens]; congruence); try (cbn [long_exs long_its long_st long_ifs long_els]; congruence).
  - destruct (st_eq_dec_semi s) as [->|N]; [assumption|]. rewrite long_cons by exact N. rewrite long_cons by now destruct s. congruence.
Qed.
Lemma paren_first_long b : paren_first (long_blk b) -> paren_first b.
Proof.
  induction b as [|s b IH] using blk_ind; [easy|]. destruct (st_eq_dec_semi s) as [->|N]; [exact IH|]. rewrite long_cons by exact N. destruct s; cbn [long_st paren_first long_exs] in *; try easy; try now rewrite leads_long.
  destruct targets; [easy|]. cbn [long_exs]. now rewrite leads_long.
Qed.
Lemma long_semi b : no_semi (long_blk b).
Proof. induction b as [|s b IH] using blk_ind; [easy|]. destruct (st_eq_dec_semi s) as [->|N]; [exact IH|]. rewrite long_cons by exact N. now destruct s. Qed.
Lemma bracket_long e : no_bracket (long_ex e) <-> no_bracket e. Proof. unfold no_bracket. now rewrite leads_long. Qed.
Lemma comment_long op e : no_comment op (long_ex e) <-> no_comment op e. Proof. unfold no_comment. now rewrite leads_long. Qed.
Lemma bare_neat e : neat_ex e -> neat_ex (without_parens e). Proof. now destruct e. Qed.
Lemma all_neat_long : (forall e, neat_ex e -> neat_ex (long_ex e)) /\ (forall e, neat_exs e -> neat_exs (long_exs e)) /\ (forall e, neat_its e -> neat_its (long_its e)) /\ (forall s, neat_st s -> neat_st (long_st s)) /\
  (forall b, neat_blk b -> neat_blk (long_blk b)) /\ (forall i f, neat_ifs f i -> neat_ifs f (long_ifs i)) /\ (forall e f f', neat_els f e -> neat_els f' (long_els e)).
Proof.
  apply prog_all; intros; cbn [long_ex long_exs long_its long_st long_ifs long_els neat_ex neat_exs neat_its neat_st neat_ifs neat_els] in *; rewrite ?bracket_long, ?comment_long; try (intuition eauto using bare_neat, long_semi; fail).
  destruct H1 as (Ns & _ & Nb). destruct (st_eq_dec_semi s) as [->|N]; [auto|]. rewrite long_cons by exact N. split; [auto|]. split; [now destruct s|auto].
Qed.
