(** The output has the tokens of the source. *)
From Coq Require Import String List ZArith Lia Bool.
From Verif Require Import M_Base L_Util M_Fold M_Token M_Expr S_Expr L_Expr L_ExprPrint M_Stmt S_Stmt L_Stmt L_StmtEq L_StmtRead M_Emit S_Emit L_Emit L_Emit2.
Import ListNotations.
Open Scope Z_scope.

Opaque S_Stmt.wf S_Stmt.wf_exs S_Stmt.wf_its S_Stmt.wf_st S_Stmt.wf_blk S_Stmt.wf_ifs S_Stmt.wf_els S_Stmt.lay S_Stmt.lay_list S_Stmt.lay_its S_Stmt.lay_st S_Stmt.lay_blk S_Stmt.lay_ifs S_Stmt.lay_els.

Fixpoint toks (m : list item) : list tok := match m with [] => [] | T t :: m => t :: toks m | _ :: m => toks m end.
Lemma toks_app a b : toks (a ++ b) = toks a ++ toks b.
Proof. induction a as [|[]]; cbn; congruence. Qed.
Lemma toks_run m : forall s, map fst (run s m) = toks m.
Proof. induction m as [|[] m IH]; intros s; cbn [run toks map fst]; [reflexivity|f_equal| |]; apply IH. Qed.
Lemma toks_short n m : toks (short n m) = toks m.
Proof. destruct n; [reflexivity|]. cbn [short toks]. rewrite toks_app. apply app_nil_r. Qed.

Lemma toks_params ps : forall ts rest, params ps ts rest -> map fst ts = toks (m_params ps).
Proof.
  assert (P : forall p ts rest, param p ts rest -> map fst ts = toks (m_param p)) by (intros [x|] ts rest (l & ->); reflexivity).
  induction ps as [|p ps IH]; intros ts rest L; cbn [params m_params] in *; [now rewrite L|]. destruct ps as [|q ps]; [now apply (P p ts rest)|].
  destruct L as (a & b & -> & A & c & d & -> & (l & ->) & D). rewrite !map_app, !toks_app. cbn [map fst]. f_equal; [now apply (P p _ _ A)|]. f_equal. now apply (IH _ _ D).
Qed.
Lemma toks_vars ps : forall ts rest, vars ps ts rest -> map fst ts = toks (m_vars ps).
Proof.
  assert (P : forall p ts rest, var p ts rest -> map fst ts = toks (m_var p)).
  { intros (x, [a|]) ts rest L; unfold var, m_var in *; cbn [fst snd] in *; unseq; reflexivity. }
  induction ps as [|p ps IH]; intros ts rest L; cbn [vars m_vars] in *; [now rewrite L|]. destruct ps as [|q ps]; [now apply (P p ts rest)|].
  destruct L as (a & b & -> & A & c & d & -> & (l & ->) & D). rewrite !map_app, !toks_app. cbn [map fst]. f_equal; [now apply (P p _ _ A)|]. f_equal. now apply (IH _ _ D).
Qed.
Lemma toks_names ps : forall ts rest, names ps ts rest -> map fst ts = toks (m_names ps).
Proof.
  induction ps as [|p ps IH]; intros ts rest L; cbn [names m_names] in *; [now rewrite L|]. destruct ps as [|q ps]; [unseq; reflexivity|].
  destruct L as (a & b & -> & (l' & ->) & c & d & -> & (l & ->) & D). rewrite !map_app, !toks_app. cbn [map fst]. f_equal. f_equal. now apply (IH _ _ D).
Qed.
Lemma toks_dotted ps : forall ts rest, dotted ps ts rest -> map fst ts = toks (m_dotted ps).
Proof.
  induction ps as [|p ps IH]; intros ts rest L; cbn [dotted m_dotted] in *; [now rewrite L|].
  destruct L as (a & b & -> & (l' & ->) & c & d & -> & (l & ->) & D). rewrite !map_app, !toks_app. cbn [map fst]. f_equal. f_equal. now apply (IH _ _ D).
Qed.
Lemma toks_sep sep ts rest : separated sep ts rest -> map fst ts = toks (m_sep sep).
Proof. destruct sep; intros L; [destruct L as (l0 & ->); reflexivity|]. cbn in L. red in L. subst. reflexivity. Qed.

Section Toks.
Context (lang : language).
Notation lay := (lay lang).
Notation lay_list := (lay_list lang).
Notation lay_its := (lay_its lang).
Notation lay_st := (lay_st lang).
Notation lay_blk := (lay_blk lang).
Notation lay_ifs := (lay_ifs lang).
Notation lay_els := (lay_els lang).
Ltac norm := unseq; cbn [m_ex m_exs m_its m_st m_blk m_ifs m_els] in *; unfold tw, tn in *; repeat first [rewrite toks_short|rewrite map_app|rewrite toks_app|rewrite app_nil_r|progress cbn [map fst app toks]].
Ltac same := repeat match goal with
  | H : forall _ _, lay ?e _ _ -> _, L : lay ?e _ _ |- _ => apply H in L
  | H : forall _ _, lay_list ?e _ _ -> _, L : lay_list ?e _ _ |- _ => apply H in L
  | H : forall _ _, lay_its ?e _ _ -> _, L : lay_its ?e _ _ |- _ => apply H in L
  | H : forall _ _ _, lay_st _ ?e _ _ -> _, L : lay_st _ ?e _ _ |- _ => apply H in L
  | H : forall _ _ _, lay_blk _ ?e _ _ -> _, L : lay_blk _ ?e _ _ |- _ => apply H in L
  | H : forall _ _, lay_els ?e _ _ -> _, L : lay_els ?e _ _ |- _ => apply H in L
  | L : params _ _ _ |- _ => apply toks_params in L
  | L : vars _ _ _ |- _ => apply toks_vars in L
  | L : names _ _ _ |- _ => apply toks_names in L
  | L : dotted _ _ _ |- _ => apply toks_dotted in L
  | L : separated _ _ _ |- _ => apply toks_sep in L
  end; congruence.
Lemma all_toks : (forall e ts rest, lay e ts rest -> map fst ts = toks (m_ex e)) /\ (forall e ts rest, lay_list e ts rest -> map fst ts = toks (m_exs e)) /\ (forall e ts rest, lay_its e ts rest -> map fst ts = toks (m_its e)) /\
  (forall s vl ts rest, lay_st vl s ts rest -> map fst ts = toks (m_st s)) /\ (forall b vl ts rest, lay_blk vl b ts rest -> map fst ts = toks (m_blk b)) /\
  (forall i, (forall ts rest, lay_ifs i ts rest -> forall w, op_tok (asc w) :: map fst ts = toks (m_ifs w i))) /\
  (forall e, (forall ts rest, lay_els e ts rest -> map fst ts = toks (m_els e)) /\ match e with EElse b => forall vl ts rest, lay_blk vl b ts rest -> map fst ts = toks (m_blk b) | _ => True end).
Proof.
  apply prog_all.
  all: try (intros; match goal with H : lay _ _ _ |- _ => rewrite eq_lay_l in H end; cbv iota in *; norm; same).
  all: try (intros; match goal with H : lay_its _ _ _ |- _ => rewrite eq_lay_its_l in H end; cbv iota in *; norm; same).
  all: try (intros; match goal with H : lay_st _ _ _ _ |- _ => rewrite eq_lay_st_l in H end; cbv iota in *; norm; same).
  - intros f F s args A ts rest L. rewrite eq_lay_l in L. cbv iota in L. destruct s; norm; same.
  - intros f F key s args A ts rest L. rewrite eq_lay_l in L. cbv iota in L. destruct s; norm; same.
  - intros ts rest L. rewrite eq_lay_list_l in L. cbv iota in L. norm. reflexivity.
  - intros e E es Es ts rest L. rewrite (eq_lay_list_l lang (XCons _ _)) in L. cbv iota in L. destruct es; [cbn [m_exs]; same|]. cbn [m_exs]. unseq. unfold tw. rewrite !map_app, !toks_app. cbn [map fst]. apply E in L0. apply Es in L2. cbn [m_exs] in L2. rewrite L0, L2. reflexivity.
  - intros i H vl ts rest L. rewrite eq_lay_st_l in L. cbv iota in L. unseq. cbn [map fst m_st]. now apply (H _ _ L1).
  - intros n c C b B vl ts rest L. rewrite eq_lay_st_l in L. destruct L as (l & L). unseq. match goal with H : lay c _ _ /\ _ |- _ => destruct H as (L & _) end. norm. same.
  - intros x a A z Z step S b B vl ts rest L. rewrite eq_lay_st_l in L. cbv iota in L. destruct step; [norm; same|]. unseq. cbn [m_st]. unfold tw, tn. repeat first [rewrite map_app|rewrite toks_app|progress cbn [map fst app toks]]. same.
  - intros es E vl ts rest L. rewrite eq_lay_st_l in L. cbv iota in L. destruct es; [norm; reflexivity|]. unseq. cbn [m_st map fst]. match goal with H : lay_list _ _ _ |- _ => apply E in H; rewrite H end. reflexivity.
  - intros xs es E vl ts rest L. rewrite eq_lay_st_l in L. cbv iota in L. destruct es; unseq; cbn [m_st]; unfold tw; cbn [map fst app toks]; [same|]. rewrite map_app, toks_app. cbn [map fst app toks]. same.
  - intros x path meth ps b B vl ts rest L. rewrite eq_lay_st_l in L. cbv iota in L. destruct meth; norm; same.
  - intros vl ts rest L. rewrite eq_lay_blk_l in L. cbv iota in L. norm. reflexivity.
  - intros s S b B vl ts rest L. rewrite (eq_lay_blk_l lang _ (BCons _ _)) in L. cbv iota in L. norm. same.
  - intros w c C b B e (E & _) ts rest L w0. rewrite eq_lay_ifs_l in L. cbv iota in L. norm. same.
  - intros n c C b B e (_ & E) ts rest L w0. rewrite eq_lay_ifs_l in L. destruct L as (l & L). cbn [m_ifs]. rewrite toks_short. unfold tw at 1. cbn [app toks]. f_equal. rewrite !toks_app.
    destruct e as [|b2|i]; [| |]; rewrite ?toks_short; unseq; match goal with H : lay c _ _ /\ _ |- _ => destruct H as (L & _) end.
    + norm. same.
    + norm. subst. cbn [map fst app]. rewrite ?map_app. change (op_tok (asc "else")) with (kw "else"). same.
    + norm. same.
  - split; [|exact I]. intros ts rest L. rewrite eq_lay_els_l in L. cbv iota in L. norm. same.
  - intros b B. split; [|exact B]. intros ts rest L. rewrite eq_lay_els_l in L. cbv iota in L. norm. same.
  - intros i H. split; [|exact I]. intros ts rest L. rewrite eq_lay_els_l in L. cbv iota in L. unseq. cbn [map fst m_els]. now apply (H _ _ L1).
Qed.
Lemma emit_toks b ts : program lang b ts -> map fst (emit b) = map fst ts.
Proof. intros (_ & L). unfold emit. rewrite toks_run. symmetry. destruct all_toks as (_ & _ & _ & _ & B & _). apply (B _ _ _ _ L). Qed.
End Toks.
