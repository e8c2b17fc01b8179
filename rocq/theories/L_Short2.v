(** Changing shorthands: well-formed programs. *)
From Coq Require Import String List ZArith Lia Bool.
From Verif Require Import M_Base L_Util M_Fold M_Token M_Expr S_Expr L_Expr L_ExprPrint M_Stmt S_Stmt L_Stmt L_StmtEq L_StmtRead M_Emit S_Emit L_Emit L_Emit2 L_Emit4 M_Tidy S_Tidy L_Tidy L_Tidy2 L_Tidy3 S_Unmin M_Short S_Short L_Short.
Import ListNotations.
Open Scope Z_scope.

Section Wf.
Context (lang : language) (o : opts).
Lemma leads_sw c e : leads (sw_ex o c e) = leads e. Proof. induction e using ex_ind; cbn; congruence. Qed.
Lemma tight_sw c e k : tight_ex e k -> tight_ex (sw_ex o c e) k. Proof. now destruct e. Qed.
Lemma un_sw c e : is_un e -> is_un (sw_ex o c e). Proof. now destruct e. Qed.
Lemma callable_sw c e : callable_ex e -> callable_ex (sw_ex o c e). Proof. now destruct e. Qed.
Lemma is_call_sw c e : is_call e -> is_call (sw_ex o c e). Proof. now destruct e. Qed.
Lemma short_sw c es : short_exs es -> short_exs (sw_exs o c es). Proof. destruct es as [|e es]; [easy|]. now destruct es, e. Qed.
Lemma sep_sw c sep i : sep_ok sep i -> sep_ok sep (sw_its o c i). Proof. destruct sep; [easy|]. cbn. now intros ->. Qed.
Lemma fun_sw c e : fun_first (sw_ex o c e) -> fun_first e. Proof. induction e using ex_ind; cbn; auto. Qed.
Lemma strip_wf e : wf lang e -> wf lang (strip e). Proof. induction e using ex_ind; cbn [strip]; try easy. Qed.
Lemma fill_wf b : wf_blk lang b -> wf_blk lang (fill b). Proof. destruct b; [|easy]. intros _. cbn [fill]. rewrite (eq_wf_blk_l lang (BCons _ _)). split; [now rewrite eq_wf_st_l|exact I]. Qed.
Lemma nonempty_sw c es : es <> XNil -> sw_exs o c es <> XNil. Proof. now destruct es. Qed.
Definition W_ex e := plain_ex e -> wf lang e -> forall c, wf lang (sw_ex o c e).
Definition W_exs e := plain_exs e -> wf_exs lang e -> forall c, wf_exs lang (sw_exs o c e).
Definition W_its e := plain_its e -> wf_its lang e -> forall c, wf_its lang (sw_its o c e).
Definition W_st e := plain_st e -> wf_st lang e -> forall c, wf_st lang (sw_st o c e).
Definition W_blk e := plain_blk e -> wf_blk lang e -> forall c, wf_blk lang (sw_blk o c e).
Definition W_ifs e := plain_ifs e -> wf_ifs lang e -> forall c el, wf_ifs lang (sw_ifs o c el e).
Definition W_els e := (plain_els e -> wf_els lang e -> forall c, wf_els lang (sw_els o c e)) /\ match e with EElse b => W_blk b | _ => True end.
Ltac unwf := repeat match goal with
    | H : wf _ (_ _) |- _ => rewrite eq_wf_l in H; cbv iota in H
    | H : wf_exs _ (_ _ _) |- _ => rewrite eq_wf_exs_l in H; cbv iota in H
    | H : wf_its _ (_ _) |- _ => rewrite eq_wf_its_l in H; cbv iota in H
    | H : wf_st _ (_ _) |- _ => rewrite eq_wf_st_l in H; cbv iota in H
    | H : wf_ifs _ (_ _ _) |- _ => rewrite eq_wf_ifs_l in H; cbv iota in H
    | H : wf_els _ (_ _) |- _ => rewrite eq_wf_els_l in H; cbv iota in H
    | H : wf_blk _ (_ _ _) |- _ => rewrite eq_wf_blk_l in H; cbv iota in H
    end.
Ltac gowf := first [rewrite eq_wf_l|rewrite (eq_wf_exs_l lang (XCons _ _))|rewrite eq_wf_its_l|rewrite eq_wf_st_l|rewrite eq_wf_ifs_l|rewrite eq_wf_els_l]; cbv iota.
Lemma all_wf_sw : (forall e, W_ex e) /\ (forall e, W_exs e) /\ (forall e, W_its e) /\ (forall s, W_st s) /\ (forall b, W_blk b) /\ (forall i, W_ifs i) /\ (forall e, W_els e).
Proof.
  apply prog_all; unfold W_ex, W_exs, W_its, W_st, W_ifs; intros; cbn [sw_ex sw_exs sw_its sw_st plain_ex plain_exs plain_its plain_st plain_ifs] in *; try assumption; unwf.
  all: try (gowf; intuition eauto using tight_sw, callable_sw, is_call_sw, short_sw, sep_sw, fun_sw, nonempty_sw; fail).
  - (* XBin *) destruct H2 as (A & Wl & Wr & k & K & D), H1 as (P1 & P2). gowf. split; [exact A|]. split; [auto|]. split; [auto|]. exists k. split; [exact K|]. intuition eauto using tight_sw, un_sw.
  - (* SWhile *) destruct (is_true _ && _); gowf; destruct H1 as (P1 & P2 & P3), H2 as (W1 & W2); (split; [|auto using fill_wf]); [rewrite eq_wf_l|]; apply strip_wf; auto.
  - (* SWhileShort *) destruct (is_false _); gowf; destruct H1 as (P1 & P2 & P3), H2 as (W1 & W2); split; auto using strip_wf.
  - (* SFor *) gowf. destruct H3 as (P1 & P2 & P3 & P4), H4 as (W1 & W2 & W3 & W4 & W5 & W6). split; [exact W1|]. split; [auto|]. split; [auto|]. split; [auto|]. split; [now destruct step as [|? []]|auto].
  - (* SForIn *) gowf. destruct H1 as (P1 & P2), H2 as (W1 & W2 & W3 & W4 & W5). auto 10 using nonempty_sw.
  - (* SAssign *) gowf. destruct H1 as (P0 & P1 & P2), H2 as (W1 & W2 & W3 & W4). split; [destruct targets; [easy|]; cbn [sw_exs]; intros F; now apply W1, (fun_sw c)|]. auto using nonempty_sw.
  - (* SPrint *) gowf. destruct H1 as (W1 & W2). auto using nonempty_sw.
  - (* SCall *) destruct H0 as (P0 & P1 & P2), H1 as (W1 & W2). destruct (call_cases e) as [(x & sh & args & ->)|P].
    + specialize (H P2 W2 c). cbn [sw_ex] in H. destruct (new_print o && may_print o c x (sh_exs o c args)) eqn:E; gowf; [|split; [exact I|exact H]].
      split; [|unwf; tauto]. destruct args; [exfalso|easy]. apply andb_prop in E. destruct E as (_ & E). unfold may_print in E. repeat (apply andb_prop in E; destruct E as (E & ?)). unfold named_print, is_print in *. congruence.
    + change (wf_st lang (sw_st o c (SCall e))). rewrite other_call by exact P. gowf. split; [now apply is_call_sw|auto].
  - intros _ _ c. exact I.
  - intros (P1 & P2) W c. rewrite (eq_wf_blk_l lang (BCons _ _)) in W. destruct W as (W1 & W2). rewrite sw_cons. rewrite (eq_wf_blk_l lang (BCons _ _)). split; [now apply H|now apply H0].
  - (* ILong *) destruct H1 as (E & E'), H2 as (P1 & P2 & P3 & P4), H3 as (W1 & W2 & W3 & W4). cbn [sw_ifs]. destruct (is_true _ && _ && may_if _ _ _ _ _ _ _) eqn:M; gowf.
    + split; [rewrite eq_wf_l; apply strip_wf; auto|]. split; [apply fill_wf, H0; auto|]. destruct e as [|b'|]; [split; [now rewrite eq_wf_els_l|exact I]| |rewrite andb_false_r in M; discriminate M]. unwf. split; [|exact I]. gowf. apply fill_wf, E'; auto.
    + split; [exact W1|]. split; [apply strip_wf; auto|]. split; [apply H0; auto|apply E; auto].
  - (* IShort *) destruct H1 as (E & E'), H2 as (P1 & P2 & P3 & P4), H3 as (W1 & W2 & W3 & W4). cbn [sw_ifs]. destruct e as [|b'|i]; [| |easy]; destruct (is_false _ && _); gowf.
    + split; [now left|]. split; [apply strip_wf; auto|]. split; [apply H0; auto|exact W3].
    + split; [auto|]. split; [apply H0; auto|]. split; [exact W3|exact I].
    + unwf. split; [now left|]. split; [apply strip_wf; auto|]. split; [apply H0; auto|]. gowf. now apply E'.
    + unwf. split; [auto|]. split; [apply H0; auto|]. split; [|exact I]. gowf. now apply E'.
  - split; [|exact I]. easy.
  - split; [|assumption]. intros P W c. unwf. cbn [sw_els]. gowf. now apply H.
  - split; [|exact I]. intros P W c. unwf. cbn [sw_els]. gowf. now apply H.
Qed.
End Wf.
