(** The program in longhand: its tokens, and that it is well formed. *)
From Coq Require Import String List ZArith Lia Bool.
From Verif Require Import M_Base L_Util M_Fold M_Token S_Str S_Token L_Token L_TokenSeq M_Expr S_Expr L_Expr L_ExprTok M_Stmt S_Stmt L_Stmt L_StmtEq L_StmtRead M_Emit S_Emit L_Emit L_Emit2 L_Emit7 M_Tidy L_Tidy M_Unmin S_Unmin L_Unmin L_Unmin2.
Import ListNotations.
Open Scope Z_scope.

Lemma etoks_params ps : etoks (e_params ps) = toks (m_params ps).
Proof.
  assert (A : forall p, etoks (e_param p) = toks (m_param p)) by (intros []; reflexivity).
  induction ps as [|p ps IH]; [reflexivity|]. destruct ps as [|q ps]; [apply A|]. cbn [e_params m_params] in *. rewrite !etoks_app, !toks_app, A, IH. reflexivity.
Qed.
Lemma etoks_vars ps : etoks (e_vars ps) = toks (m_vars ps).
Proof.
  assert (A : forall p, etoks (e_var p) = toks (m_var p)) by (intros (x, []); reflexivity).
  induction ps as [|p ps IH]; [reflexivity|]. destruct ps as [|q ps]; [apply A|]. cbn [e_vars m_vars] in *. rewrite !etoks_app, !toks_app, A, IH. reflexivity.
Qed.
Lemma etoks_names ps : etoks (e_names ps) = toks (m_names ps).
Proof.
  induction ps as [|p ps IH]; [reflexivity|]. destruct ps as [|q ps]; [reflexivity|]. cbn [e_names m_names] in *. rewrite !etoks_app, !toks_app, IH. reflexivity.
Qed.
Lemma etoks_dotted ps : etoks (e_dotted ps) = toks (m_dotted ps).
Proof. induction ps as [|p ps IH]; [reflexivity|]. cbn [e_dotted m_dotted]. now rewrite !etoks_app, !toks_app, IH. Qed.
Lemma etoks_sep sep : etoks (e_sep sep) = toks (m_sep sep). Proof. now destruct sep. Qed.
Lemma etoks_enclosed ind n w b : etoks (enclosed ind n w b) = etoks w ++ etoks b.
Proof. unfold enclosed. rewrite !etoks_app. cbn. now rewrite app_nil_r. Qed.
Lemma long_nil es : long_exs es = XNil <-> es = XNil. Proof. destruct es; cbn; split; congruence. Qed.

Section Toks.
Context (lang : language) (ind : list Z).
Definition K_ex e := wf lang e -> neat_ex e -> forall n, etoks (u_ex ind n false e) = toks (m_ex (long_ex e)).
Definition K_ex2 e := K_ex e /\ match e with XGroup e => K_ex e | _ => True end.
Definition K_exs e := wf_exs lang e -> neat_exs e -> forall n, etoks (u_exs ind n e) = toks (m_exs (long_exs e)).
Definition K_its e := wf_its lang e -> neat_its e -> forall n, etoks (u_its ind n e) = toks (m_its (long_its e)).
Definition K_st s := wf_st lang s -> neat_st s -> s <> SSemi -> forall n, etoks (u_st ind n s) = toks (m_st (long_st s)).
Definition K_blk b := wf_blk lang b -> neat_blk b -> forall n crash prev, etoks (u_blk ind n crash prev b) = toks (m_blk (long_blk b)).
Definition K_ifs i := forall w el, w = "if"%string /\ el = false \/ w = "elseif"%string /\ el = true -> wf_ifs lang i -> neat_ifs el i -> forall n, etoks (u_ifs ind n w i) = toks (m_ifs w (long_ifs i)).
Definition K_els e := (wf_els lang e -> forall short, neat_els short e -> forall n, etoks (u_els ind n e) = toks (m_els (long_els e))) /\ match e with EElse b => K_blk b | _ => True end.

Lemma bare_toks c n : K_ex2 c -> wf lang c -> neat_ex c -> grouped c -> etoks (u_ex ind n true c) = toks (m_ex (without_parens (long_ex c))).
Proof. intros (_ & K) W N G. destruct c; try easy. rewrite eq_wf_l in W. cbn [u_ex par app long_ex without_parens]. rewrite app_nil_r. now apply K. Qed.
Lemma long_cons s b : s <> SSemi -> long_blk (BCons s b) = BCons (long_st s) (long_blk b).
Proof. now destruct s. Qed.
Lemma blk_toks n crash prev s b : s <> SSemi -> etoks (u_blk ind n crash prev (BCons s b)) = etoks (u_st ind n s) ++ etoks (u_blk ind n crash (Some s) b).
Proof.
  intros N. assert (A : forall x y : list ev, etoks x = [] -> etoks (x ++ y) = etoks y) by (intros x y E; now rewrite etoks_app, E).
  assert (E : u_blk ind n crash prev (BCons s b) =
    (if is_fun_stmt s && match prev with Some p => negb (is_fun_stmt p) | None => false end then newline else []) ++
      indented ind n ++ u_st ind n s ++ newline ++ (if is_fun_stmt s then newline else []) ++ u_blk ind n crash (Some s) b) by (destruct s; try reflexivity; easy).
  rewrite E. rewrite A by now destruct (is_fun_stmt s && _). rewrite A by reflexivity. rewrite etoks_app. f_equal. rewrite A by reflexivity. apply A. now destruct (is_fun_stmt s).
Qed.
Ltac unwf := match goal with
    | H : wf _ (_ _) |- _ => rewrite eq_wf_l in H; cbv iota in H
    | H : wf_exs _ (_ _ _) |- _ => rewrite eq_wf_exs_l in H; cbv iota in H
    | H : wf_its _ (_ _) |- _ => rewrite eq_wf_its_l in H; cbv iota in H
    | H : wf_st _ (_ _) |- _ => rewrite eq_wf_st_l in H; cbv iota in H
    | H : wf_ifs _ (_ _ _) |- _ => rewrite eq_wf_ifs_l in H; cbv iota in H
    end.
Ltac conjs := repeat match goal with H : _ /\ _ |- _ => destruct H end.
Ltac open_all := cbn [u_ex u_exs u_its u_st u_ifs u_els par long_ex long_exs long_its long_st long_ifs long_els m_ex m_exs m_its m_st m_ifs m_els neat_ex neat_its neat_st neat_ifs] in *;
  rewrite ?etoks_app, ?toks_app, ?etoks_enclosed, ?etoks_params, ?etoks_names, ?etoks_dotted, ?etoks_sep, ?etoks_vars.
Ltac same := repeat match goal with
   | H : K_ex ?e, W : wf lang ?e, N : neat_ex ?e |- context [etoks (u_ex ind ?n false ?e)] => rewrite (H W N n)
   | H : K_exs ?e, W : wf_exs lang ?e, N : neat_exs ?e |- context [etoks (u_exs ind ?n ?e)] => rewrite (H W N n)
   | H : K_its ?e, W : wf_its lang ?e, N : neat_its ?e |- context [etoks (u_its ind ?n ?e)] => rewrite (H W N n)
   | H : K_blk ?e, W : wf_blk lang ?e, N : neat_blk ?e |- context [etoks (u_blk ind ?n ?c ?p ?e)] => rewrite (H W N n c p)
   end.
Lemma all_etoks : (forall e, K_ex2 e) /\ (forall e, K_exs e) /\ (forall e, K_its e) /\ (forall s, K_st s) /\ (forall b, K_blk b) /\ (forall i, K_ifs i) /\ (forall e, K_els e).
Proof.
  apply prog_all; unfold K_ex2.
  all: try (intros; conjs; (split; [|first [exact I|assumption]]); intros W N n; try unwf; conjs; open_all; conjs; same; reflexivity).
  all: try (intros; conjs; intros W N n; try unwf; conjs; open_all; conjs; same; reflexivity).
  all: try (intros; conjs; intros W N Ns n; try unwf; conjs; open_all; conjs; same; reflexivity).
  - intros f (F & _) sh args A. split; [|exact I]. intros W N n. unwf. conjs. destruct sh; open_all; conjs; same; reflexivity.
  - intros f (F & _) key sh args A. split; [|exact I]. intros W N n. unwf. conjs. destruct sh; open_all; conjs; same; reflexivity.
  - intros e (E & _) es Es W N n. rewrite (eq_wf_exs_l lang (XCons _ _)) in W. destruct W as (We & Ws), N as (Ne & Ns). destruct es as [|e2 es]; [now apply E|].
    change (u_exs ind n (XCons e (XCons e2 es))) with (u_ex ind n false e ++ ew "," ++ u_exs ind n (XCons e2 es)).
    change (m_exs (long_exs (XCons e (XCons e2 es)))) with (m_ex (long_ex e) ++ tw "," ++ m_exs (long_exs (XCons e2 es))). rewrite !etoks_app, !toks_app. same. reflexivity.
  - intros _ _ N. easy.
  - intros i A W N _ n. unwf. apply (A "if"%string false); auto.
  - intros nd c C b B W N _ n. unwf. destruct W as (Wc & Wb). cbn [neat_st] in N. destruct N as (G & Nc & Nb). cbn [u_st long_st m_st]. rewrite !etoks_app, !toks_app, etoks_enclosed, (bare_toks c n) by assumption. same. reflexivity.
  - intros x a (A & _) z (Z' & _) step S b B W N _ n. unwf. destruct W as (Px & Wa & Wz & Ws & _ & Wb). cbn [neat_st] in N. destruct N as (Na & Nz & Ns & Nb). cbn [u_st long_st m_st]. rewrite !etoks_app, !toks_app, etoks_enclosed.
    assert (E : etoks (match step with XNil => [] | step => ew "," ++ u_exs ind n step end) = toks (match long_exs step with XNil => [] | _ => tw "," ++ m_exs (long_exs step) end)).
    { destruct step as [|e step]; [reflexivity|]. specialize (S Ws Ns n). cbn [long_exs] in *. now rewrite etoks_app, toks_app, S. }
    rewrite E. same. reflexivity.
  - intros xs es A W N _ n. unwf. destruct W as (_ & _ & We). specialize (A We N n). cbn [u_st long_st]. destruct es as [|e es].
    + cbn [long_exs m_st]. now rewrite !etoks_app, !toks_app, etoks_vars.
    + cbn [long_exs m_st] in *. now rewrite !etoks_app, !toks_app, etoks_vars, A.
  - intros x path meth ps b B W N _ n. unwf. destruct W as (_ & _ & _ & _ & Wb). cbn [neat_st] in N. destruct meth; open_all; same; reflexivity.
  - intros es A W N _ n. unwf. destruct W as (_ & We). cbn [u_st long_st m_st neat_st] in *. rewrite toks_short, etoks_app, toks_app. same. reflexivity.
  - intros s S b B W N n crash prev. rewrite (eq_wf_blk_l lang (BCons _ _)) in W. destruct W as (Ws & Wb), N as (Ns & _ & Nb). destruct (st_eq_dec_semi s) as [->|Nn].
    + cbn [u_blk long_blk]. rewrite etoks_app. destruct crash; now apply B.
    + rewrite blk_toks, long_cons by exact Nn. cbn [m_blk]. rewrite toks_app. same. now rewrite (S Ws Ns Nn n).
  - intros th c (C & _) b B e (E & _) w el Wd W N n. unwf. destruct W as (_ & Wc & Wb & We). cbn [neat_ifs] in N. destruct N as (Nc & Nb & Ne). cbn [u_ifs long_ifs m_ifs]. rewrite !etoks_app, !toks_app, etoks_enclosed. same. now rewrite (E We false Ne n).
  - intros nd c C b B e (_ & E) w el Wd W N n. unwf. destruct W as (Wc & Wb & We & Nl). cbn [neat_ifs] in N. destruct N as (El & G & Nc & Nb & Ne). destruct Wd as [(-> & _)|(_ & ?)]; [|congruence]. cbn [u_ifs long_ifs m_ifs]. change (zeqb_list (asc "if") (asc "elseif")) with false. cbv beta iota zeta.
    rewrite !etoks_app, !toks_app, etoks_enclosed, (bare_toks c n) by assumption. same. destruct e as [|b2|i]; [reflexivity| |easy]. rewrite eq_wf_els_l in We. destruct Ne as (_ & Ne). cbn [long_els m_els]. rewrite !etoks_app, !toks_app, etoks_enclosed, (E We Ne). reflexivity.
  - intros b B. split; [|exact B]. intros W short N n. rewrite eq_wf_els_l in W. destruct N as (_ & N). open_all. same. reflexivity.
  - intros i A. split; [|exact I]. intros W short N n. rewrite eq_wf_els_l in W. apply (A "elseif"%string true); auto.
Qed.
End Toks.

(** * Well formed *)
Section Wf.
Context (lang : language).
Lemma leads_long e : leads (long_ex e) = leads e. Proof. induction e using ex_ind; cbn; congruence. Qed.
Lemma tight_long e k : tight_ex e k -> tight_ex (long_ex e) k. Proof. now destruct e. Qed.
Lemma un_long e : is_un e -> is_un (long_ex e). Proof. now destruct e. Qed.
Lemma callable_long e : callable_ex e -> callable_ex (long_ex e). Proof. now destruct e. Qed.
Lemma is_call_long e : is_call e -> is_call (long_ex e). Proof. now destruct e. Qed.
Lemma short_long es : short_exs es -> short_exs (long_exs es). Proof. destruct es as [|e []]; cbn; try easy; destruct e as [[[] ?|]| | | | | | | | | | |]; easy. Qed.
Lemma sep_long sep i : sep_ok sep i -> sep_ok sep (long_its i). Proof. destruct sep; [easy|]. cbn. now intros ->. Qed.
Lemma fun_long e : fun_first (long_ex e) -> fun_first e. Proof. induction e using ex_ind; cbn; auto. Qed.
Definition W_ex e := wf lang e -> wf lang (long_ex e).
Definition W_els e := wf_els lang e -> wf_els lang (long_els e).
Ltac unwf := repeat match goal with
    | H : wf _ (_ _) |- _ => rewrite eq_wf_l in H; cbv iota in H
    | H : wf_exs _ (_ _ _) |- _ => rewrite eq_wf_exs_l in H; cbv iota in H
    | H : wf_its _ (_ _) |- _ => rewrite eq_wf_its_l in H; cbv iota in H
    | H : wf_st _ (_ _) |- _ => rewrite eq_wf_st_l in H; cbv iota in H
    | H : wf_ifs _ (_ _ _) |- _ => rewrite eq_wf_ifs_l in H; cbv iota in H
    | H : wf_els _ (_ _) |- _ => rewrite eq_wf_els_l in H; cbv iota in H
    | H : wf_blk _ (_ _ _) |- _ => rewrite eq_wf_blk_l in H; cbv iota in H
    end.
Ltac gowf := cbn [long_ex long_exs long_its long_st long_ifs long_els]; first [rewrite eq_wf_l|rewrite (eq_wf_exs_l lang (XCons _ _))|rewrite eq_wf_its_l|rewrite eq_wf_st_l|rewrite eq_wf_ifs_l|rewrite eq_wf_els_l]; cbv iota.
Lemma bare_wf e : wf lang e -> wf lang (without_parens e).
Proof. now destruct e. Qed.
Lemma all_wf_long : (forall e, W_ex e) /\ (forall e, wf_exs lang e -> wf_exs lang (long_exs e)) /\ (forall e, wf_its lang e -> wf_its lang (long_its e)) /\
  (forall s, wf_st lang s -> wf_st lang (long_st s)) /\ (forall b, wf_blk lang b -> wf_blk lang (long_blk b)) /\ (forall i, wf_ifs lang i -> wf_ifs lang (long_ifs i)) /\ (forall e, W_els e).
Proof.
  apply prog_all; unfold W_ex, W_els.
  all: try (intros; try assumption; unwf; gowf; intuition eauto using tight_long, callable_long, is_call_long, short_long, sep_long, fun_long, bare_wf; fail).
  - intros op l L r R W. unwf. gowf. destruct W as (A & Wl & Wr & k & K & D). split; [exact A|]. split; [auto|]. split; [auto|]. exists k. split; [exact K|]. intuition eauto using tight_long, un_long.
  - intros x a A z Z' step S b B W. unwf. gowf. destruct W as (P & Wa & Wz & Ws & D & Wb). split; [exact P|]. split; [auto|]. split; [auto|]. split; [auto|]. split; [now destruct step as [|? []]|auto].
  - intros xs es A b B W. unwf. gowf. destruct W as (N & P & Ne & We & Wb). split; [exact N|]. split; [exact P|]. split; [now rewrite long_nil|]. auto.
  - intros ts T es A W. unwf. gowf. destruct W as (Ft & Wt & Ne & We). split; [destruct ts; [easy|]; cbn [long_exs]; intros F; now apply Ft, fun_long|]. split; [auto|]. split; [now rewrite long_nil|auto].
  - intros es A W. unwf. gowf. destruct W as (Ne & We). split; [now rewrite long_nil|auto].
  - intros s S b B W. rewrite (eq_wf_blk_l lang (BCons _ _)) in W. destruct W as (Ws & Wb). destruct (st_eq_dec_semi s) as [->|Nn]; [cbn [long_blk]; auto|]. rewrite long_cons by exact Nn. rewrite (eq_wf_blk_l lang (BCons _ _)). split; auto.
Qed.
End Wf.
