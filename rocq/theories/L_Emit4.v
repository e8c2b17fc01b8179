(** Trees but for what is noted on shorthands, and the runs of the output. *)
From Coq Require Import String List ZArith Lia Bool.
From Verif Require Import M_Base L_Util M_Fold M_Token M_Expr S_Expr L_Expr L_ExprPrint M_Stmt S_Stmt L_Stmt L_StmtEq L_StmtRead M_Emit S_Emit L_Emit L_Emit2 L_Emit3.
Import ListNotations.
Open Scope Z_scope.

Opaque S_Stmt.wf S_Stmt.wf_exs S_Stmt.wf_its S_Stmt.wf_st S_Stmt.wf_blk S_Stmt.wf_ifs S_Stmt.wf_els S_Stmt.lay S_Stmt.lay_list S_Stmt.lay_its S_Stmt.lay_st S_Stmt.lay_blk S_Stmt.lay_ifs S_Stmt.lay_els.

Lemma open_un e : open_end (un_ex e) <-> open_end e.
Proof. induction e using ex_ind; cbn in *; easy. Qed.
Lemma fun_first_un e : fun_first (un_ex e) <-> fun_first e.
Proof. induction e using ex_ind; cbn in *; easy. Qed.
Lemma tight_un e k : tight_ex (un_ex e) k <-> tight_ex e k. Proof. now destruct e. Qed.
Lemma is_un_un e : is_un (un_ex e) <-> is_un e. Proof. now destruct e. Qed.
Lemma callable_un e : callable_ex (un_ex e) <-> callable_ex e. Proof. now destruct e. Qed.
Lemma is_call_un e : is_call (un_ex e) <-> is_call e. Proof. now destruct e. Qed.
Lemma short_un es : short_exs (un_exs es) <-> short_exs es.
Proof. destruct es as [|e [|]]; [easy|now destruct e|now destruct e]. Qed.
Lemma sep_un sep i : sep_ok sep (un_its i) <-> sep_ok sep i.
Proof. destruct sep; [easy|]. now destruct i. Qed.
Lemma nil_un es : un_exs es = XNil <-> es = XNil. Proof. now destruct es. Qed.

Section Un.
Context (lang : language).
Lemma follow_un e rest : follow lang (un_ex e) rest <-> follow lang e rest.
Proof. destruct rest as [|([ty v|], l) rest]; cbn; [easy|rewrite open_un|]; easy. Qed.
Lemma follow_list_un es rest : follow_list lang (un_exs es) rest <-> follow_list lang es rest.
Proof. induction es as [|e es IH]; [easy|]. destruct es; [|exact IH]. cbn [un_exs follow_list]. now rewrite follow_un. Qed.
Lemma all_wf_un : (forall e, wf lang (un_ex e) <-> wf lang e) /\ (forall es, wf_exs lang (un_exs es) <-> wf_exs lang es) /\ (forall i, wf_its lang (un_its i) <-> wf_its lang i) /\
  (forall s, wf_st lang (un_st s) <-> wf_st lang s) /\ (forall b, wf_blk lang (un_blk b) <-> wf_blk lang b) /\ (forall i, wf_ifs lang (un_ifs i) <-> wf_ifs lang i) /\
  (forall e, wf_els lang (un_els e) <-> wf_els lang e).
Proof.
  apply prog_all; intros; cbn [un_ex un_exs un_its un_st un_blk un_ifs un_els]; try tauto.
  all: rewrite ?(eq_wf_l lang (XConst _)), ?(eq_wf_l lang (XDots)), ?(eq_wf_l lang (XVar _)), ?(eq_wf_l lang (XFun _ _)), ?(eq_wf_l lang (XGroup _)), ?(eq_wf_l lang (XUn _ _)), ?(eq_wf_l lang (XBin _ _ _)), ?(eq_wf_l lang (XMem _ _)), ?(eq_wf_l lang (XIdx _ _)), ?(eq_wf_l lang (XCall _ _ _)), ?(eq_wf_l lang (XMeth _ _ _ _)), ?(eq_wf_l lang (XTab _)),
    ?(eq_wf_exs_l lang (XCons _ _)), ?(eq_wf_its_l lang (IIdx _ _ _ _)), ?(eq_wf_its_l lang (IMem _ _ _ _)), ?(eq_wf_its_l lang (IItem _ _ _)), ?eq_wf_st_l, ?(eq_wf_blk_l lang (BCons _ _)), ?(eq_wf_ifs_l lang (ILong _ _ _ _)), ?(eq_wf_ifs_l lang (IShort _ _ _ _)), ?(eq_wf_els_l lang (EElse _)), ?(eq_wf_els_l lang (EElif _)); cbv iota; try tauto.
  all: rewrite ?short_un, ?sep_un, ?callable_un, ?is_call_un, ?fun_first_un, ?nil_un; try tauto.
  - rewrite tight_un. tauto.
  - rewrite H, H0. apply and_iff_compat_l, and_iff_compat_l, and_iff_compat_l. split; intros (k & P & Q); exists k; (split; [exact P|]); rewrite !tight_un, is_un_un in *; exact Q.
  - rewrite H, H0, H1, H2. destruct step as [|? [|? ?]]; cbn [un_exs]; tauto.
  - rewrite H, H0. destruct targets as [|e ?]; cbn [un_exs]; [tauto|]. rewrite fun_first_un. tauto.
  - rewrite H, H0, H1. destruct e; cbn [un_els]; tauto.
Qed.
End Un.

(** The first token of what is written. *)
Fixpoint begin (m : list item) : option tok := match m with Open :: m => begin m | T t :: _ => Some t | _ => None end.
Lemma begin_app a b t : begin a = Some t -> begin (a ++ b) = Some t.
Proof. induction a as [|[]]; cbn; easy. Qed.
Lemma begin_ex e : begin (m_ex e) = Some (head_ex e).
Proof. induction e using ex_ind; cbn [m_ex head_ex]; try reflexivity; now apply begin_app. Qed.
Lemma begin_exs es : es <> XNil -> begin (m_exs es) = Some (head_exs es).
Proof. destruct es as [|e es]; [easy|]. intros _. cbn [m_exs head_exs]. destruct es; [|apply begin_app]; apply begin_ex. Qed.
Lemma begin_st lang s : wf_st lang s -> begin (m_st s) = Some (head_st s).
Proof.
  intros W. rewrite eq_wf_st_l in W. destruct s; cbv iota in W; cbn [m_st head_st]; try reflexivity; try (apply begin_app, begin_ex).
  - destruct i as [w c b e|[] c b e]; reflexivity.
  - destruct nested; reflexivity.
  - destruct es; reflexivity.
  - apply begin_app, begin_exs. destruct targets; easy.
  - apply begin_ex.
Qed.
Lemma begin_blk lang b : wf_blk lang b -> b <> BNil -> begin (m_blk b) = head_blk b None.
Proof. destruct b as [|s b]; [easy|]. intros W _. rewrite eq_wf_blk_l in W. cbn [m_blk head_blk]. apply begin_app. now apply (begin_st lang). Qed.
Definition here (s : estate) : Z := if due s then lin s + 1 else lin s.
Lemma run_begin m : forall s t, begin m = Some t -> exists r, run s m = (t, here s) :: r.
Proof.
  induction m as [|[t'| |] m IH]; intros s t E; cbn in E; try discriminate E.
  - injection E as ->. cbn [run]. rewrite step_t. cbn [snd]. eexists. reflexivity.
  - cbn [run]. destruct s as ((lv, d), l). destruct (IH (step (lv, d, l) Open) t E) as (r & ->). exists r. reflexivity.
Qed.
Lemma hd_run m s t rest : begin m = Some t -> hd_tok (run s m ++ rest) = Some t.
Proof. intros E. destruct (run_begin m s t E) as (r & ->). reflexivity. Qed.
Lemma hd_blk lang b s rest : wf_blk lang b -> hd_tok (run s (m_blk b) ++ rest) = head_blk b (hd_tok rest).
Proof. intros W. destruct b as [|s0 b]; [reflexivity|]. rewrite (hd_run _ _ (head_st s0)); [reflexivity|]. now apply (begin_blk lang). Qed.

(** Rules along a run. *)
Lemma seq_run (A B : rule) s a b rest : A (run s a) (run (after s a) b ++ rest) -> B (run (after s a) b) rest -> seq A B (run s (a ++ b)) rest.
Proof. intros H H'. rewrite run_app. exists (run s a), (run (after s a) b). easy. Qed.
Lemma seq_i (A B : rule) a b rest : A a (b ++ rest) -> B b rest -> seq A B (a ++ b) rest.
Proof. intros. now exists a, b. Qed.
Lemma ahead_l (P : list ltok -> Prop) (B : rule) ts rest : P (ts ++ rest) -> B ts rest -> seq (ahead P) B ts rest.
Proof. intros. exists [], ts. easy. Qed.
Lemma ahead_r (P : list ltok -> Prop) (A : rule) ts rest : A ts rest -> P rest -> seq A (ahead P) ts rest.
Proof. intros. exists ts, []. now rewrite app_nil_r. Qed.
Lemma ahead_0 (P : list ltok -> Prop) rest : P rest -> ahead P [] rest. Proof. easy. Qed.
Lemma tk_run t s rest : tk t (run s [T t]) rest.
Proof. cbn [run]. eexists. reflexivity. Qed.
Lemma word_run w s rest : word w (run s (tw w)) rest. Proof. apply tk_run. Qed.
Lemma name_run x s rest : name x (run s (tn x)) rest. Proof. apply tk_run. Qed.
Lemma param_run p s rest : param p (run s (m_param p)) rest. Proof. destruct p; apply tk_run. Qed.
Lemma params_run ps : forall s rest, params ps (run s (m_params ps)) rest.
Proof.
  induction ps as [|p ps IH]; [reflexivity|]. intros s rest. cbn [params m_params]. destruct ps; [apply param_run|]. apply seq_run; [apply param_run|]. apply seq_run; [apply word_run|]. apply IH.
Qed.
Lemma var_run x s rest : var x (run s (m_var x)) rest.
Proof. destruct x as (x, [a|]); unfold var, m_var; cbn [fst snd]; [|apply name_run]. repeat (apply seq_run; [apply tk_run|]). apply tk_run. Qed.
Lemma vars_run xs : forall s rest, vars xs (run s (m_vars xs)) rest.
Proof.
  induction xs as [|p ps IH]; [reflexivity|]. intros s rest. cbn [vars m_vars]. destruct ps; [apply var_run|]. apply seq_run; [apply var_run|]. apply seq_run; [apply word_run|]. apply IH.
Qed.
Lemma names_run xs : forall s rest, names xs (run s (m_names xs)) rest.
Proof.
  induction xs as [|p ps IH]; [reflexivity|]. intros s rest. cbn [names m_names]. destruct ps; [apply name_run|]. apply seq_run; [apply name_run|]. apply seq_run; [apply word_run|]. apply IH.
Qed.
Lemma dotted_run xs : forall s rest, dotted xs (run s (m_dotted xs)) rest.
Proof. induction xs as [|p ps IH]; [reflexivity|]. intros s rest. cbn [dotted m_dotted]. repeat (apply seq_run; [apply tk_run|]). apply IH. Qed.
Lemma sep_run sep s rest : separated sep (run s (m_sep sep)) rest.
Proof. destruct sep; [apply tk_run|reflexivity]. Qed.
(** Behind a closing parenthesis. *)
Lemma m_paren e : ends_paren e -> exists a, m_ex e = a ++ [T (pt ")")].
Proof.
  induction e as [t| |x|ps b|e IH|op e IH|op l0 IHl r IHr|e IH key|e IH k IHk|f IH s args|e IH key s args|i] using ex_ind; cbn [ends_paren m_ex]; try easy.
  - intros _. exists (tw "(" ++ m_ex e). rewrite <- app_assoc. reflexivity.
  - intros H. destruct (IH H) as (a & ->). exists (T (op_tok op) :: a). reflexivity.
  - intros H. destruct (IHr H) as (a & ->). exists (m_ex l0 ++ T (op_tok op) :: a). now rewrite <- app_assoc.
  - destruct s; [easy|]. intros _. exists (m_ex f ++ tw "(" ++ m_exs args). rewrite <- !app_assoc. reflexivity.
  - destruct s; [easy|]. intros _. exists (m_ex e ++ tw ":" ++ tn key ++ tw "(" ++ m_exs args). rewrite <- !app_assoc. reflexivity.
Qed.
Lemma paren_run e s : ends_paren e -> (exists ts, run s (m_ex e) = ts ++ [(pt ")", lin (after s (m_ex e)))]) /\ due (after s (m_ex e)) = false.
Proof.
  intros H. destruct (m_paren e H) as (a & ->). rewrite run_app, after_app. destruct (after s a) as ((lv, d), l). split; [|reflexivity]. exists (run s a). reflexivity.
Qed.
