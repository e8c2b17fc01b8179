(** The program in longhand: its tokens are those of a program, on whatever lines they are. *)
From Coq Require Import String List ZArith Lia Bool.
From Verif Require Import M_Base L_Util M_Fold M_Token M_Expr S_Expr L_Expr L_ExprPrint M_Stmt S_Stmt L_Stmt L_StmtEq L_StmtRead M_Emit S_Emit L_Emit L_Emit2 L_Emit4 L_Emit7 M_Tidy S_Tidy L_Tidy L_Tidy2 L_Tidy3 M_Unmin S_Unmin L_Unmin2 L_Unmin5 L_Unmin6.
Import ListNotations.
Open Scope Z_scope.

Lemma seq_split (A B : rule) x y ts rest : map fst ts = x ++ y -> (forall t t2, map fst t = x -> map fst t2 = y -> A t (t2 ++ rest)) -> (forall t, map fst t = y -> B t rest) -> (A >> B) ts rest.
Proof. intros E HA HB. apply map_eq_app in E. destruct E as (a & b & -> & Ea & Eb). exists a, b. auto. Qed.
Lemma at_end (P : list ltok -> Prop) (A : rule) ts rest : A ts rest -> P rest -> (A >> ahead P) ts rest.
Proof. intros HA HP. exists ts, []. rewrite app_nil_r. split; [reflexivity|]. split; [exact HA|]. split; [reflexivity|exact HP]. Qed.
Lemma one_tk t ts rest : map fst ts = toks [T t] -> tk t ts rest.
Proof. destruct ts as [|(t', l) [|]]; cbn; try discriminate. intros [= ->]. now exists l. Qed.
Lemma one_word w ts rest : map fst ts = toks (tw w) -> word w ts rest. Proof. apply one_tk. Qed.
Lemma one_name x ts rest : map fst ts = toks (tn x) -> name x ts rest. Proof. apply one_tk. Qed.
Lemma params_of ps : forall ts rest, map fst ts = toks (m_params ps) -> params ps ts rest.
Proof.
  assert (A : forall p ts rest, map fst ts = toks (m_param p) -> param p ts rest) by (intros []; [apply one_name|apply one_word]).
  induction ps as [|p ps IH]; intros ts rest E; [now destruct ts|]. destruct ps as [|q ps]; [now apply A|]. cbn [m_params] in E. rewrite !toks_app in E. eapply seq_split; [exact E|intros; now apply A|]. intros t E'. eapply seq_split; [exact E'|intros; now apply one_word|]. intros; now apply IH.
Qed.
Lemma vars_of ps : forall ts rest, map fst ts = toks (m_vars ps) -> vars ps ts rest.
Proof.
  assert (A : forall p ts rest, map fst ts = toks (m_var p) -> var p ts rest).
  { intros (x, [a|]) ts rest E; [|now apply one_name]. unfold m_var in E. cbn [fst snd] in E. rewrite !toks_app in E. eapply seq_split; [exact E|intros; now apply one_name|]. clear ts E. intros ts E. eapply seq_split; [exact E|intros; now apply one_word|]. clear ts E. intros ts E. eapply seq_split; [exact E|intros; now apply one_name|]. intros; now apply one_word. }
  induction ps as [|p ps IH]; intros ts rest E; [now destruct ts|]. destruct ps as [|q ps]; [now apply A|]. cbn [m_vars] in E. rewrite !toks_app in E. eapply seq_split; [exact E|intros; now apply A|]. intros t E'. eapply seq_split; [exact E'|intros; now apply one_word|]. intros; now apply IH.
Qed.
Lemma names_of ps : forall ts rest, map fst ts = toks (m_names ps) -> names ps ts rest.
Proof.
  induction ps as [|p ps IH]; intros ts rest E; [now destruct ts|]. destruct ps as [|q ps]; [now apply one_name|]. cbn [m_names] in E. rewrite !toks_app in E. eapply seq_split; [exact E|intros; now apply one_name|]. intros t E'. eapply seq_split; [exact E'|intros; now apply one_word|]. intros; now apply IH.
Qed.
Lemma dotted_of ps : forall ts rest, map fst ts = toks (m_dotted ps) -> dotted ps ts rest.
Proof.
  induction ps as [|p ps IH]; intros ts rest E; [now destruct ts|]. cbn [m_dotted] in E. rewrite !toks_app in E. eapply seq_split; [exact E|intros; now apply one_word|]. intros t E'. eapply seq_split; [exact E'|intros; now apply one_name|]. intros; now apply IH.
Qed.
Lemma sep_of sep ts rest : map fst ts = toks (m_sep sep) -> separated sep ts rest.
Proof. destruct sep; [apply one_tk|]. now destruct ts. Qed.
Lemma nothing_of ts rest : map fst ts = [] -> nothing ts rest. Proof. now destruct ts. Qed.

Section Lay.
Context (lang : language).
Notation lay := (lay lang).
Notation lay_list := (lay_list lang).
Notation lay_its := (lay_its lang).
Notation lay_st := (lay_st lang).
Notation lay_blk := (lay_blk lang).
Notation lay_ifs := (lay_ifs lang).
Notation lay_els := (lay_els lang).
Notation ap_ex := (ap_ex lang).
Notation ap_exs := (ap_exs lang).
Notation ap_its := (ap_its lang).
Notation ap_st := (ap_st lang).
Notation ap_blk := (ap_blk lang).
Notation ap_ifs := (ap_ifs lang).
Notation ap_els := (ap_els lang).
Definition M_ex e := wf lang e -> ap_ex (long_ex e) -> forall ts rest, map fst ts = toks (m_ex (long_ex e)) -> lay (long_ex e) ts rest.
Definition M_ex2 e := M_ex e /\ match e with XGroup e => M_ex e | _ => True end.
Definition M_exs e := wf_exs lang e -> ap_exs (long_exs e) -> forall ts rest, map fst ts = toks (m_exs (long_exs e)) -> lay_list (long_exs e) ts rest.
Definition M_its e := wf_its lang e -> ap_its (long_its e) -> forall ts rest, map fst ts = toks (m_its (long_its e)) -> lay_its (long_its e) ts rest.
Definition M_st s := wf_st lang s -> forall ts rest, ap_st false (hd_tok rest) (long_st s) -> map fst ts = toks (m_st (long_st s)) -> lay_st None (long_st s) ts rest.
Definition M_blk b := wf_blk lang b -> forall ts rest, ap_blk false (hd_tok rest) (long_blk b) -> map fst ts = toks (m_blk (long_blk b)) -> rest = [] \/ next_is closers rest -> lay_blk None (long_blk b) ts rest.
Definition M_ifs i := wf_ifs lang i -> forall w ts rest, ap_ifs (hd_tok rest) (long_ifs i) -> map fst ts = toks (m_ifs w (long_ifs i)) -> (word w >> lay_ifs (long_ifs i)) ts rest.
Definition M_els e := wf_els lang e -> forall ts rest, ap_els (hd_tok rest) (long_els e) -> map fst ts = toks (m_els (long_els e)) -> lay_els (long_els e) ts rest.

Lemma hd_fst ts rest t m : map fst ts = t :: m -> hd_tok (ts ++ rest) = Some t.
Proof. destruct ts as [|(t', l) ts]; [discriminate|]. now intros [= ->]. Qed.
Lemma body_of b w x ts ts2 rest : M_blk b -> wf_blk lang b -> ap_blk false (Some (op_tok (asc w))) (long_blk b) -> map fst ts = toks (m_blk (long_blk b)) -> map fst ts2 = op_tok (asc w) :: x -> In w closers -> lay_blk None (long_blk b) ts (ts2 ++ rest).
Proof.
  intros M W A E E2 I. apply M; [exact W|rewrite (hd_fst _ _ _ _ E2); exact A|exact E|]. right. destruct ts2 as [|(t, l) ts2]; [discriminate E2|]. injection E2 as -> _. unfold op_tok. cbn [app next_is]. now apply in_map.
Qed.
Lemma body_end b ts ts2 rest : M_blk b -> wf_blk lang b -> ap_blk false kend (long_blk b) -> map fst ts = toks (m_blk (long_blk b)) -> map fst ts2 = toks (tw "end") -> lay_blk None (long_blk b) ts (ts2 ++ rest).
Proof. intros M W A E E2. apply (body_of b "end" []); auto. now left. Qed.
Lemma body_until b x ts ts2 rest : M_blk b -> wf_blk lang b -> ap_blk false (Some (op_tok (asc "until"))) (long_blk b) -> map fst ts = toks (m_blk (long_blk b)) -> map fst ts2 = toks (tw "until") ++ x -> lay_blk None (long_blk b) ts (ts2 ++ rest).
Proof. intros M W A E E2. apply (body_of b "until" x); auto. cbn. tauto. Qed.
Lemma body_els b e ts ts2 rest : M_blk b -> wf_blk lang b -> ap_blk false (Some (head_els e)) (long_blk b) -> map fst ts = toks (m_blk (long_blk b)) -> map fst ts2 = toks (m_els e) -> lay_blk None (long_blk b) ts (ts2 ++ rest).
Proof.
  intros M W A E E2. assert (exists w, In w closers /\ head_els e = op_tok (asc w)) as (w & I & Hw) by (destruct e; cbn [head_els]; eexists; (split; [|reflexivity]); cbn; tauto). rewrite Hw in A.
  assert (exists x, map fst ts2 = op_tok (asc w) :: x) as (x & E3) by (rewrite <- Hw; destruct e as [| |[|[]]]; rewrite E2; cbn [m_els m_ifs short head_els]; unfold tw; cbn [app toks]; now eexists). now apply (body_of b w x).
Qed.
Lemma bare_of e : M_ex2 e -> wf lang e -> ap_ex (without_parens (long_ex e)) -> forall ts rest, map fst ts = toks (m_ex (without_parens (long_ex e))) -> lay (without_parens (long_ex e)) ts rest.
Proof. intros (A & B) W. destruct e; try now apply A. cbn [without_parens long_ex]. rewrite eq_wf_l in W. now apply B. Qed.

Ltac open_wf W := first [rewrite eq_wf_l in W|rewrite eq_wf_its_l in W|rewrite eq_wf_st_l in W|rewrite eq_wf_ifs_l in W|rewrite eq_wf_els_l in W]; cbv iota in W.
Ltac conjs := repeat match goal with H : _ /\ _ |- _ => destruct H end.
Ltac setup := match goal with W : _ |- _ => open_wf W end; conjs;
  cbn [long_ex long_its long_st long_ifs long_els m_ex m_its m_st m_ifs m_els L_Emit2.ap_ex L_Emit2.ap_its L_Emit2.ap_st L_Emit2.ap_ifs L_Emit2.ap_els] in *; conjs;
  first [rewrite eq_lay_l|rewrite eq_lay_its_l|rewrite eq_lay_st_l|rewrite eq_lay_ifs_l|rewrite eq_lay_els_l]; cbv iota;
  rewrite ?toks_short, ?toks_app in *.
Ltac leaf := first [now apply one_word|now apply one_name|now apply one_tk|now apply params_of|now apply vars_of|now apply names_of|now apply dotted_of|now apply sep_of|
  match goal with H : M_ex ?e |- lay (long_ex ?e) _ _ => apply H; assumption end|
  match goal with H : M_exs ?e |- lay_list (long_exs ?e) _ _ => apply H; assumption end|
  match goal with H : M_its ?e |- lay_its (long_its ?e) _ _ => apply H; assumption end|
  match goal with H : M_blk ?b |- lay_blk None (long_blk ?b) _ _ => first [apply body_end; assumption|eapply body_until; eassumption|eapply body_els; eassumption] end].
Ltac along := repeat match goal with E : map fst ?ts = _ |- (_ >> _) ?ts _ => eapply seq_split; [exact E|intros; leaf|clear ts E; intros ts E] end; try leaf.

Lemma all_lay : (forall e, M_ex2 e) /\ (forall e, M_exs e) /\ (forall e, M_its e) /\ (forall s, M_st s) /\ (forall b, M_blk b) /\ (forall i, M_ifs i) /\ (forall e, M_els e).
Proof.
  apply prog_all; unfold M_ex2.
  all: try (intros; conjs; (split; [|first [exact I|assumption]]); intros W A ts rest E; setup; along; fail).
  all: try (intros; conjs; intros W A ts rest E; setup; along; fail).
  all: try (intros; conjs; intros W ts rest A E; setup; along; fail).
  - intros f (F & _) sh args A. split; [|exact I]. intros W Ap ts rest E. setup. destruct sh; rewrite ?toks_app in E; along.
  - intros f (F & _) key sh args A. split; [|exact I]. intros W Ap ts rest E. setup. destruct sh; rewrite ?toks_app in E; along.
  - intros _ _ ts rest E. cbn [long_exs]. rewrite eq_lay_list_l. now apply nothing_of.
  - intros e (F & _) es Fs W A ts rest E. rewrite (eq_wf_exs_l lang (XCons _ _)) in W. destruct W as (We & Ws). cbn [long_exs L_Emit2.ap_exs] in A. destruct A as (Ae & As). cbn [long_exs] in E |- *. rewrite (eq_lay_list_l lang (XCons _ _)). cbv iota.
    destruct es as [|e2 es]; [now apply F|]. cbn [long_exs] in *. change (toks (m_exs (XCons (long_ex e) (XCons (long_ex e2) (long_exs es))))) with (toks (m_ex (long_ex e) ++ tw "," ++ m_exs (XCons (long_ex e2) (long_exs es)))) in E. rewrite !toks_app in E. along. now apply Fs.
  - intros _ _ ts rest E. cbn [long_its]. rewrite eq_lay_its_l. now apply nothing_of.
  - intros i F W ts rest A E. rewrite eq_wf_st_l in W. cbn [long_st] in *. rewrite eq_lay_st_l. now apply (F W "if"%string).
  - intros nd c C b B W ts rest A E. setup. match goal with E : map fst ts = _ |- _ => eapply seq_split; [exact E|intros; leaf|clear ts E; intros ts E] end. eapply seq_split; [exact E|intros; now apply bare_of|clear ts E; intros ts E]. along.
  - intros b B c (C & _) W ts rest A E. setup. along. apply at_end; [leaf|]. eapply of_nx; [apply heady_follow|reflexivity|assumption].
  - intros x a (A & _) z (Z' & _) step S b B W ts rest Ap E. setup. do 6 (eapply seq_split; [exact E|intros; leaf|clear ts E; intros ts E]). eapply seq_split; [exact E| |].
    + intros t t2 Et _. destruct step as [|e step]; [now apply nothing_of|]. cbn [long_exs] in *. rewrite toks_app in Et. eapply seq_split; [exact Et|intros; leaf|]. intros; now apply S.
    + clear ts E; intros ts E. along.
  - intros es F W ts rest A E. setup. destruct es as [|e es]; cbn [long_exs] in *.
    + cbn [m_exs] in E. rewrite app_nil_r in E. apply at_end; [leaf|]. destruct A as [A|A]; [|discriminate A]. left. eapply of_nx; [apply heady_next|reflexivity|exact A].
    + destruct A as (A & A'). eapply seq_split; [exact E|intros; leaf|clear ts E; intros ts E]. exists [], ts. split; [reflexivity|]. split; [split; [reflexivity|easy]|]. apply at_end; [now apply F|]. eapply of_nx; [apply heady_list|reflexivity|exact A'].
  - intros xs es F W ts rest A E. rewrite eq_wf_st_l in W. destruct W as (_ & _ & W). cbn [long_st] in *. rewrite eq_lay_st_l. cbn [L_Emit2.ap_st] in A. destruct es as [|e es]; cbn [long_exs m_st] in *; rewrite ?toks_app in E.
    + destruct A as (A & A'). along. apply at_end; [leaf|]. split; [now apply (of_nx (fun r => ~ next_is _ r) rest _ (heady_not _ (heady_next _)) eq_refl)|]. intros X Y. apply (of_nx (fun r => ~ next_is _ r) rest _ (heady_not _ (heady_next _)) eq_refl). now apply A'.
    + destruct A as (A & A'). along. apply at_end; [now apply F|]. eapply of_nx; [apply heady_list|reflexivity|exact A'].
  - intros x path meth ps b B W ts rest A E. setup. do 3 (eapply seq_split; [exact E|intros; leaf|clear ts E; intros ts E]). eapply seq_split; [exact E| |].
    + intros t t2 Et _. destruct meth as [m|]; [|now apply nothing_of]. rewrite toks_app in Et. eapply seq_split; [exact Et|intros; leaf|]. intros; leaf.
    + clear ts E; intros ts E. along.
  - intros l L es F W ts rest A E. setup. along. apply at_end; [leaf|]. eapply of_nx; [apply heady_list|reflexivity|assumption].
  - intros l (L & _) op e (F & _) W ts rest A E. setup. along. apply at_end; [leaf|]. eapply of_nx; [apply heady_follow|reflexivity|assumption].
  - intros es F W ts rest A E. setup. along. apply at_end; [leaf|]. 
    split; [eapply of_nx; [apply heady_list|reflexivity|assumption]|]. split; [eapply of_nx; [apply heady_alone|reflexivity|assumption]|]. split; [now apply (of_nx (fun r => ~ next_is _ r) rest _ (heady_not _ (heady_next _)) eq_refl)|]. now apply (of_nx not_string rest _ heady_string eq_refl).
  - intros e (F & _) W ts rest A E. setup. apply at_end; [leaf|]. split; [eapply of_nx; [apply heady_follow|reflexivity|assumption]|eapply of_nx; [apply heady_alone|reflexivity|assumption]].
  - intros _ ts rest _ E R. cbn [long_blk]. rewrite eq_lay_blk_l. cbv iota. destruct ts; [|discriminate E]. split; [reflexivity|]. tauto.
  - intros s S b B W ts rest A E R. rewrite (eq_wf_blk_l lang (BCons _ _)) in W. destruct W as (Ws & Wb). destruct (st_eq_dec_semi s) as [->|N]; [now apply B|].
    rewrite long_cons in * by exact N. cbn [L_Emit2.ap_blk m_blk] in *. destruct A as (As & Ab). rewrite toks_app in E. rewrite (eq_lay_blk_l lang None (BCons _ _)). cbv iota.
    apply map_eq_app in E. destruct E as (t1 & t2 & -> & E1 & E2). assert (Lb : lay_blk None (long_blk b) t2 rest) by now apply B.
    exists [], (t1 ++ t2). split; [reflexivity|]. split; [split; [reflexivity|easy]|]. exists t1, t2. split; [reflexivity|]. split; [|exact Lb]. apply S; [exact Ws| |exact E1].
    rewrite (blk_head lang None (long_blk b) t2 rest); [|now apply all_wf_long|exact Lb]. destruct (long_blk b); exact As.
  - intros w c (C & _) b B e F W w0 ts rest A E. setup. eapply seq_split; [exact E|intros; leaf|clear ts E; intros ts E]. along. now apply F.
  - intros nd c C b B e F W w0 ts rest A E. setup. eapply seq_split; [exact E|intros; leaf|clear ts E; intros ts E]. eapply seq_split; [exact E|intros; now apply bare_of|clear ts E; intros ts E]. along. now apply F.
  - intros i F W ts rest A E. rewrite eq_wf_els_l in W. cbn [long_els L_Emit2.ap_els m_els] in *. rewrite eq_lay_els_l. now apply (F W "elseif"%string).
Qed.
End Lay.
