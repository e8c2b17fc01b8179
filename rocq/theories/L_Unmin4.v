(** Laying out a program: the walk over the tree. *)
From Coq Require Import String List ZArith Lia Bool.
From Verif Require Import M_Base L_Util M_Fold M_Token S_Str S_Token L_Token L_TokenSeq M_Expr S_Expr L_Expr L_ExprTok M_Stmt S_Stmt L_Stmt L_StmtEq L_StmtRead M_Emit L_Emit L_Emit7 M_Unmin S_Unmin L_Unmin L_Unmin2 L_Unmin3.
Import ListNotations.
Open Scope Z_scope.

Section Walk.
Context (lang : language) (ind : list Z).
Hypothesis Ind : wspace ind.
Notation runs := (runs lang).
Notation enters := (enters lang).
Notation lexeme := (lexeme lang).
Notation fine m := (Forall lexeme (toks m)).
Ltac listed := cbn; tauto.

Definition good (e : ex) : Prop := starter (leads e) /\ lexeme (leads e) /\ forall n s, enters s (leads e) ->
  exists t, runs s (u_ex ind n false e) (Tight t false) /\ lexeme t /\ ender t /\ (callable_ex e \/ short_exs (XCons e XNil) -> callend t).
Definition R_ex e := wf lang e -> neat_ex e -> fine (m_ex e) -> good e.
Definition R_ex2 e := R_ex e /\ match e with XGroup e => R_ex e | _ => True end.
Definition R_exs es := wf_exs lang es -> neat_exs es -> fine (m_exs es) ->
  match es with
  | XNil => True
  | XCons e _ => starter (leads e) /\ lexeme (leads e) /\ forall n s, enters s (leads e) -> exists t, runs s (u_exs ind n es) (Tight t false) /\ lexeme t /\ ender t /\ (short_exs es -> callend t)
  end.
Definition R_its i := wf_its lang i -> neat_its i -> fine (m_its i) -> forall n s, (forall t, lexeme t -> starter t \/ t = op_tok (asc "[") -> enters s t) -> enters s (op_tok (asc "}")) ->
  exists s', runs s (u_its ind n i) s' /\ enters s' (op_tok (asc "}")).
Definition R_st s := wf_st lang s -> neat_st s -> fine (m_st s) -> s <> SSemi -> forall n, exists s', runs Loose (u_st ind n s) s'.
Definition R_blk b := wf_blk lang b -> neat_blk b -> fine (m_blk b) -> forall n crash prev, (crash = true -> no_semi b) -> runs Loose (u_blk ind n crash prev b) Loose.
Definition R_ifs i := forall w el, w = "if"%string /\ el = false \/ w = "elseif"%string /\ el = true -> wf_ifs lang i -> neat_ifs el i -> fine (m_ifs w i) -> forall n, exists s', runs Loose (u_ifs ind n w i) s'.
Definition R_els e := (forall short, wf_els lang e -> neat_els short e -> fine (m_els e) -> forall n, exists s', runs Loose (u_els ind n e) s') /\ match e with EElse b => R_blk b | _ => True end.

Ltac unwf := match goal with
    | H : wf _ (_ _) |- _ => rewrite eq_wf_l in H; cbv iota in H
    | H : wf_exs _ (_ _ _) |- _ => rewrite eq_wf_exs_l in H; cbv iota in H
    | H : wf_its _ (_ _) |- _ => rewrite eq_wf_its_l in H; cbv iota in H
    | H : wf_st _ (_ _) |- _ => rewrite eq_wf_st_l in H; cbv iota in H
    | H : wf_ifs _ (_ _ _) |- _ => rewrite eq_wf_ifs_l in H; cbv iota in H
    end.
Ltac fines := repeat match goal with
    | H : fine _ |- _ => progress (cbn [m_ex m_exs m_its m_st m_blk m_ifs m_els] in H; unfold tw, tn in H; rewrite ?toks_short, ?toks_app, ?Forall_app in H)
    | H : _ /\ _ |- _ => destruct H
    | H : Forall _ (toks [T _]) |- _ => cbn in H; inversion H; clear H; subst
    end.
Ltac then_ := eapply runs_app.
Lemma head_exs_fine e es : fine (m_exs (XCons e es)) -> fine (m_ex e) /\ fine (m_exs es).
Proof. destruct es as [|e2 es]; cbn [m_exs]; [intros F; split; [exact F|constructor]|]. rewrite !toks_app, !Forall_app. tauto. Qed.

Lemma callend_open t : lexeme t -> callend t -> enters (Tight t false) (op_tok (asc "(")).
Proof. intros L C. apply suffix_enters; [exact L|now apply callend_ender|listed]. Qed.
Lemma args_runs (sh : bool) args n s : R_exs args -> wf_exs lang args -> neat_exs args -> (sh = true -> short_exs args) ->
  fine (if sh then m_exs args else tw "(" ++ m_exs args ++ tw ")") -> (exists p, s = Tight p false /\ lexeme p /\ callend p) ->
  exists t, runs s (if sh then u_exs ind n args else par false "(" ++ u_exs ind n args ++ par false ")") (Tight t false) /\ lexeme t /\ callend t.
Proof.
  intros R W N S F (p & -> & Lp & Cp). destruct sh.
  - specialize (S eq_refl). specialize (R W N F). destruct args as [|e args]; [easy|]. destruct R as (St & Lh & R). destruct (R n (Tight p false)) as (t & R' & L & E & C).
    { destruct args as [|? ?]; [|destruct e as [[[] ?|]| | | | | | | | | | |]; easy]. cbn in S. destruct e; try easy; [|now apply ender_enters; [apply callend_ender| |]]. destruct t as [[] v|]; try easy. apply ender_enters; [now apply callend_ender|now apply starter_suffix|]. unfold no_paren. cbn [leads].
      rewrite (word_unlisted (Tok TString v) ["("; "["]%string); [reflexivity| |reflexivity]. rewrite eq_wf_exs_l in W. destruct W as (W & _). rewrite eq_wf_l in W. exact W. }
    exists t. auto.
  - cbn [par]. rewrite !toks_app, !Forall_app in F. destruct F as (_ & F & _). specialize (R W N F).
    assert (Z : lexeme (op_tok (asc ")"))) by (apply lex_word; listed). exists (op_tok (asc ")")). split; [|split; [exact Z|right; listed]].
    then_; [apply one_word; [listed|now apply callend_open]|]. destruct args as [|e args]; [apply one_word; [listed|apply open_enters; listed]|]. destruct R as (St & Lh & R). destruct (R n (Tight (op_tok (asc "(")) false)) as (t & R' & L & E & _); [apply open_enters; listed|].
    then_; [exact R'|]. apply one_word; [listed|]. apply suffix_enters; [exact L|exact E|listed].
Qed.
Lemma ended_word e s n w : good e -> enters s (leads e) -> In w ["="; "then"; "do"; "in"]%string -> exists t, runs s (u_ex ind n false e ++ ew w) t.
Proof.
  intros (_ & _ & G) E I. destruct (G n s E) as (t & R & L & D & _). eexists. then_; [exact R|]. apply one_word; [cbn in *; tauto|]. apply ender_enters; [exact D| |]; each I; reflexivity.
Qed.
Lemma list_word es s n w : R_exs es -> wf_exs lang es -> neat_exs es -> fine (m_exs es) -> es <> XNil -> opens_to lang s -> In w ["="; "then"; "do"; "in"]%string -> runs s (u_exs ind n es ++ ew w) (Tight (op_tok (asc w)) false).
Proof.
  intros R W N F Nn O I. specialize (R W N F). destruct es as [|e es]; [easy|]. destruct R as (St & Lh & R). destruct (R n s) as (t & R' & L & D & _); [now apply O|]. then_; [exact R'|]. apply one_word; [cbn in *; tauto|]. apply ender_enters; [exact D| |]; each I; reflexivity.
Qed.
Lemma airy_good w e : In w airy -> good e -> enters (Tight (op_tok (asc w)) false) (leads e).
Proof. intros I (S & _). now apply airy_enters. Qed.
Lemma after_good e n s w : good e -> enters s (leads e) -> In w ["="; "then"; "do"; "in"]%string -> runs s (u_ex ind n false e ++ ew w) (Tight (op_tok (asc w)) false).
Proof.
  intros (_ & _ & G) E I. destruct (G n s E) as (t & R & L & D & _). then_; [exact R|]. apply one_word; [cbn in *; tauto|]. apply ender_enters; [exact D| |]; each I; reflexivity.
Qed.
Lemma bare_good e n s : R_ex2 e -> wf lang e -> neat_ex e -> fine (m_ex e) -> grouped e -> opens_to lang s -> exists t, runs s (u_ex ind n true e) (Tight t false).
Proof.
  intros (_ & R) W N F G O. destruct e; try easy. unwf. fines. destruct (R W N) as (S & L & R'); [assumption|]. destruct (R' n s) as (t & R2 & _); [now apply O|]. exists t. cbn [u_ex par app]. now rewrite app_nil_r.
Qed.
Lemma comma_good e n s w : good e -> enters s (leads e) -> In w [","; ")"; "]"]%string -> runs s (u_ex ind n false e ++ ew w) (Tight (op_tok (asc w)) false).
Proof.
  intros (_ & _ & G) E I. destruct (G n s E) as (t & R & L & D & _). then_; [exact R|]. apply one_word; [cbn in *; tauto|]. apply suffix_enters; [exact L|exact D|each I; listed].
Qed.
Lemma bracket_good e : good e -> no_bracket e -> enters (Tight (op_tok (asc "[")) false) (leads e).
Proof. intros (S & L & _) N. apply bracket_enters; [exact L|exact S|]. intros v E. unfold no_bracket in N. rewrite E in N. now apply N. Qed.

Lemma good_plain e t : leads e = t -> (forall n, u_ex ind n false e = [ETok t false]) -> lexeme t -> starter t -> ender t -> (callable_ex e \/ short_exs (XCons e XNil) -> callend t) -> good e.
Proof. intros Le U L S E C. rewrite <- Le in *. split; [exact S|]. split; [exact L|]. intros n s En. exists (leads e). rewrite U. split; [now apply one|]. auto. Qed.
Lemma semi_dec s : s = SSemi \/ s <> SSemi.
Proof. destruct s; (now left) || now right. Qed.
Lemma blk_line n crash prev s b : s <> SSemi -> u_blk ind n crash prev (BCons s b) =
  (if is_fun_stmt s && match prev with Some p => negb (is_fun_stmt p) | None => false end then newline else []) ++
      indented ind n ++ u_st ind n s ++ newline ++ (if is_fun_stmt s then newline else []) ++ u_blk ind n crash (Some s) b.
Proof. destruct s; try reflexivity. easy. Qed.
Lemma its_sep sep i n v s : good v -> enters s (leads v) -> sep_ok sep i ->
  (wf_its lang i -> neat_its i -> fine (m_its i) -> forall n s, (forall t, lexeme t -> starter t \/ t = op_tok (asc "[") -> enters s t) -> enters s (op_tok (asc "}")) -> exists s', runs s (u_its ind n i) s' /\ enters s' (op_tok (asc "}"))) ->
  wf_its lang i -> neat_its i -> fine (m_its i) -> exists s', runs s (u_ex ind n false v ++ e_sep sep ++ u_its ind n i) s' /\ enters s' (op_tok (asc "}")).
Proof.
  intros (_ & _ & G) E S R W N F. destruct (G n s E) as (t & Rv & L & D & _). destruct sep as [x|].
  - assert (exists w, In w [","; ";"]%string /\ x = asc w) as (w & I & ->) by (destruct S as [->| ->]; eexists; (split; [|reflexivity]); listed).
    destruct (R W N F n (Tight (op_tok (asc w)) false)) as (s' & R' & E').
    + intros t' Lt [St| ->]; [apply airy_enters; [cbn in *; tauto|exact St]|]. apply apart_enters; each I; reflexivity.
    + intros _. apply close_after; [cbn in *; tauto|listed].
    + exists s'. split; [|exact E']. then_; [exact Rv|]. then_; [|exact R']. cbn [e_sep]. replace (Tok TPunct (asc w)) with (op_tok (asc w)) by (each I; reflexivity). apply one_word; [cbn in *; tauto|]. apply suffix_enters; [exact L|exact D|each I; listed].
  - cbn in S. subst i. cbn [e_sep u_its app]. rewrite app_nil_r. exists (Tight t false). split; [exact Rv|]. apply suffix_enters; [exact L|exact D|listed].
Qed.
Lemma app2 s a b k s' s'' : runs s (a ++ b) s' -> runs s' k s'' -> runs s (a ++ b ++ k) s''.
Proof. intros A B. rewrite app_assoc. now apply runs_app with s'. Qed.
Lemma app3 s a b c k s' s'' : runs s (a ++ b ++ c) s' -> runs s' k s'' -> runs s (a ++ b ++ c ++ k) s''.
Proof. intros A B. rewrite app_assoc in A. rewrite app_assoc. now apply app2 with s'. Qed.
Ltac R0 := split; [|exact I].

Lemma all_runs : (forall e, R_ex2 e) /\ (forall es, R_exs es) /\ (forall i, R_its i) /\ (forall s, R_st s) /\ (forall b, R_blk b) /\ (forall i, R_ifs i) /\ (forall e, R_els e).
Proof.
  apply prog_all; unfold R_ex2.
  - (* XConst *) intros t. R0. intros W _ F. unwf. cbn in F. inversion F; subst. 
    assert (Wt : word_tok t /\ t <> kw "function") by (destruct t as [[] v|]; try easy; cbn [constant] in W; destruct W as [->|[->| ->]]; (split; [reflexivity|discriminate])).
    apply (good_plain _ t); auto; [left; apply Wt|now left|]. intros [[]|S]. destruct t as [[] v|]; try easy. left. exists v. cbn in W. auto.
  - (* XDots *) R0. intros W _ F. cbn in F. inversion F; subst. apply (good_plain _ (op_tok (asc "..."))); auto; [right; listed|right; listed|now intros [[]|[]]].
  - (* XVar *) intros x. R0. intros W _ F. unwf. cbn in F. inversion F; subst. apply (good_plain _ (Tok TIdent x)); auto; [now left|left; split; [exact W|discriminate]|]. intros _. now apply ident_callend.
  - (* XFun *) intros ps b B. R0. intros W N F. unwf. fines. cbn [neat_ex] in N. split; [left; reflexivity|]. split; [apply lex_word; listed|]. intros n s E. exists (op_tok (asc "end")).
    split; [|split; [apply lex_word; listed|split; [left; split; [reflexivity|discriminate]|now intros [[]|[]]]]]. cbn [u_ex].
    then_; [apply one_word; [listed|exact E]|]. eapply app3; [apply params_closed; [assumption|assumption|apply fun_open]|]. apply body_runs; [exact Ind| |listed]. now apply B.
  - (* XGroup *) intros e (E & _). split; [|exact E]. intros W N F. unwf. fines. split; [right; listed|]. split; [assumption|]. intros n s En. exists (op_tok (asc ")")).
    split; [|split; [assumption|split; [right; listed|right; listed]]]. cbn [u_ex par]. then_; [apply one_word; [listed|exact En]|]. apply comma_good; [now apply E|apply open_enters; listed|listed].
  - (* XUn *) intros op e (E & _). R0. intros W N F. unwf. destruct W as (Wu & We & _). fines. destruct N as (Nc & N). destruct (E We N) as (S & L & G); [assumption|].
    assert (So : starter (op_tok op)) by (destruct Wu as [I|(-> & _)]; [each I; (left; reflexivity) || (right; listed)|right; listed]).
    split; [exact So|]. split; [assumption|]. intros n s En. destruct (G n (Tight (op_tok op) true)) as (t & R & Lt & D & _); [apply unary_enters; auto|]. exists t. split; [|split; [exact Lt|split; [exact D|now intros [[]|[]]]]]. cbn [u_ex]. then_; [apply one; [assumption|exact En]|exact R].
  - (* XBin *) intros op l (L & _) r (R & _). R0. intros W N F. unwf. destruct W as (_ & Wl & Wr & k & K & _). fines. destruct N as (Nl & Nr). destruct (op_apart op k K) as (A1 & A2 & A3).
    destruct (L Wl Nl) as (Sl & Ll & Gl); [assumption|]. destruct (R Wr Nr) as (Sr & Lr & Gr); [assumption|]. split; [exact Sl|]. split; [exact Ll|]. intros n s En. destruct (Gl n s En) as (t & Rt & Lt & Dt & _).
    destruct (Gr n (Tight (op_tok op) false)) as (t' & Rt' & Lt' & Dt' & _); [apply apart_enters; [exact A1|now apply starter_suffix]|]. exists t'. split; [|split; [exact Lt'|split; [exact Dt'|now intros [[]|[]]]]]. cbn [u_ex]. then_; [exact Rt|]. then_; [apply one; [assumption|now apply ender_enters]|exact Rt'].
  - (* XMem *) intros e (E & _) key. R0. intros W N F. unwf. destruct W as (Wc & We & Pk). fines. destruct (E We N) as (S & L & G); [assumption|]. split; [exact S|]. split; [exact L|]. intros n s En. destruct (G n s En) as (t & R & Lt & D & C). exists (Tok TIdent key).
    split; [|split; [assumption|split; [left; split; [assumption|discriminate]|intros _; now apply ident_callend]]]. cbn [u_ex]. then_; [exact R|]. then_; [apply one_word; [listed|apply member_enters; auto]|]. apply one; [assumption|apply ident_enters; [listed|assumption]].
  - (* XIdx *) intros e (E & _) k (K & _). R0. intros W N F. unwf. destruct W as (Wc & We & Wk). fines. cbn [neat_ex] in N. destruct N as (Ne & Nb & Nk). destruct (E We Ne) as (S & L & G); [assumption|]. split; [exact S|]. split; [exact L|]. intros n s En. destruct (G n s En) as (t & R & Lt & D & C). exists (op_tok (asc "]")).
    split; [|split; [assumption|split; [right; listed|right; listed]]]. cbn [u_ex]. then_; [exact R|]. assert (Gk : good k) by now apply K. then_; [apply one_word; [listed|apply suffix_enters; [exact Lt|exact D|listed]]|]. apply comma_good; [exact Gk|now apply bracket_good|listed].
  - (* XCall *) intros f (E & _) sh args A. R0. intros W N F. unwf. cbn [m_ex] in F. rewrite toks_app, Forall_app in F. destruct W as (Cf & Wf & Wa & Sh). destruct N as (Nf & Na). destruct F as (Ff & Fa). destruct (E Wf Nf Ff) as (S & L & G). split; [exact S|]. split; [exact L|]. intros n s En. destruct (G n s En) as (t & R & Lt & D & C).
    destruct (args_runs sh args n (Tight t false) A Wa Na Sh Fa) as (t' & R' & L' & C'); [exists t; auto|]. exists t'. split; [|split; [exact L'|split; [now apply callend_ender|auto]]]. cbn [u_ex]. then_; [exact R|exact R'].
  - (* XMeth *) intros f (E & _) key sh args A. R0. intros W N F. unwf. cbn [m_ex] in F. rewrite !toks_app, !Forall_app in F. destruct W as (Cf & Wf & Pk & Wa & Sh). destruct N as (Nf & Na). destruct F as (Ff & _ & Fk & Fa). cbn in Fk. inversion Fk; subst. destruct (E Wf Nf Ff) as (S & L & G). split; [exact S|]. split; [exact L|]. intros n s En. destruct (G n s En) as (t & R & Lt & D & C).
    destruct (args_runs sh args n (Tight (Tok TIdent key) false) A Wa Na Sh Fa) as (t' & R' & L' & C'); [exists (Tok TIdent key); split; [reflexivity|split; [assumption|now apply ident_callend]]|]. exists t'. split; [|split; [exact L'|split; [now apply callend_ender|auto]]]. cbn [u_ex]. then_; [exact R|]. then_; [apply one_word; [listed|apply suffix_enters; [exact Lt|exact D|listed]]|]. then_; [apply one; [assumption|apply ident_enters; [listed|assumption]]|exact R'].
  - (* XTab *) intros i A. R0. intros W N F. unwf. fines. split; [right; listed|]. split; [assumption|]. intros n s En. exists (op_tok (asc "}")). split; [|split; [assumption|split; [right; listed|right; listed]]]. cbn [u_ex]. then_; [apply one_word; [listed|exact En]|].
    destruct (A W N ltac:(assumption) n (Tight (op_tok (asc "{")) false)) as (s' & R & E'); [intros; apply open_enters; listed|apply open_enters; listed|]. then_; [exact R|]. apply one_word; [listed|exact E'].
  - (* XNil *) intros _ _ _. exact I.
  - (* XCons *) intros e (E & _) es Es W N F. apply head_exs_fine in F. destruct F as (Fe & Fs). rewrite (eq_wf_exs_l lang (XCons _ _)) in W. destruct W as (We & Ws). destruct N as (Ne & Ns). destruct (E We Ne Fe) as (S & L & G). split; [exact S|]. split; [exact L|]. intros n s En. destruct (G n s En) as (t & R & Lt & D & C). specialize (Es Ws Ns Fs).
    destruct es as [|e2 es]; [exists t; split; [exact R|split; [exact Lt|split; [exact D|auto]]]|]. destruct Es as (S2 & L2 & G2). destruct (G2 n (Tight (op_tok (asc ",")) false)) as (t' & R' & L' & D' & _); [apply airy_enters; [listed|exact S2]|].
    exists t'. split; [|split; [exact L'|split; [exact D'|intros Sh; exfalso; cbn in Sh; now destruct e as [[[] ?|]| | | | | | | | | | |]]]]. change (u_exs ind n (XCons e (XCons e2 es))) with (u_ex ind n false e ++ ew "," ++ u_exs ind n (XCons e2 es)). eapply app2; [|exact R']. apply comma_good; [split; [exact S|split; [exact L|exact G]]|exact En|listed].
  - (* INil *) intros _ _ _ n s _ E. exists s. split; [apply r_nil|exact E].
  - (* IIdx *) intros k (K & _) v (V & _) sep i A W N F n s O _. unwf. cbn [m_its] in F. rewrite !toks_app, !Forall_app in F. destruct W as (Wk & Wv & Ws & Wi). cbn [neat_its] in N. destruct N as (Nb & Nk & Nv & Ni). destruct F as (_ & Fk & _ & _ & Fv & _ & Fi). assert (Gk : good k) by now apply K. assert (Gv : good v) by now apply V.
    destruct (its_sep sep i n v (Tight (op_tok (asc "=")) false) Gv (airy_good "=" v ltac:(listed) Gv) Ws A Wi Ni Fi) as (s' & R & E'). exists s'. split; [|exact E']. cbn [u_its].
    then_; [apply one_word; [listed|apply O; [apply lex_word; listed|now right]]|]. eapply app2; [apply (comma_good k n); [exact Gk|now apply bracket_good|listed]|]. then_; [apply one_word; [listed|apply ender_enters; [right; listed|reflexivity|reflexivity]]|exact R].
  - (* IMem *) intros key v (V & _) sep i A W N F n s O _. unwf. cbn [m_its] in F. rewrite !toks_app, !Forall_app in F. destruct W as (Wk & Wv & Ws & Wi). destruct N as (Nv & Ni). destruct F as (Fk & _ & Fv & _ & Fi). cbn in Fk. inversion Fk; subst. assert (Gv : good v) by now apply V.
    destruct (its_sep sep i n v (Tight (op_tok (asc "=")) false) Gv (airy_good "=" v ltac:(listed) Gv) Ws A Wi Ni Fi) as (s' & R & E'). exists s'. split; [|exact E']. cbn [u_its].
    then_; [apply one; [assumption|apply O; [assumption|left; now apply ident_starter]]|]. then_; [apply one_word; [listed|apply ender_enters; [left; split; [exact Wk|discriminate]|reflexivity|reflexivity]]|exact R].
  - (* IItem *) intros v (V & _) sep i A W N F n s O _. unwf. cbn [m_its] in F. rewrite !toks_app, !Forall_app in F. destruct W as (Wv & Ws & Wi). destruct N as (Nv & Ni). destruct F as (Fv & _ & Fi). assert (Gv : good v) by now apply V.
    destruct (its_sep sep i n v s Gv) as (s' & R & E'); try assumption; [destruct Gv as (Sv & Lv & _); apply O; [exact Lv|now left]|]. exists s'. split; [exact R|exact E'].
  - (* SSemi *) intros _ _ _ N. easy.
  - (* SDo *) intros b B W N F _ n. unwf. fines. eexists. cbn [u_st]. then_; [apply one_word; [listed|exact I]|]. apply body_runs; [exact Ind| |listed]. now apply B.
  - (* SIf *) intros i A W N F _ n. unwf. apply (A "if"%string false); auto.
  - (* SWhile *) intros c (C & _) b B W N F _ n. unwf. fines. cbn [neat_st] in N. destruct N as (Nc & Nb). assert (Gc : good c) by now apply C. eexists. cbn [u_st]. then_; [apply one_word; [listed|exact I]|]. eapply app2; [apply after_good; [exact Gc|apply airy_good; [listed|exact Gc]|listed]|]. apply body_runs; [exact Ind| |listed]. now apply B.
  - (* SWhileShort *) intros nd c C b B W N F _ n. unwf. fines. cbn [neat_st] in N. destruct N as (Gr & Nc & Nb). destruct (bare_good c n (Tight (op_tok (asc "while")) false)) as (t & R); try assumption; [now split|apply airy_opens; listed|]. eexists. cbn [u_st]. then_; [apply one_word; [listed|exact I]|]. then_; [exact R|]. then_; [apply (short_runs lang ind Ind n _ t "do"); [now apply B|listed]|]. apply end_runs.
  - (* SRepeat *) intros b B c (C & _) W N F _ n. unwf. fines. cbn [neat_st] in N. destruct N as (Nc & Nb). assert (Gc : good c) by now apply C. destruct (proj2 (proj2 Gc) n (Tight (op_tok (asc "until")) false)) as (t & R & _); [apply airy_good; [listed|exact Gc]|]. eexists. cbn [u_st]. then_; [apply one_word; [listed|exact I]|]. eapply app2; [|exact R]. apply body_runs; [exact Ind| |listed]. now apply B.
  - (* SFor *) intros x a (A & _) z (Z' & _) step S b B W N F _ n. unwf. destruct W as (Px & Wa & Wz & Ws & _ & Wb). cbn [neat_st] in N. destruct N as (Na & Nz & Ns & Nb). cbn [m_st] in F. rewrite !toks_app, !Forall_app in F. destruct F as (_ & Fx & _ & Fa & _ & Fz & Fs & _ & Fb & _). cbn in Fx. inversion Fx; subst.
    assert (Ga : good a) by now apply A. assert (Gz : good z) by now apply Z'. assert (Rb : runs Loose (u_blk ind (Datatypes.S n) false None b) Loose) by now apply B.
    eexists. cbn [u_st]. then_; [apply one_word; [listed|exact I]|]. then_; [apply one; [assumption|apply airy_enters; [listed|now apply ident_starter]]|]. then_; [apply one_word; [listed|apply ender_enters; [left; split; [exact Px|discriminate]|reflexivity|reflexivity]]|].
    eapply app2; [apply comma_good; [exact Ga|apply airy_good; [listed|exact Ga]|listed]|]. destruct step as [|e step].
    + cbn [app]. eapply app2; [apply after_good; [exact Gz|apply airy_good; [listed|exact Gz]|listed]|]. apply body_runs; [exact Ind|exact Rb|listed].
    + rewrite toks_app, Forall_app in Fs. destruct Fs as (_ & Fs). rewrite <- !app_assoc. eapply app2; [apply comma_good; [exact Gz|apply airy_good; [listed|exact Gz]|listed]|]. eapply app2; [apply list_word; [exact S|exact Ws|exact Ns|exact Fs|discriminate|apply airy_opens; listed|listed]|]. apply body_runs; [exact Ind|exact Rb|listed].
  - (* SForIn *) intros xs es A b B W N F _ n. unwf. fines. cbn [neat_st] in N. destruct N as (Ne & Nb). destruct (names_ended lang xs ltac:(assumption) ltac:(assumption) ltac:(assumption) (Tight (op_tok (asc "for")) false)) as (t & R & L & D); [apply airy_opens; listed|].
    eexists. cbn [u_st]. then_; [apply one_word; [listed|exact I]|]. then_; [exact R|]. then_; [apply one_word; [listed|apply ender_enters; [exact D|reflexivity|reflexivity]]|]. eapply app2; [apply list_word; [exact A|assumption|exact Ne|assumption|assumption|apply airy_opens; listed|listed]|]. apply body_runs; [exact Ind| |listed]. now apply B.
  - (* SBreak *) intros _ _ _ _ n. eexists. apply one_word; [listed|exact I].
  - (* SReturn *) intros es A W N F _ n. unwf. cbn [m_st] in F. rewrite toks_app, Forall_app in F. destruct F as (_ & F). specialize (A W N F). cbn [u_st]. destruct es as [|e es]; [eexists; apply one_word; [listed|exact I]|]. destruct A as (S & L & G). destruct (G n (Tight (op_tok (asc "return")) false)) as (t & R & _); [apply airy_enters; [listed|exact S]|]. eexists. then_; [apply one_word; [listed|exact I]|exact R].
  - (* SLocal *) intros xs es A W N F _ n. unwf. destruct W as (Nn & Wx & We). cbn [neat_st] in N. assert (Fx : fine (m_vars xs) /\ fine (m_exs es)) by (cbn [m_st] in F; destruct es; [rewrite !toks_app, !Forall_app in F; split; [apply F|constructor]|rewrite !toks_app, !Forall_app in F; tauto]). destruct Fx as (Fx & Fe).
    destruct (vars_runs lang xs Wx Fx Nn (Tight (op_tok (asc "local")) false)) as (t & R & E); [apply airy_opens; listed|]. specialize (A We N Fe). cbn [u_st]. destruct es as [|e es]; [eexists; then_; [apply one_word; [listed|exact I]|exact R]|]. destruct A as (S & L & G). destruct (G n (Tight (op_tok (asc "=")) false)) as (t' & R' & _); [apply airy_enters; [listed|exact S]|].
    eexists. then_; [apply one_word; [listed|exact I]|]. then_; [exact R|]. then_; [apply one_word; [listed|now apply endlike_eq]|exact R'].
  - (* SLocalFun *) intros x ps b B W N F _ n. unwf. fines. cbn [neat_st] in N. eexists. cbn [u_st]. then_; [apply one_word; [listed|exact I]|]. then_; [apply one_word; [listed|apply airy_enters; [listed|left; reflexivity]]|]. then_; [apply one; [assumption|now apply fun_ident]|]. eapply app3; [apply params_closed; [assumption|assumption|apply callend_open; [assumption|now apply ident_callend]]|]. apply body_runs; [exact Ind| |listed]. now apply B.
  - (* SFun *) intros x path meth ps b B W N F _ n. unwf. destruct W as (Px & Pp & Pm & Ps & Wb). cbn [neat_st] in N. cbn [m_st] in F. rewrite !toks_app, !Forall_app in F. destruct F as (_ & Fx & Fp & Fm & _ & Fs & _ & Fb & _). cbn in Fx. inversion Fx; subst.
    destruct (dotted_runs lang path Pp Fp x Px ltac:(assumption)) as (y & Py & Ly & R). cbn [u_st].
    assert (exists y', plain_word y' /\ lexeme (Tok TIdent y') /\ runs (Tight (Tok TIdent y) false) (match meth with Some m => ew ":" ++ en m | None => [] end) (Tight (Tok TIdent y') false)) as (y' & Py' & Ly' & R').
    { destruct meth as [m|]; [|exists y; split; [exact Py|split; [exact Ly|apply r_nil]]]. rewrite toks_app, Forall_app in Fm. destruct Fm as (_ & Fm). cbn in Fm. inversion Fm; subst. exists m. split; [exact Pm|]. split; [assumption|]. then_; [apply one_word; [listed|apply suffix_enters; [exact Ly|left; split; [exact Py|discriminate]|listed]]|]. apply one; [assumption|apply ident_enters; [listed|assumption]]. }
    eexists. then_; [apply one_word; [listed|exact I]|]. then_; [apply one; [assumption|now apply fun_ident]|]. then_; [exact R|]. then_; [exact R'|]. eapply app3; [apply params_closed; [assumption|assumption|apply callend_open; [assumption|now apply ident_callend]]|]. apply body_runs; [exact Ind| |listed]. now apply B.
  - (* SGoto *) intros x W N F _ n. unwf. fines. eexists. cbn [u_st]. then_; [apply one_word; [listed|exact I]|]. apply one; [assumption|]. apply airy_enters; [listed|now apply ident_starter].
  - (* SLabel *) intros x W N F _ n. unwf. fines. eexists. cbn [u_st]. then_; [apply one_word; [listed|exact I]|]. then_; [apply one; [assumption|apply ident_enters; [listed|assumption]]|]. apply one_word; [listed|]. apply suffix_enters; [assumption|left; split; [assumption|discriminate]|listed].
  - (* SAssign *) intros ts T es A W N F _ n. unwf. cbn [m_st] in F. rewrite !toks_app, !Forall_app in F. destruct W as (Ft & Wt & Ne & We). destruct N as (Nt & Nee). destruct F as (F1 & _ & F2). cbn [u_st]. specialize (A We Nee F2). destruct es as [|e es]; [easy|]. destruct A as (S & L & G). destruct (G n (Tight (op_tok (asc "=")) false)) as (t & R & _); [apply airy_enters; [listed|exact S]|]. eexists. eapply app2; [|exact R]. apply list_word; try assumption; [now destruct ts|now intros ? ? ?|listed].
  - (* SOp *) intros e (E & _) op v (V & _) W N F _ n. unwf. fines. cbn [neat_st] in N. destruct N as (Ne & Nv). assert (Ge : good e) by now apply E. assert (Gv : good v) by now apply V. destruct (assign_apart lang op ltac:(assumption)) as (A1 & A2 & A3). destruct (proj2 (proj2 Ge) n Loose I) as (t & R & Lt & D & _). destruct (proj2 (proj2 Gv) n (Tight (Tok TPunct op) false)) as (t' & R' & _); [apply apart_enters; [exact A1|apply starter_suffix; apply Gv]|].
    eexists. cbn [u_st]. then_; [exact R|]. then_; [apply one; [assumption|now apply ender_enters]|exact R'].
  - (* SPrint *) intros es A W N F _ n. unwf. cbn [m_st] in F. rewrite toks_short, toks_app, Forall_app in F. destruct F as (_ & F). destruct W as (Nn & W). specialize (A W N F). destruct es as [|e es]; [easy|]. destruct A as (S & L & G). destruct (G n (Tight (op_tok (asc "?")) false)) as (t & R & _); [apply open_enters; listed|]. eexists. cbn [u_st]. then_; [apply one_word; [listed|exact I]|exact R].
  - (* SCall *) intros e (E & _) W N F _ n. unwf. destruct W as (_ & W). destruct (E W N F) as (_ & _ & G). destruct (G n Loose I) as (t & R & _). eexists. exact R.
  - (* BNil *) intros _ _ _ n crash prev _. apply r_nil.
  - (* BCons *) intros s S b B W N F n crash prev C. rewrite (eq_wf_blk_l lang (BCons _ _)) in W. destruct W as (Ws & Wb). destruct N as (Ns & _ & Nb). cbn [m_blk] in F. rewrite toks_app, Forall_app in F. destruct F as (Fs & Fb).
    destruct (semi_dec s) as [->|Nn].
    + destruct crash; [now elim (C eq_refl)|]. cbn [u_blk app]. now apply B.
    + rewrite blk_line by exact Nn. destruct (S Ws Ns Fs Nn n) as (s' & R). then_; [destruct (is_fun_stmt s && _); [apply newline_runs|apply r_nil]|]. then_; [now apply indent_runs|]. then_; [exact R|]. then_; [apply newline_runs|]. then_; [destruct (is_fun_stmt s); [apply newline_runs|apply r_nil]|].
      apply B; try assumption. intros E. specialize (C E). destruct s; easy.
  - (* ILong *) intros th c (C & _) b B e (E & _) w el Wd W N F n. unwf. destruct W as (_ & Wc & Wb & We). cbn [neat_ifs] in N. destruct N as (Nc & Nb & Ne). cbn [m_ifs] in F. rewrite !toks_app, !Forall_app in F. destruct F as (_ & Fc & _ & Fb & Fe). assert (Gc : good c) by now apply C. destruct (E false We Ne Fe n) as (s' & R).
    assert (Iw : In w words /\ In w airy) by (destruct Wd as [(-> & _)|(-> & _)]; split; listed). destruct Iw as (Iw & Ia).
    eexists. cbn [u_ifs]. then_; [apply one_word; [exact Iw|exact I]|]. eapply app2; [apply after_good; [exact Gc|now apply airy_good|listed]|]. then_; [|exact R]. apply enclosed_runs; [exact Ind|]. now apply B.
  - (* IShort *) intros nd c C b B e (_ & E) w el Wd W N F n. unwf. destruct W as (Wc & Wb & We & Nelif). cbn [neat_ifs] in N. destruct N as (El & Gr & Nc & Nb & Ne). destruct Wd as [(-> & _)|(_ & Z')]; [|congruence]. clear El. cbn [m_ifs] in F. rewrite toks_short, !toks_app, !Forall_app in F. destruct F as (_ & Fc & Fb & Fe).
    destruct (bare_good c n (Tight (op_tok (asc "if")) false)) as (t & R); try assumption; [apply airy_opens; listed|]. cbn [u_ifs]. change (zeqb_list (asc "if") (asc "elseif")) with false. cbv beta iota zeta.
    assert (Pre : runs Loose (ew "if" ++ u_ex ind n true c ++ enclosed ind n [EWord (asc " then")] (u_blk ind (Datatypes.S n) false None b)) Loose).
    { then_; [apply one_word; [listed|exact I]|]. then_; [exact R|]. apply (short_runs lang ind Ind n _ t "then"); [now apply B|listed]. }
    destruct e as [|b2|i]; [| |easy].
    + eexists. eapply app3; [exact Pre|apply end_runs].
    + rewrite toks_short, toks_app, Forall_app in Fe. destruct Fe as (_ & Fe). rewrite eq_wf_els_l in We. destruct Ne as (Ns & Ne). eexists. eapply app3; [exact Pre|]. then_; [apply one_word; [listed|exact I]|]. then_; [apply enclosed_runs; [exact Ind|]; now apply E; auto|apply end_runs].
  - (* ENone *) R0. intros short W N F n. eexists. cbn [u_els]. apply one_word; [listed|exact I].
  - (* EElse *) intros b B. split; [|exact B]. intros short W N F n. rewrite eq_wf_els_l in W. destruct N as (_ & N). fines. eexists. cbn [u_els]. then_; [apply one_word; [listed|exact I]|]. apply body_runs; [exact Ind| |listed]. now apply B.
  - (* EElif *) intros i A. R0. intros short W N F n. rewrite eq_wf_els_l in W. apply (A "elseif"%string true); auto.
Qed.
End Walk.
