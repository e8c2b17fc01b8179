(** Resolving branches: the result is a program that can be read. *)
From Coq Require Import String List ZArith Lia Bool.
From Verif Require Import M_Base L_Util M_Fold M_Token M_Expr S_Expr L_Expr L_ExprPrint M_Stmt S_Stmt L_Stmt L_StmtEq L_StmtRead M_Emit S_Emit L_Emit L_Emit2 L_Emit3 L_Emit4 L_Emit6 L_Emit7 M_Tidy S_Tidy L_Tidy L_Tidy2 L_Tidy3 S_Unmin L_Unmin6 M_Short S_Short L_Short L_Short2 L_Short3 M_Branch S_Branch.
Import ListNotations.
Open Scope Z_scope.

Section Keep.
Context (known : ex -> option bool) (lang : language).
Notation b_ex := (b_ex known). Notation b_exs := (b_exs known). Notation b_its := (b_its known). Notation b_st := (b_st known).
Notation b_blk := (b_blk known). Notation b_ifs := (b_ifs known). Notation b_els := (b_els known).

Lemma tight_b e k : tight_ex (b_ex e) k <-> tight_ex e k. Proof. now destruct e. Qed.
Lemma is_un_b e : is_un (b_ex e) <-> is_un e. Proof. now destruct e. Qed.
Lemma callable_b e : callable_ex (b_ex e) <-> callable_ex e. Proof. now destruct e. Qed.
Lemma is_call_b e : is_call (b_ex e) <-> is_call e. Proof. now destruct e. Qed.
Lemma fun_first_b e : fun_first (b_ex e) <-> fun_first e. Proof. induction e using ex_ind; cbn; tauto. Qed.
Lemma leads_b e : leads (b_ex e) = leads e. Proof. induction e using ex_ind; cbn; congruence. Qed.
Lemma short_b es : short_exs (b_exs es) <-> short_exs es.
Proof. destruct es as [|e [|]]; [easy|now destruct e|now destruct e]. Qed.
Lemma nil_b es : b_exs es = XNil <-> es = XNil. Proof. now destruct es. Qed.
Lemma sep_b sep i : sep_ok sep i -> sep_ok sep (b_its i).
Proof. destruct sep as [v|]; cbn [sep_ok]; [auto|]. intros ->. reflexivity. Qed.
Lemma assignable_b e : assignable e -> assignable (b_ex e). Proof. now destruct e. Qed.
Lemma b_if i : b_st (SIf i) = match b_ifs i with Keep i => BCons (SIf i) BNil | Take b => in_place b | Drop => BNil end. Proof. reflexivity. Qed.
Lemma b_elif i : b_els (EElif i) = match b_ifs i with Keep i => EElif i | Take b => EElse b | Drop => ENone end. Proof. reflexivity. Qed.

(** ** The grammar *)
Lemma wf_app a b : wf_blk lang (app_blk a b) <-> wf_blk lang a /\ wf_blk lang b.
Proof.
  induction a as [|s a IH] using blk_ind; cbn [app_blk]; [rewrite (eq_wf_blk_l lang BNil); tauto|].
  rewrite (eq_wf_blk_l lang (BCons _ (app_blk a b))), (eq_wf_blk_l lang (BCons s a)). tauto.
Qed.
Lemma wf_one s : wf_blk lang (BCons s BNil) <-> wf_st lang s.
Proof. rewrite (eq_wf_blk_l lang (BCons _ _)), (eq_wf_blk_l lang BNil). tauto. Qed.
Lemma wf_place b : wf_blk lang b -> wf_blk lang (in_place b).
Proof. intros W. unfold in_place. destruct (do_needed b); [|exact W]. rewrite wf_one, eq_wf_st_l. exact W. Qed.
Definition wf_branch (x : branch) : Prop := match x with Keep i => wf_ifs lang i | Take b => wf_blk lang b | Drop => True end.
Lemma all_wf_b : (forall e, wf lang e -> wf lang (b_ex e)) /\ (forall e, wf_exs lang e -> wf_exs lang (b_exs e)) /\ (forall e, wf_its lang e -> wf_its lang (b_its e)) /\
  (forall s, wf_st lang s -> wf_blk lang (b_st s)) /\ (forall b, wf_blk lang b -> wf_blk lang (b_blk b)) /\
  (forall i, wf_ifs lang i -> wf_branch (b_ifs i)) /\ (forall e, wf_els lang e -> wf_els lang (b_els e)).
Proof.
  assert (BR : forall i c b e, wf_ifs lang i -> wf_blk lang b -> wf_els lang e -> wf_branch (branch_of known i c b e)).
  { intros i c b e I B E. unfold branch_of. destruct (known c) as [[]|]; try assumption. destruct e; cbn [wf_branch]; rewrite ?eq_wf_els_l in E; auto. }
  apply prog_all; intros.
  all: repeat match goal with
    | H : wf _ (_ _) |- _ => rewrite eq_wf_l in H; cbv iota in H
    | H : wf_exs _ (_ _ _) |- _ => rewrite eq_wf_exs_l in H; cbv iota in H
    | H : wf_its _ (_ _) |- _ => rewrite eq_wf_its_l in H; cbv iota in H
    | H : wf_st _ (_ _) |- _ => rewrite eq_wf_st_l in H; cbv iota in H
    | H : wf_ifs _ (_ _ _) |- _ => rewrite eq_wf_ifs_l in H; cbv iota in H
    | H : wf_els _ (_ _) |- _ => rewrite eq_wf_els_l in H; cbv iota in H
    end.
  all: try match goal with
    | |- wf_blk _ (b_st (SIf _)) => rewrite b_if; destruct (b_ifs i)
    | |- wf_els _ (b_els (EElif _)) => rewrite b_elif; destruct (b_ifs i)
    | |- wf_branch _ => idtac
    | |- _ => cbn [M_Branch.b_ex M_Branch.b_exs M_Branch.b_its M_Branch.b_st M_Branch.b_els]
    end.
  all: try (rewrite wf_one); try assumption.
  all: try (match goal with
    | |- wf _ _ => rewrite eq_wf_l
    | |- wf_exs _ _ => rewrite eq_wf_exs_l
    | |- wf_its _ _ => rewrite eq_wf_its_l
    | |- wf_st _ _ => rewrite eq_wf_st_l
    | |- wf_els _ _ => rewrite eq_wf_els_l
    end; cbv iota).
  all: rewrite ?short_b, ?callable_b, ?is_call_b, ?fun_first_b, ?nil_b, ?tight_b; try (intuition (auto using sep_b, wf_place); fail).
  - destruct H1 as (A & B & C & k & D & E). split; [exact A|]. split; [auto|]. split; [auto|]. exists k. rewrite !tight_b, is_un_b. easy.
  - destruct H3 as (A & B & C & D & E & F). split; [exact A|]. split; [now apply H|]. split; [now apply H0|]. split; [now apply H1|]. split; [|now apply H2]. destruct step as [|? [|? ?]]; easy.
  - destruct H1 as (A & B & C & D). split; [|split; [now apply H|]; split; [|now apply H0]; intros F; apply C; now apply nil_b]. destruct targets as [|e0 ?]; [easy|]. change (~ fun_first (b_ex e0)). now rewrite fun_first_b.
  - change (wf_blk lang (app_blk (b_st s) (b_blk b))). rewrite (eq_wf_blk_l lang (BCons _ _)) in H1. rewrite wf_app. intuition.
  - destruct H2 as (A & B & C & D). apply BR; auto. rewrite eq_wf_ifs_l. auto.
  - destruct H2 as (A & B & C & D). apply BR; auto. rewrite eq_wf_ifs_l. repeat split; auto. destruct e; try easy.
Qed.

(** ** Lua's rules *)
Lemma lua_app w a b : lua_blk false a -> do_needed a = false -> lua_blk w b -> lua_blk w (app_blk a b).
Proof.
  induction a as [|s a IH] using blk_ind; cbn [app_blk]; [auto|]. cbn [lua_blk do_needed]. intros (L1 & L2 & L3) N L.
  apply orb_false_iff in N. destruct N as (N1 & N2). split; [exact L1|]. split; [|auto]. destruct s; try exact I. discriminate N1.
Qed.
Lemma lua_place w a b : lua_blk false a -> lua_blk w b -> lua_blk w (app_blk (in_place a) b).
Proof. intros A B. unfold in_place. destruct (do_needed a) eqn:D; [cbn; auto|now apply lua_app]. Qed.
Lemma semis_b b : semis b -> semis (b_blk b).
Proof. induction b as [|s b IH] using blk_ind; [easy|]. now destruct s. Qed.
Definition lua_branch (x : branch) : Prop := match x with Keep i => lua_ifs i | Take b => lua_blk false b | Drop => True end.
Lemma lua_branch_of i c b e : lua_ifs i -> lua_blk false b -> lua_els e -> lua_branch (branch_of known i c b e).
Proof. intros I B E. unfold branch_of. destruct (known c) as [[]|]; try assumption. destruct e; cbn; auto. Qed.
Lemma all_lua_b : (forall e, simple_ex e -> lua_ex e -> lua_ex (b_ex e)) /\ (forall e, simple_exs e -> lua_exs e -> lua_exs (b_exs e)) /\ (forall e, simple_its e -> lua_its e -> lua_its (b_its e)) /\
  (forall s, simple_st s -> lua_st s -> forall w r, match s with SReturn es => semis r /\ (es = XNil -> w = false) | _ => True end -> lua_blk w r -> lua_blk w (app_blk (b_st s) r)) /\
  (forall b, simple_blk b -> forall w, lua_blk w b -> lua_blk w (b_blk b)) /\
  (forall i, simple_ifs i -> lua_ifs i -> lua_branch (b_ifs i)) /\ (forall e, simple_els e -> lua_els e -> lua_els (b_els e)).
Proof.
  apply prog_all; intros.
  all: cbn [simple_ex simple_exs simple_its simple_st simple_blk simple_ifs simple_els lua_ex lua_exs lua_its lua_st lua_blk lua_ifs lua_els] in *.
  all: try match goal with
    | |- lua_blk _ (app_blk (b_st (SIf _)) _) => rewrite b_if; destruct (b_ifs i)
    | |- lua_els (b_els (EElif _)) => rewrite b_elif; destruct (b_ifs i)
    | |- lua_branch _ => idtac
    | |- _ => cbn [M_Branch.b_ex M_Branch.b_exs M_Branch.b_its M_Branch.b_st M_Branch.b_els app_blk lua_ex lua_exs lua_its lua_st lua_blk lua_ifs lua_els]
    end.
  all: rewrite ?nil_b; try (intuition (auto using lua_place); fail).
  - specialize (H H0 H1). cbn [lua_branch app_blk lua_blk lua_st] in *. auto.
  - destruct H1 as (S0 & S1 & S2), H2 as (L0 & L1 & L2). change ((match b_exs targets with XCons e _ => assignable e | XNil => True end /\ lua_exs (b_exs targets) /\ lua_exs (b_exs es)) /\ True /\ lua_blk w r).
    repeat split; auto. destruct targets; [exact I|]. apply assignable_b, L0.
  - destruct H1 as (S0 & S1 & S2), H2 as (L0 & L1 & L2). change ((assignable (b_ex target) /\ lua_ex (b_ex target) /\ lua_ex (b_ex e)) /\ True /\ lua_blk w r). repeat split; auto using assignable_b.
  - change (lua_blk w (app_blk (b_st s) (b_blk b))). destruct H1 as (S1 & S2), H2 as (L1 & L2 & L3). apply H; auto.
    destruct s; auto. destruct L2. split; [now apply semis_b|auto].
  - destruct H2 as (S1 & S2 & S3), H3 as (L1 & L2 & L3). apply lua_branch_of; auto. cbn [lua_ifs]. auto.
Qed.

(** ** Simple programs *)
Lemma simple_app a b : simple_blk (app_blk a b) <-> simple_blk a /\ simple_blk b.
Proof. induction a as [|s a IH] using blk_ind; cbn [app_blk simple_blk]; tauto. Qed.
Lemma simple_place b : simple_blk b -> simple_blk (in_place b).
Proof. intros W. unfold in_place. destruct (do_needed b); [|exact W]. now cbn. Qed.
Definition simple_branch (x : branch) : Prop := match x with Keep i => simple_ifs i | Take b => simple_blk b | Drop => True end.
Lemma simple_branch_of i c b e : simple_ifs i -> simple_blk b -> simple_els e -> simple_branch (branch_of known i c b e).
Proof. intros I B E. unfold branch_of. destruct (known c) as [[]|]; try assumption. destruct e; cbn; auto. Qed.
Lemma no_paren_b e : no_paren_at e -> no_paren_at (b_ex e). Proof. unfold no_paren_at. now rewrite leads_b. Qed.
Lemma all_simple_b : (forall e, simple_ex e -> simple_ex (b_ex e)) /\ (forall e, simple_exs e -> simple_exs (b_exs e)) /\ (forall e, simple_its e -> simple_its (b_its e)) /\
  (forall s, simple_st s -> simple_blk (b_st s)) /\ (forall b, simple_blk b -> simple_blk (b_blk b)) /\
  (forall i, simple_ifs i -> simple_branch (b_ifs i)) /\ (forall e, simple_els e -> simple_els (b_els e)).
Proof.
  apply prog_all; intros.
  all: cbn [simple_ex simple_exs simple_its simple_st simple_blk simple_ifs simple_els] in *.
  all: try match goal with
    | |- simple_blk (b_st (SIf _)) => rewrite b_if; destruct (b_ifs i)
    | |- simple_els (b_els (EElif _)) => rewrite b_elif; destruct (b_ifs i)
    | |- simple_branch _ => idtac
    | |- _ => cbn [M_Branch.b_ex M_Branch.b_exs M_Branch.b_its M_Branch.b_st M_Branch.b_els simple_ex simple_exs simple_its simple_st simple_blk simple_ifs simple_els]
    end.
  all: try (intuition (auto using simple_place); fail).
  - specialize (H H0). cbn [simple_branch simple_blk simple_st] in *. auto.
  - destruct H1 as (S0 & S1 & S2). change ((match b_exs targets with XCons e _ => no_paren_at e | XNil => True end /\ simple_exs (b_exs targets) /\ simple_exs (b_exs es)) /\ True).
    repeat split; auto. destruct targets; [exact I|]. apply no_paren_b, S0.
  - destruct H1 as (S0 & S1 & S2). change ((no_paren_at (b_ex target) /\ simple_ex (b_ex target) /\ simple_ex (b_ex e)) /\ True). repeat split; auto using no_paren_b.
  - destruct H0 as (S0 & S1). change ((no_paren_at (b_ex e) /\ simple_ex (b_ex e)) /\ True). repeat split; auto using no_paren_b.
  - change (simple_blk (app_blk (b_st s) (b_blk b))). rewrite simple_app. tauto.
  - destruct H2 as (S1 & S2 & S3). apply simple_branch_of; auto. cbn [simple_ifs]. auto.
Qed.
End Keep.

Lemma all_fits_simple : (forall e, simple_ex e -> forall m, m = Top \/ m = Within -> fits_ex m e) /\ (forall e, simple_exs e -> forall m, m = Top \/ m = Within -> fits_exs m e) /\
  (forall e, simple_its e -> forall m, m = Top \/ m = Within -> fits_its m e) /\
  (forall s, simple_st s -> forall m k, m = Top \/ m = Within -> fits_st m k s) /\ (forall b, simple_blk b -> forall m k, m = Top \/ m = Within -> fits_blk m k b) /\
  (forall i, simple_ifs i -> forall m k, m = Top \/ m = Within -> fits_ifs m k i) /\ (forall e, simple_els e -> forall m k, m = Top \/ m = Within -> fits_els m k e).
Proof.
  assert (C : forall m, m = Top \/ m = Within -> calm m = m) by (intros m [->| ->]; reflexivity).
  apply prog_all; intros.
  all: cbn [simple_ex simple_exs simple_its simple_st simple_blk simple_ifs simple_els] in *; cbn [fits_ex fits_exs fits_its fits_st fits_ifs fits_els].
  all: rewrite ?C by assumption; try (intuition auto; fail).
  - split; [|auto]. now destruct H1 as [->| ->].
  - destruct H1 as (S1 & S2). destruct b as [|s' b]; [apply H; auto|]. change (fits_st (calm m) More s /\ fits_blk m k (BCons s' b)). rewrite C by assumption. split; [apply H; auto|apply H0; auto].
Qed.

(** ** What stands next to what *)
Section Apart.
Context (lang : language).
Lemma simple_head s : wf_st lang s -> lua_st s -> simple_st s -> quiet (Some (head_st s)).
Proof.
  intros W L P. destruct (head_start lang s W L) as [C|C]; [exact C|]. exfalso. unfold paren in C. destruct s; cbn [head_st simple_st] in *; try discriminate C.
  - destruct targets; [discriminate C|]. destruct P as (P & _). apply P. now rewrite leads_head.
  - destruct P as (P & _). apply P. now rewrite leads_head.
  - destruct P as (P & _). apply P. now rewrite leads_head.
Qed.
Lemma simple_head_blk b w k : wf_blk lang b -> lua_blk w b -> simple_blk b -> quiet k -> quiet (head_blk b k).
Proof. destruct b as [|s b]; [easy|]. rewrite eq_wf_blk_l. intros (W & _) (L & _) (P & _) _. now apply simple_head. Qed.
Definition V_ex e := wf lang e -> lua_ex e -> simple_ex e -> ap_ex lang e.
Definition V_exs e := wf_exs lang e -> lua_exs e -> simple_exs e -> ap_exs lang e.
Definition V_its e := wf_its lang e -> lua_its e -> simple_its e -> ap_its lang e.
Definition V_st s := wf_st lang s -> lua_st s -> simple_st s -> forall last h, quiet h -> (s = SReturn XNil -> next_is (";" :: closers)%string (nx h) \/ last = true) -> ap_st lang last h s.
Definition V_blk b := wf_blk lang b -> simple_blk b -> forall w, lua_blk w b -> forall short k, quiet k -> (w = true \/ short = true \/ next_is closers (nx k)) -> ap_blk lang short k b.
Definition V_ifs i := wf_ifs lang i -> lua_ifs i -> simple_ifs i -> forall h, quiet h -> ap_ifs lang h i.
Definition V_els e := (wf_els lang e -> lua_els e -> simple_els e -> forall h, quiet h -> ap_els lang h e) /\ match e with EElse b => V_blk b | _ => True end.
Lemma closed_blk b w : V_blk b -> wf_blk lang b -> simple_blk b -> lua_blk false b -> In w closers -> ap_blk lang false (Some (op_tok (asc w))) b.
Proof. intros A W P L I. destruct (closing w I) as (Q & C). apply (A W P false); auto. destruct Q as [Q|Q]; [exact Q|]. exfalso. cbn in I. repeat (destruct I as [<-|I]; [discriminate Q|]). easy. Qed.
Lemma ended_blk b : V_blk b -> wf_blk lang b -> simple_blk b -> lua_blk false b -> ap_blk lang false kend b.
Proof. intros. apply (closed_blk b "end"); auto. now left. Qed.
Lemma until_blk b : V_blk b -> wf_blk lang b -> simple_blk b -> lua_blk false b -> ap_blk lang false (Some (op_tok (asc "until"))) b.
Proof. intros. apply (closed_blk b "until"); auto. cbn. tauto. Qed.
Lemma all_ap_simple : (forall e, V_ex e) /\ (forall e, V_exs e) /\ (forall e, V_its e) /\ (forall s, V_st s) /\ (forall b, V_blk b) /\ (forall i, V_ifs i) /\ (forall e, V_els e).
Proof.
  apply prog_all; unfold V_ex, V_exs, V_its, V_st, V_ifs; intros; cbn [L_Emit2.ap_ex L_Emit2.ap_exs L_Emit2.ap_its L_Emit2.ap_st L_Emit2.ap_ifs lua_ex lua_exs lua_its lua_st lua_ifs simple_ex simple_exs simple_its simple_st simple_ifs] in *; try easy.
  all: repeat match goal with
    | H : wf _ (_ _) |- _ => rewrite eq_wf_l in H; cbv iota in H
    | H : wf_exs _ (_ _ _) |- _ => rewrite eq_wf_exs_l in H; cbv iota in H
    | H : wf_its _ (_ _) |- _ => rewrite eq_wf_its_l in H; cbv iota in H
    | H : wf_st _ (_ _) |- _ => rewrite eq_wf_st_l in H; cbv iota in H
    | H : wf_ifs _ (_ _ _) |- _ => rewrite eq_wf_ifs_l in H; cbv iota in H
    end.
  all: try (intuition (eauto using ended_blk, until_blk, quiet_list, quiet_follow, quiet_alone, quiet_string); fail).
  - (* SReturn *) destruct es; [now apply H4|]. split; [auto|now apply quiet_list].
  - (* SLocal *) destruct es; [split; intros; now apply quiet_not|]. split; [tauto|now apply quiet_list].
  - (* SPrint *) destruct H0 as (_ & W). split; [auto|]. split; [now apply quiet_list|]. split; [now apply quiet_alone|]. split; [now apply quiet_not|now apply quiet_string].
  - (* BCons *) intros W P w L short k Q R. rewrite (eq_wf_blk_l lang (BCons _ _)) in W. destruct W as (W1 & W2), P as (P1 & P2), L as (L1 & L2 & L3). cbn [L_Emit2.ap_blk]. split; [|now apply (H0 W2 P2 w L3)].
    apply H; auto; [now apply (simple_head_blk b w)|]. intros ->. destruct L2 as (S & R'). destruct b as [|s' b].
    + cbn [head_blk]. destruct R as [->|[->|R]]; [discriminate (R' eq_refl)|now right|]. left. destruct k as [[ty v|]|]; [|easy|easy]. now right.
    + left. destruct s'; try easy. cbn. tauto.
  - (* ILong *) destruct H1 as (E & _), H2 as (W0 & W1 & W2 & W3), H3 as (L1 & L2 & L3), H4 as (P1 & P2 & P3). split; [auto|]. split; [|auto].
    destruct e; cbn [head_els]; [apply (closed_blk b "end")|apply (closed_blk b "else")|apply (closed_blk b "elseif")]; auto; cbn; tauto.
  - (* EElse *) split; [|assumption]. intros W L P h Q. rewrite eq_wf_els_l in W. now apply ended_blk.
Qed.

Lemma simple_program b : wf_blk lang b -> lua b -> simple_blk b -> exists b', un_blk b' = un_blk b /\ program lang b' (emit b).
Proof.
  intros W L S.
  assert (F : fits b) by (destruct all_fits_simple as (_ & _ & _ & _ & B & _); apply B; auto).
  assert (A : ap_blk lang false None b).
  { destruct all_ap_simple as (_ & _ & _ & _ & B & _). apply (B b W S true); auto; exact I. }
  destruct (all_emit lang) as (_ & _ & _ & _ & B & _).
  destruct (B _ W Top Break None (0%nat, false, 1) false []) as (b' & E & Lb); try easy.
  exists b'. split; [exact E|]. split; [|exact Lb]. destruct (all_wf_un lang) as (_ & _ & _ & _ & U & _). apply U. rewrite E. now apply U.
Qed.
End Apart.
