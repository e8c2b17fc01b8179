(** The program in longhand: what stands next to what, and that its tokens are those of a
    program, on whatever lines they are. *)
From Coq Require Import String List ZArith Lia Bool.
From Verif Require Import M_Base L_Util M_Fold M_Token M_Expr S_Expr L_Expr L_ExprPrint M_Stmt S_Stmt L_Stmt L_StmtEq L_StmtRead M_Emit S_Emit L_Emit L_Emit2 L_Emit4 L_Emit7 M_Tidy S_Tidy L_Tidy L_Tidy2 L_Tidy3 M_Unmin S_Unmin L_Unmin2 L_Unmin5.
Import ListNotations.
Open Scope Z_scope.

Section Apart.
Context (lang : language).
Notation ap_ex := (ap_ex lang).
Notation ap_exs := (ap_exs lang).
Notation ap_its := (ap_its lang).
Notation ap_st := (ap_st lang).
Notation ap_blk := (ap_blk lang).
Notation ap_ifs := (ap_ifs lang).
Notation ap_els := (ap_els lang).
(** The next token is the same, or does not go on with what is before. *)
Definition same_or_quiet (h h' : option tok) : Prop := h' = h \/ quiet h'.
Lemma leads_head e : leads e = head_ex e. Proof. induction e using ex_ind; cbn; congruence. Qed.
Lemma head_long e : head_ex (long_ex e) = head_ex e. Proof. induction e using ex_ind; cbn; congruence. Qed.
Lemma open_long e : open_end (long_ex e) <-> open_end e. Proof. induction e using ex_ind; cbn; tauto. Qed.
Lemma head_st_long s : head_st (long_st s) = head_st s.
Proof. destruct s; cbn [long_st head_st]; try reflexivity; try apply head_long. destruct targets; [reflexivity|apply head_long]. Qed.
Lemma soq_follow e h h' : same_or_quiet h h' -> follow lang e (nx h) -> follow lang (long_ex e) (nx h').
Proof. intros [->|Q] F; [|now apply quiet_follow]. destruct h as [[ty v|]|]; [|easy|easy]. cbn [nx follow] in *. now rewrite open_long. Qed.
Lemma soq_list es h h' : same_or_quiet h h' -> follow_list lang es (nx h) -> follow_list lang (long_exs es) (nx h').
Proof.
  intros M. induction es as [|e es IH]; [easy|]. destruct es; [|exact IH]. cbn [long_exs follow_list]. intros (A & B). split; [now apply (soq_follow e h)|]. destruct M as [->|Q]; [exact B|now apply quiet_not].
Qed.
Lemma soq_not l h h' : inner l = true -> same_or_quiet h h' -> ~ next_is l (nx h) -> ~ next_is l (nx h').
Proof. intros I [->|Q]; [easy|]. intros _. now apply quiet_not. Qed.
Lemma soq_alone h h' : same_or_quiet h h' -> stands_alone (nx h) -> stands_alone (nx h').
Proof. intros [->|Q]; [easy|]. intros _. now apply quiet_alone. Qed.
Lemma soq_string h h' : same_or_quiet h h' -> not_string (nx h) -> not_string (nx h').
Proof. intros [->|Q]; [easy|]. intros _. now apply quiet_string. Qed.
Lemma quiet_long b whole k : wf_blk lang b -> ~ paren_first b -> lua_blk whole (long_blk b) -> quiet k -> quiet (head_blk (long_blk b) k).
Proof.
  intros W N L Q. induction b as [|s b IH] using blk_ind; [exact Q|]. rewrite (eq_wf_blk_l lang (BCons _ _)) in W. destruct W as (Ws & Wb). destruct (st_eq_dec_semi s) as [->|Ns]; [now apply IH|].
  rewrite long_cons in L |- * by exact Ns. destruct L as (Ls & _). cbn [head_blk quiet]. destruct (head_start lang (long_st s)) as [C|C]; [now apply all_wf_long|exact Ls|exact C|]. exfalso. apply N. rewrite head_st_long in C.
  destruct s; cbn [head_st] in C; try discriminate C; cbn [paren_first]; [destruct targets; [discriminate C|]| |]; rewrite leads_head; exact C.
Qed.
Lemma head_soq b whole k k' : wf_blk lang b -> neat_blk b -> lua_blk whole (long_blk b) -> quiet k' -> same_or_quiet (head_blk b k) (head_blk (long_blk b) k').
Proof.
  intros W N L Q. destruct b as [|s b]; [now right|]. destruct (st_eq_dec_semi s) as [->|Ns].
  - right. destruct N as (_ & N & _). rewrite eq_wf_blk_l in W. destruct W as (_ & W). now apply (quiet_long b whole).
  - left. rewrite long_cons by exact Ns. cbn [head_blk]. now rewrite head_st_long.
Qed.
Definition A_ex e := wf lang e -> ap_ex e -> neat_ex e -> lua_ex (long_ex e) -> ap_ex (long_ex e).
Definition A_exs e := wf_exs lang e -> ap_exs e -> neat_exs e -> lua_exs (long_exs e) -> ap_exs (long_exs e).
Definition A_its e := wf_its lang e -> ap_its e -> neat_its e -> lua_its (long_its e) -> ap_its (long_its e).
Definition A_st s := wf_st lang s -> forall last h h', ap_st last h s -> neat_st s -> lua_st (long_st s) -> same_or_quiet h h' -> (s = SReturn XNil -> next_is (";" :: closers)%string (nx h')) -> ap_st false h' (long_st s).
Definition A_blk b := wf_blk lang b -> forall short whole k k', ap_blk short k b -> neat_blk b -> lua_blk whole (long_blk b) -> quiet k' -> (whole = true \/ next_is closers (nx k')) -> ap_blk false k' (long_blk b).
Definition A_ifs i := wf_ifs lang i -> forall el h h', ap_ifs h i -> neat_ifs el i -> lua_ifs (long_ifs i) -> ap_ifs h' (long_ifs i).
Definition A_els e := (wf_els lang e -> forall short h h', ap_els h e -> neat_els short e -> lua_els (long_els e) -> ap_els h' (long_els e)) /\ match e with EElse b => A_blk b | _ => True end.
Lemma long_body b w short k : A_blk b -> wf_blk lang b -> ap_blk short k b -> neat_blk b -> lua_blk false (long_blk b) -> In w closers -> ap_blk false (Some (op_tok (asc w))) (long_blk b).
Proof. intros A W P N L I. destruct (closing w I) as (Q & C). apply (A W short false k); auto. destruct Q as [Q|Q]; [exact Q|]. exfalso. cbn in I. repeat (destruct I as [<-|I]; [discriminate Q|]). easy. Qed.
Lemma end_long b short k : A_blk b -> wf_blk lang b -> ap_blk short k b -> neat_blk b -> lua_blk false (long_blk b) -> ap_blk false kend (long_blk b).
Proof. intros. apply (long_body b "end" short k); auto. now left. Qed.
Lemma until_long b short k : A_blk b -> wf_blk lang b -> ap_blk short k b -> neat_blk b -> lua_blk false (long_blk b) -> ap_blk false (Some (op_tok (asc "until"))) (long_blk b).
Proof. intros. apply (long_body b "until" short k); auto. cbn. tauto. Qed.
Lemma bare_ap e : ap_ex e -> ap_ex (without_parens e). Proof. now destruct e. Qed.
Lemma bare_lua e : lua_ex (without_parens e) -> lua_ex e. Proof. now destruct e. Qed.
Lemma all_ap_long : (forall e, A_ex e) /\ (forall e, A_exs e) /\ (forall e, A_its e) /\ (forall s, A_st s) /\ (forall b, A_blk b) /\ (forall i, A_ifs i) /\ (forall e, A_els e).
Proof.
  apply prog_all; unfold A_ex, A_exs, A_its, A_st, A_ifs; intros; cbn [long_ex long_exs long_its long_st long_ifs L_Emit2.ap_ex L_Emit2.ap_exs L_Emit2.ap_its L_Emit2.ap_st L_Emit2.ap_ifs lua_ex lua_exs lua_its lua_st lua_ifs neat_ex neat_exs neat_its neat_st neat_ifs] in *; try easy.
  all: repeat match goal with
    | H : wf _ (_ _) |- _ => rewrite eq_wf_l in H; cbv iota in H
    | H : wf_exs _ (_ _ _) |- _ => rewrite eq_wf_exs_l in H; cbv iota in H
    | H : wf_its _ (_ _) |- _ => rewrite eq_wf_its_l in H; cbv iota in H
    | H : wf_st _ (_ _) |- _ => rewrite eq_wf_st_l in H; cbv iota in H
    | H : wf_ifs _ (_ _ _) |- _ => rewrite eq_wf_ifs_l in H; cbv iota in H
    end.
  all: try (intuition (eauto using end_long, until_long, soq_list, soq_follow, soq_alone, soq_string, bare_ap, bare_lua); fail).
  - (* SReturn *) destruct es as [|e es]; [left; apply H5; reflexivity|]. destruct H1 as (A1 & A2). cbn [long_exs] in *. split; [now apply H|]. now apply (soq_list (XCons e es) h h').
  - (* SLocal *) destruct es as [|e es].
    + destruct H1 as (A1 & A2). cbn [long_exs]. split; [now apply (soq_not _ h)|]. intros P Q. apply (soq_not _ h); [reflexivity|assumption|]. now apply A2.
    + destruct H1 as (A1 & A2). destruct H0 as (_ & _ & W). cbn [long_exs] in *. split; [now apply H|]. now apply (soq_list (XCons e es) h h').
  - (* SPrint *) destruct H0 as (W1 & W2), H1 as (A1 & A2 & A3 & A4 & A5). split; [auto|]. split; [now apply (soq_list es h h')|]. split; [now apply (soq_alone h)|]. split; [now apply (soq_not _ h)|now apply (soq_string h)].
  - (* BCons *) intros W short whole k k' A N L Q B. rewrite (eq_wf_blk_l lang (BCons _ _)) in W. destruct W as (Ws & Wb), A as (As & Ab), N as (Ns & _ & Nb). destruct (st_eq_dec_semi s) as [->|Nn].
    + cbn [long_blk] in *. now apply (H0 Wb short whole k k').
    + rewrite long_cons in L |- * by exact Nn. destruct L as (Ls & Lr & Lb). cbn [L_Emit2.ap_blk].
      assert (E : forall X (x y : X), match long_blk b with BNil => x | _ => x end = x) by (intros; now destruct (long_blk b)). 
      split; [|now apply (H0 Wb short whole k k')]. rewrite (E bool false false). eapply H; [exact Ws|exact As|exact Ns|exact Ls|now apply (head_soq b whole)|].
      intros ->. cbn [long_st] in Lr. destruct Lr as (S & R). assert (Z' : long_blk b = BNil) by (destruct (long_blk b) as [|[] b'] eqn:F; try easy; exfalso; clear - F; revert b' F; induction b as [|s b IH] using blk_ind; intros b' F; [discriminate F|]; destruct (st_eq_dec_semi s) as [->|N]; [now apply (IH b')|]; rewrite long_cons in F by exact N; injection F as F _; destruct s; discriminate F || easy).
      rewrite Z'. cbn [head_blk]. destruct B as [->|B]; [now discriminate (R eq_refl)|]. destruct k' as [[ty v|]|]; [|easy|easy]. now right.
  - (* ILong *) destruct H2 as (W0 & W1 & W2 & W3), H3 as (A1 & A2 & A3), H4 as (N1 & N2 & N3), H5 as (L1 & L2 & L3), H1 as (E1 & E2). split; [auto|]. split; [|now apply (E1 W3 false h)].
    destruct e; cbn [long_els head_els]; [apply (long_body b "end" false (Some (head_els ENone)))|apply (long_body b "else" false (Some (head_els (EElse b0))))|apply (long_body b "elseif" false (Some (head_els (EElif i))))]; auto; cbn; tauto.
  - (* IShort *) destruct H2 as (W1 & W2 & W3 & W4), H3 as (A1 & A2 & A3), H4 as (N0 & N1 & N2 & N3 & N4), H5 as (L1 & L2 & L3), H1 as (E1 & E2). split; [apply bare_ap; apply H; auto; now apply bare_lua|].
    destruct e as [|b'|]; cbn [long_els head_els L_Emit2.ap_els]; [| |easy].
    + destruct A3 as (_ & _ & _ & A3). split; [now apply (end_long b true h)|exact I].
    + destruct A3 as (_ & _ & _ & A3 & A4). rewrite eq_wf_els_l in W3. destruct N4 as (_ & N4). split; [apply (long_body b "else" true (Some (op_tok (asc "else")))); auto; cbn; tauto|]. now apply (end_long b' true h).
  - (* EElse *) split; [|assumption]. intros W short h h' A N L. rewrite eq_wf_els_l in W. destruct N as (_ & N). cbn [long_els L_Emit2.ap_els] in *. now apply (end_long b false kend).
  - (* EElif *) split; [|exact I]. intros W short h h' A N L. rewrite eq_wf_els_l in W. cbn [long_els L_Emit2.ap_els neat_els] in *. now apply (H W true h).
Qed.
End Apart.
