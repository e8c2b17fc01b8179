(** Cleaning up tokens: what follows what is as it was. *)
From Coq Require Import String List ZArith Lia Bool.
From Verif Require Import M_Base L_Util M_Fold M_Token M_Expr S_Expr L_Expr L_ExprPrint M_Stmt S_Stmt L_Stmt L_StmtEq L_StmtRead M_Emit S_Emit L_Emit L_Emit2 L_Emit4 L_Emit6 M_Tidy S_Tidy L_Tidy L_Tidy2.
Import ListNotations.
Open Scope Z_scope.

Section Apart.
Context (lang : language) (ver : Z).
Notation ap_ex := (ap_ex lang).
Notation ap_exs := (ap_exs lang).
Notation ap_its := (ap_its lang).
Notation ap_st := (ap_st lang).
Notation ap_blk := (ap_blk lang).
Notation ap_ifs := (ap_ifs lang).
Notation ap_els := (ap_els lang).
Notation tidy_ex := (tidy_ex lang ver).
Notation tidy_exs := (tidy_exs lang ver).
Notation tidy_its := (tidy_its lang ver).
Notation tidy_st := (tidy_st lang ver).
Notation tidy_blk := (tidy_blk lang ver).
Notation tidy_ifs := (tidy_ifs lang ver).
Notation tidy_els := (tidy_els lang ver).

Lemma semis_tidy b keep k : semis b -> tidy_blk keep k b = BNil \/ exists b', tidy_blk keep k b = BCons SSemi b'.
Proof.
  induction b as [|s b IH] using blk_ind; [now left|]. destruct s; try easy. cbn [semis M_Tidy.tidy_blk]. intros S. destruct (opens (next b k) || keep); [right; now eexists|auto].
Qed.
Lemma not_do s : wf_st lang s -> lua_st s -> (forall b, s <> SDo b) -> ~ next_is ["do"]%string (nx (Some (head_st s))).
Proof.
  intros W L N. rewrite eq_wf_st_l in W. assert (A : forall e, callable_ex e -> wf lang e -> ~ next_is ["do"]%string (nx (Some (head_ex e)))).
  { intros e C We. destruct (head_call lang e C We) as [(x & -> & _ & K)| ->]; cbn; [intros [<-|[]]; discriminate K|intros [E|[]]; discriminate E]. }
  destruct s; cbv iota in W; cbn [head_st lua_st] in *; try (cbn; intros [E|[]]; discriminate E).
  - now elim (N b).
  - destruct targets as [|e ?]; [easy|]. destruct L as (L & _). destruct W as (_ & W & _). rewrite eq_wf_exs_l in W. cbn [head_exs]. apply A; [now destruct e|easy].
  - destruct L as (L & _). apply A; [now destruct target|easy].
  - apply A; [now destruct e|easy].
Qed.
Lemma body_not_do b k k' whole : wf_blk lang b -> lua_blk whole b -> body_ok b -> ~ next_is ["do"]%string (nx (head_blk (tidy_blk (no_stmts b) k b) k')).
Proof.
  intros W L (N & D). destruct (no_stmts b) eqn:E.
  - destruct b as [|[] b]; try easy. cbn [M_Tidy.tidy_blk]. rewrite orb_true_r. cbn. now intros [|[]].
  - clear N. revert W L D E. induction b as [|s b IH] using blk_ind; [easy|]. intros W L D E. rewrite (eq_wf_blk_l lang (BCons _ _)) in W. destruct W as (Ws & Wb). destruct L as (Ls & _ & Lb). destruct (st_eq_dec_semi s) as [->|Ns].
    + cbn [M_Tidy.tidy_blk]. destruct (opens (next b k) || false); [cbn; now intros [|[]]|]. now apply IH.
    + rewrite tidy_nosemi by exact Ns. cbn [head_blk]. rewrite head_st_tidy. apply not_do; try assumption. intros b' ->. now apply D.
Qed.
Lemma ap_nosemi_last last last' k s : s <> SReturn XNil -> ap_st last k s -> ap_st last' k s.
Proof. destruct s; try easy. now destruct es. Qed.
Lemma paren_tidy c : in_parens c -> ends_paren (tidy_ex c). Proof. now destruct c. Qed.

Definition A_st s := wf_st lang s -> forall last last' h h', ap_st last h s -> lua_st s -> ok_next h -> moved h h' ->
  (s = SReturn XNil -> next_is (";" :: closers)%string (nx h') \/ last' = true) -> ap_st last' h' (tidy_st h s).
Definition A_blk b := wf_blk lang b -> forall short whole keep k k', ap_blk short k b -> lua_blk whole b -> ok_next k -> moved k k' ->
  (short = true \/ whole = true \/ next_is closers (nx k)) -> ap_blk short k' (tidy_blk keep k b).
Definition A_ifs i := wf_ifs lang i -> forall h h', ap_ifs h i -> lua_ifs i -> ok_next h -> moved h h' -> ap_ifs h' (tidy_ifs h i).
Definition A_els e := (wf_els lang e -> forall h h', ap_els h e -> lua_els e -> ok_next h -> moved h h' -> ap_els h' (tidy_els false h e)) /\ match e with EElse b => A_blk b | _ => True end.

Lemma closing w : In w closers -> ok_next (Some (op_tok (asc w))) /\ next_is closers (nx (Some (op_tok (asc w)))).
Proof.
  intros I. split; [|unfold op_tok; cbn [nx next_is]; now apply in_map]. left. right. apply in_map with (f := fun s => op_tok (asc s)). cbn in *. tauto.
Qed.
Lemma long_blk b w : A_blk b -> wf_blk lang b -> lua_blk false b -> In w closers -> ap_blk false (Some (op_tok (asc w))) b -> ap_blk false (Some (op_tok (asc w))) (tidy_blk false (Some (op_tok (asc w))) b).
Proof. intros A W L I H. destruct (closing w I). apply (A W false false); auto. now left. Qed.
Lemma end_blk b : A_blk b -> wf_blk lang b -> lua_blk false b -> ap_blk false kend b -> ap_blk false kend (tidy_blk false (Some (kw "end")) b).
Proof. intros A W L H. apply (long_blk b "end"); try assumption. now left. Qed.
Lemma until_blk b : A_blk b -> wf_blk lang b -> lua_blk false b -> ap_blk false (Some (op_tok (asc "until"))) b -> ap_blk false (Some (op_tok (asc "until"))) (tidy_blk false (Some (kw "until")) b).
Proof. intros A W L H. apply (long_blk b "until"); try assumption. cbn. tauto. Qed.

Lemma all_ap : (forall e, wf lang e -> ap_ex e -> lua_ex e -> ap_ex (tidy_ex e)) /\ (forall e, wf_exs lang e -> ap_exs e -> lua_exs e -> ap_exs (tidy_exs e)) /\
  (forall e, wf_its lang e -> ap_its e -> lua_its e -> ap_its (tidy_its e)) /\
  (forall s, A_st s) /\ (forall b, A_blk b) /\ (forall i, A_ifs i) /\ (forall e, A_els e).
Proof.
  apply prog_all; unfold A_st, A_ifs; intros; cbn [M_Tidy.tidy_ex M_Tidy.tidy_exs M_Tidy.tidy_its M_Tidy.tidy_st M_Tidy.tidy_ifs L_Emit2.ap_ex L_Emit2.ap_exs L_Emit2.ap_its L_Emit2.ap_st L_Emit2.ap_ifs lua_ex lua_exs lua_its lua_st lua_ifs] in *; try easy.
  all: repeat match goal with
    | H : wf _ (_ _) |- _ => rewrite eq_wf_l in H; cbv iota in H
    | H : wf_exs _ (_ _ _) |- _ => rewrite eq_wf_exs_l in H; cbv iota in H
    | H : wf_its _ (_ _) |- _ => rewrite eq_wf_its_l in H; cbv iota in H
    | H : wf_st _ (_ _) |- _ => rewrite eq_wf_st_l in H; cbv iota in H
    | H : wf_ifs _ (_ _ _) |- _ => rewrite eq_wf_ifs_l in H; cbv iota in H
    end.
  all: try (intuition (eauto using end_blk, until_blk, moved_list, moved_alone, moved_string); fail).
  - destruct H1 as (Wc & Wb), H2 as (A1 & A2 & A3 & A4 & A5), H3 as (L1 & L2 & L3 & L4). pose proof (head_moved lang ver (no_stmts b) b false h h' Wb L4 H4 H5) as M.
    split; [auto|]. split; [now apply paren_tidy|]. split; [eapply moved_follow; [apply open_tidy|exact M|exact A3]|]. split; [now apply (body_not_do b h h' false)|]. apply (H0 Wb true false); auto.
  - destruct H1 as (Wc & Wb), H2 as (A1 & A2 & A3), H3 as (L1 & L2). split; [now apply until_blk|]. split; [auto|]. eapply moved_follow; [apply open_tidy|eassumption|exact A3].
  - destruct es as [|e es]; [apply H5; reflexivity|]. destruct H1 as (A1 & A2). cbn [M_Tidy.tidy_exs] in *. split; [apply H; assumption|]. apply (moved_list lang ver (XCons e es) h h'); assumption.
  - destruct es as [|e es].
    + destruct H1 as (A1 & A2). cbn [M_Tidy.tidy_exs]. split; [now apply (moved_not _ h)|]. intros P Q. apply (moved_not _ h); [reflexivity|assumption|]. now apply A2.
    + destruct H1 as (A1 & A2). destruct H0 as (_ & _ & W). cbn [M_Tidy.tidy_exs] in *. split; [apply H; assumption|]. apply (moved_list lang ver (XCons e es) h h'); assumption.
  - destruct H1 as (W1 & _ & _ & W2), H2 as (A1 & A2 & A3), H3 as (L1 & L2 & L3). split; [auto|]. split; [auto|]. eapply moved_follow; [apply open_tidy|eassumption|exact A3].
  - destruct H0 as (W1 & W2), H1 as (A1 & A2 & A3 & A4 & A5). split; [auto|]. split; [now apply (moved_list lang ver es h h')|]. split; [now apply (moved_alone h)|]. split; [now apply (moved_not _ h)|now apply (moved_string h)].
  - destruct H0 as (W1 & W2), H1 as (A1 & A2 & A3). split; [auto|]. split; [eapply moved_follow; [apply open_tidy|eassumption|exact A2]|now apply (moved_alone h)].
  - intros W short whole keep k k' A L O M B. rewrite (eq_wf_blk_l lang (BCons _ _)) in W. destruct W as (Ws & Wb), A as (As & Ab), L as (Ls & Lr & Lb). pose proof (H0 Wb short whole keep k k' Ab Lb O M B) as IH. destruct (st_eq_dec_semi s) as [->|N].
    + cbn [M_Tidy.tidy_blk]. destruct (opens (next b k) || keep); [|exact IH]. now split.
    + rewrite tidy_nosemi by exact N. rewrite (next_head lang) by exact Wb. cbn [L_Emit2.ap_blk]. split; [|exact IH].
      eapply H; [exact Ws|exact As|exact Ls|now apply (ok_head lang b k whole)|now apply (head_moved lang ver keep b whole)|].
      intros ->. destruct Lr as (S & R). destruct (semis_tidy b keep k S) as [->|(b' & ->)]; [|left; left; reflexivity]. cbn [head_blk]. destruct B as [->|[->|B]]; [now right|now discriminate (R eq_refl)|]. left.
      destruct M as [->|(-> & _)]; [|exfalso; revert B; apply not_in; reflexivity]. destruct k as [[ty v|]|]; [|easy|easy]. now right.
  - destruct H2 as (W0 & W1 & W2 & W3), H3 as (A1 & A2 & A3), H4 as (L1 & L2 & L3), H1 as (E1 & E2). split; [auto|]. rewrite els_head. split; [|auto].
    assert (E : head_els (tidy_els false h e) = head_els e) by now destruct e. rewrite E. destruct e; [apply (long_blk b "end")|apply (long_blk b "else")|apply (long_blk b "elseif")]; try assumption; cbn; tauto.
  - destruct H2 as (W1 & W2 & W3 & W4), H3 as (A1 & A2 & A3), H4 as (L1 & L2 & L3 & L4 & L5), H1 as (E1 & E2). split; [auto|]. split; [now apply paren_tidy|]. destruct e as [|b'|]; cbn [M_Tidy.tidy_els]; [|destruct (closing "else") as (O & _); [cbn; tauto|]|easy].
    + destruct A3 as (A3 & A4 & A5 & A6). pose proof (head_moved lang ver (no_stmts b) b false h h' W2 L4 H5 H6) as M.
      split; [eapply moved_follow; [apply open_tidy|exact M|exact A3]|]. split; [now apply (moved_not _ (head_blk b h))|]. split; [intros _; now apply (body_not_do b h h' false)|]. apply (H0 W2 true false); auto.
    + destruct A3 as (A3 & A4 & A5 & A6 & A7). pose proof (head_moved lang ver (no_stmts b) b false (Some (op_tok (asc "else"))) _ W2 L4 O (or_introl eq_refl)) as M.
      change (Some (kw "else")) with (Some (op_tok (asc "else"))).
      split; [eapply moved_follow; [apply open_tidy|exact M|exact A3]|]. split; [eapply moved_not; [reflexivity|exact M|exact A4]|]. split; [intros _; now apply (body_not_do b _ _ false)|]. split; [apply (H0 W2 true false); auto; now left|].
      rewrite eq_wf_els_l in W3. apply (E2 W3 true false); auto.
  - split; [|assumption]. intros W h h' A L O M. rewrite eq_wf_els_l in W. cbn [M_Tidy.tidy_els L_Emit2.ap_els] in *. now apply end_blk.
Qed.

End Apart.
