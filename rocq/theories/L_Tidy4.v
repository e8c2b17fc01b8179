(** Cleaning up tokens: whole programs. *)
From Coq Require Import String List ZArith Lia Bool.
From Verif Require Import M_Base L_Util M_Fold M_Token M_Expr S_Expr L_Expr L_ExprPrint M_Stmt S_Stmt L_Stmt L_StmtEq L_StmtRead M_Emit S_Emit L_Emit L_Emit2 L_Emit3 L_Emit4 L_Emit6 L_Emit7 M_Tidy S_Tidy L_Tidy L_Tidy2 L_Tidy3.
Import ListNotations.
Open Scope Z_scope.

Lemma all_core_un : (forall e, core_ex (un_ex e) = core_ex e) /\ (forall e, core_exs (un_exs e) = core_exs e) /\ (forall e, core_its (un_its e) = core_its e) /\
  (forall s, core_st (un_st s) = core_st s) /\ (forall b, core_blk (un_blk b) = core_blk b) /\ (forall i, core_ifs (un_ifs i) = core_ifs i) /\ (forall e, core_els (un_els e) = core_els e).
Proof.
  apply prog_all; intros; cbn [un_ex un_exs un_its un_st un_ifs un_els un_blk core_ex core_exs core_its core_st core_ifs core_els]; try congruence; try reflexivity.
  destruct (st_eq_dec_semi s) as [->|N]; [exact H0|]. rewrite !core_nosemi; [congruence|exact N|now destruct s].
Qed.
Lemma core_un b b' : un_blk b' = un_blk b -> core_blk b' = core_blk b.
Proof. intros E. destruct all_core_un as (_ & _ & _ & _ & C & _). rewrite <- (C b'), E. apply C. Qed.

Lemma tidy_program lang ver b ts : program lang b ts -> fits b -> lua b -> exists b', core_blk b' = core_blk b /\ program lang b' (emit (tidy lang ver b)).
Proof.
  intros P F L. pose proof (program_apart lang b ts P) as A. destruct P as (W & _).
  assert (W' : wf_blk lang (tidy lang ver b)) by now apply all_wf.
  assert (F' : fits (tidy lang ver b)) by now apply all_fits.
  assert (A' : ap_blk lang false None (tidy lang ver b)).
  { destruct (all_ap lang ver) as (_ & _ & _ & _ & B & _). apply (B b W false true); auto; [exact I|now left]. }
  destruct (all_emit lang) as (_ & _ & _ & _ & B & _).
  destruct (B _ W' Top Break None (0%nat, false, 1) false []) as (b' & E & Lb); try easy.
  exists b'. split; [rewrite (core_un _ _ E); apply all_core|]. split; [|exact Lb]. destruct (all_wf_un lang) as (_ & _ & _ & _ & U & _). apply U. rewrite E. now apply U.
Qed.

Lemma len_app a b : length (toks (a ++ b)) = (length (toks a) + length (toks b))%nat.
Proof. now rewrite toks_app, app_length. Qed.
Lemma sep_len sep i : (length (toks (m_sep (tidy_sep sep i))) <= length (toks (m_sep sep)))%nat.
Proof. destruct sep as [v|]; [|easy]. destruct i; cbn; lia. Qed.
Ltac lens := repeat rewrite ?len_app, ?toks_short; cbn [tw tn toks length] in *.
Section Count.
Context (lang : language) (ver : Z).
Definition size_ex (e : ex) := length (toks (m_ex e)).
Definition size_exs (e : exs) := length (toks (m_exs e)).
Definition size_its (e : its) := length (toks (m_its e)).
Definition size_st (e : st) := length (toks (m_st e)).
Definition size_blk (e : blk) := length (toks (m_blk e)).
Definition size_ifs (e : ifs) := length (toks (m_ifs "if" e)).
Definition size_els (e : els) := length (toks (m_els e)).
Lemma ifs_word w w' i : length (toks (m_ifs w i)) = length (toks (m_ifs w' i)).
Proof. destruct i as [th c b e|nested c b e]; cbn [m_ifs]; lens; reflexivity. Qed.
Lemma all_size : (forall e, size_ex (tidy_ex lang ver e) <= size_ex e)%nat /\ (forall e, size_exs (tidy_exs lang ver e) <= size_exs e)%nat /\ (forall e, size_its (tidy_its lang ver e) <= size_its e)%nat /\
  (forall s k, size_st (tidy_st lang ver k s) <= size_st s)%nat /\ (forall b keep k, size_blk (tidy_blk lang ver keep k b) <= size_blk b)%nat /\ (forall i k, size_ifs (tidy_ifs lang ver k i) <= size_ifs i)%nat /\
  (forall e, (forall short k, size_els (tidy_els lang ver short k e) <= size_els e)%nat /\ match e with EElse b => forall keep k, (size_blk (tidy_blk lang ver keep k b) <= size_blk b)%nat | _ => True end).
Proof.
  apply prog_all; unfold size_ex, size_exs, size_its, size_st, size_blk, size_ifs, size_els in *; intros; cbn [M_Tidy.tidy_ex M_Tidy.tidy_exs M_Tidy.tidy_its M_Tidy.tidy_st M_Tidy.tidy_ifs M_Tidy.tidy_els m_ex m_exs m_its m_st m_ifs m_els]; try apply le_n; lens; auto; try lia.
  all: repeat match goal with
    | H : forall (keep : bool) k, (length (toks (m_blk (M_Tidy.tidy_blk _ _ keep k ?b))) <= _)%nat |- context [M_Tidy.tidy_blk _ _ ?kk ?k2 ?b] =>
        lazymatch goal with _ : (length (toks (m_blk (M_Tidy.tidy_blk _ _ kk k2 b))) <= _)%nat |- _ => fail | _ => pose proof (H kk k2) end
    | |- context [M_Tidy.tidy_sep ?s ?i] => lazymatch goal with _ : (length (toks (m_sep (M_Tidy.tidy_sep s i))) <= _)%nat |- _ => fail | _ => pose proof (sep_len s i) end
    end; try lia.
  - destruct short; cbn [orb]; [lia|]. destruct (lone args); lens; lia.
  - destruct short; lens; lia.
  - destruct args as [|e' args]; [assumption|]. cbn [M_Tidy.tidy_exs] in *. lens. lia.
  - destruct step as [|e' step]; cbn [M_Tidy.tidy_exs] in *; lens; lia.
  - destruct es as [|e' es]; cbn [M_Tidy.tidy_exs] in *; lens; lia.
  - destruct (st_eq_dec_semi s) as [->|N].
    + cbn [M_Tidy.tidy_blk m_blk]. specialize (H0 keep k). destruct (opens (next b k) || keep); cbn [m_blk]; lens; lia.
    + rewrite tidy_nosemi by exact N. cbn [m_blk]. lens. specialize (H (next b k)). specialize (H0 keep k). lia.
  - destruct H1 as (H1 & _). specialize (H1 false k). lia.
  - destruct H1 as (_ & H1). destruct e as [|b'|]; cbn [M_Tidy.tidy_els]; try (cbn [toks length]; lia). specialize (H1 (no_stmts b') k). lens. lia.
  - split; [|assumption]. intros short k. lens. destruct short; [specialize (H (no_stmts b) k)|specialize (H false (Some (kw "end")))]; lia.
  - split; [|exact I]. intros _ k. rewrite (ifs_word "elseif" "if"), (ifs_word "elseif" "if" i). apply H.
Qed.
Lemma tidy_size b : (length (emit (tidy lang ver b)) <= length (emit b))%nat.
Proof.
  unfold emit. rewrite <- (map_length fst (run _ (m_blk (tidy _ _ _)))), <- (map_length fst (run _ (m_blk b))), !toks_run. destruct all_size as (_ & _ & _ & _ & B & _). apply B.
Qed.
End Count.
