(** Cleaning up tokens: what it keeps of the tree. *)
From Coq Require Import String List ZArith Lia Bool.
From Verif Require Import M_Base L_Util M_Fold M_Token M_Expr S_Expr L_Expr L_ExprPrint M_Stmt S_Stmt L_Stmt L_StmtEq L_StmtRead M_Emit S_Emit L_Emit L_Emit2 L_Emit4 M_Tidy S_Tidy.
Import ListNotations.
Open Scope Z_scope.

Lemma st_eq_dec_semi (s : st) : {s = SSemi} + {s <> SSemi}.
Proof. destruct s; first [now left|right; discriminate]. Qed.

Section Core.
Context (lang : language) (ver : Z).
Notation tidy_ex := (tidy_ex lang ver).
Notation tidy_exs := (tidy_exs lang ver).
Notation tidy_its := (tidy_its lang ver).
Notation tidy_st := (tidy_st lang ver).
Notation tidy_blk := (tidy_blk lang ver).
Notation tidy_ifs := (tidy_ifs lang ver).
Notation tidy_els := (tidy_els lang ver).
Notation tidy_op := (tidy_op lang ver).

(** Operators. *)
Lemma op_cases op : tidy_op op = op \/ (op = asc "!=" /\ tidy_op op = asc "~=") \/ (op = asc "^^" /\ tidy_op op = asc "~") \/ (op = asc "//" /\ tidy_op op = asc "\").
Proof.
  unfold M_Tidy.tidy_op. destruct (zeqb_list op (asc "!=")) eqn:A; [apply zeqb_sound in A; auto|].
  destruct (zeqb_list op (asc "^^")) eqn:B; [apply zeqb_sound in B; subst op; cbn [andb]; destruct (37 <=? ver); [auto|left; reflexivity]|]. cbn [andb].
  destruct (zeqb_list op (asc "//")) eqn:C; [apply zeqb_sound in C; subst op; cbn [andb]; destruct (is_pico8 lang); cbn [negb]; auto|]. auto.
Qed.
Lemma spell_op op : spell (tidy_op op) = spell op.
Proof. destruct (op_cases op) as [->|[(-> & ->)|[(-> & ->)|(-> & ->)]]]; reflexivity. Qed.
Lemma spell_eq op : spell (tidy_eq lang op) = spell op.
Proof.
  unfold tidy_eq. destruct (zeqb_list op (asc "//=")) eqn:A; [|reflexivity]. apply zeqb_sound in A. subst op. now destruct (is_pico8 lang).
Qed.

(** The program is the same. *)
Lemma core_nosemi s b : s <> SSemi -> core_blk (BCons s b) = BCons (core_st s) (core_blk b).
Proof. now destruct s. Qed.
Lemma tidy_nosemi s k keep b : s <> SSemi -> tidy_blk keep k (BCons s b) = BCons (tidy_st (next b k) s) (tidy_blk keep k b).
Proof. now destruct s. Qed.
Lemma nosemi s k : s <> SSemi -> tidy_st k s <> SSemi. Proof. now destruct s. Qed.
Lemma all_core : (forall e, core_ex (tidy_ex e) = core_ex e) /\ (forall e, core_exs (tidy_exs e) = core_exs e) /\ (forall e, core_its (tidy_its e) = core_its e) /\
  (forall s k, core_st (tidy_st k s) = core_st s) /\ (forall b keep k, core_blk (tidy_blk keep k b) = core_blk b) /\
  (forall i k, core_ifs (tidy_ifs k i) = core_ifs i) /\ (forall e short k, core_els (tidy_els short k e) = core_els e).
Proof.
  apply prog_all; intros; cbn [M_Tidy.tidy_ex M_Tidy.tidy_exs M_Tidy.tidy_its M_Tidy.tidy_st M_Tidy.tidy_ifs M_Tidy.tidy_els core_ex core_exs core_its core_st core_ifs core_els]; try congruence.
  - rewrite spell_op. congruence.
  - rewrite spell_eq. congruence.
  - reflexivity.
  - destruct (st_eq_dec_semi s) as [->|N].
    + cbn [M_Tidy.tidy_blk core_blk]. destruct (opens (next b k) || keep); [cbn [core_blk]|]; apply H0.
    + rewrite tidy_nosemi, !core_nosemi by (try apply nosemi; assumption). congruence.
  - destruct short; congruence.
Qed.

(** What is written is still a tree of the grammar. *)
Lemma level_op op k : level_of (tidy_op op) k <-> level_of op k.
Proof. rewrite !level_prec. destruct (op_cases op) as [->|[(-> & ->)|[(-> & ->)|(-> & ->)]]]; reflexivity. Qed.
Lemma in_op op : in_lang lang op -> in_lang lang (tidy_op op).
Proof.
  destruct (op_cases op) as [->|[(-> & ->)|[(-> & ->)|(-> & ->)]]]; [easy| | |]; intros _; (split; [intros I; exfalso; revert I; apply not_in; vm_compute; reflexivity|discriminate]).
Qed.
Lemma right_op op : right_assoc (tidy_op op) <-> right_assoc op.
Proof. destruct (op_cases op) as [->|[(-> & ->)|[(-> & ->)|(-> & ->)]]]; [easy| | |]; split; intros [A|A]; discriminate A. Qed.
Lemma op_ok_eq op : op_ok lang op -> op_ok lang (tidy_eq lang op).
Proof.
  unfold tidy_eq. destruct (zeqb_list op (asc "//=") && negb (is_pico8 lang)); [|easy]. intros _. split; [exists (asc "\"); reflexivity|]. split; [discriminate|].
  intros k L. apply level_prec in L. discriminate L.
Qed.
Lemma open_tidy e : open_end (tidy_ex e) <-> open_end e.
Proof. induction e using ex_ind; cbn in *; easy. Qed.
Lemma fun_first_tidy e : fun_first (tidy_ex e) <-> fun_first e.
Proof. induction e using ex_ind; cbn in *; easy. Qed.
Lemma tight_tidy e k : tight_ex (tidy_ex e) k <-> tight_ex e k.
Proof. destruct e; cbn [M_Tidy.tidy_ex tight_ex]; try easy. split; intros (n & A & B); exists n; now rewrite level_op in *. Qed.
Lemma is_un_tidy e : is_un (tidy_ex e) <-> is_un e. Proof. now destruct e. Qed.
Lemma callable_tidy e : callable_ex (tidy_ex e) <-> callable_ex e. Proof. now destruct e. Qed.
Lemma is_call_tidy e : is_call (tidy_ex e) <-> is_call e. Proof. now destruct e. Qed.
Lemma short_tidy es : short_exs (tidy_exs es) <-> short_exs es.
Proof. destruct es as [|e [|]]; [easy|now destruct e|now destruct e]. Qed.
Lemma lone_short es : lone es = true -> short_exs es.
Proof. destruct es as [|e [|]]; [easy| |now destruct e as [[[]|]| | | | | | | | | | |]]. now destruct e as [[[]|]| | | | | | | | | | |]. Qed.
Lemma sep_tidy sep i : sep_ok sep i -> sep_ok (tidy_sep sep i) (tidy_its i).
Proof.
  destruct sep as [v|]; cbn [sep_ok tidy_sep].
  - intros [->| ->]; destruct i; cbn [sep_ok M_Tidy.tidy_its]; auto.
  - intros ->. reflexivity.
Qed.
Lemma nil_tidy es : tidy_exs es = XNil <-> es = XNil. Proof. now destruct es. Qed.
Lemma all_wf : (forall e, wf lang e -> wf lang (tidy_ex e)) /\ (forall e, wf_exs lang e -> wf_exs lang (tidy_exs e)) /\ (forall e, wf_its lang e -> wf_its lang (tidy_its e)) /\
  (forall s, wf_st lang s -> forall k, wf_st lang (tidy_st k s)) /\ (forall b, wf_blk lang b -> forall keep k, wf_blk lang (tidy_blk keep k b)) /\
  (forall i, wf_ifs lang i -> forall k, wf_ifs lang (tidy_ifs k i)) /\ (forall e, wf_els lang e -> forall short k, wf_els lang (tidy_els short k e)).
Proof.
  apply prog_all; intros; cbn [M_Tidy.tidy_ex M_Tidy.tidy_exs M_Tidy.tidy_its M_Tidy.tidy_st M_Tidy.tidy_ifs M_Tidy.tidy_els]; try assumption.
  all: repeat match goal with
    | H : wf _ (_ _) |- _ => rewrite eq_wf_l in H; cbv iota in H
    | H : wf_exs _ (_ _ _) |- _ => rewrite eq_wf_exs_l in H; cbv iota in H
    | H : wf_its _ (_ _) |- _ => rewrite eq_wf_its_l in H; cbv iota in H
    | H : wf_st _ (_ _) |- _ => rewrite eq_wf_st_l in H; cbv iota in H
    | H : wf_ifs _ (_ _ _) |- _ => rewrite eq_wf_ifs_l in H; cbv iota in H
    | H : wf_els _ (_ _) |- _ => rewrite eq_wf_els_l in H; cbv iota in H
    end.
  all: try (match goal with
    | |- wf _ _ => rewrite eq_wf_l
    | |- wf_exs _ _ => rewrite eq_wf_exs_l
    | |- wf_its _ _ => rewrite eq_wf_its_l
    | |- wf_st _ _ => rewrite eq_wf_st_l
    | |- wf_ifs _ _ => rewrite eq_wf_ifs_l
    | |- wf_els _ _ => rewrite eq_wf_els_l
    end; cbv iota).
  all: rewrite ?short_tidy, ?callable_tidy, ?is_call_tidy, ?fun_first_tidy, ?nil_tidy, ?tight_tidy; try (intuition (auto using sep_tidy, op_ok_eq); fail).
  - destruct H1 as (A & B & C & k & D & E). split; [now apply in_op|]. split; [auto|]. split; [auto|]. exists k. rewrite level_op, right_op, !tight_tidy, is_un_tidy. easy.
  - destruct H1 as (A & B & C & D). split; [easy|]. split; [auto|]. split; [auto|]. intros E. apply orb_prop in E. destruct E as [E|E]; [auto|]. now apply lone_short.
  - destruct H3 as (A & B & C & D & E & F). split; [exact A|]. split; [auto|]. split; [auto|]. split; [auto|]. split; [|auto]. destruct step as [|? [|? ?]]; easy.
  - destruct H1 as (A & B & C & D). split; [|auto]. destruct targets as [|e0 ?]; [easy|]. cbn [M_Tidy.tidy_exs]. now rewrite fun_first_tidy.
  - rewrite (eq_wf_blk_l lang (BCons _ _)) in H1. destruct H1 as (A & B). destruct (st_eq_dec_semi s) as [->|N].
    + cbn [M_Tidy.tidy_blk]. destruct (opens (next b k) || keep); [|auto]. rewrite eq_wf_blk_l. auto.
    + rewrite tidy_nosemi by assumption. rewrite eq_wf_blk_l. auto.
  - destruct H2 as (A & B & C & D). split; [|auto]. unfold tidy_then. destruct (zeqb_list w (asc "then") && is_pico8 lang && (42 <=? ver)) eqn:E; [|exact A]. right. split; [reflexivity|]. destruct lang; [easy|]. rewrite andb_false_r in E. discriminate E.
  - destruct H2 as (A & B & C & D). split; [auto|]. split; [auto|]. split; [auto|]. now destruct e.
  - destruct short; auto.
Qed.

(** Shorthands are still told from what follows. *)
Lemma calm_calm m : calm (calm m) = calm m. Proof. now destruct m. Qed.
Lemma fits_more : (forall (e : ex), True) /\ (forall (e : exs), True) /\ (forall (i : its), True) /\
  (forall s m k, fits_st (calm m) More s -> fits_st m k s) /\ (forall (b : blk), True) /\
  (forall i m k, fits_ifs (calm m) More i -> fits_ifs m k i) /\ (forall e m k, fits_els (calm m) More e -> fits_els m k e).
Proof.
  apply prog_all; try easy; cbn [fits_st fits_ifs fits_els]; intros; rewrite ?calm_calm in *; auto.
  - destruct m, nested; cbn in *; try easy; destruct H1 as (A & B & C); try easy.
  - destruct m; cbn in *; easy.
  - destruct H2 as (A & B & C). auto.
  - destruct m, nested; cbn in *; try easy; destruct H2 as (A & B & C); try easy.
Qed.
Definition fits_more_st := proj1 (proj2 (proj2 (proj2 fits_more))).
Lemma fits_tail m k s b : fits_blk m k (BCons s b) -> fits_blk m k b.
Proof. destruct b; [easy|]. now intros (_ & H). Qed.
Lemma fits_cons m k s b : fits_st (calm m) More s -> fits_blk m k b -> fits_blk m k (BCons s b).
Proof. intros A B. destruct b; [now apply fits_more_st|easy]. Qed.
Lemma all_fits : (forall e m, fits_ex m e -> fits_ex m (tidy_ex e)) /\ (forall e m, fits_exs m e -> fits_exs m (tidy_exs e)) /\ (forall e m, fits_its m e -> fits_its m (tidy_its e)) /\
  (forall s m k h, fits_st m k s -> fits_st m k (tidy_st h s)) /\ (forall b m k keep h, fits_blk m k b -> fits_blk m k (tidy_blk keep h b)) /\
  (forall i m k h, fits_ifs m k i -> fits_ifs m k (tidy_ifs h i)) /\
  (forall e, (forall m k short h, fits_els m k e -> fits_els m k (tidy_els short h e)) /\ match e with EElse b => forall m k keep h, fits_blk m k b -> fits_blk m k (tidy_blk keep h b) | _ => True end).
Proof.
  apply prog_all; intros; cbn [M_Tidy.tidy_ex M_Tidy.tidy_exs M_Tidy.tidy_its M_Tidy.tidy_st M_Tidy.tidy_ifs M_Tidy.tidy_els fits_ex fits_exs fits_its fits_st fits_ifs fits_els] in *; try tauto; try (intuition auto; fail).
  - destruct (enter m nested) as [m'|]; [|easy]. intuition auto.
  - destruct (st_eq_dec_semi s) as [->|N].
    + cbn [M_Tidy.tidy_blk]. pose proof (fits_tail _ _ _ _ H1) as H2. destruct (opens (next b h) || keep); [|auto]. apply fits_cons; [easy|auto].
    + rewrite tidy_nosemi by assumption. destruct b as [|s' b]; [now apply H|]. destruct H1 as (A & B). apply fits_cons; auto.
  - destruct H2 as (A & B & C). split; [auto|]. split; [|now apply H1]. destruct e; cbn [M_Tidy.tidy_els]; auto.
  - destruct (enter m nested) as [m'|]; [|easy]. destruct H2 as (A & B & C). split; [auto|]. split; [auto|]. destruct H1 as (H1 & H1'). destruct e; cbn [M_Tidy.tidy_els]; intuition auto.
  - split; [|auto]. intros m k short h F. destruct short; cbn [fits_els]; auto.
Qed.
End Core.
