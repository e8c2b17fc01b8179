(** Changing shorthands: the program stays the same. *)
From Coq Require Import String List ZArith Lia Bool.
From Verif Require Import M_Base L_Util M_Fold M_Token M_Expr S_Expr L_Expr L_ExprPrint M_Stmt S_Stmt L_Stmt L_StmtEq L_StmtRead M_Emit S_Emit L_Emit L_Emit2 L_Emit4 M_Tidy S_Tidy L_Tidy L_Tidy2 L_Tidy3 S_Unmin M_Short S_Short.
Import ListNotations.
Open Scope Z_scope.

Lemma sw_cons o c s b : sw_blk o c (BCons s b) = BCons (sw_st o (match b with BNil => c | _ => hide c end) s) (sw_blk o c b).
Proof. now destruct b. Qed.
Lemma sh_cons o c s b : sh_blk o c (BCons s b) = match b with BNil => sh_st o c s | _ => hidden (sh_st o (hide c) s) ++ sh_blk o c b end.
Proof. now destruct b. Qed.
Lemma core_fill b : core_blk (fill b) = core_blk b. Proof. now destruct b. Qed.
Lemma strip_base e : unparen (base_ex (core_ex (strip e))) = unparen (base_ex (core_ex e)).
Proof. induction e using ex_ind; cbn [strip core_ex base_ex unparen]; try reflexivity. exact IHe. Qed.
Lemma sw_semi o c s : s <> SSemi -> sw_st o c s <> SSemi.
Proof. destruct s; cbn [sw_st]; try easy. all: intros _; repeat match goal with |- context [if ?x then _ else _] => destruct x | |- context [match ?e with _ => _ end] => destruct e end; discriminate. Qed.
Lemma print_call o c x sh args : sw_st o c (SCall (XCall (XVar x) sh args)) = if new_print o && may_print o c x (sh_exs o c args) then SPrint (sw_exs o c args) else SCall (XCall (XVar x) sh (sw_exs o c args)).
Proof. reflexivity. Qed.
Definition plain_call (e : ex) : Prop := match e with XCall (XVar _) _ _ => False | _ => True end.
Lemma other_call o c e : plain_call e -> sw_st o c (SCall e) = SCall (sw_ex o c e).
Proof. destruct e as [| | | | | | | | |[]| |]; easy. Qed.
Lemma call_cases e : (exists x sh args, e = XCall (XVar x) sh args) \/ plain_call e.
Proof. destruct e as [| | | | | | | | |[]| |]; cbn; eauto. Qed.
Lemma plain_core e : plain_call e -> plain_call (core_ex e). Proof. destruct e as [| | | | | | | | |[]| |]; easy. Qed.
Lemma plain_sw o c e : plain_call e -> plain_call (sw_ex o c e). Proof. destruct e as [| | | | | | | | |[]| |]; easy. Qed.
Lemma base_call e : plain_call e -> base_st (SCall e) = SCall (base_ex e). Proof. destruct e as [| | | | | | | | |[]| |]; easy. Qed.

Section Same.
Context (o : opts).
Definition B_ex e := forall c, base_ex (core_ex (sw_ex o c e)) = base_ex (core_ex e).
Definition B_exs e := forall c, base_exs (core_exs (sw_exs o c e)) = base_exs (core_exs e).
Definition B_its e := forall c, base_its (core_its (sw_its o c e)) = base_its (core_its e).
Definition B_st s := forall c, base_st (core_st (sw_st o c s)) = base_st (core_st s).
Definition B_blk b := forall c, base_blk (core_blk (sw_blk o c b)) = base_blk (core_blk b).
Definition B_ifs i := forall c el, base_ifs (core_ifs (sw_ifs o c el i)) = base_ifs (core_ifs i).
Definition B_els e := (forall c, base_els (core_els (sw_els o c e)) = base_els (core_els e)) /\ match e with EElse b => B_blk b | _ => True end.
Lemma all_base : (forall e, B_ex e) /\ (forall e, B_exs e) /\ (forall e, B_its e) /\ (forall s, B_st s) /\ (forall b, B_blk b) /\ (forall i, B_ifs i) /\ (forall e, B_els e).
Proof.
  apply prog_all; unfold B_ex, B_exs, B_its, B_st, B_ifs; intros; cbn [sw_ex sw_exs sw_its sw_st core_ex core_exs core_its core_st base_ex base_exs base_its base_st]; try reflexivity; try congruence.
  - (* SWhile *) destruct (is_true _ && _); cbn [core_st base_st core_ex base_ex unparen]; rewrite ?core_fill, strip_base, H, H0; reflexivity.
  - (* SWhileShort *) destruct (is_false _); cbn [core_st base_st]; rewrite ?strip_base, H, H0; reflexivity.
  - (* SCall *) destruct (call_cases e) as [(x & sh & args & ->)|P].
    + cbn [core_ex base_ex]. specialize (H c). cbn [sw_ex core_ex base_ex] in H. injection H as H. destruct (new_print o && may_print o c x (sh_exs o c args)) eqn:E; cbn [core_st core_ex base_st]; rewrite H; [|reflexivity].
      apply andb_prop in E. destruct E as (_ & E). unfold may_print in E. repeat (apply andb_prop in E; destruct E as (E & ?)). unfold named_print, is_print in *. now rewrite H2.
    + change (base_st (core_st (sw_st o c (SCall e))) = base_st (core_st (SCall e))). rewrite other_call by exact P. cbn [core_st]. rewrite !base_call by auto using plain_core, plain_sw. now rewrite H.
  - intros c. reflexivity.
  - intros c. rewrite sw_cons. destruct (st_eq_dec_semi s) as [->|N]; [apply H0|]. rewrite !core_nosemi by auto using sw_semi. cbn [base_blk]. now rewrite H, H0.
  - (* ILong *) destruct H1 as (E & E'). cbn [sw_ifs]. destruct (is_true _ && _ && may_if _ _ _ _ _ _ _) eqn:M; cbn [core_ifs base_ifs core_ex base_ex unparen].
    + rewrite core_fill, strip_base, H, H0. f_equal. destruct e as [|b'|]; [reflexivity| |rewrite andb_false_r in M; discriminate M]. cbn [core_els base_els]. now rewrite core_fill, E'.
    + now rewrite strip_base, H, H0, E.
  - (* IShort *) destruct H1 as (E & E'). cbn [sw_ifs]. destruct e as [|b'|i]; destruct (is_false _ && _); cbn [core_ifs base_ifs core_els base_els]; rewrite ?strip_base, ?H, ?H0, ?E'; reflexivity.
  - split; [|exact I]. reflexivity.
  - split; [|assumption]. intros c. cbn [sw_els core_els base_els]. now rewrite H.
  - split; [|exact I]. intros c. cbn [sw_els core_els base_els]. now rewrite H.
Qed.
End Same.
