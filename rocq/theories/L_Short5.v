(** Changing shorthands: whole programs; without nesting; and when all become long. *)
From Coq Require Import String List ZArith Lia Bool.
From Verif Require Import M_Base L_Util M_Fold M_Token M_Expr S_Expr L_Expr L_ExprPrint M_Stmt S_Stmt L_Stmt L_StmtEq L_StmtRead M_Emit S_Emit L_Emit L_Emit2 L_Emit4 L_Emit6 M_Tidy S_Tidy L_Tidy L_Tidy2 L_Tidy3 L_Tidy4 S_Unmin L_Unmin6 M_Short S_Short L_Short L_Short2 L_Short3 L_Short4.
Import ListNotations.
Open Scope Z_scope.

Section Whole.
Context (lang : language) (o : opts).
Lemma switch_parts b ts : program lang b ts -> lined b -> lua b -> plain_blk b -> wf_blk lang (switch o b) /\ fits (switch o b) /\ lua (switch o b) /\ ap_blk lang false None (switch o b).
Proof.
  intros (W & _) L U P. assert (W' : wf_blk lang (switch o b)) by now apply all_wf_sw. destruct (all_lua_sw o) as (_ & _ & _ & _ & V & _). destruct (V b P true U None) as (U' & P').
  split; [exact W'|]. split; [now apply all_switched|]. split; [exact U'|]. destruct (all_ap_plain lang) as (_ & _ & _ & _ & A & _). apply (A _ W' P' true U'); [exact I|now left].
Qed.
Lemma switch_program b ts : program lang b ts -> lined b -> lua b -> plain_blk b -> exists b', core_blk b' = core_blk (switch o b) /\ program lang b' (emit (switch o b)).
Proof.
  intros P L U N. destruct (switch_parts b ts P L U N) as (W' & F' & U' & A'). destruct (all_emit lang) as (_ & _ & _ & _ & B & _).
  destruct (B _ W' Top Break None (0%nat, false, 1) false []) as (b' & E & Lb); try easy.
  exists b'. split; [now apply core_un|]. split; [|exact Lb]. destruct (all_wf_un lang) as (_ & _ & _ & _ & V & _). apply V. rewrite E. now apply V.
Qed.
Lemma switch_tidy ver b ts : program lang b ts -> lined b -> lua b -> plain_blk b -> exists b', core_blk b' = core_blk (switch o b) /\ program lang b' (emit (tidy lang ver (switch o b))).
Proof.
  intros P L U N. destruct (switch_parts b ts P L U N) as (W0 & F0 & U0 & A0).
  assert (W' : wf_blk lang (tidy lang ver (switch o b))) by now apply all_wf.
  assert (F' : fits (tidy lang ver (switch o b))) by now apply all_fits.
  assert (A' : ap_blk lang false None (tidy lang ver (switch o b))).
  { destruct (all_ap lang ver) as (_ & _ & _ & _ & B & _). apply (B _ W0 false true); auto; [exact I|now left]. }
  destruct (all_emit lang) as (_ & _ & _ & _ & B & _).
  destruct (B _ W' Top Break None (0%nat, false, 1) false []) as (b' & E & Lb); try easy.
  exists b'. split; [rewrite (core_un _ _ E); apply all_core|]. split; [|exact Lb]. destruct (all_wf_un lang) as (_ & _ & _ & _ & V & _). apply V. rewrite E. now apply V.
Qed.
End Whole.

Section Count.
Context (o : opts).
Lemma strip_shorts e : shorts_ex (strip e) = shorts_ex e. Proof. induction e using ex_ind; cbn; auto. Qed.
Lemma fill_shorts b : shorts_blk (fill b) = shorts_blk b. Proof. now destruct b. Qed.
Lemma shorts_call c e : shorts_st (sw_st o c (SCall e)) = shorts_ex (sw_ex o c e).
Proof. destruct (call_cases e) as [(x & sh & args & ->)|P]; [|now rewrite other_call]. cbn [sw_st]. destruct (new_print o && _); reflexivity. Qed.
(** All of them become long. *)
Section None.
Context (Hi : new_if o = Some false) (Hw : new_while o = Some false).
Definition N_ex e := forall m c, lined_ex m e -> shorts_ex (sw_ex o c e) = 0%nat.
Definition N_exs e := forall m c, lined_exs m e -> shorts_exs (sw_exs o c e) = 0%nat.
Definition N_its e := forall m c, lined_its m e -> shorts_its (sw_its o c e) = 0%nat.
Definition N_st e := forall m c, lined_st m e -> shorts_st (sw_st o c e) = 0%nat.
Definition N_blk e := forall m c, lined_blk m e -> shorts_blk (sw_blk o c e) = 0%nat.
Definition N_ifs e := forall m c el, lined_ifs m e -> (el = true -> match e with ILong _ _ _ _ => True | _ => False end) -> shorts_ifs (sw_ifs o c el e) = 0%nat.
Definition N_els e := (forall m c, lined_els m e -> shorts_els (sw_els o c e) = 0%nat) /\ match e with EElse b => N_blk b | _ => True end.
Ltac zero := repeat match goal with H : forall m c, lined_ex m ?e -> _ = 0%nat, L : lined_ex ?m ?e |- context [sw_ex o ?c ?e] => rewrite (H m c L) | H : forall m c, lined_exs m ?e -> _ = 0%nat, L : lined_exs ?m ?e |- context [sw_exs o ?c ?e] => rewrite (H m c L)
   | H : forall m c, lined_its m ?e -> _ = 0%nat, L : lined_its ?m ?e |- context [sw_its o ?c ?e] => rewrite (H m c L) | H : N_blk ?b, L : lined_blk ?m ?b |- context [sw_blk o ?c ?b] => rewrite (H m c L) end.
Lemma all_none : (forall e, N_ex e) /\ (forall e, N_exs e) /\ (forall e, N_its e) /\ (forall s, N_st s) /\ (forall b, N_blk b) /\ (forall i, N_ifs i) /\ (forall e, N_els e).
Proof.
  apply prog_all; unfold N_ex, N_exs, N_its, N_st, N_ifs; intros; cbn [sw_ex sw_exs sw_its sw_st lined_ex lined_exs lined_its lined_st shorts_ex shorts_exs shorts_its shorts_st] in *; try reflexivity; rewrite ?Hi, ?Hw; cbn [is_true is_false andb negb shorts_st]; repeat match goal with H : _ /\ _ |- _ => destruct H end; rewrite ?strip_shorts; zero; try reflexivity.
  - now apply (H m).
  - change (shorts_st (sw_st o c (SCall e)) = 0%nat). rewrite shorts_call. now apply (H (inner_mode m)).
  - intros m c L. reflexivity.
  - intros m c L. rewrite sw_cons. cbn [shorts_blk]. destruct b as [|s' b]; [cbn [sw_blk shorts_blk]; rewrite (H m); [reflexivity|exact L]|]. destruct L as (L1 & L2). now rewrite (H _ _ L1), (H0 _ c L2).
  - destruct H1 as (E & E'). cbn [lined_ifs] in *. repeat match goal with H : _ /\ _ |- _ => destruct H end. cbn [sw_ifs]. rewrite Hi. cbn [is_true andb shorts_ifs]. rewrite strip_shorts. zero. now rewrite (E (inner_mode m)).
  - destruct H1 as (E & E'). cbn [lined_ifs] in *. repeat match goal with H : _ /\ _ |- _ => destruct H end. destruct el; [now elim H3|]. cbn [sw_ifs]. rewrite Hi. cbn [is_false negb andb]. destruct e as [|b'|]; [| |easy]; repeat match goal with H : _ /\ _ |- _ => destruct H end; cbn [shorts_ifs shorts_els]; rewrite strip_shorts; zero; reflexivity.
  - split; [|exact I]. reflexivity.
  - split; [|assumption]. intros m c L. now apply (H m).
  - split; [|exact I]. intros m c L. cbn [lined_els] in L. apply (H m); now destruct i.
Qed.
End None.
(** None becomes long, or also none becomes short. *)
Section More.
Context (Hi : is_false (new_if o) = false) (Hw : is_false (new_while o) = false).
Definition ge (a b : nat) : Prop := (b <= a)%nat /\ (new_if o = None -> new_while o = None -> a = b).
Definition G_ex e := forall c, ge (shorts_ex (sw_ex o c e)) (shorts_ex e).
Definition G_exs e := forall c, ge (shorts_exs (sw_exs o c e)) (shorts_exs e).
Definition G_its e := forall c, ge (shorts_its (sw_its o c e)) (shorts_its e).
Definition G_st e := forall c, ge (shorts_st (sw_st o c e)) (shorts_st e).
Definition G_blk e := forall c, ge (shorts_blk (sw_blk o c e)) (shorts_blk e).
Definition G_ifs e := forall c el, ge (shorts_ifs (sw_ifs o c el e)) (shorts_ifs e).
Definition G_els e := (forall c, ge (shorts_els (sw_els o c e)) (shorts_els e)) /\ match e with EElse b => G_blk b | _ => True end.
Lemma ge_refl a : ge a a. Proof. now split. Qed.
Lemma ge_add a b a' b' : ge a b -> ge a' b' -> ge (a + a') (b + b'). Proof. intros (A & B) (A' & B'). split; [lia|]. intros I W. now rewrite B, B'. Qed.
Lemma ge_new a b : (is_true (new_if o) = true \/ is_true (new_while o) = true) -> ge a b -> ge (1 + a) b. Proof. intros N (A & B). split; [lia|]. intros I W. rewrite I, W in N. now destruct N. Qed.
Lemma all_more : (forall e, G_ex e) /\ (forall e, G_exs e) /\ (forall e, G_its e) /\ (forall s, G_st s) /\ (forall b, G_blk b) /\ (forall i, G_ifs i) /\ (forall e, G_els e).
Proof.
  apply prog_all; unfold G_ex, G_exs, G_its, G_st, G_ifs; intros; cbn [sw_ex sw_exs sw_its sw_st shorts_ex shorts_exs shorts_its shorts_st] in *; unfold G_blk in *; auto using ge_refl, ge_add.
  - (* SWhile *) destruct (is_true (new_while o)) eqn:T; cbn [andb]; [destruct (may_while _ _ _ _ _)|]; cbn [shorts_st shorts_ex]; rewrite ?strip_shorts, ?fill_shorts; auto using ge_add. rewrite <- Nat.add_assoc. apply ge_new; auto using ge_add.
  - (* SWhileShort *) rewrite Hw. cbn [shorts_st]. auto using ge_add, ge_refl.
  - (* SCall *) change (ge (shorts_st (sw_st o c (SCall e))) (shorts_ex e)). rewrite shorts_call. apply H.
  - intros c. rewrite sw_cons. cbn [shorts_blk]. auto using ge_add.
  - (* ILong *) destruct H1 as (E & E'). cbn [sw_ifs shorts_ifs]. destruct (is_true (new_if o)) eqn:T; cbn [andb]; [destruct (negb el && may_if _ _ _ _ _ _ _) eqn:M|]; cbn [shorts_ifs shorts_ex]; rewrite ?strip_shorts, ?fill_shorts; auto using ge_add.
    rewrite <- !Nat.add_assoc. apply ge_new; [now left|]. repeat apply ge_add; auto. destruct e as [|b'|]; [apply ge_refl| |rewrite andb_false_r in M; discriminate M]. cbn [shorts_els]. rewrite fill_shorts. apply E'.
  - (* IShort *) destruct H1 as (E & E'). cbn [sw_ifs shorts_ifs]. rewrite Hi. cbn [andb]. destruct e as [|b'|i]; cbn [shorts_ifs shorts_els]; auto using ge_add, ge_refl.
  - split; [|exact I]. intros c. apply ge_refl.
  - split; [|assumption]. intros c. apply H.
  - split; [|exact I]. intros c. apply H.
Qed.
End More.
End Count.

(** If shorthands cannot be inside of others, none gets there. *)
Section Alone.
Context (o : opts) (Hn : can_nest o = false).
Lemma no_parents c k : parents_ok o (Some c) k = false. Proof. destruct c. cbn. unfold may_nest. now rewrite Hn. Qed.
Lemma no_children te l : children_ok o te l = true -> l = []. Proof. destruct l; [easy|]. cbn. unfold may_nest. now rewrite Hn. Qed.
Lemma alone_strip i e : alone_ex i e -> alone_ex i (strip e). Proof. induction e using ex_ind; cbn; auto. Qed.
Lemma alone_fill i b : alone_blk i b -> alone_blk i (fill b). Proof. destruct b; [|easy]. now cbn. Qed.
(** Inside of a shorthand: nothing becomes one. *)
Definition I_ex e := alone_ex true e -> forall i c, alone_ex i (sw_ex o (Some c) e).
Definition I_exs e := alone_exs true e -> forall i c, alone_exs i (sw_exs o (Some c) e).
Definition I_its e := alone_its true e -> forall i c, alone_its i (sw_its o (Some c) e).
Definition I_st e := alone_st true e -> forall i c, alone_st i (sw_st o (Some c) e).
Definition I_blk e := alone_blk true e -> forall i c, alone_blk i (sw_blk o (Some c) e).
Definition I_ifs e := alone_ifs true e -> forall i c el, alone_ifs i (sw_ifs o (Some c) el e).
Definition I_els e := alone_els true e -> forall i c, alone_els i (sw_els o (Some c) e).
Lemma no_while c cond b l : may_while o (Some c) cond b l = false. Proof. unfold may_while. now rewrite no_parents. Qed.
Lemma no_if c cond b l e l' : may_if o (Some c) cond b l e l' = false. Proof. destruct e; cbn [may_if]; [apply no_while| |reflexivity]. now rewrite no_parents. Qed.
Lemma no_print c x l : may_print o (Some c) x l = false. Proof. unfold may_print. rewrite no_parents. now destruct (print_builtin o && is_print x). Qed.
Lemma all_in : (forall e, I_ex e) /\ (forall e, I_exs e) /\ (forall e, I_its e) /\ (forall s, I_st s) /\ (forall b, I_blk b) /\ (forall i, I_ifs i) /\ (forall e, I_els e).
Proof.
  apply prog_all; unfold I_ex, I_exs, I_its, I_st, I_ifs, I_els; intros; repeat match goal with c : (bool * bool)%type |- _ => destruct c end; cbn [sw_ex sw_exs sw_its sw_st sw_els alone_ex alone_exs alone_its alone_st alone_els hide] in *; unfold I_blk in *; try (intuition auto; fail).
  - (* SWhile *) rewrite no_while, andb_false_r. cbn [alone_st]. destruct H1. auto using alone_strip.
  - (* SWhileShort *) now destruct H1.
  - (* SPrint *) now destruct H0.
  - (* SCall *) destruct (call_cases e) as [(x & sh & args & ->)|P].
    + rewrite no_print, andb_false_r. exact (H H0 i (b, b0)).
    + change (alone_st i (sw_st o (Some (b, b0)) (SCall e))). rewrite other_call by exact P. exact (H H0 i (b, b0)).
  - intros (A & B) i (ok, te). rewrite sw_cons. cbn [alone_blk]. split; [|auto]. destruct b; cbn [hide]; auto.
  - (* ILong *) cbn [sw_ifs]. rewrite no_if, andb_false_r. destruct H2 as (A1 & A2 & A3). cbn [alone_ifs hide]. auto using alone_strip.
  - (* IShort *) now destruct H2.
Qed.
(** Where none is found. *)
Definition J_ex e := forall i c, sh_ex o c e = [] -> alone_ex i (sw_ex o c e).
Definition J_exs e := forall i c, sh_exs o c e = [] -> alone_exs i (sw_exs o c e).
Definition J_its e := forall i c, sh_its o c e = [] -> alone_its i (sw_its o c e).
Definition J_st e := forall i c, sh_st o c e = [] -> alone_st i (sw_st o c e).
Definition J_blk e := forall i c, sh_blk o c e = [] -> alone_blk i (sw_blk o c e).
Definition J_ifs e := forall i c el, sh_ifs o c el e = [] -> alone_ifs i (sw_ifs o c el e).
Definition J_els e := forall i c, sh_els o c e = [] -> alone_els i (sw_els o c e).
Lemma all_empty : (forall e, J_ex e) /\ (forall e, J_exs e) /\ (forall e, J_its e) /\ (forall s, J_st s) /\ (forall b, J_blk b) /\ (forall i, J_ifs i) /\ (forall e, J_els e).
Proof.
  apply prog_all; unfold J_ex, J_exs, J_its, J_st, J_ifs, J_els; intros; cbn [sw_ex sw_exs sw_its sw_st sw_els sh_ex sh_exs sh_its sh_st sh_els alone_ex alone_exs alone_its alone_st alone_els] in *; unfold J_blk in *; try discriminate.
  all: try (repeat match goal with H : ?l ++ ?l' = [] |- _ => apply app_eq_nil in H; destruct H | H : hidden _ = [] |- _ => apply hidden_nil in H end; auto 10; fail).
  - (* SWhile *) apply app_eq_nil in H1. destruct H1 as (A & B). destruct (may_while _ _ _ _ _); [discriminate A|]. apply app_eq_nil in B. destruct B as (B & C). apply hidden_nil in C. rewrite andb_false_r. cbn [alone_st]. auto using alone_strip.
  - (* SCall *) destruct (call_cases e) as [(x & sh & args & ->)|P].
    + apply app_eq_nil in H0. destruct H0 as (A & B). destruct (may_print _ _ _ _); [discriminate A|]. rewrite andb_false_r. exact (H i c B).
    + change (alone_st i (sw_st o c (SCall e))). rewrite other_call by exact P. apply H. destruct e as [| | | | | | | | |[]| |]; easy.
  - intros i c _. exact I.
  - intros i c S. rewrite sw_cons. rewrite sh_cons in S. cbn [alone_blk]. destruct b as [|s' b]; [split; [auto|exact I]|]. apply app_eq_nil in S. destruct S as (S & S'). apply hidden_nil in S. auto.
  - (* ILong *) cbn [sh_ifs sw_ifs] in *. apply app_eq_nil in H2. destruct H2 as (A & B). rewrite <- andb_assoc. destruct (negb el && may_if _ _ _ _ _ _ _); [discriminate A|]. rewrite andb_false_r. apply app_eq_nil in B. destruct B as (B & C). apply app_eq_nil in C. destruct C as (C & D). apply hidden_nil in C. apply hidden_nil in D. cbn [alone_ifs]. auto using alone_strip.
  - (* IShort *) cbn [sh_ifs] in H2. destruct e; discriminate H2.
Qed.
(** All. *)
Definition K_ex e := alone_ex false e -> alone_ex false (sw_ex o None e).
Definition K_exs e := alone_exs false e -> alone_exs false (sw_exs o None e).
Definition K_its e := alone_its false e -> alone_its false (sw_its o None e).
Definition K_st e := alone_st false e -> alone_st false (sw_st o None e).
Definition K_blk e := alone_blk false e -> alone_blk false (sw_blk o None e).
Definition K_ifs e := forall el, alone_ifs false e -> alone_ifs false (sw_ifs o None el e).
Definition K_els e := alone_els false e -> alone_els false (sw_els o None e).
Lemma all_alone : (forall e, K_ex e) /\ (forall e, K_exs e) /\ (forall e, K_its e) /\ (forall s, K_st s) /\ (forall b, K_blk b) /\ (forall i, K_ifs i) /\ (forall e, K_els e).
Proof.
  destruct all_in as (Ix & Ixs & _ & _ & Ib & _), all_empty as (Jx & Jxs & _ & _ & Jb & _).
  apply prog_all; unfold K_ex, K_exs, K_its, K_st, K_ifs, K_els; intros; cbn [sw_ex sw_exs sw_its sw_st sw_els alone_ex alone_exs alone_its alone_st alone_els hide into] in *; unfold K_blk in *; try (intuition auto; fail).
  - (* SWhile *) destruct H1 as (A & B). destruct (is_true _); cbn [andb]; [destruct (may_while _ _ _ _ _) eqn:M|]; cbn [alone_st]; auto using alone_strip.
    apply while_children in M. destruct M as (M1 & M2). apply no_children in M1. apply no_children in M2. split; [reflexivity|]. split; [apply alone_strip, Jx; exact M1|apply alone_fill, Jb; exact M2].
  - (* SWhileShort *) destruct H1 as (_ & A & B). destruct (is_false _); cbn [alone_st]; [split; [apply alone_strip; now apply Ix|now apply Ib]|]. split; [reflexivity|]. split; [now apply Ix|now apply Ib].
  - (* SPrint *) destruct H0 as (_ & A). split; [reflexivity|]. now apply Ixs.
  - (* SCall *) destruct (call_cases e) as [(x & sh & args & ->)|P].
    + destruct (new_print o && _) eqn:M; [|exact (H H0)]. apply andb_prop in M. destruct M as (_ & M). unfold may_print in M. apply andb_prop in M. destruct M as (_ & M). apply no_children in M. split; [reflexivity|]. now apply Jxs.
    + change (alone_st false (sw_st o None (SCall e))). rewrite other_call by exact P. now apply H.
  - intros (A & B). rewrite sw_cons. cbn [alone_blk]. split; [|auto]. destruct b; auto.
  - (* ILong *) destruct H2 as (A1 & A2 & A3). cbn [sw_ifs hide]. destruct (is_true _); cbn [andb]; [destruct (negb el); cbn [andb]; [destruct (may_if _ _ _ _ _ _ _) eqn:M|]|]; cbn [alone_ifs]; auto using alone_strip.
    pose proof (if_children _ _ _ _ _ _ _ M) as (M1 & M2 & M3). apply no_children in M1. apply no_children in M2. split; [reflexivity|]. split; [apply alone_strip, Jx; exact M1|]. split; [apply alone_fill, Jb; exact M2|]. destruct e as [|b'|]; [exact I| |discriminate M]. apply no_children in M3. apply alone_fill, Jb. exact M3.
  - (* IShort *) destruct H2 as (_ & A1 & A2 & A3). cbn [sw_ifs hide into]. destruct e as [|b'|i]; [| |easy]; destruct (is_false _ && _); cbn [alone_ifs alone_els]; repeat split; first [apply alone_strip, Ix; exact A1|apply Ix; exact A1|apply Ib; assumption].
Qed.
End Alone.
