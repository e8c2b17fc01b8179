(** Changing shorthands: every shorthand ends where a line ends. *)
From Coq Require Import String List ZArith Lia Bool.
From Verif Require Import M_Base L_Util M_Fold M_Token M_Expr M_Stmt S_Stmt L_Stmt M_Emit S_Emit L_Emit L_Emit2 S_Tidy L_Tidy M_Short S_Short L_Short L_Short3.
Import ListNotations.
Open Scope Z_scope.

Section Ends.
Context (o : opts).
Lemma hidden_nil l : hidden l = [] -> l = []. Proof. now destruct l. Qed.
(** Nothing in an expression is at its end. *)
Lemma ex_hidden : (forall e c, Forall (fun x => snd x = false) (sh_ex o c e)) /\ (forall e c, Forall (fun x => snd x = false) (sh_exs o c e)) /\ (forall e c, Forall (fun x => snd x = false) (sh_its o c e)) /\
  (forall s : st, True) /\ (forall b : blk, True) /\ (forall i : ifs, True) /\ (forall e : els, True).
Proof.
  assert (A : forall l, Forall (fun x : found => snd x = false) (hidden l)) by (intros l; induction l; now constructor).
  apply prog_all; try easy; intros; cbn [sh_ex sh_exs sh_its]; rewrite ?Forall_app; auto.
Qed.
(** What may stand before [k]. *)
Definition may_be (k : behind) (x : found) : Prop := snd x = true /\ k <> More /\ (k = Else -> is_ifelse (fst x) = true).
Lemma not_both k l : Forall (fun x : found => snd x = false) l -> Forall (may_be k) l -> l = [].
Proof. destruct l as [|x l]; [easy|]. intros A B. inversion A; inversion B; subst. destruct H5. congruence. Qed.
Lemma hidden_be k l : Forall (may_be k) (hidden l) -> l = [].
Proof. intros A. apply hidden_nil, (not_both k); [|exact A]. clear A. induction l; now constructor. Qed.
Lemma ex_be k e c : Forall (may_be k) (sh_ex o c e) -> sh_ex o c e = [].
Proof. apply not_both, ex_hidden. Qed.
Lemma exs_be k e c : Forall (may_be k) (sh_exs o c e) -> sh_exs o c e = [].
Proof. apply not_both, ex_hidden. Qed.
Lemma be_closer k l : Forall (may_be k) l -> Forall (may_be Closer) l.
Proof. apply Forall_impl. intros x (A & B & C). now repeat split. Qed.
Lemma be_nil k : Forall (may_be k) []. Proof. constructor. Qed.
Lemma fits_strip m e : fits_ex m e -> fits_ex m (strip e). Proof. induction e using ex_ind; cbn; auto. Qed.
Lemma fits_fill m k b : fits_blk m k b -> fits_blk m k (fill b). Proof. now destruct b. Qed.
Lemma sw_blk_nil c b : sw_blk o c b = BNil -> b = BNil. Proof. destruct b; [easy|]. rewrite sw_cons. discriminate. Qed.
Lemma fits_sw m k c s b : fits_blk m k (sw_blk o c (BCons s b)) = match b with BNil => fits_st m k (sw_st o c s) | _ => fits_st (calm m) More (sw_st o (hide c) s) /\ fits_blk m k (sw_blk o c b) end.
Proof. rewrite sw_cons. cbn [fits_blk]. destruct (sw_blk o c b) eqn:E; [apply sw_blk_nil in E; now subst b|]. destruct b; [discriminate E|reflexivity]. Qed.

Definition T_ex e := forall m c, lined_ex m e -> sh_ex o c e = [] -> fits_ex Within (sw_ex o c e).
Definition T_exs e := forall m c, lined_exs m e -> sh_exs o c e = [] -> fits_exs Within (sw_exs o c e).
Definition T_its e := forall m c, lined_its m e -> sh_its o c e = [] -> fits_its Within (sw_its o c e).
Definition T_st s := forall m c k, lined_st m s -> Forall (may_be k) (sh_st o c s) -> fits_st Within k (sw_st o c s).
Definition T_blk b := forall m c k, lined_blk m b -> Forall (may_be k) (sh_blk o c b) -> fits_blk Within k (sw_blk o c b).
Definition T_ifs i := forall m c k el, lined_ifs m i -> (el = true -> match i with ILong _ _ _ _ => True | _ => False end) -> Forall (may_be k) (sh_ifs o c el i) -> fits_ifs Within k (sw_ifs o c el i).
Definition T_els e := (forall m c k, lined_els m e -> sh_els o c e = [] -> fits_els Within k (sw_els o c e)) /\ match e with EElse b => T_blk b | _ => True end.
Lemma T_nil b m c k : T_blk b -> lined_blk m b -> hidden (sh_blk o (hide c) b) = [] -> fits_blk Within k (sw_blk o (hide c) b).
Proof. intros T L H. apply hidden_nil in H. apply (T m); [exact L|]. rewrite H. constructor. Qed.
Lemma T_hid b m c k k' : T_blk b -> lined_blk m b -> Forall (may_be k') (hidden (sh_blk o (hide c) b)) -> fits_blk Within k (sw_blk o (hide c) b).
Proof. intros T L H. apply hidden_be in H. apply (T m); [exact L|]. rewrite H. constructor. Qed.
Lemma all_tail : (forall e, T_ex e) /\ (forall e, T_exs e) /\ (forall e, T_its e) /\ (forall s, T_st s) /\ (forall b, T_blk b) /\ (forall i, T_ifs i) /\ (forall e, T_els e).
Proof.
  apply prog_all; unfold T_ex, T_exs, T_its, T_st, T_ifs; intros; cbn [sw_ex sw_exs sw_its sw_st lined_ex lined_exs lined_its lined_st fits_ex fits_exs fits_its fits_st sh_ex sh_exs sh_its sh_st calm] in *; try easy.
  all: try (rewrite ?Forall_app in *; repeat match goal with H : _ /\ _ |- _ => destruct H | H : ?l ++ ?l' = [] |- _ => apply app_eq_nil in H end;
    repeat match goal with H : Forall (may_be _) (sh_ex _ _ _) |- _ => apply ex_be in H | H : Forall (may_be _) (sh_exs _ _ _) |- _ => apply exs_be in H end;
    repeat split; eauto using T_nil, T_hid; fail).
  - (* SIf *) now apply (H m).
  - (* SWhile *) destruct H1 as (L1 & L2). apply Forall_app in H2. destruct H2 as (F0 & F). apply Forall_app in F. destruct F as (F1 & F2). apply ex_be in F1. pose proof (H _ _ L1 F1) as G1. pose proof (fun k => T_hid b _ c0 k _ H0 L2 F2) as G2.
    destruct (is_true _); cbn [andb]; [destruct (may_while _ _ _ _ _)|]; cbn [fits_st fits_ex enter short_behind calm]; [|auto using fits_strip..].
    inversion_clear F0. destruct H1 as (_ & N & _). auto using fits_strip, fits_fill.
  - (* SWhileShort *) destruct H1 as (_ & -> & L1 & L2). inversion_clear H2. destruct H1 as (_ & N & _). apply Forall_app in H3. destruct H3 as (F1 & F2). apply ex_be in F1. pose proof (H _ _ L1 F1) as G1.
    destruct (is_false _); cbn [fits_st fits_ex enter short_behind calm]; split; eauto using fits_strip, be_closer.
  - (* SPrint *) inversion_clear H1. apply exs_be in H3. split; [discriminate|now apply (H No)].
  - (* SCall *) destruct (call_cases e) as [(x & sh & args & ->)|P].
    + apply Forall_app in H1. destruct H1 as (F0 & F1). apply exs_be in F1. assert (G : fits_exs Within (sw_exs o c args)) by (apply (H (inner_mode m) c H0); exact F1).
      destruct (new_print o && _); cbn [fits_st]; [|exact (conj I G)]. split; [discriminate|exact G].
    + change (fits_st Within k (sw_st o c (SCall e))). rewrite other_call by exact P. apply (H (inner_mode m) c H0). apply (ex_be k). destruct e as [| | | | | | | | |[]| |]; easy.
  - (* BCons *) intros m c k L F. rewrite fits_sw. rewrite sh_cons in F. cbn [lined_blk] in L. destruct b as [|s' b]; [now apply (H m)|]. destruct L as (L1 & L2). apply Forall_app in F. destruct F as (F1 & F2). split; [|now apply (H0 m)]. apply hidden_be in F1. apply (H (inner_mode m)); [exact L1|]. rewrite F1. constructor.
  - (* ILong *) destruct H1 as (E & E'), H2 as (L1 & L2 & L3). cbn [sh_ifs] in H4. apply Forall_app in H4. destruct H4 as (F0 & F). apply Forall_app in F. destruct F as (F1 & F). apply Forall_app in F. destruct F as (F2 & F3). apply ex_be in F1. pose proof (H _ _ L1 F1) as G1. pose proof (fun k => T_hid b _ c0 k _ H0 L2 F2) as G2. apply hidden_be in F3. pose proof (fun k => E _ _ k L3 F3) as G3.
    cbn [sw_ifs]. destruct (is_true _); cbn [andb]; [destruct (negb el); cbn [andb]; [destruct (may_if _ _ _ _ _ _ _) eqn:M|]|]; cbn [fits_ifs fits_ex enter short_behind calm].
    2-4: repeat split; auto using fits_strip.
    inversion_clear F0. destruct H1 as (_ & N & J). split; [auto using fits_strip|]. split; [exact N|]. destruct e as [|b'|]; [| |discriminate M].
    + split; [auto using fits_fill|]. intros ->. discriminate (J eq_refl).
    + split; [auto using fits_fill|]. apply fits_fill. apply (E' _ (hide c0) k L3). cbn [sh_els] in F3. rewrite F3. constructor.
  - (* IShort *) destruct H1 as (E & E'), H2 as (_ & -> & L1 & L2). destruct el; [now elim H3|]. cbn [sh_ifs sw_ifs] in *. destruct e as [|b'|i].
    + inversion_clear H4. destruct H1 as (_ & N & J). apply Forall_app in H2. destruct H2 as (F1 & F2). apply ex_be in F1. pose proof (H _ _ L1 F1) as G1. assert (k <> Else) by (intros ->; discriminate (J eq_refl)).
      destruct (is_false _ && _); cbn [fits_ifs fits_els enter short_behind calm]; repeat split; eauto using fits_strip, be_closer.
    + inversion_clear H4. destruct H1 as (_ & N & J). destruct L2 as (L2 & L3). apply Forall_app in H2. destruct H2 as (F1 & F2). apply ex_be in F1. pose proof (H _ _ L1 F1) as G1. apply Forall_app in F2. destruct F2 as (F2 & F3). inversion_clear F3. apply hidden_be in F2. assert (G2 : fits_blk Within Else (sw_blk o (into true (hide c0)) b)) by (apply (H0 No); [exact L2|cbn [negb] in F2; rewrite F2; constructor]).
      destruct (is_false _ && _); cbn [fits_ifs fits_els enter short_behind calm]; repeat split; eauto using fits_strip, be_closer.
    + easy.
  - split; [|assumption]. intros m c k L F. apply (H m); [exact L|]. cbn [sh_els] in F. rewrite F. constructor.
  - split; [|exact I]. intros m c k L F. cbn [sw_els fits_els lined_els sh_els] in *. apply (H m); [now destruct i|now destruct i|]. rewrite F. constructor.
Qed.

(** Inside of a shorthand of the program. *)
Definition flatp (p : place) : Prop := match p with Nest _ => False | _ => True end.
Definition around (p : place) (k : behind) (m : mode) (ok te : bool) : Prop :=
  p = Top \/ (m = AtEnd -> k <> More /\ k <> Else) /\ (ok = true -> k <> More /\ (k = Else -> te = true)).
Definition R_ex e := forall m p ok te, m <> Free -> flatp p -> lined_ex m e -> fits_ex p (sw_ex o (Some (ok, te)) e).
Definition R_exs e := forall m p ok te, m <> Free -> flatp p -> lined_exs m e -> fits_exs p (sw_exs o (Some (ok, te)) e).
Definition R_its e := forall m p ok te, m <> Free -> flatp p -> lined_its m e -> fits_its p (sw_its o (Some (ok, te)) e).
Definition R_st s := forall m p k ok te, m <> Free -> flatp p -> lined_st m s -> around p k m ok te -> fits_st p k (sw_st o (Some (ok, te)) s).
Definition R_blk b := forall m p k ok te, m <> Free -> flatp p -> lined_blk m b -> around p k m ok te -> fits_blk p k (sw_blk o (Some (ok, te)) b).
Definition R_ifs i := forall m p k ok te el, m <> Free -> flatp p -> lined_ifs m i -> (el = true -> match i with ILong _ _ _ _ => True | _ => False end) -> (el = false -> around p k m ok te) -> fits_ifs p k (sw_ifs o (Some (ok, te)) el i).
Definition R_els e := (forall p k ok te, flatp p -> lined_els No e -> fits_els p k (sw_els o (Some (ok, te)) e)) /\ match e with EElse b => R_blk b | _ => True end.
Lemma inner_no m : m <> Free -> inner_mode m = No. Proof. now destruct m. Qed.
Lemma inner_still m : m <> Free -> inner_mode m <> Free. Proof. now destruct m. Qed.
Lemma calm_flat p : flatp p -> calm p = p. Proof. now destruct p. Qed.
Lemma flat_print p : flatp p -> p <> Nest false. Proof. now destruct p. Qed.
(** A body inside of something else. *)
Lemma R_in b m p k te : R_blk b -> m <> Free -> flatp p -> lined_blk (inner_mode m) b -> fits_blk p k (sw_blk o (Some (false, te)) b).
Proof. intros R M P L. rewrite inner_no in L by exact M. apply (R No); try easy. right. easy. Qed.
Lemma enter_flat p : flatp p -> enter p false = Some Within. Proof. now destruct p. Qed.
Lemma behind_flat p k m ok te : around p k m ok te -> (m = AtEnd -> short_behind p false k <> More /\ short_behind p false k <> Else) /\ (ok = true -> short_behind p false k <> More /\ (short_behind p false k = Else -> te = true)).
Proof. intros [->|A]; [cbn; now repeat split|]. destruct p; cbn; try exact A; repeat split; try discriminate; intros; now apply A. Qed.
Lemma at_end m : m <> Free -> m <> No -> m = AtEnd. Proof. now destruct m. Qed.
Lemma parents_some ok te k : parents_ok o (Some (ok, te)) k = true -> ok = true /\ (te = true -> is_ifelse k = true).
Proof. cbn. intros H. apply andb_prop in H. destruct H as (H & A). apply andb_prop in H. destruct H as (_ & H). cbn in *. split; [exact A|]. intros ->. exact H. Qed.
Lemma while_parents c cond b l : may_while o c cond b l = true -> parents_ok o c Other = true.
Proof. unfold may_while. intros M. repeat (apply andb_prop in M; destruct M as (M & ?)). exact M. Qed.
Lemma if_parents c cond b l e l' : may_if o c cond b l e l' = true -> parents_ok o c (if_kind e) = true.
Proof. destruct e; cbn [may_if]; intros M; [now apply while_parents in M| |discriminate M]. repeat (apply andb_prop in M; destruct M as (M & ?)). exact M. Qed.
Lemma all_inside : (forall e, R_ex e) /\ (forall e, R_exs e) /\ (forall e, R_its e) /\ (forall s, R_st s) /\ (forall b, R_blk b) /\ (forall i, R_ifs i) /\ (forall e, R_els e).
Proof.
  apply prog_all; unfold R_ex, R_exs, R_its, R_st, R_ifs; intros; cbn [sw_ex sw_exs sw_its sw_st lined_ex lined_exs lined_its lined_st fits_ex fits_exs fits_its fits_st hide into orb] in *; try easy.
  all: rewrite ?calm_flat by assumption.
  all: try (repeat match goal with H : _ /\ _ |- _ => destruct H end; repeat split; eauto using R_in, inner_still; fail).
  - (* SIf *) now apply (H m).
  - (* SWhile *) destruct H3 as (L1 & L2). pose proof (fun p P => H _ p ok te (inner_still m H1) P L1) as G1. pose proof (fun p k P => R_in b m p k te H0 H1 P L2) as G2.
    destruct (is_true _); cbn [andb]; [destruct (may_while _ _ _ _ _) eqn:M|]; cbn [fits_st fits_ex]; rewrite ?calm_flat, ?enter_flat by assumption; [|auto using fits_strip..].
    apply while_parents, parents_some in M. destruct M as (-> & _). destruct (behind_flat _ _ _ _ _ H4) as (_ & B). destruct (B eq_refl) as (B1 & B2). split; [apply fits_strip, G1; exact I|]. split; [exact B1|apply fits_fill, G2; exact I].
  - (* SWhileShort *) destruct H3 as (L0 & -> & L1 & L2). rewrite orb_false_r. pose proof (at_end m H1 L0) as ->. destruct (is_false _); cbn [fits_st]; rewrite ?calm_flat, ?enter_flat by assumption.
    + split; [apply fits_strip; now apply (H No)|]. apply (H0 AtEnd); try easy. right. easy.
    + destruct (behind_flat _ _ _ _ _ H4) as (B1 & B2). split; [now apply (H No)|]. split; [now apply B1|]. apply (H0 AtEnd); try easy. now right.
  - (* SPrint *) rewrite orb_false_r. split; [now apply flat_print|now apply (H No)].
  - (* SCall *) destruct (call_cases e) as [(x & sh & args & ->)|P].
    + pose proof (fun p P => H _ p ok te (inner_still m H0) P H2) as G. destruct (new_print o && _); cbn [fits_st].
      * split; [now apply flat_print|apply (G Within I)].
      * rewrite calm_flat by assumption. exact (G p H1).
    + change (fits_st p k (sw_st o (Some (ok, te)) (SCall e))). rewrite other_call by exact P. cbn [fits_st]. rewrite calm_flat by assumption. now apply (H (inner_mode m)); [apply inner_still|..].
  - (* BCons *) intros m p k ok te M P L A. rewrite fits_sw. cbn [lined_blk] in L. destruct b as [|s' b]; [now apply (H m)|]. destruct L as (L1 & L2). rewrite calm_flat by assumption. split; [|now apply (H0 m)].
    rewrite inner_no in L1 by exact M. apply (H No); try easy. right. easy.
  - (* ILong *) destruct H1 as (E & E'), H4 as (L1 & L2 & L3). pose proof (fun p P => H _ p ok te (inner_still m H2) P L1) as G1. pose proof (fun p k P => R_in b m p k te H0 H2 P L2) as G2. assert (L4 := L3). rewrite inner_no in L4 by exact H2. pose proof (fun p k P => E p k ok te P L4) as G3.
    cbn [sw_ifs hide]. destruct (is_true _); cbn [andb]; [destruct el; cbn [negb andb]; [|destruct (may_if _ _ _ _ _ _ _) eqn:M]|]; cbn [fits_ifs fits_ex]; rewrite ?calm_flat, ?enter_flat by assumption.
    1, 3-4: repeat split; auto using fits_strip.
    pose proof (if_parents _ _ _ _ _ _ M) as Q. apply parents_some in Q. destruct Q as (-> & Q). destruct (behind_flat _ _ _ _ _ (H6 eq_refl)) as (_ & B). destruct (B eq_refl) as (B1 & B2). split; [apply fits_strip, G1; exact I|]. split; [exact B1|].
    destruct e as [|b'|]; [| |discriminate M].
    + split; [apply fits_fill, G2; exact I|]. intros F. specialize (B2 F). subst te. discriminate (Q eq_refl).
    + split; [apply fits_fill, G2; exact I|]. apply fits_fill. now apply (R_in b' m).
  - (* IShort *) destruct H1 as (E & E'), H4 as (L0 & -> & L1 & L2). destruct el; [now elim H5|]. specialize (H6 eq_refl). pose proof (at_end m H2 L0) as ->. destruct (behind_flat _ _ _ _ _ H6) as (B1 & B2). destruct (B1 eq_refl) as (B3 & B4).
    assert (G1 : forall p, flatp p -> fits_ex p (sw_ex o (Some (ok, te)) c)) by (intros p' P'; now apply (H No)).
    cbn [sw_ifs into hide]. rewrite !orb_false_r. destruct e as [|b'|i]; [| |easy].
    + destruct (is_false _ && _); cbn [fits_ifs fits_els]; rewrite ?calm_flat, ?enter_flat by assumption.
      * split; [now apply fits_strip, G1|]. split; [|exact I]. apply (H0 AtEnd); try easy. right. easy.
      * split; [apply G1; exact I|]. split; [exact B3|]. split; [|exact B4]. apply (H0 AtEnd); try easy. now right.
    + destruct L2 as (L2 & L3). destruct (is_false _ && _); cbn [fits_ifs fits_els]; rewrite ?calm_flat, ?enter_flat by assumption.
      * split; [now apply fits_strip, G1|]. split; [apply (H0 No); try easy; right; easy|]. apply (E' AtEnd); try easy. right. easy.
      * split; [apply G1; exact I|]. split; [exact B3|]. split; [apply (H0 No); try easy; right; easy|]. apply (E' AtEnd); try easy. now right.
  - split; [|assumption]. intros p k ok te P L. cbn [sw_els fits_els hide]. rewrite calm_flat by assumption. now apply (R_in b No).
  - split; [|exact I]. intros p k ok te P L. cbn [sw_els fits_els]. cbn [lined_els] in L. apply (H No); try easy; now destruct i.
Qed.

(** Outside of all shorthands of the program. *)
Lemma children_be te l k : children_ok o te l = true -> k <> More -> (k = Else -> te = true) -> Forall (may_be k) l.
Proof.
  intros C N E. apply Forall_forall. intros x I. unfold children_ok in C. rewrite forallb_forall in C. specialize (C x I). unfold may_nest in C. apply andb_prop in C. destruct C as (C & S). apply andb_prop in C. destruct C as (_ & C).
  split; [exact S|]. split; [exact N|]. intros F. rewrite (E F) in C. exact C.
Qed.
Lemma children_ex te e c : children_ok o te (sh_ex o c e) = true -> sh_ex o c e = [].
Proof. intros C. apply (ex_be Closer). now apply (children_be te). Qed.
Lemma children_exs te e c : children_ok o te (sh_exs o c e) = true -> sh_exs o c e = [].
Proof. intros C. apply (exs_be Closer). now apply (children_be te). Qed.
Lemma while_children c cond b l : may_while o c cond b l = true -> children_ok o false cond = true /\ children_ok o false l = true.
Proof. unfold may_while. intros M. repeat (apply andb_prop in M; destruct M as (M & ?)). auto. Qed.
Lemma if_children c cond b l e l' : may_if o c cond b l e l' = true -> children_ok o false cond = true /\ children_ok o (match e with EElse _ => true | _ => false end) l = true /\ match e with EElse _ => children_ok o false l' = true | _ => True end.
Proof. destruct e; cbn [may_if]; intros M; [apply while_children in M; tauto| |discriminate M]. repeat (apply andb_prop in M; destruct M as (M & ?)). auto. Qed.
Definition M_ex e := lined_ex Free e -> fits_ex Top (sw_ex o None e).
Definition M_exs e := lined_exs Free e -> fits_exs Top (sw_exs o None e).
Definition M_its e := lined_its Free e -> fits_its Top (sw_its o None e).
Definition M_st s := lined_st Free s -> forall k, fits_st Top k (sw_st o None s).
Definition M_blk b := lined_blk Free b -> forall k, fits_blk Top k (sw_blk o None b).
Definition M_ifs i := forall el, lined_ifs Free i -> (el = true -> match i with ILong _ _ _ _ => True | _ => False end) -> forall k, fits_ifs Top k (sw_ifs o None el i).
Definition M_els e := lined_els Free e -> forall k, fits_els Top k (sw_els o None e).
Lemma all_switched : (forall e, M_ex e) /\ (forall e, M_exs e) /\ (forall e, M_its e) /\ (forall s, M_st s) /\ (forall b, M_blk b) /\ (forall i, M_ifs i) /\ (forall e, M_els e).
Proof.
  destruct all_tail as (Tx & Txs & _ & _ & Tb & _), all_inside as (Rx & Rxs & _ & _ & Rb & _).
  apply prog_all; unfold M_ex, M_exs, M_its, M_st, M_ifs, M_els; intros; cbn [sw_ex sw_exs sw_its sw_st sw_els lined_ex lined_exs lined_its lined_st lined_els fits_ex fits_exs fits_its fits_st fits_els hide calm inner_mode into] in *; try easy.
  all: try (repeat match goal with H : _ /\ _ |- _ => destruct H end; repeat split; auto; fail).
  - (* SIf *) now apply H.
  - (* SWhile *) destruct H1 as (L1 & L2). destruct (is_true _); cbn [andb]; [destruct (may_while _ _ _ _ _) eqn:M|]; cbn [fits_st fits_ex enter short_behind calm]; [|auto using fits_strip..].
    apply while_children in M. destruct M as (M1 & M2). split; [apply fits_strip, (Tx c Free); [exact L1|now apply (children_ex false)]|]. split; [discriminate|]. apply fits_fill, (Tb b Free); [exact L2|now apply (children_be false)].
  - (* SWhileShort *) destruct H1 as (_ & -> & L1 & L2). destruct (is_false _); cbn [fits_st enter short_behind calm].
    + split; [apply fits_strip; now apply (Rx c No)|]. apply (Rb b AtEnd); try easy. now left.
    + split; [now apply (Rx c No)|]. split; [discriminate|]. apply (Rb b AtEnd); try easy. right. easy.
  - (* SPrint *) split; [discriminate|]. now apply (Rxs es No).
  - (* SCall *) destruct (call_cases e) as [(x & sh & args & ->)|P].
    + destruct (new_print o && _) eqn:M; cbn [fits_st]; [|exact (H H0)]. split; [discriminate|]. apply andb_prop in M. destruct M as (_ & M). unfold may_print in M. repeat (apply andb_prop in M; destruct M as (M & ?)). apply (Txs args Free); [exact (proj2 H0)|now apply (children_exs false)].
    + change (fits_st Top k (sw_st o None (SCall e))). rewrite other_call by exact P. now apply H.
  - (* BCons *) intros L k. rewrite fits_sw. cbn [lined_blk] in L. destruct b as [|s' b]; [now apply H|]. destruct L as (L1 & L2). split; [now apply H|now apply H0].
  - (* ILong *) destruct H2 as (L1 & L2 & L3). cbn [sw_ifs hide]. destruct (is_true _); cbn [andb]; [destruct (negb el); cbn [andb]; [destruct (may_if _ _ _ _ _ _ _) eqn:M|]|]; cbn [fits_ifs fits_ex enter short_behind calm].
    2-4: repeat split; auto using fits_strip.
    pose proof (if_children _ _ _ _ _ _ M) as (M1 & M2 & M3). split; [apply fits_strip, (Tx c Free); [exact L1|now apply (children_ex false)]|]. split; [discriminate|]. destruct e as [|b'|]; [| |discriminate M].
    + split; [|discriminate]. apply fits_fill, (Tb b Free); [exact L2|now apply (children_be false)].
    + split; [apply fits_fill, (Tb b Free); [exact L2|now apply (children_be true)]|]. apply fits_fill, (Tb b' Free); [exact L3|now apply (children_be false)].
  - (* IShort *) destruct H2 as (_ & -> & L1 & L2). destruct el; [now elim H3|]. cbn [sw_ifs into hide negb]. destruct e as [|b'|i]; [| |easy].
    + destruct (is_false _ && _); cbn [fits_ifs fits_els enter short_behind calm].
      * split; [apply fits_strip; now apply (Rx c No)|]. split; [|exact I]. apply (Rb b AtEnd); try easy. now left.
      * split; [now apply (Rx c No)|]. split; [discriminate|]. split; [|discriminate]. apply (Rb b AtEnd); try easy. right. easy.
    + destruct L2 as (L2 & L3). destruct (is_false _ && _); cbn [fits_ifs fits_els enter short_behind calm].
      * split; [apply fits_strip; now apply (Rx c No)|]. split; [apply (Rb b No); try easy; now left|]. apply (Rb b' AtEnd); try easy. now left.
      * split; [now apply (Rx c No)|]. split; [discriminate|]. split; [apply (Rb b No); try easy; right; easy|]. apply (Rb b' AtEnd); try easy. right. easy.
  - (* EElif *) apply H; now destruct i.
Qed.
End Ends.
