(** The sizes of changed programs. *)
From Coq Require Import String List ZArith Lia Bool.
From Verif Require Import M_Base L_Util M_Fold M_Token M_Expr S_Expr L_Expr L_ExprPrint M_Stmt S_Stmt L_Stmt L_StmtEq L_StmtRead M_Emit S_Emit L_Emit L_Emit2 L_Emit7 M_Tidy S_Tidy L_Tidy L_Tidy2 S_Unmin L_Unmin5 L_Unmin6 M_Short S_Short L_Short L_Short2 L_Short3 M_Count S_Count L_Count.
Import ListNotations.
Open Scope nat_scope.

Opaque S_Stmt.wf S_Stmt.wf_exs S_Stmt.wf_its S_Stmt.wf_st S_Stmt.wf_blk S_Stmt.wf_ifs S_Stmt.wf_els.
Ltac split_ands := repeat match goal with H : _ /\ _ |- _ => destruct H end.

(** The clean-up. *)
Section Tidy.
Context (lang : language) (ver : Z).
Notation tidy_ex := (tidy_ex lang ver).
Notation tidy_exs := (tidy_exs lang ver).
Notation tidy_its := (tidy_its lang ver).
Notation tidy_st := (tidy_st lang ver).
Notation tidy_blk := (tidy_blk lang ver).
Notation tidy_ifs := (tidy_ifs lang ver).
Notation tidy_els := (tidy_els lang ver).
Lemma number_tidy e : number_first (tidy_ex e) = number_first e. Proof. unfold number_first. now rewrite !leads_head, head_tidy. Qed.
Lemma signed_tidy e : signed_first (tidy_ex e) = signed_first e. Proof. induction e using ex_ind; cbn; try easy. now rewrite number_tidy. Qed.
Lemma word_tidy e : word_last (tidy_ex e) = word_last e. Proof. induction e using ex_ind; cbn; easy. Qed.
Lemma sign_like_tidy op : sign_like (tidy_op lang ver op) = true -> sign_like op = true.
Proof. destruct (op_cases lang ver op) as [-> |[(-> & ->)|[(-> & ->)|(-> & ->)]]]; easy. Qed.
Lemma semi_tidy sep i : by_semi (tidy_sep sep i) = false.
Proof. unfold tidy_sep. destruct sep as [v|]; [|reflexivity]. destruct i; try reflexivity; cbn [by_semi]; destruct (zeqb_list v (asc ";")) eqn:E; easy. Qed.
Lemma nil_tidy_size es : (match tidy_exs es with XNil => 0 | _ => 1 end) = match es with XNil => 0 | _ => 1 end. Proof. now destruct es. Qed.
Lemma tidied s k b keep : s <> SSemi -> tidy_blk keep k (BCons s b) = BCons (tidy_st (next b k) s) (tidy_blk keep k b). Proof. apply tidy_nosemi. Qed.
Lemma its_less i : size_its false i <= size_its true i. Proof. destruct i; cbn; lia. Qed.
Lemma all_less : (forall e, size_ex (tidy_ex e) <= size_ex e) /\ (forall e, size_exs (tidy_exs e) <= size_exs e) /\ (forall i semi, size_its false (tidy_its i) <= size_its semi i) /\
  (forall s k, size_st (tidy_st k s) <= size_st s) /\ (forall b keep k, size_blk (tidy_blk keep k b) <= size_blk b) /\
  (forall i k, size_ifs (tidy_ifs k i) <= size_ifs i) /\ (forall e, (forall sh k, size_els (tidy_els sh k e) <= size_els e) /\ match e with EElse b => (forall keep k, size_blk (tidy_blk keep k b) <= size_blk b) | _ => True end).
Proof.
  apply prog_all; intros; cbn [size_ex size_exs size_its size_st size_ifs size_els M_Tidy.tidy_ex M_Tidy.tidy_exs M_Tidy.tidy_its M_Tidy.tidy_st M_Tidy.tidy_ifs M_Tidy.tidy_els]; rewrite ?semi_tidy, ?number_tidy, ?nil_tidy_size.
  all: lazymatch goal with |- _ /\ _ => idtac | _ => repeat match goal with
    | H : forall keep k, size_blk (M_Tidy.tidy_blk lang ver keep k ?b) <= _ |- context [M_Tidy.tidy_blk lang ver ?a ?k ?b] => specialize (H a k)
    | H : forall k, size_ifs _ <= _ |- context [M_Tidy.tidy_ifs lang ver ?k _] => specialize (H k)
    | H : (forall sh k, size_els _ <= _) /\ _ |- context [M_Tidy.tidy_els lang ver ?sh ?k _] => destruct H as (H & _); specialize (H sh k)
    end end.
  all: try lia.
  - destruct short, (lone args); cbn; lia.
  - specialize (H false). lia.
  - specialize (H1 (by_semi sep)). lia.
  - specialize (H0 (by_semi sep)). lia.
  - specialize (H0 (by_semi sep)). cbn [andb if_]. lia.
  - cbn. lia.
  - destruct (st_eq_dec_semi s) as [->|N].
    + cbn [M_Tidy.tidy_blk size_blk size_st plus]. destruct (opens (next b k) || keep); cbn [size_blk size_st plus]; auto.
    + rewrite tidied by exact N. cbn [size_blk]. specialize (H (next b k)). specialize (H0 keep k). lia.
  - split; [|exact I]. intros. lia.
  - split; [|exact H]. intros [] k; [specialize (H (no_stmts b) k)|specialize (H false (Some (kw "end")))]; lia.
  - split; [|exact I]. intros _. exact H.
Qed.
Lemma even_bin op l r : sign_like op && word_last l && number_first r = false -> sign_like (tidy_op lang ver op) && word_last (tidy_ex l) && number_first (tidy_ex r) = false.
Proof. rewrite word_tidy, number_tidy. pose proof (sign_like_tidy op) as S. destruct (sign_like (tidy_op lang ver op)); [rewrite S by easy; auto|easy]. Qed.
Lemma all_even : (forall e, even_ex e -> even_ex (tidy_ex e)) /\ (forall e, even_exs e -> even_exs (tidy_exs e)) /\ (forall i, even_its i -> even_its (tidy_its i)) /\
  (forall s, even_st s -> forall k, even_st (tidy_st k s)) /\ (forall b, even_blk b -> forall keep k, even_blk (tidy_blk keep k b)) /\
  (forall i, even_ifs i -> forall k, even_ifs (tidy_ifs k i)) /\ (forall e, even_els e -> forall sh k, even_els (tidy_els sh k e)).
Proof.
  apply prog_all; intros; cbn [even_ex even_exs even_its even_st even_ifs even_els M_Tidy.tidy_ex M_Tidy.tidy_exs M_Tidy.tidy_its M_Tidy.tidy_st M_Tidy.tidy_ifs M_Tidy.tidy_els] in *; split_ands; auto 8.
  - split; [now apply even_bin|auto].
  - repeat split; auto. destruct targets; [exact I|]. cbn [M_Tidy.tidy_exs]. now rewrite signed_tidy.
  - rewrite signed_tidy. auto.
  - destruct (st_eq_dec_semi s) as [->|N].
    + cbn [even_blk M_Tidy.tidy_blk] in *. split_ands. destruct (opens (next b k) || keep); cbn [even_blk even_st]; auto.
    + rewrite tidied by exact N. cbn [even_blk] in *. split_ands. auto.
  - destruct sh; auto.
Qed.
End Tidy.

(** Changing shorthands. *)
Section Switch.
Context (o : opts).
Lemma number_sw c e : number_first (sw_ex o c e) = number_first e. Proof. unfold number_first. now rewrite leads_sw. Qed.
Lemma signed_sw c e : signed_first (sw_ex o c e) = signed_first e. Proof. induction e using ex_ind; cbn; try easy. now rewrite number_sw. Qed.
Lemma word_sw c e : word_last (sw_ex o c e) = word_last e. Proof. induction e using ex_ind; cbn; easy. Qed.
Lemma strip_size e : size_ex (strip e) <= size_ex e. Proof. induction e using ex_ind; cbn [strip size_ex]; lia. Qed.
Lemma strip_even e : even_ex e -> even_ex (strip e). Proof. induction e using ex_ind; cbn [strip even_ex]; auto. Qed.
Lemma strip_parens e : in_parens e -> 1 + size_ex (strip e) <= size_ex e. Proof. destruct e; try easy. intros _. cbn [strip size_ex]. pose proof (strip_size e). lia. Qed.
Lemma fill_size b : size_blk (fill b) = size_blk b. Proof. now destruct b. Qed.
Lemma fill_even b : even_blk b -> even_blk (fill b). Proof. destruct b; [now cbn|easy]. Qed.
Lemma nil_sw_size c es : (match sw_exs o c es with XNil => 0 | _ => 1 end) = match es with XNil => 0 | _ => 1 end. Proof. now destruct es. Qed.
Definition Q_ex e := lua_ex e -> forall c, size_ex (sw_ex o c e) <= size_ex e.
Definition Q_exs e := lua_exs e -> forall c, size_exs (sw_exs o c e) <= size_exs e.
Definition Q_its e := lua_its e -> forall c semi, size_its semi (sw_its o c e) <= size_its semi e.
Definition Q_st s := lua_st s -> forall c, size_st (sw_st o c s) <= size_st s.
Definition Q_blk b := forall w, lua_blk w b -> forall c, size_blk (sw_blk o c b) <= size_blk b.
Definition Q_ifs i := lua_ifs i -> forall c el, size_ifs (sw_ifs o c el i) <= size_ifs i.
Definition Q_els e := (lua_els e -> forall c, size_els (sw_els o c e) <= size_els e) /\ match e with EElse b => Q_blk b | _ => True end.
Ltac upose H := let T := type of H in lazymatch goal with _ : T |- _ => fail | _ => pose proof H end.
Ltac less := repeat match goal with
  | H : Q_ex ?e, L : lua_ex ?e |- context [sw_ex o ?c ?e] => upose (H L c)
  | H : Q_exs ?e, L : lua_exs ?e |- context [sw_exs o ?c ?e] => upose (H L c)
  | H : Q_its ?e, L : lua_its ?e |- context [size_its ?semi (sw_its o ?c ?e)] => upose (H L c semi)
  | H : Q_blk ?e, L : lua_blk ?w ?e |- context [sw_blk o ?c ?e] => upose (H w L c)
  end; lia.
Lemma all_less_sw : (forall e, Q_ex e) /\ (forall e, Q_exs e) /\ (forall e, Q_its e) /\ (forall s, Q_st s) /\ (forall b, Q_blk b) /\ (forall i, Q_ifs i) /\ (forall e, Q_els e).
Proof.
  apply prog_all; try (intros; intros L cx; cbn [lua_ex lua_exs lua_st sw_ex sw_exs sw_st size_ex size_exs size_st] in *; split_ands; rewrite ?number_sw, ?nil_sw_size; less).
  - intros L c semi. cbn. lia.
  - intros k K v V sep i IH L c semi. cbn [lua_its sw_its size_its] in *. split_ands. less.
  - intros key v V sep i IH L c semi. cbn [lua_its sw_its size_its] in *. split_ands. less.
  - intros e E sep i IH L c semi. cbn [lua_its sw_its size_its] in *. split_ands. rewrite signed_sw. less.
  - intros i H L c. cbn [lua_st sw_st size_st] in *. now apply H.
  - intros e E b B (Le & Lb) c. cbn [sw_st]. specialize (E Le c). specialize (B false Lb (hide c)). pose proof (strip_size (sw_ex o c e)). destruct (is_true (new_while o) && may_while o c (sh_ex o c e) b (sh_blk o (hide c) b)); cbn [size_st size_ex]; rewrite ?fill_size; lia.
  - intros n e E b B (P & _ & Le & Lb) c. cbn [sw_st]. specialize (E Le (into false c)). specialize (B false Lb (into false c)). pose proof (strip_parens _ (parens_sw o (into false c) e P)). destruct (is_false (new_while o)); cbn [size_st size_ex]; lia.
  - intros e E L c. destruct (call_cases e) as [(x & sh & args & ->)|N].
    + specialize (E L c). cbn [sw_ex size_ex] in E. rewrite print_call. destruct (new_print o && may_print o c x (sh_exs o c args)); cbn [size_st size_ex]; destruct sh; cbn [negb if_] in *; lia.
    + rewrite other_call by exact N. cbn [size_st]. now apply E.
  - intros w _ c. cbn. lia.
  - intros s S b B w (Ls & _ & Lb) c. rewrite sw_cons. cbn [size_blk]. specialize (B w Lb c). specialize (S Ls (match b with BNil => c | _ => hide c end)). lia.
  - intros w e E b B els (H & H') (Le & Lb & Ls) c el. specialize (E Le c). specialize (B false Lb (hide c)). specialize (H Ls c). pose proof (strip_size (sw_ex o c e)). cbn [sw_ifs]. destruct (is_true (new_if o) && negb el && may_if o c (sh_ex o c e) b (sh_blk o (hide c) b) els (sh_els o c els)) eqn:M; cbn [size_ifs size_ex]; rewrite ?fill_size; [|lia].
    destruct els as [|b'|i]; [cbn [size_els]; lia| |cbn [may_if] in M; rewrite andb_false_r in M; discriminate M]. specialize (H' false Ls (hide c)). cbn [size_els] in *. rewrite fill_size. lia.
  - intros n e E b B els (H & H') (P & _ & Le & Lb & Ls) c el. specialize (E Le (into false c)). pose proof (strip_parens _ (parens_sw o (into false c) e P)). cbn [sw_ifs]. destruct els as [|b'|i].
    + specialize (B false Lb (into false c)). destruct (is_false (new_if o) && negb el); cbn [size_ifs size_els]; lia.
    + specialize (B false Lb (into (negb el) (hide c))). specialize (H' false Ls (into false c)). destruct (is_false (new_if o) && negb el); cbn [size_ifs size_els]; lia.
    + specialize (B false Lb (into false c)). destruct (is_false (new_if o) && negb el); cbn [size_ifs size_els]; lia.
  - split; [|exact I]. intros _ c. cbn. lia.
  - intros b B. split; [|exact B]. intros L c. cbn [sw_els size_els]. specialize (B false L (hide c)). lia.
  - intros i H. split; [|exact I]. intros L c. cbn [sw_els size_els]. now apply H.
Qed.
Definition R_ex e := even_ex e -> forall c, even_ex (sw_ex o c e).
Definition R_exs e := even_exs e -> forall c, even_exs (sw_exs o c e).
Definition R_its e := even_its e -> forall c, even_its (sw_its o c e).
Definition R_st s := even_st s -> forall c, even_st (sw_st o c s).
Definition R_blk b := even_blk b -> forall c, even_blk (sw_blk o c b).
Definition R_ifs i := even_ifs i -> forall c el, even_ifs (sw_ifs o c el i).
Definition R_els e := (even_els e -> forall c, even_els (sw_els o c e)) /\ match e with EElse b => R_blk b | _ => True end.
Lemma all_even_sw : (forall e, R_ex e) /\ (forall e, R_exs e) /\ (forall e, R_its e) /\ (forall s, R_st s) /\ (forall b, R_blk b) /\ (forall i, R_ifs i) /\ (forall e, R_els e).
Proof.
  apply prog_all; try (intros; intros L cx; cbn [even_ex even_exs even_its even_st sw_ex sw_exs sw_its sw_st] in *; split_ands; rewrite ?number_sw, ?word_sw; auto 8; fail).
  - intros e E b B (Le & Lb) c. cbn [sw_st]. destruct (is_true (new_while o) && may_while o c (sh_ex o c e) b (sh_blk o (hide c) b)); cbn [even_st even_ex]; auto using strip_even, fill_even.
  - intros n e E b B (Le & Lb) c. cbn [sw_st]. destruct (is_false (new_while o)); cbn [even_st even_ex]; auto using strip_even.
  - intros targets T es E (S & Lt & Le) c. cbn [sw_st even_st]. repeat split; auto. destruct targets; [exact I|]. cbn [sw_exs]. now rewrite signed_sw.
  - intros t T op e E (S & Lt & Le) c. cbn [sw_st even_st]. rewrite signed_sw. auto.
  - intros e E L c. destruct (call_cases e) as [(x & sh & args & ->)|N].
    + specialize (E L c). cbn [sw_ex even_ex] in E. rewrite print_call. destruct (new_print o && may_print o c x (sh_exs o c args)); cbn [even_st even_ex]; tauto.
    + rewrite other_call by exact N. cbn [even_st]. now apply E.
  - intros s S b B (Ls & Lb) c. rewrite sw_cons. cbn [even_blk]. auto.
  - intros w e E b B els (H & H') (Le & Lb & Ls) c el. cbn [sw_ifs]. destruct (is_true (new_if o) && negb el && may_if o c (sh_ex o c e) b (sh_blk o (hide c) b) els (sh_els o c els)) eqn:M; cbn [even_ifs even_ex]; auto using strip_even.
    repeat split; auto using strip_even, fill_even. destruct els as [|b'|i]; [exact I| |cbn [may_if] in M; rewrite andb_false_r in M; discriminate M]. cbn [even_els]. auto using fill_even.
  - intros n e E b B els (H & H') (Le & Lb & Ls) c el. cbn [sw_ifs]. destruct els as [|b'|i]; destruct (is_false (new_if o) && negb el); cbn [even_ifs even_els]; auto 8 using strip_even.
  - now split.
  - intros b B. split; [|exact B]. intros L c. cbn [sw_els even_els]. auto.
  - intros i H. split; [|exact I]. intros L c. cbn [sw_els even_els]. auto.
Qed.
End Switch.

(** Laying a program out: exactly as many. *)
Lemma number_long e : number_first (long_ex e) = number_first e. Proof. unfold number_first. now rewrite leads_long. Qed.
Lemma signed_long e : signed_first (long_ex e) = signed_first e. Proof. induction e using ex_ind; cbn; try easy. now rewrite number_long. Qed.
Lemma word_long e : word_last (long_ex e) = word_last e. Proof. induction e using ex_ind; cbn; easy. Qed.
Lemma nil_long_size es : (match long_exs es with XNil => 0 | _ => 1 end) = match es with XNil => 0 | _ => 1 end. Proof. now destruct es. Qed.
Lemma bare_size e : grouped e -> size_ex e = 1 + size_ex (without_parens e). Proof. now destruct e. Qed.
Lemma grouped_long e : grouped e -> grouped (long_ex e). Proof. now destruct e. Qed.
Lemma bare_even e : even_ex e -> even_ex (without_parens e). Proof. now destruct e. Qed.
Lemma all_long : (forall e, neat_ex e -> size_ex (long_ex e) = size_ex e) /\ (forall e, neat_exs e -> size_exs (long_exs e) = size_exs e) /\ (forall i, neat_its i -> forall semi, size_its semi (long_its i) = size_its semi i) /\
  (forall s, neat_st s -> size_st (long_st s) = size_st s) /\ (forall b, neat_blk b -> size_blk (long_blk b) = size_blk b) /\
  (forall i, (forall e, neat_ifs e i -> size_ifs (long_ifs i) = size_ifs i)) /\ (forall e, (forall sh, neat_els sh e -> size_els (long_els e) = size_els e)).
Proof.
  apply prog_all; intros; cbn [neat_ex neat_exs neat_its neat_st neat_ifs neat_els long_els size_els long_ex long_exs long_its long_st long_ifs size_ex size_exs size_its size_st size_ifs] in *; split_ands; rewrite ?number_long, ?signed_long, ?nil_long_size.
  all: repeat match goal with H : ?P -> size_ex _ = _, N : ?P |- _ => specialize (H N) | H : ?P -> size_exs _ = _, N : ?P |- _ => specialize (H N) | H : ?P -> size_blk _ = _, N : ?P |- _ => specialize (H N) | H : ?P -> forall semi, size_its semi _ = _, N : ?P |- _ => specialize (H N) end; auto.
  all: try lia.
  - eauto.
  - match goal with G : grouped c |- _ => pose proof (bare_size _ (grouped_long c G)) end. lia.
  - destruct (st_eq_dec_semi s) as [->|N]; [|rewrite long_cons by exact N]; cbn [long_blk neat_blk size_blk size_st] in *; split_ands; auto.
  - match goal with H : forall sh, neat_els sh e -> _, N : neat_els _ e |- _ => rewrite (H _ N) end. lia.
  - match goal with G : grouped c |- _ => pose proof (bare_size _ (grouped_long c G)) end. match goal with H : forall sh, neat_els sh e -> _, N : neat_els _ e |- _ => rewrite (H _ N) end. lia.
  - eauto.
Qed.
Lemma all_even_long : (forall e, even_ex e -> even_ex (long_ex e)) /\ (forall e, even_exs e -> even_exs (long_exs e)) /\ (forall i, even_its i -> even_its (long_its i)) /\
  (forall s, even_st s -> even_st (long_st s)) /\ (forall b, even_blk b -> even_blk (long_blk b)) /\
  (forall i, even_ifs i -> even_ifs (long_ifs i)) /\ (forall e, even_els e -> even_els (long_els e)).
Proof.
  apply prog_all; intros; cbn [even_ex even_exs even_its even_st even_ifs even_els long_ex long_exs long_its long_st long_ifs long_els] in *; split_ands; rewrite ?number_long, ?word_long, ?signed_long; auto 8 using bare_even.
  { repeat split; auto. destruct targets; [exact I|]. cbn [long_exs]. now rewrite signed_long. }
  destruct (st_eq_dec_semi s) as [->|N]; [|rewrite long_cons by exact N]; cbn [long_blk even_blk] in *; split_ands; auto.
Qed.
