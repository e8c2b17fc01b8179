(** Spelling and shorthands do not matter for what programs do. *)
From Coq Require Import String List ZArith Bool Lia.
From Verif Require Import M_Base M_Fold M_Token M_Expr M_Stmt S_Run S_Emit S_Tidy S_Unmin S_Short S_Same L_Util L_Stmt L_Sim.
Import ListNotations.

Ltac sims := repeat first
  [ apply sim_ret | apply sim_never | apply sim_get | apply sim_set | apply sim_new | apply sim_do1 | apply sim_do | apply sim_apply
  | apply sim_fun | apply sim_declare | apply sim_read | apply sim_place_of | apply sim_fetch | apply sim_store | apply sim_stores
  | apply sim_items | apply sim_path | apply sim_labelled
  | assumption
  | match goal with H : forall r, L_Sim.sim _ _ _ |- _ => apply H | H : forall s r, L_Sim.sim _ _ _ |- _ => apply H | H : forall r t k, L_Sim.sim _ _ _ |- _ => apply H end
  | apply sim_loop | apply sim_for_num; [|intros ?] | apply sim_for_in; [|intros ?]
  | apply sim_bind; [|intros ?] | apply sim_if ].

Section Part.
Context {V Mem : Type} (m : machine V Mem).
Notation M := (M V Mem).
Lemma bind_bind {A B C} (x : M A) (f : A -> M B) (g : B -> M C) s : bind (bind x f) g s = bind x (fun a => bind (f a) g) s.
Proof. unfold bind. destruct (x s) as [a s'| |]; auto. Qed.
Lemma sim_left {A} tr (x y z : M A) : (forall s, x s = y s) -> sim tr y z -> sim tr x z.
Proof. intros E H s. rewrite E. apply H. Qed.
Lemma sim_right {A} tr (x y z : M A) : (forall s, y s = z s) -> sim tr x z -> sim tr x y.
Proof. intros E H s. rewrite E. apply H. Qed.
Definition plain_st (s : st) : Prop := match s with SLabel _ => False | _ => True end.
Lemma blk_cons c n dots s b skip r : plain_st s ->
  r_blk m c n dots (BCons s b) skip r = match skip with
    | Some _ => r_blk m c n dots b skip r
    | None => bind (r_st m c n dots s r) (fun g => match g with Next r' => r_blk m c n dots b None r' | Goto l => r_blk m c n dots b (Some l) r | g => ret g end) end.
Proof. destruct s; cbn [plain_st]; try reflexivity. intros []. Qed.
End Part.

(** ** What the parser notes on shorthands *)
Section Un.
Context {V Mem : Type} (m : machine V Mem).
Notation M := (M V Mem).
Notation sim := (sim un_blk).
Context (c1 c2 : nat -> list V -> M (list V)) (CALL : forall f args, sim (c1 f args) (c2 f args)) (n : nat) (dots : list V).
Theorem all_un_sim :
  (forall e, (forall r, sim (r_ex m c1 dots e r) (r_ex m c2 dots (un_ex e) r)) /\ forall r, sim (r_place m c1 dots e r) (r_place m c2 dots (un_ex e) r)) /\
  (forall e, (forall r, sim (r_exs m c1 dots e r) (r_exs m c2 dots (un_exs e) r)) /\ forall r, sim (r_places m c1 dots e r) (r_places m c2 dots (un_exs e) r)) /\
  (forall i r t k, sim (r_its m c1 dots i r t k) (r_its m c2 dots (un_its i) r t k)) /\
  (forall s r, sim (r_st m c1 n dots s r) (r_st m c2 n dots (un_st s) r)) /\
  (forall b skip r, sim (r_blk m c1 n dots b skip r) (r_blk m c2 n dots (un_blk b) skip r)) /\
  (forall i r, sim (r_ifs m c1 n dots i r) (r_ifs m c2 n dots (un_ifs i) r)) /\
  (forall e r, sim (r_els m c1 n dots e r) (r_els m c2 n dots (un_els e) r)).
Proof.
  apply prog_all; [| | | | | | | | | | | | |intros e [He Hp] es [Hs Hps]| |intros k [Hk _] v [Hv _] sep i H r t j|intros key v [Hv _] sep i H r t j|intros e [He _] sep i H r t j|..]; intros; repeat match goal with H : _ /\ _ |- _ => destruct H end.
  all: try (split; intros; cbn [r_ex r_place r_places un_ex un_exs]; sims; fail).
  all: try (cbn [r_st r_ifs r_els un_st un_ifs un_els]; try match goal with |- L_Sim.sim _ (match compound ?o with _ => _ end) _ => destruct (compound o) end; sims; try (match goal with |- L_Sim.sim _ (match ?g with _ => _ end) _ => destruct g end; sims); fail).
  - (* XCons *) split; intros r; [|cbn [r_places un_exs]; sims]. destruct es as [|e' es]; [exact (He r)|].
    change (r_exs m c1 dots (XCons e (XCons e' es)) r) with (bind (r_ex m c1 dots e r) (fun vs => bind (r_exs m c1 dots (XCons e' es) r) (fun ws => ret (first m vs :: ws)))).
    change (r_exs m c2 dots (un_exs (XCons e (XCons e' es))) r) with (bind (r_ex m c2 dots (un_ex e) r) (fun vs => bind (r_exs m c2 dots (un_exs (XCons e' es)) r) (fun ws => ret (first m vs :: ws)))).
    sims.
  - (* IItem *) destruct i; [cbn [r_its un_its]; sims| | |].
    all: match goal with |- L_Sim.sim _ (r_its _ _ _ (IItem ?e ?sep ?i) _ _ _) _ =>
      change (sim (bind (r_ex m c1 dots e r) (fun vs => bind (do_ m c1 (AItem j) [t; first m vs]) (fun _ => r_its m c1 dots i r t (S j))))
        (bind (r_ex m c2 dots (un_ex e) r) (fun vs => bind (do_ m c2 (AItem j) [t; first m vs]) (fun _ => r_its m c2 dots (un_its i) r t (S j))))) end.
    all: sims.
  - (* BCons *) cbn [un_blk]. destruct s; try (rewrite !blk_cons by exact I; destruct skip; [apply H0|]; apply sim_bind; [apply H|]; intros g; destruct g; auto using sim_ret; fail).
    cbn [un_st r_blk]. destruct skip; sims; match goal with |- L_Sim.sim _ (match ?g with _ => _ end) _ => destruct g end; sims.
Qed.
End Un.

Theorem un_run {V Mem} (m : machine V Mem) b n me : run m n (un_blk b) me = run m n b me.
Proof.
  apply sim_run. intros c1 c2 C k dots b' skip r. destruct (all_un_sim m c1 c2 C k dots) as (_ & _ & _ & _ & H & _). apply H.
Qed.

(** ** Spelling *)
Lemma compound_spell op : match compound op with Some o => exists o', compound (spell op) = Some o' /\ (o' = o \/ o' = spell o) | None => compound (spell op) = None end.
Proof.
  unfold spell. destruct (zeqb_list op (asc "!=")) eqn:E; [apply zeqb_list_true in E; subst; reflexivity|].
  destruct (zeqb_list op (asc "^^")) eqn:E1; [apply zeqb_list_true in E1; subst; reflexivity|].
  destruct (zeqb_list op (asc "//")) eqn:E2; [apply zeqb_list_true in E2; subst; reflexivity|].
  destruct (zeqb_list op (asc "//=")) eqn:E3; [apply zeqb_list_true in E3; subst; exists (asc "\"); split; [reflexivity|now right]|].
  destruct (compound op); eauto.
Qed.
Lemma is_op_spell op s : In s ["and"; "or"]%string -> is_op (spell op) s = is_op op s.
Proof.
  intros I. unfold spell, is_op. destruct (zeqb_list op (asc "!=")) eqn:E; [apply zeqb_list_true in E; subst; cbn in I; intuition (subst; reflexivity)|].
  destruct (zeqb_list op (asc "^^")) eqn:E1; [apply zeqb_list_true in E1; subst; cbn in I; intuition (subst; reflexivity)|].
  destruct (zeqb_list op (asc "//")) eqn:E2; [apply zeqb_list_true in E2; subst; cbn in I; intuition (subst; reflexivity)|].
  destruct (zeqb_list op (asc "//=")) eqn:E3; [apply zeqb_list_true in E3; subst; cbn in I; intuition (subst; reflexivity)|reflexivity].
Qed.
Section Core.
Context {V Mem : Type} (m : machine V Mem) (SPELL : spells m).
Notation M := (M V Mem).
Notation sim := (sim core_blk).
Context (c1 c2 : nat -> list V -> M (list V)) (CALL : forall f args, sim (c1 f args) (c2 f args)) (n : nat) (dots : list V).
Lemma sim_spell op vs : sim (do1 m c1 (ABin op) vs) (do1 m c2 (ABin (spell op)) vs).
Proof. apply (sim_right _ _ _ (do1 m c2 (ABin op) vs)); [|now apply sim_do1]. intros s. unfold do1, bind, do_. now rewrite SPELL. Qed.
Theorem all_core_sim :
  (forall e, (forall r, sim (r_ex m c1 dots e r) (r_ex m c2 dots (core_ex e) r)) /\ forall r, sim (r_place m c1 dots e r) (r_place m c2 dots (core_ex e) r)) /\
  (forall e, (forall r, sim (r_exs m c1 dots e r) (r_exs m c2 dots (core_exs e) r)) /\ forall r, sim (r_places m c1 dots e r) (r_places m c2 dots (core_exs e) r)) /\
  (forall i r t k, sim (r_its m c1 dots i r t k) (r_its m c2 dots (core_its i) r t k)) /\
  (forall s r, sim (r_st m c1 n dots s r) (r_st m c2 n dots (core_st s) r)) /\
  (forall b skip r, sim (r_blk m c1 n dots b skip r) (r_blk m c2 n dots (core_blk b) skip r)) /\
  (forall i r, sim (r_ifs m c1 n dots i r) (r_ifs m c2 n dots (core_ifs i) r)) /\
  (forall e r, sim (r_els m c1 n dots e r) (r_els m c2 n dots (core_els e) r)).
Proof.
  apply prog_all; [| | | | | | | | | | | | |intros e [He Hp] es [Hs Hps]| |intros k [Hk _] v [Hv _] sep i H r t j|intros key v [Hv _] sep i H r t j|intros e [He _] sep i H r t j|..]; intros; repeat match goal with H : _ /\ _ |- _ => destruct H end.
  all: try (split; intros; cbn [r_ex r_place r_places core_ex core_exs]; sims; fail).
  all: try (cbn [r_st r_ifs r_els core_st core_ifs core_els]; sims; try (match goal with |- L_Sim.sim _ (match ?g with _ => _ end) _ => destruct g end; sims); fail).
  - (* XBin *) split; intros r0; [|apply sim_never]. cbn [r_ex core_ex]. rewrite !is_op_spell by (cbn; tauto). repeat first [apply sim_spell|apply sim_ret|match goal with H : forall r, L_Sim.sim _ _ _ |- _ => apply H end|apply sim_if|apply sim_bind; [|intros ?]].
  - (* XCons *) split; intros r; [|cbn [r_places core_exs]; sims]. destruct es as [|e' es]; [exact (He r)|].
    change (r_exs m c1 dots (XCons e (XCons e' es)) r) with (bind (r_ex m c1 dots e r) (fun vs => bind (r_exs m c1 dots (XCons e' es) r) (fun ws => ret (first m vs :: ws)))).
    change (r_exs m c2 dots (core_exs (XCons e (XCons e' es))) r) with (bind (r_ex m c2 dots (core_ex e) r) (fun vs => bind (r_exs m c2 dots (core_exs (XCons e' es)) r) (fun ws => ret (first m vs :: ws)))).
    sims.
  - (* IItem *) destruct i; [cbn [r_its core_its]; sims| | |].
    all: match goal with |- L_Sim.sim _ (r_its _ _ _ (IItem ?e ?sep ?i) _ _ _) _ =>
      change (sim (bind (r_ex m c1 dots e r) (fun vs => bind (do_ m c1 (AItem j) [t; first m vs]) (fun _ => r_its m c1 dots i r t (S j))))
        (bind (r_ex m c2 dots (core_ex e) r) (fun vs => bind (do_ m c2 (AItem j) [t; first m vs]) (fun _ => r_its m c2 dots (core_its i) r t (S j))))) end.
    all: sims.
  - (* SOp *) cbn [r_st core_st]. pose proof (compound_spell op) as C. destruct (compound op) as [o|]; [|rewrite C; apply sim_never]. destruct C as (o' & -> & [->| ->]); [sims|]. repeat (first [apply sim_spell|apply sim_store|apply sim_fetch|apply sim_ret|match goal with H : forall r, L_Sim.sim _ _ _ |- _ => apply H end|apply CALL|apply sim_bind; [|intros ?]]).
  - (* BCons *) cbn [core_blk]. destruct s; try (rewrite !blk_cons by exact I; destruct skip; [apply H0|]; apply sim_bind; [apply H|]; intros g; destruct g; auto using sim_ret; fail).
    + rewrite blk_cons by exact I. destruct skip; apply H0.
    + cbn [core_st r_blk]. destruct skip; sims; match goal with |- L_Sim.sim _ (match ?g with _ => _ end) _ => destruct g end; sims.
Qed.
End Core.
Theorem core_run {V Mem} (m : machine V Mem) b n me : spells m -> run m n (core_blk b) me = run m n b me.
Proof.
  intros S. apply sim_run. intros c1 c2 C k dots b' skip r. destruct (all_core_sim m S c1 c2 C k dots) as (_ & _ & _ & _ & H & _). apply H.
Qed.

(** ** Shorthands *)
Section Base.
Context {V Mem : Type} (m : machine V Mem).
Notation M := (M V Mem).
Notation sim := (sim base_blk).
Context (c1 c2 : nat -> list V -> M (list V)) (CALL : forall f args, sim (c1 f args) (c2 f args)) (n : nat) (dots : list V).
Lemma unparen_run {A} (k : bool -> M A) r s : forall e, bind (r_ex m c2 dots (unparen e) r) (fun vs => k (test m vs)) s = bind (r_ex m c2 dots e r) (fun vs => k (test m vs)) s.
Proof. induction e; try reflexivity. cbn [unparen r_ex]. rewrite IHe, bind_bind. reflexivity. Qed.
Lemma sim_cond {A} e r (k1 k2 : bool -> M A) : (forall r, sim (r_ex m c1 dots e r) (r_ex m c2 dots (base_ex e) r)) -> (forall b, sim (k1 b) (k2 b)) ->
  sim (bind (r_ex m c1 dots e r) (fun vs => k1 (test m vs))) (bind (r_ex m c2 dots (unparen (base_ex e)) r) (fun vs => k2 (test m vs))).
Proof. intros E K. eapply sim_right; [intros s; apply unparen_run|]. apply sim_bind; [apply E|]. intros. apply K. Qed.
Lemma base_is_call e : (exists x short args, e = XCall (XVar x) short args) \/ base_st (SCall e) = SCall (base_ex e).
Proof. destruct e as [| | | | | | | | |f short args| |]; auto. destruct f; auto. left. eauto. Qed.
Lemma print_run short args r s : r_st m c2 n dots (SPrint args) r s = r_st m c2 n dots (SCall (XCall (XVar (asc "print")) short args)) r s.
Proof.
  change (bind (read m c2 r (asc "print")) (fun f => bind (r_exs m c2 dots args r) (fun vs => bind (apply m c2 f vs) (fun _ => ret (Next (V := V) r)))) s =
    bind (bind (bind (read m c2 r (asc "print")) (fun v => ret [v])) (fun vs => bind (r_exs m c2 dots args r) (fun ws => apply m c2 (first m vs) ws))) (fun _ => ret (Next (V := V) r)) s).
  generalize (r_exs m c2 dots args r) (read m c2 r (asc "print")). intros x y. unfold bind. destruct (y s) as [f s'| |]; [|reflexivity|reflexivity].
  unfold ret at 2. cbn [first hd]. destruct (x s'); reflexivity.
Qed.
Theorem all_base_sim :
  (forall e, (forall r, sim (r_ex m c1 dots e r) (r_ex m c2 dots (base_ex e) r)) /\ forall r, sim (r_place m c1 dots e r) (r_place m c2 dots (base_ex e) r)) /\
  (forall e, (forall r, sim (r_exs m c1 dots e r) (r_exs m c2 dots (base_exs e) r)) /\ forall r, sim (r_places m c1 dots e r) (r_places m c2 dots (base_exs e) r)) /\
  (forall i r t k, sim (r_its m c1 dots i r t k) (r_its m c2 dots (base_its i) r t k)) /\
  (forall s r, sim (r_st m c1 n dots s r) (r_st m c2 n dots (base_st s) r)) /\
  (forall b skip r, sim (r_blk m c1 n dots b skip r) (r_blk m c2 n dots (base_blk b) skip r)) /\
  (forall i r, sim (r_ifs m c1 n dots i r) (r_ifs m c2 n dots (base_ifs i) r)) /\
  (forall e r, sim (r_els m c1 n dots e r) (r_els m c2 n dots (base_els e) r)).
Proof.
  assert (WHILE : forall c b, (forall r, sim (r_ex m c1 dots c r) (r_ex m c2 dots (base_ex c) r)) -> (forall skip r, sim (r_blk m c1 n dots b skip r) (r_blk m c2 n dots (base_blk b) skip r)) ->
    forall r, sim (r_st m c1 n dots (SWhile c b) r) (r_st m c2 n dots (SWhile (unparen (base_ex c)) (base_blk b)) r)).
  { intros c b C B r. cbn [r_st]. apply sim_loop. apply (sim_cond c r (fun t => if t then _ else _) (fun t => if t then _ else _) C). intros []; sims. }
  assert (IF : forall c b e, (forall r, sim (r_ex m c1 dots c r) (r_ex m c2 dots (base_ex c) r)) -> (forall skip r, sim (r_blk m c1 n dots b skip r) (r_blk m c2 n dots (base_blk b) skip r)) ->
    (forall r, sim (r_els m c1 n dots e r) (r_els m c2 n dots (base_els e) r)) ->
    forall w r, sim (r_ifs m c1 n dots (ILong w c b e) r) (r_ifs m c2 n dots (ILong w (unparen (base_ex c)) (base_blk b) (base_els e)) r)).
  { intros c b e C B E w r. cbn [r_ifs]. apply (sim_cond c r (fun t => if t then _ else _) (fun t => if t then _ else _) C). intros []; sims. }
  apply prog_all; [| | | | | | | | | | | | |intros e [He Hp] es [Hs Hps]| |intros k [Hk _] v [Hv _] sep i H r t j|intros key v [Hv _] sep i H r t j|intros e [He _] sep i H r t j|..]; intros; repeat match goal with H : _ /\ _ |- _ => destruct H end.
  all: try (split; intros; cbn [r_ex r_place r_places base_ex base_exs]; sims; fail).
  all: try (apply WHILE; assumption). all: try (apply (IF c b e) with (w := asc "then"); assumption). all: try (apply (IF c b e); assumption).
  all: try (cbn [r_st r_ifs r_els base_st base_ifs base_els]; try match goal with |- L_Sim.sim _ (match compound ?o with _ => _ end) _ => destruct (compound o) end; sims; try (match goal with |- L_Sim.sim _ (match ?g with _ => _ end) _ => destruct g end; sims); fail).
  - (* XCons *) split; intros r; [|cbn [r_places base_exs]; sims]. destruct es as [|e' es]; [exact (He r)|].
    change (r_exs m c1 dots (XCons e (XCons e' es)) r) with (bind (r_ex m c1 dots e r) (fun vs => bind (r_exs m c1 dots (XCons e' es) r) (fun ws => ret (first m vs :: ws)))).
    change (r_exs m c2 dots (base_exs (XCons e (XCons e' es))) r) with (bind (r_ex m c2 dots (base_ex e) r) (fun vs => bind (r_exs m c2 dots (base_exs (XCons e' es)) r) (fun ws => ret (first m vs :: ws)))).
    sims.
  - (* IItem *) destruct i; [cbn [r_its base_its]; sims| | |].
    all: match goal with |- L_Sim.sim _ (r_its _ _ _ (IItem ?e ?sep ?i) _ _ _) _ =>
      change (sim (bind (r_ex m c1 dots e r) (fun vs => bind (do_ m c1 (AItem j) [t; first m vs]) (fun _ => r_its m c1 dots i r t (S j))))
        (bind (r_ex m c2 dots (base_ex e) r) (fun vs => bind (do_ m c2 (AItem j) [t; first m vs]) (fun _ => r_its m c2 dots (base_its i) r t (S j))))) end.
    all: sims.
  - (* SCall *) destruct (base_is_call e) as [(x & short & args & ->)|E].
    + cbn [base_st]. destruct (named_print x) eqn:P.
      * apply zeqb_list_true in P. subst x.
        eapply (sim_right _ _ _ (r_st m c2 n dots (SCall (XCall (XVar (asc "print")) short (base_exs args))) r)); [|cbn [r_st]; apply sim_bind; [apply H|]; intros; sims].
        intros s. apply print_run.
      * cbn [r_st]. apply sim_bind; [apply H|]; intros; sims.
    + rewrite E. cbn [r_st]. apply sim_bind; [apply H|]; intros; sims.
  - (* BCons *) cbn [base_blk]. destruct s; try (rewrite !blk_cons by exact I; destruct skip; [apply H0|]; apply sim_bind; [apply H|]; intros g; destruct g; auto using sim_ret; fail).
    + cbn [base_st r_blk]. destruct skip; sims; match goal with |- L_Sim.sim _ (match ?g with _ => _ end) _ => destruct g end; sims.
    + rewrite !blk_cons; [|destruct (base_is_call e) as [(x & short & args & ->)|E]; [cbn [base_st]; destruct (named_print x); exact I|rewrite E; exact I]|exact I].
      destruct skip; [apply H0|]. apply sim_bind; [apply H|]; intros g; destruct g; auto using sim_ret.
Qed.
End Base.
Theorem base_run {V Mem} (m : machine V Mem) b n me : run m n (base_blk b) me = run m n b me.
Proof.
  apply sim_run. intros c1 c2 C k dots b' skip r. destruct (all_base_sim m c1 c2 C k dots) as (_ & _ & _ & _ & H & _). apply H.
Qed.

(** ** The long form *)
Section Long.
Context {V Mem : Type} (m : machine V Mem).
Notation M := (M V Mem).
Notation sim := (sim long_blk).
Context (c1 c2 : nat -> list V -> M (list V)) (CALL : forall f args, sim (c1 f args) (c2 f args)) (n : nat) (dots : list V).
Lemma parens_run {A} (k : bool -> M A) r s e : bind (r_ex m c2 dots (without_parens e) r) (fun vs => k (test m vs)) s = bind (r_ex m c2 dots e r) (fun vs => k (test m vs)) s.
Proof. destruct e; try reflexivity. cbn [without_parens r_ex]. rewrite bind_bind. reflexivity. Qed.
Lemma sim_head {A} e r (k1 k2 : bool -> M A) : (forall r, sim (r_ex m c1 dots e r) (r_ex m c2 dots (long_ex e) r)) -> (forall b, sim (k1 b) (k2 b)) ->
  sim (bind (r_ex m c1 dots e r) (fun vs => k1 (test m vs))) (bind (r_ex m c2 dots (without_parens (long_ex e)) r) (fun vs => k2 (test m vs))).
Proof. intros E K. eapply sim_right; [intros s; apply parens_run|]. apply sim_bind; [apply E|]. intros. apply K. Qed.
Theorem all_long_sim :
  (forall e, (forall r, sim (r_ex m c1 dots e r) (r_ex m c2 dots (long_ex e) r)) /\ forall r, sim (r_place m c1 dots e r) (r_place m c2 dots (long_ex e) r)) /\
  (forall e, (forall r, sim (r_exs m c1 dots e r) (r_exs m c2 dots (long_exs e) r)) /\ forall r, sim (r_places m c1 dots e r) (r_places m c2 dots (long_exs e) r)) /\
  (forall i r t k, sim (r_its m c1 dots i r t k) (r_its m c2 dots (long_its i) r t k)) /\
  (forall s r, sim (r_st m c1 n dots s r) (r_st m c2 n dots (long_st s) r)) /\
  (forall b skip r, sim (r_blk m c1 n dots b skip r) (r_blk m c2 n dots (long_blk b) skip r)) /\
  (forall i r, sim (r_ifs m c1 n dots i r) (r_ifs m c2 n dots (long_ifs i) r)) /\
  (forall e r, sim (r_els m c1 n dots e r) (r_els m c2 n dots (long_els e) r)).
Proof.
  assert (WHILE : forall c b, (forall r, sim (r_ex m c1 dots c r) (r_ex m c2 dots (long_ex c) r)) -> (forall skip r, sim (r_blk m c1 n dots b skip r) (r_blk m c2 n dots (long_blk b) skip r)) ->
    forall r, sim (r_st m c1 n dots (SWhile c b) r) (r_st m c2 n dots (SWhile (without_parens (long_ex c)) (long_blk b)) r)).
  { intros c b C B r. cbn [r_st]. apply sim_loop. apply (sim_head c r (fun t => if t then _ else _) (fun t => if t then _ else _) C). intros []; sims. }
  assert (IF : forall c b e, (forall r, sim (r_ex m c1 dots c r) (r_ex m c2 dots (long_ex c) r)) -> (forall skip r, sim (r_blk m c1 n dots b skip r) (r_blk m c2 n dots (long_blk b) skip r)) ->
    (forall r, sim (r_els m c1 n dots e r) (r_els m c2 n dots (long_els e) r)) ->
    forall w r, sim (r_ifs m c1 n dots (ILong w c b e) r) (r_ifs m c2 n dots (ILong w (without_parens (long_ex c)) (long_blk b) (long_els e)) r)).
  { intros c b e C B E w r. cbn [r_ifs]. apply (sim_head c r (fun t => if t then _ else _) (fun t => if t then _ else _) C). intros []; sims. }
  apply prog_all; [| | | | | | | | | | | | |intros e [He Hp] es [Hs Hps]| |intros k [Hk _] v [Hv _] sep i H r t j|intros key v [Hv _] sep i H r t j|intros e [He _] sep i H r t j|..]; intros; repeat match goal with H : _ /\ _ |- _ => destruct H end.
  all: try (split; intros; cbn [r_ex r_place r_places long_ex long_exs]; sims; fail).
  all: try (apply WHILE; assumption). all: try (apply (IF c b e) with (w := asc "then"); assumption). all: try (apply (IF c b e); assumption).
  all: try (cbn [r_st r_ifs r_els long_st long_ifs long_els]; try match goal with |- L_Sim.sim _ (match compound ?o with _ => _ end) _ => destruct (compound o) end; sims; try (match goal with |- L_Sim.sim _ (match ?g with _ => _ end) _ => destruct g end; sims); fail).
  - (* XCons *) split; intros r; [|cbn [r_places long_exs]; sims]. destruct es as [|e' es]; [exact (He r)|].
    change (r_exs m c1 dots (XCons e (XCons e' es)) r) with (bind (r_ex m c1 dots e r) (fun vs => bind (r_exs m c1 dots (XCons e' es) r) (fun ws => ret (first m vs :: ws)))).
    change (r_exs m c2 dots (long_exs (XCons e (XCons e' es))) r) with (bind (r_ex m c2 dots (long_ex e) r) (fun vs => bind (r_exs m c2 dots (long_exs (XCons e' es)) r) (fun ws => ret (first m vs :: ws)))).
    sims.
  - (* IItem *) destruct i; [cbn [r_its long_its]; sims| | |].
    all: match goal with |- L_Sim.sim _ (r_its _ _ _ (IItem ?e ?sep ?i) _ _ _) _ =>
      change (sim (bind (r_ex m c1 dots e r) (fun vs => bind (do_ m c1 (AItem j) [t; first m vs]) (fun _ => r_its m c1 dots i r t (S j))))
        (bind (r_ex m c2 dots (long_ex e) r) (fun vs => bind (do_ m c2 (AItem j) [t; first m vs]) (fun _ => r_its m c2 dots (long_its i) r t (S j))))) end.
    all: sims.
  - (* BCons *) cbn [long_blk]. destruct s; try (rewrite !blk_cons by exact I; destruct skip; [apply H0|]; apply sim_bind; [apply H|]; intros g; destruct g; auto using sim_ret; fail).
    + rewrite blk_cons by exact I. destruct skip; apply H0.
    + cbn [long_st r_blk]. destruct skip; sims; match goal with |- L_Sim.sim _ (match ?g with _ => _ end) _ => destruct g end; sims.
Qed.
End Long.
Theorem long_run {V Mem} (m : machine V Mem) b n me : run m n (long_blk b) me = run m n b me.
Proof.
  apply sim_run. intros c1 c2 C k dots b' skip r. destruct (all_long_sim m c1 c2 C k dots) as (_ & _ & _ & _ & H & _). apply H.
Qed.

Theorem same_runs {V Mem} (m : machine V Mem) b b' : spells m -> same_program b' b -> forall n me, run m n b' me = run m n b me.
Proof.
  intros S E n me. rewrite <- (core_run m b' n me S), <- (base_run m (core_blk b')), E, base_run. now apply core_run.
Qed.
