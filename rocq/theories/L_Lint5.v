(** Lemmas for the linter: programs without unknown globals do not ask for others. *)
From Coq Require Import String List ZArith Bool Lia.
From Verif Require Import M_Base L_Util M_Fold M_Token M_Expr M_Stmt M_Rename M_Lint S_Run S_Alpha S_Lint S_Other L_Stmt L_Alpha L_Lint L_Lint2 L_Lint3 L_Lint4.
Import ListNotations.
Local Notation mem := M_Rename.mem.
Lemma env_same : env_var = env_name. Proof. reflexivity. Qed.
Lemma names_same ps : names_of ps = named ps. Proof. reflexivity. Qed.
Lemma print_same : asc "print" = str "print". Proof. reflexivity. Qed.
Lemma self_same : asc "self" = str "self". Proof. reflexivity. Qed.
Local Opaque str asc env_name env_var print_name self_name init_name.

Lemma mem_or (x : name) l l' : mem x (l ++ l') = mem x l || mem x l'.
Proof. apply existsb_app. Qed.

Section Known.
Context (lb : list name) (K : name -> Prop).
Definition all_known (l : list mention) : Prop := forall x h f, In (x, h, f) l -> K x.
Lemma known_app a b : all_known (a ++ b) <-> all_known a /\ all_known b.
Proof.
  unfold all_known. split; [intro H; split; intros x h f I; apply (H x h f), in_or_app; auto|].
  intros [H1 H2] x h f I. apply in_app_or in I. destruct I; eauto.
Qed.
Context (G Kr : list Z -> list Z -> Prop) (HG : forall x, K x \/ x = env_var -> G x x) (HK : forall k, Kr k k).
(** the names of the locals *)
Definition scope (sc : list name) (env : pairs) : Prop :=
  (forall x, mem x sc = mem x (map fst env)) /\ (forall p, In p env -> fst p = snd p) /\ mem env_name sc = false.

Lemma scope_more xs sc env : scope sc env -> ~ In env_var xs -> scope (xs ++ sc) (more xs xs env).
Proof.
  intros (S1 & S2 & S3) N. split; [|split].
  - intro x. unfold more. rewrite map_app, !mem_or, S1. f_equal. rewrite map_rev. rewrite mem_rev. f_equal.
    clear. induction xs; cbn; [reflexivity|]. now f_equal.
  - intros p I. unfold more in I. apply in_app_or in I. destruct I as [I|I]; [|auto]. apply in_rev in I.
    clear -I. induction xs; cbn in I; [easy|]. destruct I as [<-|I]; auto.
  - rewrite mem_or, S3, orb_false_r. apply mem_not. now rewrite <- env_same.
Qed.
Lemma var_known sc env h f x : scope sc env -> all_known (global lb sc h f x) -> same_var G env x x.
Proof.
  intros (S1 & S2 & S3) A. unfold global in A. rewrite S3, S1 in A. cbn [andb] in A. rewrite orb_false_r in A. clear S1 S3.
  induction env as [|(y & y') env IH].
  - cbn [map mem existsb orb] in A. cbn [same_var]. apply HG. destruct (zeqb_list x env_name) eqn:E; [right; rewrite env_same; now apply zeqb_list_true|].
    left. apply (A x h f). now left.
  - assert (Y : y = y') by exact (S2 (y, y') (or_introl eq_refl)). subst y'. cbn [same_var]. cbn [map fst] in A. change (mem x (y :: map fst env)) with (zeqb_list x y || mem x (map fst env)) in A.
    destruct (zeqb_list x y) eqn:E; [left; apply zeqb_list_true in E; auto|]. right.
    assert (N : x <> y) by (intros ->; now rewrite zeqb_list_refl in E). repeat split; auto. apply IH; [intros p I; apply S2; now right|exact A].
Qed.

Definition A_exs es := (forall sc f env, scope sc env -> all_known (g_exs lb sc f es) -> alpha_exs eq eq env es es -> alpha_exs G Kr env es es) /\
   (forall sc f env, scope sc env -> all_known (g_tgts lb sc f es) -> alpha_exs eq eq env es es -> alpha_exs G Kr env es es).
Lemma env_blk_scope b : forall sc env lab, scope sc env -> alpha_blk eq eq env lab b b -> scope (brought b ++ sc) (env_blk env b b).
Proof.
  induction b as [|s b IH]; intros sc env lab S A; cbn [env_blk brought alpha_blk] in *; [exact S|]. destruct A as (A1 & A2).
  rewrite <- app_assoc. apply (IH _ _ lab); [|exact A2].
  destruct s; cbn [env_st brings app]; try exact S; cbn [alpha_st] in A1.
  - apply scope_more; [exact S|]. apply A1.
  - apply (scope_more [x] sc env S). apply A1.
Qed.
Lemma st_scope s sc env lab : scope sc env -> alpha_st eq eq env lab s s -> scope (brings s ++ sc) (env_st env s s).
Proof. intros S A. exact (env_blk_scope (BCons s BNil) sc env lab S (conj A I)). Qed.

Lemma known_alpha :
  (forall e sc f env, scope sc env -> all_known (g_ex lb sc f e) -> alpha_ex eq eq env e e -> alpha_ex G Kr env e e) /\
  (forall es, A_exs es) /\
  (forall i sc f env, scope sc env -> all_known (g_its lb sc f i) -> alpha_its eq eq env i i -> alpha_its G Kr env i i) /\
  (forall s sc f env lab, scope sc env -> all_known (g_st lb sc f s) -> alpha_st eq eq env lab s s -> alpha_st G Kr env lab s s) /\
  (forall b sc f env lab, scope sc env -> all_known (g_blk lb sc f b) -> alpha_blk eq eq env lab b b -> alpha_blk G Kr env lab b b) /\
  (forall i sc f env lab, scope sc env -> all_known (g_ifs lb sc f i) -> alpha_ifs eq eq env lab i i -> alpha_ifs G Kr env lab i i) /\
  (forall e sc f env lab, scope sc env -> all_known (g_els lb sc f e) -> alpha_els eq eq env lab e e -> alpha_els G Kr env lab e e).
Proof.
  apply prog_all; intros; try split; intros;
    cbn [g_ex g_exs g_tgts g_its g_st g_blk g_ifs g_els alpha_ex alpha_exs alpha_its alpha_st alpha_blk alpha_ifs alpha_els] in *;
    fold (alpha_ex eq eq) (alpha_exs eq eq) (alpha_its eq eq) (alpha_st eq eq) (alpha_blk eq eq) (alpha_ifs eq eq) (alpha_els eq eq) (alpha_ex G Kr) (alpha_exs G Kr) (alpha_its G Kr) (alpha_st G Kr) (alpha_blk G Kr) (alpha_ifs G Kr) (alpha_els G Kr) in *;
    repeat match goal with H : A_exs _ |- _ => destruct H | H : all_known (_ ++ _) |- _ => apply known_app in H; destruct H | H : _ /\ _ |- _ => destruct H end;
    repeat match goal with |- _ /\ _ => split end; eauto using var_known.
  all: try (match goal with |- Forall2 Kr ?l ?l => clear -HK; induction l; constructor; auto end).
  all: try (match goal with |- match ?o with Some _ => _ | None => _ end => destruct o; auto end).
  - eapply H; [apply (scope_more (named ps) sc env); [assumption|]|eassumption|assumption]. match goal with P : params_ok ps ps |- _ => apply P end.
  - destruct e; try (match goal with H : forall sc f env, _ -> _ -> alpha_ex eq eq env (?c ?x) (?c ?x) -> _ |- _ => eapply H; eassumption | H : forall sc f env, _ -> _ -> alpha_ex eq eq env ?e ?e -> _ |- alpha_ex _ _ _ ?e ?e => eapply H; eassumption end).
    eapply var_known; eassumption.
  - match goal with H : forall sc f env, _ -> _ -> alpha_ex eq eq env c c -> _ |- _ => eapply H; [eapply env_blk_scope; eassumption|eassumption|assumption] end.
  - match goal with H : forall sc f env lab, _ -> _ -> alpha_blk eq eq env lab b b -> _ |- _ => eapply H; [apply (scope_more [x] sc env); [assumption|]|eassumption|assumption] end.
    match goal with P : locals_ok [x] [x] |- _ => apply P end.
  - match goal with H : forall sc f env lab, _ -> _ -> alpha_blk eq eq env lab b b -> _ |- _ => eapply H; [apply (scope_more xs sc env); [assumption|]|eassumption|assumption] end.
    match goal with P : locals_ok xs xs |- _ => apply P end.
  - match goal with P : params_ok ps ps, Q : locals_ok [x] [x], H : forall sc f env lab, _ -> _ -> alpha_blk eq eq env lab b b -> _ |- _ =>
      eapply H; [apply (scope_more (named ps) (x :: sc) ((x, x) :: env)); [apply (scope_more [x] sc env); [assumption|apply Q]|apply P]|eassumption|assumption] end.
  - match goal with P : params_ok _ _, H : forall sc f env lab, _ -> _ -> alpha_blk eq eq env lab b b -> _ |- _ =>
      eapply H; [apply (scope_more (named (with_self meth ps)) sc env); [assumption|apply P]| |eassumption] end.
    assert (E : named (with_self meth ps) ++ sc = self_of meth ++ named ps ++ sc) by (destruct meth; reflexivity).
    match goal with A : all_known (g_blk _ (self_of meth ++ _) ?f b) |- _ => exact (eq_ind_r (fun l => all_known (g_blk lb l f b)) A E) end.
  - destruct target; try (match goal with H : forall sc f env, _ -> _ -> alpha_ex eq eq env (?c ?x) (?c ?x) -> _ |- _ => eapply H; eassumption | H : forall sc f env, _ -> _ -> alpha_ex eq eq env ?e ?e -> _ |- alpha_ex _ _ _ ?e ?e => eapply H; eassumption end).
    eapply var_known; eassumption.
  - match goal with H : forall sc f env lab, _ -> _ -> alpha_blk eq eq env lab b b -> _ |- _ => eapply H; [eapply st_scope; eassumption|eassumption|assumption] end.
Qed.
End Known.

(** A program that asks only for globals in [ks] does not ask for others. *)
Section Others.
Context {V Mem : Type} (m : machine V Mem) (lb ks : list name) (d : ask -> list V -> Mem -> steps V Mem).
Definition turn (x : list Z) : list Z := if mem x ks then x else env_var.
Lemma alpha_others b f : (forall x h g, In (x, h, g) (g_blk lb [] f b) -> In x ks) -> renaming eq eq b b ->
  alpha_blk (Gg turn) (Kk (fun x => x)) [] (frame b b) b b.
Proof.
  intros A R. destruct (known_alpha lb (fun x => In x ks) (Gg turn) (Kk (fun x => x))) as (_ & _ & _ & _ & H & _).
  - intros x [I|E]; unfold Gg, turn; [now rewrite (proj2 (mem_in x ks) I)|]. subst x. now destruct (mem env_var ks).
  - reflexivity.
  - apply (H b [] f [] (frame b b)); [|exact A|exact R]. split; [reflexivity|split; [intros p []|reflexivity]].
Qed.
Lemma others_run b f n me : (forall x h g, In (x, h, g) (g_blk lb [] f b) -> In x ks) -> renaming eq eq b b -> legal false b ->
  same_for (fun x => In x ks \/ x = env_var) m d ->
  run (with_do m d) n b me = run m n b me.
Proof.
  intros A R L D. pose proof (alpha_others b f A R) as AL.
  assert (T : forall x, In (turn x) ks \/ turn x = env_var) by (intro x; unfold turn; destruct (mem x ks) eqn:E; [left; now apply mem_in|now right]).
  rewrite <- (alpha_run2 m turn (fun x => x) (fun a => m_do m (old_ask turn a)) (fun a vs me => eq_refl) b b n me AL L).
  symmetry. refine (alpha_run2 (with_do m d) turn (fun x => x) (fun a => m_do m (old_ask turn a)) _ b b n me AL L).
  intros a vs me'. cbn [with_do m_do]. symmetry. apply D. intros x [E|E]; destruct a; try discriminate E; cbn [old_ask] in E; injection E as <-; apply T.
Qed.
End Others.
