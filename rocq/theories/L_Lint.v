(** Lemmas for the linter. *)
From Coq Require Import String List ZArith Bool Lia.
From Verif Require Import M_Base L_Util M_Fold M_Token M_Expr M_Stmt M_Rename M_Lint S_Lint L_Stmt.
Import ListNotations.

Lemma zeq_sym x y : zeqb_list x y = zeqb_list y x.
Proof.
  destruct (zeqb_list x y) eqn:E; destruct (zeqb_list y x) eqn:F; auto;
    [apply zeqb_list_true in E|apply zeqb_list_true in F]; subst; rewrite zeqb_list_refl in *; congruence.
Qed.

Local Opaque str env_name print_name self_name init_name.

(** ** Sequences of nodes *)
Lemma app_fst x f : fst (app_nodes x f) = fst x ++ fst (f (snd x)).
Proof. unfold app_nodes. destruct x as [n k]. cbn. now destruct (f k). Qed.
Lemma app_snd x f : snd (app_nodes x f) = snd (f (snd x)).
Proof. unfold app_nodes. destruct x as [n k]. cbn. now destruct (f k). Qed.

(** ** Numbers only grow *)
Definition later (k k' : numbers) : Prop := (fst k <= fst k')%nat.
Lemma later_refl k : later k k. Proof. unfold later; lia. Qed.
Lemma later_trans a b c : later a b -> later b c -> later a c. Proof. unfold later; lia. Qed.
Lemma later_decl k : later k (next_decl k). Proof. unfold later, next_decl; cbn; lia. Qed.
Lemma later_block k : later k (next_block k). Proof. unfold later, next_block; cbn; lia. Qed.
Lemma later_fun k : later k (next_block (next_decl k)). Proof. unfold later; cbn; lia. Qed.
Lemma later_fun2 k : later k (next_block (next_decl (next_decl k))). Proof. unfold later; cbn; lia. Qed.

Definition gr_exs es := (forall a k, later k (snd (w_exs a k es))) /\ (forall a k, later k (snd (w_tgts a k es))).
Ltac chain_later :=
  match goal with
  | |- later ?k ?k => apply later_refl
  | H : forall a k, later k (snd (w_ex a k ?e)) |- later _ (snd (w_ex _ _ ?e)) => eapply later_trans; [|apply H]
  | H : forall a k, later k (snd (w_exs a k ?e)) |- later _ (snd (w_exs _ _ ?e)) => eapply later_trans; [|apply H]
  | H : forall a k, later k (snd (w_tgts a k ?e)) |- later _ (snd (w_tgts _ _ ?e)) => eapply later_trans; [|apply H]
  | H : forall a k, later k (snd (w_its a k ?e)) |- later _ (snd (w_its _ _ ?e)) => eapply later_trans; [|apply H]
  | H : forall a k, later k (snd (fst (w_st a k ?e))) |- later _ (snd (fst (w_st _ _ ?e))) => eapply later_trans; [|apply H]
  | H : forall a k, later k (snd (fst (w_blk a k ?e))) |- later _ (snd (fst (w_blk _ _ ?e))) => eapply later_trans; [|apply H]
  | H : forall a k, later k (snd (w_ifs a k ?e)) |- later _ (snd (w_ifs _ _ ?e)) => eapply later_trans; [|apply H]
  | H : forall a k, later k (snd (w_els a k ?e)) |- later _ (snd (w_els _ _ ?e)) => eapply later_trans; [|apply H]
  | |- later _ (next_block (next_decl (next_decl _))) => apply later_fun2
  | |- later _ (next_block (next_decl _)) => apply later_fun
  | |- later _ (next_block _) => eapply later_trans; [|apply later_block]
  | |- later _ (next_decl _) => apply later_decl
  end.
Lemma grow :
  (forall e a k, later k (snd (w_ex a k e))) /\ (forall es, gr_exs es) /\ (forall i a k, later k (snd (w_its a k i))) /\
  (forall s a k, later k (snd (fst (w_st a k s)))) /\ (forall b a k, later k (snd (fst (w_blk a k b)))) /\
  (forall i a k, later k (snd (w_ifs a k i))) /\ (forall e a k, later k (snd (w_els a k e))).
Proof.
  apply prog_all; intros; try split; intros; cbn [w_ex w_exs w_tgts w_its w_st w_blk w_ifs w_els fst snd];
    repeat match goal with H : gr_exs _ |- _ => destruct H end;
    repeat (rewrite ?app_snd; cbn [fst snd]);
    try (match goal with |- context [match ?e with XConst _ => _ | _ => _ end] => is_var e; destruct e end; cbn [fst snd]);
    repeat chain_later.
Qed.
Definition grow_ex := proj1 grow.
Definition grow_exs es := proj1 (proj1 (proj2 grow) es).
Definition grow_tgts es := proj2 (proj1 (proj2 grow) es).
Definition grow_its := proj1 (proj2 (proj2 grow)).
Definition grow_st := proj1 (proj2 (proj2 (proj2 grow))).
Definition grow_blk := proj1 (proj2 (proj2 (proj2 (proj2 grow)))).
Definition grow_ifs := proj1 (proj2 (proj2 (proj2 (proj2 (proj2 grow))))).
Definition grow_els := proj2 (proj2 (proj2 (proj2 (proj2 (proj2 grow))))).

Ltac lat :=
  repeat match goal with
  | |- later ?k ?k => apply later_refl
  | |- later _ (snd (w_ex _ _ _)) => eapply later_trans; [|apply grow_ex]
  | |- later _ (snd (w_exs _ _ _)) => eapply later_trans; [|apply grow_exs]
  | |- later _ (snd (w_tgts _ _ _)) => eapply later_trans; [|apply grow_tgts]
  | |- later _ (snd (w_its _ _ _)) => eapply later_trans; [|apply grow_its]
  | |- later _ (snd (fst (w_st _ _ _))) => eapply later_trans; [|apply grow_st]
  | |- later _ (snd (fst (w_blk _ _ _))) => eapply later_trans; [|apply grow_blk]
  | |- later _ (snd (w_ifs _ _ _)) => eapply later_trans; [|apply grow_ifs]
  | |- later _ (snd (w_els _ _ _)) => eapply later_trans; [|apply grow_els]
  | |- later _ (next_block (next_decl (next_decl _))) => apply later_fun2
  | |- later _ (next_block (next_decl _)) => apply later_fun
  | |- later _ (next_block _) => eapply later_trans; [|apply later_block]
  | |- later _ (next_decl _) => eapply later_trans; [|apply later_decl]
  end.

Lemma st_env s a k : snd (w_st a k s) = rev (locals_of (fst k) (depth a) (fdepth a) (brings s)) ++ env a.
Proof. destruct s; reflexivity. Qed.

(** ** Names of new locals *)
Lemma mem_app x a b : mem x (a ++ b) = mem x a || mem x b.
Proof. unfold mem. apply existsb_app. Qed.
Lemma mem_rev x a : mem x (rev a) = mem x a.
Proof. induction a as [|y a IH]; cbn [rev]; [reflexivity|]. rewrite mem_app, IH. unfold mem. cbn [existsb]. rewrite orb_false_r. apply orb_comm. Qed.
Lemma places_names num i ns : map fst (places num i ns) = ns.
Proof. revert i. induction ns as [|n ns IH]; intro i; cbn; [reflexivity|]. now rewrite IH. Qed.
Lemma locals_names num d fd ns : map fst (locals_of num d fd ns) = ns.
Proof. unfold locals_of. rewrite map_map. transitivity (map fst (places num 0 ns)); [apply map_ext; now intros [? ?]|apply places_names]. Qed.
Lemma in_places num i ns n v : In (n, v) (places num i ns) -> fst v = num /\ (i <= snd v)%nat /\ nth_error ns (snd v - i) = Some n.
Proof.
  revert i. induction ns as [|m ns IH]; intro i; cbn; [tauto|]. intros [[= <- <-]|H].
  - cbn. rewrite Nat.sub_diag. auto.
  - apply IH in H. destruct H as (H1 & H2 & H3). split; [exact H1|]. split; [lia|].
    replace (snd v - i)%nat with (S (snd v - S i)) by lia. exact H3.
Qed.
Lemma in_locals num d fd ns n v : In (n, v) (locals_of num d fd ns) ->
  fst (lid v) = num /\ lfdepth v = fd /\ ldepth v = d /\ nth_error ns (snd (lid v)) = Some n.
Proof.
  unfold locals_of. intro H. apply in_map_iff in H. destruct H as ((m & w) & [= <- <-] & H). cbn.
  apply in_places in H. rewrite Nat.sub_0_r in H. tauto.
Qed.
Lemma lookup_app a b x : lookup (a ++ b) x = match lookup a x with Some v => Some v | None => lookup b x end.
Proof. induction a as [|[y v] a IH]; cbn; [reflexivity|]. now destruct (zeqb_list y x). Qed.
Lemma lookup_in a x v : lookup a x = Some v -> In (x, v) a.
Proof.
  induction a as [|[y w] a IH]; cbn; [discriminate|]. destruct (zeqb_list y x) eqn:E; [|auto].
  intros [= <-]. apply zeqb_list_true in E. subst. auto.
Qed.
Lemma lookup_names a x : (match lookup a x with Some _ => true | None => false end) = mem x (map fst a).
Proof.
  induction a as [|[y v] a IH]; cbn; [reflexivity|]. unfold mem in *. rewrite (zeq_sym x y).
  destruct (zeqb_list y x); cbn; [reflexivity|exact IH].
Qed.

(* ------------------------------------------------------------------ *)
(** * Globals *)
Definition roots (ds : list vnode) : list mention := flat_map (fun d => match root_name d with Some m => [m] | None => [] end) ds.
Lemma roots_app a b : roots (a ++ b) = roots a ++ roots b.
Proof. apply flat_map_app. Qed.
Lemma roots_new up q ls : roots (new_nodes up q ls) = [].
Proof. induction ls as [|[n v] ls IH]; cbn; auto. Qed.

Section Globals.
Context (lb : list name) (no_env : mem env_name lb = false).
Definition root_env : list (name * local) := rev (locals_of 0 (-1) (-1) (env_name :: lb)).

(** The parser is at a place where the locals [sc] can be seen. *)
Definition sees (a : at_) (sc : list name) : Prop :=
  exists up, env a = up ++ root_env /\ (forall n v, In (n, v) up -> (1 <= fst (lid v))%nat /\ (0 <= lfdepth v)%Z) /\
    (forall x, mem x (map fst up) = mem x sc).

Lemma root_lookup x :
  match lookup root_env x with
  | Some v => fst (lid v) = O /\ lfdepth v = (-1)%Z /\ (zeqb_list x env_name || mem x lb) = true /\ (snd (lid v) = O <-> x = env_name)
  | None => (zeqb_list x env_name || mem x lb) = false
  end.
Proof.
  assert (N : (match lookup root_env x with Some _ => true | None => false end) = zeqb_list x env_name || mem x lb).
  { rewrite lookup_names. unfold root_env. rewrite map_rev, locals_names, mem_rev. reflexivity. }
  destruct (lookup root_env x) as [v|] eqn:E; [|auto].
  apply lookup_in in E. unfold root_env in E. apply in_rev in E. apply in_locals in E. destruct E as (E1 & E2 & _ & E3).
  split; [exact E1|]. split; [exact E2|]. split; [auto|]. split.
  - intro Z0. rewrite Z0 in E3. change (Some env_name = Some x) in E3. congruence.
  - intros ->. destruct (snd (lid v)) as [|i]; [reflexivity|]. change (nth_error lb i = Some env_name) in E3. apply nth_error_In in E3. exfalso.
    assert (mem env_name lb = true); [|congruence]. unfold mem. apply existsb_exists. exists env_name. split; [exact E3|apply zeqb_list_refl].
Qed.

Lemma in_builtin v : (1 <= fst (lid v))%nat -> builtin_local v = false.
Proof. unfold builtin_local. destruct (fst (lid v)); [lia|reflexivity]. Qed.

Lemma sees_look a sc x : sees a sc ->
  match lookup (env a) x with
  | Some v => if mem x sc then builtin_local v = false /\ (0 <= lfdepth v)%Z
              else (zeqb_list x env_name || mem x lb) = true /\ (lfdepth v < 0)%Z /\ builtin_local v = negb (zeqb_list x env_name)
  | None => mem x sc = false /\ (zeqb_list x env_name || mem x lb) = false
  end.
Proof.
  intros (up & E & U & S). rewrite E, lookup_app, <- S, <- lookup_names.
  destruct (lookup up x) as [v|] eqn:L.
  - apply lookup_in in L. apply U in L. split; [now apply in_builtin|tauto].
  - pose proof (root_lookup x) as R. destruct (lookup root_env x) as [v|]; [|auto].
    destruct R as (R1 & R2 & R3 & R4). split; [exact R3|]. split; [lia|]. unfold builtin_local. rewrite R1. cbn.
    destruct (zeqb_list x env_name) eqn:Z.
    + apply zeqb_list_true in Z. apply R4 in Z. rewrite Z. reflexivity.
    + apply zeqb_list_false in Z. destruct (snd (lid v)); [exfalso; tauto|reflexivity].
Qed.

Lemma roots_var a sc h x : sees a sc -> roots (var a h x) = global lb sc h (fn a) x.
Proof.
  intro S. unfold var, global. pose proof (sees_look a sc x S) as L. pose proof (sees_look a sc env_name S) as Le.
  rewrite zeqb_list_refl in Le. cbn [orb] in Le.
  destruct (lookup (env a) x) as [v|].
  - destruct (mem x sc); cbn [orb].
    + cbn. destruct L as [-> _]. reflexivity.
    + destruct L as (L1 & _ & L3). cbn. rewrite L3. destruct (zeqb_list x env_name); cbn; [reflexivity|].
      cbn in L1. rewrite L1. cbn. now rewrite andb_false_r.
  - destruct L as [-> L]. apply orb_false_iff in L. destruct L as [-> ->]. cbn [orb negb]. rewrite andb_true_r.
    destruct (lookup (env a) env_name) as [v|]; [|destruct Le as [_ C]; discriminate C].
    destruct (mem env_name sc).
    + destruct Le as [B F]. replace (lfdepth v <? 0)%Z with false by (symmetry; apply Z.ltb_ge; exact F). cbn. now rewrite B.
    + destruct Le as (_ & F & B). replace (lfdepth v <? 0)%Z with true by (symmetry; apply Z.ltb_lt; exact F). cbn. rewrite B. reflexivity.
Qed.

Lemma sees_new a sc num d fd xs env' sc' : sees a sc -> (1 <= num)%nat -> (0 <= fd)%Z ->
  env' = rev (locals_of num d fd xs) ++ env a -> (forall x, mem x sc' = mem x (xs ++ sc)) ->
  forall a', env a' = env' -> sees a' sc'.
Proof.
  intros (up & E & U & S) N F -> S' a' Ea. exists (rev (locals_of num d fd xs) ++ up). rewrite Ea, E, app_assoc. split; [reflexivity|].
  split.
  - intros n v H. apply in_app_or in H. destruct H as [H|H]; [|exact (U n v H)].
    apply in_rev in H. apply in_locals in H. lia.
  - intro x. rewrite S', map_app, map_rev, locals_names, !mem_app, mem_rev, S. reflexivity.
Qed.
Lemma sees_same a sc a' : sees a sc -> env a' = env a -> sees a' sc.
Proof. intros (up & E & H) Ea. exists up. now rewrite Ea. Qed.

Definition good (a : at_) (k : numbers) (sc : list name) : Prop := sees a sc /\ (1 <= fst k)%nat /\ (0 <= fdepth a)%Z.

(** behind a block *)
Lemma blk_sees b : forall a k sc, good a k sc -> forall a', env a' = snd (w_blk a k b) -> sees a' (brought b ++ sc).
Proof.
  induction b as [|s b IH]; intros a k sc (S & K & F) a' E; cbn [w_blk snd brought] in *.
  - now apply sees_same with a.
  - rewrite <- app_assoc. apply (IH (with_env a (snd (w_st a k s))) (snd (fst (w_st a k s)))); [|exact E].
    split; [|split; [pose proof (grow_st s a k); unfold later in *; lia|exact F]].
    eapply sees_new with (xs := brings s) (num := fst k) (d := depth a) (fd := fdepth a); eauto.
    cbn. now rewrite st_env.
Qed.

Definition P_exs es := (forall a k sc, good a k sc -> roots (fst (w_exs a k es)) = g_exs lb sc (fn a) es) /\
                       (forall a k sc, good a k sc -> roots (fst (w_tgts a k es)) = g_tgts lb sc (fn a) es).

Lemma good_later a k k' sc : good a k sc -> later k k' -> good a k' sc.
Proof. unfold good, later. intuition lia. Qed.
Lemma good_enter a k k' sc b : good a k sc -> good (enter a k' b) k sc.
Proof. intros (S & K & F). split; [|auto]. now apply sees_same with a. Qed.
Lemma good_new a k k' num d fd xs sc sc' a' : good a k sc -> later k k' -> (fst k <= num)%nat -> (0 <= fd)%Z -> (0 <= fdepth a')%Z ->
  env a' = rev (locals_of num d fd xs) ++ env a -> (forall x, mem x sc' = mem x (xs ++ sc)) -> good a' k' sc'.
Proof.
  intros (S & K & F) L N FD FD' E M. unfold later in *. split; [|split; [lia|exact FD']].
  apply (sees_new a sc num d fd xs _ sc' S ltac:(lia) FD eq_refl M a' E).
Qed.
Lemma good_fun a k k' x xs sc sc' : good a k sc -> later k k' -> (forall y, mem y sc' = mem y (xs ++ sc)) -> good (enter_fun a k x xs) k' sc'.
Proof. intros G L M. pose proof G as (_ & _ & F). apply (good_new a k k' (fst k) (depth a + 1) (fdepth a + 1) xs sc sc' (enter_fun a k x xs) G L (le_n _)); [lia|cbn; lia|reflexivity|exact M]. Qed.

Ltac gd := match goal with G : good ?a ?k ?sc |- good ?a _ ?sc => apply (good_later a k _ sc G); lat end.
Lemma walk_globals :
  (forall e a k sc, good a k sc -> roots (fst (w_ex a k e)) = g_ex lb sc (fn a) e) /\
  (forall es, P_exs es) /\
  (forall i a k sc, good a k sc -> roots (fst (w_its a k i)) = g_its lb sc (fn a) i) /\
  (forall s a k sc, good a k sc -> roots (fst (fst (w_st a k s))) = g_st lb sc (fn a) s) /\
  (forall b a k sc, good a k sc -> roots (fst (fst (w_blk a k b))) = g_blk lb sc (fn a) b) /\
  (forall i a k sc, good a k sc -> roots (fst (w_ifs a k i)) = g_ifs lb sc (fn a) i) /\
  (forall e a k sc, good a k sc -> roots (fst (w_els a k e)) = g_els lb sc (fn a) e).
Proof.
  assert (GK : forall a k k' sc, good a k sc -> later k k' -> good a k' sc) by (intros; now apply good_later with k).
  assert (GE : forall a k k' sc b, good a k sc -> good (enter a k' b) (next_block k) sc).
  { intros. apply good_enter. eapply good_later; [eassumption|apply later_block]. }
  assert (BL : forall b, (forall a k sc, good a k sc -> roots (fst (fst (w_blk a k b))) = g_blk lb sc (fn a) b) ->
     forall a k k' sc, good a k sc -> roots (fst (fst (w_blk (enter a k' b) (next_block k) b))) = g_blk lb sc (fn a) b).
  { intros b H a k k' sc G. apply (H (enter a k' b)). now apply GE. }
  assert (FU : forall b, (forall a k sc, good a k sc -> roots (fst (fst (w_blk a k b))) = g_blk lb sc (fn a) b) ->
     forall a k x xs sc sc', good a k sc -> (forall y, mem y sc' = mem y (xs ++ sc)) ->
     roots (fst (fst (w_blk (enter (enter_fun a k x xs) k b) (next_block (next_decl k)) b))) = g_blk lb sc' (into (fn a) x) b).
  { intros b H a k x xs sc sc' G M. rewrite (H _ _ sc'); [reflexivity|].
    apply good_enter. eapply good_fun; [exact G| |exact M]. apply later_fun. }
  apply prog_all; intros; try split; intros; cbn [w_ex w_exs w_tgts w_its w_st w_blk w_ifs w_els fst snd];
    repeat match goal with H : P_exs _ |- _ => destruct H end;
    cbn [g_ex g_exs g_tgts g_its g_st g_blk g_ifs g_els];
    repeat (rewrite ?app_fst, ?roots_app; cbn [fst snd]); auto.
  all: try match goal with |- context [match ?e with XConst _ => _ | _ => _ end] => is_var e; destruct e end; cbn [fst snd].
  all: rewrite ?roots_new; unfold fun_params; rewrite ?roots_new; cbn [app].
  all: repeat match goal with G : good ?a _ ?sc |- context [roots (var ?a ?h ?x)] => rewrite (roots_var a sc h x (proj1 G)) end.
  all: repeat match goal with
    | H : forall a k sc, good a k sc -> roots (fst (w_ex a k ?e)) = _, G : good ?a _ ?sc |- context [roots (fst (w_ex ?a ?k ?e))] => rewrite (H a k sc) by gd
    | H : forall a k sc, good a k sc -> roots (fst (w_exs a k ?e)) = _, G : good ?a _ ?sc |- context [roots (fst (w_exs ?a ?k ?e))] => rewrite (H a k sc) by gd
    | H : forall a k sc, good a k sc -> roots (fst (w_tgts a k ?e)) = _, G : good ?a _ ?sc |- context [roots (fst (w_tgts ?a ?k ?e))] => rewrite (H a k sc) by gd
    | H : forall a k sc, good a k sc -> roots (fst (w_its a k ?e)) = _, G : good ?a _ ?sc |- context [roots (fst (w_its ?a ?k ?e))] => rewrite (H a k sc) by gd
    | H : forall a k sc, good a k sc -> roots (fst (w_ifs a k ?e)) = _, G : good ?a _ ?sc |- context [roots (fst (w_ifs ?a ?k ?e))] => rewrite (H a k sc) by gd
    | H : forall a k sc, good a k sc -> roots (fst (w_els a k ?e)) = _, G : good ?a _ ?sc |- context [roots (fst (w_els ?a ?k ?e))] => rewrite (H a k sc) by gd
    | H : forall a k sc, good a k sc -> roots (fst (fst (w_st a k ?e))) = _, G : good ?a _ ?sc |- context [roots (fst (fst (w_st ?a ?k ?e)))] => rewrite (H a k sc) by gd
    | H : forall a k sc, good a k sc -> roots (fst (fst (w_blk a k ?e))) = _, G : good ?a _ ?sc |- context [roots (fst (fst (w_blk (enter ?a ?k' ?e) (next_block ?k) ?e)))] =>
        rewrite (BL e H a k k' sc) by gd
    end; auto.
  - apply FU with sc; [assumption|assumption|reflexivity].
  - f_equal. match goal with H : forall a k sc, good a k sc -> roots (fst (w_ex a k c)) = _ |- _ => rewrite (H _ _ (brought b ++ sc)) end; [reflexivity|].
    destruct H1 as (S & K & F). split; [|split; [|exact F]].
    + eapply blk_sees; [|reflexivity]. apply GE. now split.
    + pose proof (grow_blk b (enter a k b) (next_block k)) as L. unfold later in L. cbn in L. lia.
  - do 3 f_equal. match goal with H : forall a k sc, good a k sc -> roots (fst (fst (w_blk a k b))) = _ |- _ => rewrite (H _ _ (x :: sc)) end; [reflexivity|].
    apply good_enter. match goal with G : good ?a ?k ?sc |- good ?a' ?k' ?sc' => apply (good_new a k k' (fst k) (depth a + 1) (fdepth a) [x] sc sc' a' G); [lat|lia|apply G|apply G|reflexivity|reflexivity] end.
  - f_equal. match goal with H : forall a k sc, good a k sc -> roots (fst (fst (w_blk a k b))) = _ |- _ => rewrite (H _ _ (xs ++ sc)) end; [reflexivity|].
    apply good_enter. match goal with G : good ?a ?k ?sc |- good ?a' ?k' ?sc' => apply (good_new a k k' (fst k) (depth a + 1) (fdepth a) xs sc sc' a' G); [lat|lia|apply G|apply G|reflexivity|reflexivity] end.
  - refine (FU b H (with_env a (rev (locals_of (fst k) (depth a) (fdepth a) [x]) ++ env a)) (next_decl k) (Some x) (param_names ps) (x :: sc) (named ps ++ x :: sc) _ _); [|reflexivity].
    match goal with G : good ?a ?k ?sc |- good ?a' ?k' ?sc' => apply (good_new a k k' (fst k) (depth a) (fdepth a) [x] sc sc' a' G); [lat|lia|apply G|apply G|reflexivity|reflexivity] end.
  - f_equal. match goal with H : forall a k sc, good a k sc -> roots (fst (fst (w_blk a k b))) = _ |- _ => apply (FU b H) with (sc := sc) end; [assumption|].
    intro y. unfold self_params, self_of. destruct meth; cbn [is_some]; reflexivity.
  - destruct (lookup_label (labs a) x false); reflexivity.
  - f_equal. match goal with H : forall a k sc, good a k sc -> roots (fst (fst (w_blk a k b))) = _ |- _ => rewrite (H _ _ (brings s ++ sc)) end; [reflexivity|].
    match goal with G : good ?a ?k ?sc |- good ?a' ?k' ?sc' => apply (good_new a k k' (fst k) (depth a) (fdepth a) (brings s) sc sc' a' G); [lat|lia|apply G|apply G|apply st_env|reflexivity] end.
Qed.

Lemma nodes_globals b : roots (nodes lb b) = globals lb b.
Proof.
  unfold nodes, globals. destruct walk_globals as (_ & _ & _ & _ & H & _). rewrite (H b _ _ []); [reflexivity|].
  apply good_enter. split; [|cbn; lia]. exists []. split; [reflexivity|]. split; [now intros n v []|reflexivity].
Qed.
End Globals.
