(** Lemmas for the linter: locals. *)
From Coq Require Import String List ZArith Bool Lia.
From Verif Require Import M_Base L_Util M_Fold M_Token M_Expr M_Stmt M_Rename M_Lint S_Lint L_Stmt L_Lint.
Import ListNotations.
Local Opaque str env_name print_name self_name init_name.

Lemma same_id_true a b : same_id a b = true <-> a = b.
Proof.
  unfold same_id. destruct a as [a a'], b as [b b']. cbn. rewrite andb_true_iff, !Nat.eqb_eq. split; [intros [-> ->]; reflexivity|intros [= -> ->]; auto].
Qed.
Lemma same_id_false a b : same_id a b = false <-> a <> b.
Proof. rewrite <- same_id_true. now destruct (same_id a b). Qed.

Lemma is_in_app x a b : is_in x (a ++ b) = is_in x a || is_in x b.
Proof. apply existsb_app. Qed.

(** ** Does a local stand among the nodes? *)
Definition stands (t : bool) (v : nat * nat) (d : vnode) : bool :=
  match d with NLocal _ w h _ => Bool.eqb (any_target h) t && same_id (lid w) v | _ => false end.
Definition onb (t : bool) (v : nat * nat) (ds : list vnode) : bool := existsb (stands t v) ds.
Lemma onb_app t v a b : onb t v (a ++ b) = onb t v a || onb t v b.
Proof. apply existsb_app. Qed.
Lemma onb_new t v up q ls : onb t v (new_nodes up q ls) = false.
Proof. induction ls as [|[n w] ls IH]; cbn; auto. Qed.
Lemma onb_params t v a k i ps : onb t v (fun_params a k i ps) = false.
Proof. apply onb_new. Qed.

(** [x] is the name of the local [v], if it can be seen. *)
Definition vis_ok (e : list (name * local)) (v : nat * nat) (x : name) (vis : bool) : Prop :=
  forall y, (match lookup e y with Some w => same_id (lid w) v | None => false end) = vis && zeqb_list y x.

Lemma vis_new e v x vis num d fd xs : vis_ok e v x vis -> fst v <> num ->
  vis_ok (rev (locals_of num d fd xs) ++ e) v x (vis && negb (is_in x xs)).
Proof.
  intros H N y. rewrite lookup_app. pose proof (lookup_names (rev (locals_of num d fd xs)) y) as L.
  rewrite map_rev, locals_names, mem_rev in L. destruct (lookup (rev (locals_of num d fd xs)) y) as [w|] eqn:E.
  - apply lookup_in, in_rev, in_locals in E. replace (same_id (lid w) v) with false.
    + destruct (zeqb_list y x) eqn:Z; [|now rewrite andb_false_r]. apply zeqb_list_true in Z. subst y.
      change (true = is_in x xs) in L. rewrite <- L. now rewrite andb_false_r.
    + symmetry. apply same_id_false. intro F. rewrite F in E. tauto.
  - rewrite H. destruct (zeqb_list y x) eqn:Z; [|now rewrite !andb_false_r]. apply zeqb_list_true in Z. subst y.
    change (false = is_in x xs) in L. rewrite <- L. now destruct vis.
Qed.

(** the numbers from [k] to [k'] are not of [v] *)
Definition out (v : nat * nat) (k k' : numbers) : Prop := (fst v < fst k)%nat \/ (fst k' <= fst v)%nat.
Lemma out_sub v k k' k1 k2 : out v k k' -> later k k1 -> later k2 k' -> out v k1 k2.
Proof. unfold out, later. lia. Qed.
Lemma out_num v k k' : out v k k' -> later (next_decl k) k' -> fst v <> fst k.
Proof. unfold out, later. cbn. lia. Qed.
Lemma out_num2 v k k' : out v k k' -> later (next_decl (next_decl k)) k' -> fst v <> S (fst k).
Proof. unfold out, later. cbn. lia. Qed.

Section Stands.
Context (t : bool) (v : nat * nat) (x : name) (not_env : zeqb_list env_name x = false).

Lemma onb_var a vis h y : vis_ok (env a) v x vis -> onb t v (var a h y) = vis && (Bool.eqb (any_target h) t && zeqb_list x y).
Proof.
  intro V. unfold var. pose proof (V y) as Vy. pose proof (V env_name) as Ve. rewrite not_env, andb_false_r in Ve. rewrite (zeq_sym x y).
  destruct (lookup (env a) y) as [w|].
  - cbn. rewrite orb_false_r, Vy. destruct vis, (Bool.eqb (any_target h) t), (zeqb_list y x); reflexivity.
  - destruct (lookup (env a) env_name) as [w|]; cbn; rewrite ?Ve; destruct vis, (Bool.eqb (any_target h) t), (zeqb_list y x), t; cbn in *; congruence.
Qed.
Lemma onb_use a vis y : vis_ok (env a) v x vis -> onb t v (var a Use y) = vis && use_of t x y.
Proof. intro V. rewrite (onb_var a vis Use y V). unfold use_of. now destruct t. Qed.
Lemma onb_tgt a vis h y : vis_ok (env a) v x vis -> any_target h = true -> onb t v (var a h y) = vis && target t x y.
Proof. intros V T. rewrite (onb_var a vis h y V), T. unfold target. now destruct t. Qed.

Lemma vis_blk b : forall a k vis, vis_ok (env a) v x vis -> out v k (snd (fst (w_blk a k b))) ->
  vis_ok (snd (w_blk a k b)) v x (vis && negb (is_in x (brought b))).
Proof.
  induction b as [|s b IH]; intros a k vis V O; cbn [w_blk brought fst snd] in *.
  - cbn. now rewrite andb_true_r.
  - assert (E : vis && negb (is_in x (brought b ++ brings s)) = vis && negb (is_in x (brings s)) && negb (is_in x (brought b))).
    { rewrite is_in_app, negb_orb. destruct vis, (is_in x (brought b)), (is_in x (brings s)); reflexivity. }
    rewrite E. apply IH.
    + cbn. rewrite st_env. destruct (brings s) as [|y ys] eqn:B; [cbn; now rewrite andb_true_r|].
      apply vis_new; [exact V|]. intro F. destruct O as [O|O]; [lia|].
      assert (L : later (next_decl k) (snd (fst (w_blk (with_env a (snd (w_st a k s))) (snd (fst (w_st a k s))) b)))).
      { eapply later_trans; [|apply grow_blk]. destruct s; try discriminate B; cbn [w_st fst snd]; rewrite ?app_snd; cbn [fst snd]; lat. }
      unfold later in L. cbn in L. lia.
    + eapply out_sub; [exact O|lat|lat].
Qed.

Definition O_exs es := (forall a k vis, vis_ok (env a) v x vis -> out v k (snd (w_exs a k es)) -> onb t v (fst (w_exs a k es)) = vis && on_exs t x es) /\
                       (forall a k vis, vis_ok (env a) v x vis -> out v k (snd (w_tgts a k es)) -> onb t v (fst (w_tgts a k es)) = vis && on_tgts t x es).

Ltac ou := match goal with O : out ?v ?k ?k' |- out ?v _ _ => apply (out_sub v k k' _ _ O); lat end.
Lemma on_tail b tail : on_blk t x b tail = on_blk t x b false || (negb (is_in x (brought b)) && tail).
Proof.
  induction b as [|s b IH]; cbn [on_blk brought]; [now cbn|]. rewrite IH, is_in_app, negb_orb.
  destruct (on_st t x s), (is_in x (brings s)), (on_blk t x b false), (is_in x (brought b)); reflexivity.
Qed.
Ltac bools := repeat match goal with |- context [on_ex t x ?e] => destruct (on_ex t x e) | |- context [on_exs t x ?e] => destruct (on_exs t x e)
    | |- context [on_tgts t x ?e] => destruct (on_tgts t x e) | |- context [on_its t x ?e] => destruct (on_its t x e)
    | |- context [on_st t x ?e] => destruct (on_st t x e) | |- context [on_blk t x ?e false] => destruct (on_blk t x e false)
    | |- context [on_ifs t x ?e] => destruct (on_ifs t x e) | |- context [on_els t x ?e] => destruct (on_els t x e)
    | |- context [is_in x ?l] => destruct (is_in x l) | |- context [use_of t x ?y] => destruct (use_of t x y)
    | |- context [target t x ?y] => destruct (target t x y) | |- context [zeqb_list x ?y] => destruct (zeqb_list x y) end.

Lemma walk_stands :
  (forall e a k vis, vis_ok (env a) v x vis -> out v k (snd (w_ex a k e)) -> onb t v (fst (w_ex a k e)) = vis && on_ex t x e) /\
  (forall es, O_exs es) /\
  (forall i a k vis, vis_ok (env a) v x vis -> out v k (snd (w_its a k i)) -> onb t v (fst (w_its a k i)) = vis && on_its t x i) /\
  (forall s a k vis, vis_ok (env a) v x vis -> out v k (snd (fst (w_st a k s))) -> onb t v (fst (fst (w_st a k s))) = vis && on_st t x s) /\
  (forall b a k vis, vis_ok (env a) v x vis -> out v k (snd (fst (w_blk a k b))) -> onb t v (fst (fst (w_blk a k b))) = vis && on_blk t x b false) /\
  (forall i a k vis, vis_ok (env a) v x vis -> out v k (snd (w_ifs a k i)) -> onb t v (fst (w_ifs a k i)) = vis && on_ifs t x i) /\
  (forall e a k vis, vis_ok (env a) v x vis -> out v k (snd (w_els a k e)) -> onb t v (fst (w_els a k e)) = vis && on_els t x e).
Proof.
  assert (FU : forall b, (forall a k vis, vis_ok (env a) v x vis -> out v k (snd (fst (w_blk a k b))) -> onb t v (fst (fst (w_blk a k b))) = vis && on_blk t x b false) ->
    forall a k f xs vis, vis_ok (env a) v x vis -> out v k (snd (fst (w_blk (enter (enter_fun a k f xs) k b) (next_block (next_decl k)) b))) ->
    onb t v (fst (fst (w_blk (enter (enter_fun a k f xs) k b) (next_block (next_decl k)) b))) = vis && (negb (is_in x xs) && on_blk t x b false)).
  { intros b H a k f xs vis V O. rewrite (H _ _ (vis && negb (is_in x xs))); [now rewrite andb_assoc| |ou].
    cbn [env enter enter_fun]. apply vis_new; [exact V|]. eapply out_num; [exact O|]. lat. }
  apply prog_all; intros; try split; intros; cbn [w_ex w_exs w_tgts w_its w_st w_blk w_ifs w_els fst snd] in *;
    repeat match goal with H : O_exs _ |- _ => destruct H end;
    cbn [on_ex on_exs on_tgts on_its on_st on_blk on_ifs on_els];
    repeat (rewrite ?app_fst, ?onb_app, ?onb_params, ?onb_new; cbn [fst snd orb]);
    repeat match goal with O : out _ _ _ |- _ => progress (repeat (rewrite app_snd in O; cbn [fst snd] in O)) end;
    rewrite ?andb_false_r; auto.
  all: try match goal with |- context [match ?e with XConst _ => _ | _ => _ end] => is_var e; destruct e end; cbn [fst snd] in *.
  all: repeat match goal with
    | V : vis_ok (env ?a) v x ?vis |- context [onb t v (var ?a Use ?y)] => rewrite (onb_use a vis y V)
    | V : vis_ok (env ?a) v x ?vis |- context [onb t v (var ?a ?h ?y)] => rewrite (onb_tgt a vis h y V eq_refl)
    | H : forall a k vis, vis_ok (env a) v x vis -> _ -> onb t v (fst (w_ex a k ?e)) = _, V : vis_ok (env ?a) v x ?vis |- context [onb t v (fst (w_ex ?a ?k ?e))] => rewrite (H a k vis V) by ou
    | H : forall a k vis, vis_ok (env a) v x vis -> _ -> onb t v (fst (w_exs a k ?e)) = _, V : vis_ok (env ?a) v x ?vis |- context [onb t v (fst (w_exs ?a ?k ?e))] => rewrite (H a k vis V) by ou
    | H : forall a k vis, vis_ok (env a) v x vis -> _ -> onb t v (fst (w_tgts a k ?e)) = _, V : vis_ok (env ?a) v x ?vis |- context [onb t v (fst (w_tgts ?a ?k ?e))] => rewrite (H a k vis V) by ou
    | H : forall a k vis, vis_ok (env a) v x vis -> _ -> onb t v (fst (w_its a k ?e)) = _, V : vis_ok (env ?a) v x ?vis |- context [onb t v (fst (w_its ?a ?k ?e))] => rewrite (H a k vis V) by ou
    | H : forall a k vis, vis_ok (env a) v x vis -> _ -> onb t v (fst (w_ifs a k ?e)) = _, V : vis_ok (env ?a) v x ?vis |- context [onb t v (fst (w_ifs ?a ?k ?e))] => rewrite (H a k vis V) by ou
    | H : forall a k vis, vis_ok (env a) v x vis -> _ -> onb t v (fst (w_els a k ?e)) = _, V : vis_ok (env ?a) v x ?vis |- context [onb t v (fst (w_els ?a ?k ?e))] => rewrite (H a k vis V) by ou
    | H : forall a k vis, vis_ok (env a) v x vis -> _ -> onb t v (fst (fst (w_st a k ?e))) = _, V : vis_ok (env ?a) v x ?vis |- context [onb t v (fst (fst (w_st ?a ?k ?e)))] => rewrite (H a k vis V) by ou
    | H : forall a k vis, vis_ok (env a) v x vis -> _ -> onb t v (fst (fst (w_blk a k ?e))) = _, V : vis_ok (env ?a) v x ?vis |- context [onb t v (fst (fst (w_blk (enter ?a ?k' ?e) ?k ?e)))] =>
        rewrite (H (enter a k' e) k vis V) by ou
    end.
  all: try (destruct vis; cbn [andb orb]; bools; reflexivity).
  - (* repeat *)
    match goal with H : forall a k vis, vis_ok (env a) v x vis -> _ -> onb t v (fst (w_ex a k c)) = _ |- _ =>
      rewrite (H _ _ (vis && negb (is_in x (brought b)))); [| |ou] end.
    + rewrite (on_tail b (on_ex t x c)). destruct vis; bools; reflexivity.
    + cbn [env with_env enter]. apply vis_blk; [assumption|ou].
  - match goal with H : forall a k vis, vis_ok (env a) v x vis -> _ -> onb t v (fst (fst (w_blk a k b))) = _ |- _ =>
      rewrite (H _ _ (vis && negb (is_in x [x0]))); [| |ou] end.
    + cbn [is_in existsb]. rewrite orb_false_r. destruct vis; bools; reflexivity.
    + cbn [env with_env enter]. apply vis_new; [assumption|]. match goal with O : out v _ _ |- _ => apply (out_num _ _ _ O); lat end.
  - match goal with H : forall a k vis, vis_ok (env a) v x vis -> _ -> onb t v (fst (fst (w_blk a k b))) = _ |- _ =>
      rewrite (H _ _ (vis && negb (is_in x xs))); [| |ou] end.
    + destruct vis; bools; reflexivity.
    + cbn [env with_env enter]. apply vis_new; [assumption|]. match goal with O : out v _ _ |- _ => apply (out_num _ _ _ O); lat end.
  - rewrite (FU b H (with_env a (rev (locals_of (fst k) (depth a) (fdepth a) [x0]) ++ env a)) (next_decl k) (Some x0) (param_names ps) (vis && negb (is_in x [x0]))); [| |ou].
    + cbn [is_in existsb]. rewrite orb_false_r. change (param_names ps) with (named ps). destruct vis; bools; reflexivity.
    + cbn [env with_env enter]. apply vis_new; [assumption|]. match goal with O : out v _ _ |- _ => apply (out_num _ _ _ O); lat end.
  - match goal with V : vis_ok (env a) v x vis |- _ => rewrite (FU b H a k _ _ vis V) by ou end.
    assert (E : self_params (is_some meth) ps = self_of meth ++ named ps) by (destruct meth; reflexivity).
    rewrite E. match goal with V : vis_ok (env a) v x vis |- _ => destruct path as [|? ?]; [destruct meth|]; cbn [plain_fun];
      [rewrite (onb_use a vis x0 V)|rewrite (onb_tgt a vis FunAssign x0 V eq_refl)|rewrite (onb_use a vis x0 V)] end; destruct vis; bools; reflexivity.
  - destruct (lookup_label (labs a) x0 false); reflexivity.
  - change (str "print") with print_name. destruct vis; bools; reflexivity.
  - match goal with H : forall a k vis, vis_ok (env a) v x vis -> _ -> onb t v (fst (fst (w_blk a k b))) = _ |- _ =>
      rewrite (H _ _ (vis && negb (is_in x (brings s)))); [| |ou] end.
    + destruct vis; bools; reflexivity.
    + cbn [env with_env]. assert (V := vis_blk (BCons s BNil) a k vis). cbn [w_blk fst snd brought app] in V. apply V; [assumption|ou].
Qed.
End Stands.
