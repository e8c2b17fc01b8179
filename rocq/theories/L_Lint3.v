(** Lemmas for the linter: what is said about locals. *)
From Coq Require Import String List ZArith Bool Lia.
From Verif Require Import M_Base L_Util M_Fold M_Token M_Expr M_Stmt M_Rename M_Lint S_Lint L_Stmt L_Lint L_Lint2.
Import ListNotations.

Lemma under_env x : under x = false -> zeqb_list env_name x = false.
Proof. intro U. apply zeqb_list_false. intros <-. vm_compute in U. discriminate U. Qed.
Local Opaque str env_name print_name self_name init_name.

(** all numbers of the locals in sight come before [num] *)
Definition below (e : list (name * local)) (num : nat) : Prop := forall y w, In (y, w) e -> (fst (lid w) < num)%nat.
Lemma below_le e n n' : below e n -> (n <= n')%nat -> below e n'.
Proof. intros H L y w I. specialize (H y w I). lia. Qed.
Lemma below_new e num d fd xs : below e num -> below (rev (locals_of num d fd xs) ++ e) (S num).
Proof. intros H y w I. apply in_app_or in I. destruct I as [I|I]; [apply in_rev, in_locals in I; lia|specialize (H y w I); lia]. Qed.
Lemma vis_none e v x num : below e num -> (num <= fst v)%nat -> vis_ok e v x false.
Proof.
  intros B L y. cbn. destruct (lookup e y) as [w|] eqn:E; [|reflexivity]. apply lookup_in, B in E. apply same_id_false. intros <-. lia.
Qed.
Lemma places_app num i a b : places num i (a ++ b) = places num i a ++ places num (i + length a) b.
Proof.
  revert i. induction a as [|x a IH]; intro i; cbn [places app length]; [now rewrite Nat.add_0_r|].
  rewrite IH. do 3 f_equal. lia.
Qed.
Lemma locals_app num d fd a b : locals_of num d fd (a ++ b) = locals_of num d fd a ++ map (fun '(n, v) => (n, Local v d fd)) (places num (length a) b).
Proof. unfold locals_of. now rewrite places_app, map_app. Qed.
Lemma map_fst_places num i d fd ns : map fst (map (fun '(n, v) => (n, Local v d fd)) (places num i ns)) = ns.
Proof. rewrite map_map. transitivity (map fst (places num i ns)); [apply map_ext; now intros [? ?]|apply places_names]. Qed.

Lemma vis_this e num d fd pre x xs : below e num ->
  vis_ok (rev (locals_of num d fd (pre ++ x :: xs)) ++ e) (num, length pre) x (negb (is_in x xs)).
Proof.
  intros B y. rewrite locals_app. cbn [places map]. rewrite rev_app_distr. cbn [rev]. rewrite <- !app_assoc. cbn [app].
  set (late := map _ _). rewrite lookup_app. pose proof (lookup_names (rev late) y) as L.
  unfold late in L at 2. rewrite map_rev, map_fst_places, mem_rev in L.
  destruct (lookup (rev late) y) as [w|] eqn:E.
  - apply lookup_in, in_rev in E. unfold late in E. apply in_map_iff in E. destruct E as ((n & i) & [= -> <-] & E). apply in_places in E. cbn [lid].
    replace (same_id i (num, length pre)) with false by (symmetry; apply same_id_false; intros ->; cbn in E; lia).
    destruct (zeqb_list y x) eqn:Z; [|now rewrite andb_false_r]. apply zeqb_list_true in Z. subst y. change (true = is_in x xs) in L. now rewrite <- L.
  - cbn [lookup]. rewrite (zeq_sym y x). destruct (zeqb_list x y) eqn:Z.
    + apply zeqb_list_true in Z. subst y. change (false = is_in x xs) in L. rewrite <- L. cbn [lid]. apply same_id_true. reflexivity.
    + rewrite andb_false_r. destruct (lookup (rev (locals_of num d fd pre) ++ e) y) as [w|] eqn:F; [|reflexivity].
      apply lookup_in, in_app_or in F. apply same_id_false. intro I. destruct F as [F|F].
      * apply in_rev, in_locals in F. destruct F as (_ & _ & _ & F). rewrite I in F. cbn [snd] in F.
        assert (N : nth_error pre (length pre) <> None) by congruence. apply nth_error_Some in N. lia.
      * apply B in F. rewrite I in F. cbn in F. lia.
Qed.

Section Say.
Context (U : bool -> nat * nat -> bool).
Definition told (d : vnode) : list message :=
  match d with
  | NNew n v _ quiet => if negb (U false (lid v)) && negb (under n) then if U true (lid v) then [MLocalAssigned n] else if quiet then [] else [MLocalUnused n] else []
  | _ => []
  end.
Definition say (ds : list vnode) : list message := flat_map told ds.
Lemma say_app a b : say (a ++ b) = say a ++ say b.
Proof. apply flat_map_app. Qed.
Lemma say_var a h x : say (var a h x) = [].
Proof. unfold var. destruct (lookup (env a) x); [reflexivity|]. now destruct (lookup (env a) env_name). Qed.

(** new locals *)
Lemma say_new up q num d fd (on : bool -> name -> bool) n xs :
  (forall t pre x ys, xs = pre ++ x :: ys -> under x = false -> U t (num, length pre) = negb (is_in x ys) && on t x) ->
  (forall i, (i < length xs)%nat -> q i = Nat.ltb i n) ->
  say (new_nodes up q (locals_of num d fd xs)) = say_all on n xs.
Proof.
  unfold new_nodes, locals_of. rewrite map_map.
  assert (G : forall i m ys, (forall t pre x zs, ys = pre ++ x :: zs -> under x = false -> U t (num, i + length pre)%nat = negb (is_in x zs) && on t x) ->
    (forall j, (j < length ys)%nat -> q (i + j)%nat = Nat.ltb j m) ->
    say (map (fun x => let '(n0, v) := let '(n0, v) := x in (n0, Local v d fd) in NNew n0 v (lookup up n0) (q (snd (lid v)))) (places num i ys)) = say_all on m ys).
  { intros i m ys. revert i m. induction ys as [|y ys IH]; intros i m HU HQ; [reflexivity|].
    cbn [places map say_all]. unfold say in *. cbn [flat_map]. f_equal.
    - cbn [told lid snd]. unfold say_unused. destruct (under y) eqn:E; cbn [orb negb]; [now rewrite andb_false_r|]. rewrite andb_true_r.
      pose proof (HU false [] y ys eq_refl E) as H1. pose proof (HU true [] y ys eq_refl E) as H2. cbn [length] in H1, H2. rewrite Nat.add_0_r in H1, H2.
      rewrite H1, H2. specialize (HQ O ltac:(cbn; lia)). rewrite Nat.add_0_r in HQ. rewrite HQ. now destruct (negb (is_in y ys) && on false y).
    - apply IH.
      + intros t pre x zs -> E. replace (S i + length pre)%nat with (i + length (y :: pre))%nat by (cbn; lia). apply HU; auto.
      + intros j J. replace (S i + j)%nat with (i + S j)%nat by lia. rewrite HQ by (cbn; lia). destruct m; [destruct j; reflexivity|reflexivity]. }
  intros HU HQ. apply (G O n xs); auto.
Qed.

Definition inr (v : nat * nat) (k k' : numbers) : Prop := (fst k <= fst v < fst k')%nat.
Definition agrees (k k' : numbers) (ds : list vnode) (T : bool -> nat * nat -> bool) : Prop :=
  forall t v, inr v k k' -> U t v = onb t v ds || T t v.
Definition rest_ok (e : list (name * local)) (k k' : numbers) (rest : bool -> name -> bool) (R : bool -> nat * nat -> bool) : Prop :=
  forall t v x vis, under x = false -> inr v k k' -> vis_ok e v x vis -> R t v = vis && rest t x.
Definition no (_ : bool) (_ : nat * nat) : bool := false.
Lemma rest_none e k k' : rest_ok e k k' none no.
Proof. intros t v x vis _ _ _. unfold no, none. now rewrite andb_false_r. Qed.

(** what a piece does not say *)
Lemma silent : forall t v num a k, below (env a) num -> (num <= fst v)%nat ->
  (forall e, out v k (snd (w_ex a k e)) -> onb t v (fst (w_ex a k e)) = false) /\
  (forall es, out v k (snd (w_exs a k es)) -> onb t v (fst (w_exs a k es)) = false) /\
  (forall es, out v k (snd (w_tgts a k es)) -> onb t v (fst (w_tgts a k es)) = false) /\
  (forall i, out v k (snd (w_its a k i)) -> onb t v (fst (w_its a k i)) = false) /\
  (forall s, out v k (snd (fst (w_st a k s))) -> onb t v (fst (fst (w_st a k s))) = false) /\
  (forall b, out v k (snd (fst (w_blk a k b))) -> onb t v (fst (fst (w_blk a k b))) = false) /\
  (forall i, out v k (snd (w_ifs a k i)) -> onb t v (fst (w_ifs a k i)) = false) /\
  (forall e, out v k (snd (w_els a k e)) -> onb t v (fst (w_els a k e)) = false).
Proof.
  intros t v num a k B L. assert (V : vis_ok (env a) v [] false) by now apply vis_none with num.
  destruct (walk_stands t v [] (under_env [] eq_refl)) as (W1 & W2 & W3 & W4 & W5 & W6 & W7).
  repeat split; intros p O.
  - exact (W1 p a k false V O).
  - exact (proj1 (W2 p) a k false V O).
  - exact (proj2 (W2 p) a k false V O).
  - exact (W3 p a k false V O).
  - exact (W4 p a k false V O).
  - exact (W5 p a k false V O).
  - exact (W6 p a k false V O).
  - exact (W7 p a k false V O).
Qed.
Lemma out_after v k1 k2 ka kb : inr v k1 k2 -> later kb k1 -> out v ka kb.
Proof. unfold inr, later, out. lia. Qed.
Lemma out_before v k1 k2 ka kb : inr v k1 k2 -> later k2 ka -> out v ka kb.
Proof. unfold inr, later, out. lia. Qed.
Lemma agrees_sub k k' ds T k1 k2 ds1 T1 : agrees k k' ds T -> later k k1 -> later k2 k' ->
  (forall t v, inr v k1 k2 -> onb t v ds || T t v = onb t v ds1 || T1 t v) -> agrees k1 k2 ds1 T1.
Proof. intros A L1 L2 H t v I. rewrite A, H; auto. unfold inr, later in *. lia. Qed.

Ltac outs := match goal with I : inr ?v ?k1 ?k2 |- out ?v _ _ => first [apply (out_after v k1 k2 _ _ I); solve [lat] | apply (out_before v k1 k2 _ _ I); solve [lat]] end.
Ltac bnd := match goal with I : inr ?v ?k1 ?k2 |- (fst ?k <= fst ?v)%nat => apply (Nat.le_trans _ (fst k1)); [change (later k k1); lat|exact (proj1 I)]
                          | I : inr ?v ?k1 ?k2 |- (S (fst ?k) <= fst ?v)%nat => apply (Nat.le_trans _ (fst k1)); [change (later (next_decl k) k1); lat|exact (proj1 I)] end.
Ltac sil :=
  match goal with
  | |- context [onb ?t ?v (fst (w_ex ?a ?k ?e))] => rewrite (proj1 (silent t v _ a k ltac:(eassumption) ltac:(bnd)) e) by outs
  | |- context [onb ?t ?v (fst (w_exs ?a ?k ?e))] => rewrite (proj1 (proj2 (silent t v _ a k ltac:(eassumption) ltac:(bnd))) e) by outs
  | |- context [onb ?t ?v (fst (w_tgts ?a ?k ?e))] => rewrite (proj1 (proj2 (proj2 (silent t v _ a k ltac:(eassumption) ltac:(bnd)))) e) by outs
  | |- context [onb ?t ?v (fst (w_its ?a ?k ?e))] => rewrite (proj1 (proj2 (proj2 (proj2 (silent t v _ a k ltac:(eassumption) ltac:(bnd))))) e) by outs
  | |- context [onb ?t ?v (fst (fst (w_st ?a ?k ?e)))] => rewrite (proj1 (proj2 (proj2 (proj2 (proj2 (silent t v _ a k ltac:(eassumption) ltac:(bnd)))))) e) by outs
  | |- context [onb ?t ?v (fst (fst (w_blk ?a ?k ?e)))] => rewrite (proj1 (proj2 (proj2 (proj2 (proj2 (proj2 (silent t v _ a k ltac:(eassumption) ltac:(bnd))))))) e) by outs
  | |- context [onb ?t ?v (fst (w_ifs ?a ?k ?e))] => rewrite (proj1 (proj2 (proj2 (proj2 (proj2 (proj2 (proj2 (silent t v _ a k ltac:(eassumption) ltac:(bnd)))))))) e) by outs
  | |- context [onb ?t ?v (fst (w_els ?a ?k ?e))] => rewrite (proj2 (proj2 (proj2 (proj2 (proj2 (proj2 (proj2 (silent t v _ a k ltac:(eassumption) ltac:(bnd)))))))) e) by outs
  end.

Lemma silent_var t v num a h x : below (env a) num -> (num <= fst v)%nat -> onb t v (var a h x) = false.
Proof. intros B L. rewrite (onb_var t v [] (under_env [] eq_refl) a false h x); [reflexivity|]. now apply vis_none with num. Qed.
Lemma drop_rest e k k' ds rest R : below e (fst k) -> rest_ok e k k' rest R -> agrees k k' ds R -> agrees k k' ds no.
Proof.
  intros B RO A t v I. rewrite (A t v I). f_equal. rewrite (RO t v [] false eq_refl I); [reflexivity|]. apply vis_none with (fst k); [exact B|exact (proj1 I)].
Qed.
Ltac ag :=
  match goal with A : agrees ?k ?k' ?ds ?T |- agrees ?k1 ?k2 ?ds1 ?T1 => apply (agrees_sub k k' ds T k1 k2 ds1 T1 A); [lat|lat|] end;
  let t := fresh "t" in let v := fresh "v" in let I := fresh "I" in intros t v I;
  rewrite ?onb_app, ?onb_new, ?onb_params; 
  repeat match goal with |- context [onb t v (var ?a ?h ?x)] => rewrite (silent_var t v _ a h x ltac:(eassumption) ltac:(bnd)) end;
  repeat sil; unfold no; cbn [orb]; rewrite ?orb_false_r, ?orb_assoc; try reflexivity.
Ltac bel := match goal with B : below (env ?a) (fst ?k) |- below (env ?a) (fst ?ka) => apply (below_le _ _ _ B); change (later k ka); lat
                          | B : below (env ?a) (fst ?k) |- below (env (enter ?a _ _)) (fst ?ka) => apply (below_le _ _ _ B); change (later k ka); lat end.
Lemma below_st a k s : below (env a) (fst k) -> below (snd (w_st a k s)) (fst (snd (fst (w_st a k s)))).
Proof.
  intro B. rewrite st_env. destruct (brings s) as [|y ys] eqn:E.
  - cbn. apply (below_le _ _ _ B). change (later k (snd (fst (w_st a k s)))). lat.
  - apply (below_le _ (S (fst k))); [now apply below_new|]. change (later (next_decl k) (snd (fst (w_st a k s)))).
    destruct s; try discriminate E; cbn [w_st fst snd]; rewrite ?app_snd; cbn [fst snd]; lat.
Qed.
Lemma below_blk b : forall a k, below (env a) (fst k) -> below (snd (w_blk a k b)) (fst (snd (fst (w_blk a k b)))).
Proof. induction b as [|s b IH]; intros a k B; cbn [w_blk fst snd]; [exact B|]. apply IH. now apply below_st. Qed.

Definition S_blk b := forall a k rest R, below (env a) (fst k) -> agrees k (snd (fst (w_blk a k b))) (fst (fst (w_blk a k b))) R ->
     rest_ok (snd (w_blk a k b)) k (snd (fst (w_blk a k b))) rest R -> say (fst (fst (w_blk a k b))) = u_blk b rest.

(** [new] locals around a block of their own *)
Lemma blk_say a1 b up q n num d fd xs e k k' : below e num -> (num < fst k)%nat ->
  env a1 = rev (locals_of num d fd xs) ++ e -> S_blk b ->
  (forall t v, (num <= fst v < fst (snd (fst (w_blk (enter a1 k' b) k b))))%nat -> (fst v < S num \/ fst k <= fst v)%nat -> U t v = onb t v (fst (fst (w_blk (enter a1 k' b) k b)))) ->
  (forall i, (i < length xs)%nat -> q i = Nat.ltb i n) ->
  say (new_nodes up q (locals_of num d fd xs)) = say_all (body b) n xs /\
  say (fst (fst (w_blk (enter a1 k' b) k b))) = u_blk b none.
Proof.
  intros B L E H A Q. assert (G := grow_blk b (enter a1 k' b) k). unfold later in G. split.
  - apply say_new; [|exact Q]. intros t pre x ys X N. rewrite A by (cbn; lia).
    destruct (walk_stands t (num, length pre) x (under_env x N)) as (_ & _ & _ & _ & W & _ & _).
    apply W; [|left; cbn; lia]. cbn [env enter]. rewrite E, X. now apply vis_this.
  - apply (H _ _ none no); [| |apply rest_none].
    + cbn [env enter]. rewrite E. apply (below_le _ (S num)); [now apply below_new|lia].
    + intros t v I. unfold inr in I. rewrite A by lia. unfold no. now rewrite orb_false_r.
Qed.

Lemma quiet_ok implicit ps i : (i < length (self_params implicit ps))%nat ->
  quiet_param implicit ps i = Nat.ltb i (length (if implicit then [self_name] else []) + all_but_last ps).
Proof.
  unfold self_params, quiet_param, all_but_last. rewrite app_length. change (named ps) with (param_names ps). intro L.
  assert (Z : last ps None <> None -> param_names ps <> []).
  { clear. induction ps as [|p ps IH]; [intro F; now elim F|]. destruct ps as [|p' ps]; [destruct p; [discriminate|intro F; now elim F]|].
    intro F. change (last (p' :: ps) None <> None) in F. apply IH in F. destruct p; cbn [param_names flat_map app]; [discriminate|exact F]. }
  destruct (last ps None) as [y|].
  - specialize (Z ltac:(discriminate)). destruct (param_names ps) as [|w ws]; [now elim Z|]. clear Z. cbn [length pred] in *.
    destruct implicit; cbn [length andb orb] in *.
    + destruct i as [|i]; [reflexivity|]. change (Nat.eqb (S i) 0) with false. cbn [orb].
      destruct (Nat.ltb_spec (S i) (1 + length ws)); destruct (Nat.eqb_spec (S (S i)) (S (length ws) + 1)); lia || reflexivity.
    + destruct (Nat.ltb_spec i (0 + length ws)); destruct (Nat.eqb_spec (S i) (S (length ws) + 0)); lia || reflexivity.
  - cbn [negb]. rewrite orb_true_r. symmetry. apply Nat.ltb_lt. exact L.
Qed.

Lemma fun_say b a k f implicit ps : S_blk b -> below (env a) (fst k) ->
  agrees k (snd (fst (w_blk (enter (enter_fun a k f (self_params implicit ps)) k b) (next_block (next_decl k)) b)))
           (fst (fst (w_blk (enter (enter_fun a k f (self_params implicit ps)) k b) (next_block (next_decl k)) b))) no ->
  say (fun_params a k implicit ps) ++ say (fst (fst (w_blk (enter (enter_fun a k f (self_params implicit ps)) k b) (next_block (next_decl k)) b))) =
  say_all (body b) (length (if implicit then [self_name] else []) + all_but_last ps) (self_params implicit ps) ++ u_blk b none.
Proof.
  intros H B A. unfold fun_params. fold (self_params implicit ps).
  destruct (blk_say (enter_fun a k f (self_params implicit ps)) b (env a) (quiet_param implicit ps)
     (length (if implicit then [self_name] else []) + all_but_last ps) (fst k) (depth a + 1) (fdepth a + 1) (self_params implicit ps) (env a) (next_block (next_decl k)) k)
   as [E1 E2]; auto.
  - intros t v I1 _. rewrite (A t v I1). unfold no. now rewrite orb_false_r.
  - apply quiet_ok.
  - now rewrite E1, E2.
Qed.

Definition S_exs es :=
  (forall a k, below (env a) (fst k) -> agrees k (snd (w_exs a k es)) (fst (w_exs a k es)) no -> say (fst (w_exs a k es)) = u_exs es) /\
  (forall a k, below (env a) (fst k) -> agrees k (snd (w_tgts a k es)) (fst (w_tgts a k es)) no -> say (fst (w_tgts a k es)) = u_exs es).

Lemma told_all :
  (forall e a k, below (env a) (fst k) -> agrees k (snd (w_ex a k e)) (fst (w_ex a k e)) no -> say (fst (w_ex a k e)) = u_ex e) /\
  (forall es, S_exs es) /\
  (forall i a k, below (env a) (fst k) -> agrees k (snd (w_its a k i)) (fst (w_its a k i)) no -> say (fst (w_its a k i)) = u_its i) /\
  (forall s a k rest R, below (env a) (fst k) -> agrees k (snd (fst (w_st a k s))) (fst (fst (w_st a k s))) R ->
     rest_ok (snd (w_st a k s)) k (snd (fst (w_st a k s))) rest R -> say (fst (fst (w_st a k s))) = u_st s rest) /\
  (forall b a k rest R, below (env a) (fst k) -> agrees k (snd (fst (w_blk a k b))) (fst (fst (w_blk a k b))) R ->
     rest_ok (snd (w_blk a k b)) k (snd (fst (w_blk a k b))) rest R -> say (fst (fst (w_blk a k b))) = u_blk b rest) /\
  (forall i a k, below (env a) (fst k) -> agrees k (snd (w_ifs a k i)) (fst (w_ifs a k i)) no -> say (fst (w_ifs a k i)) = u_ifs i) /\
  (forall e a k, below (env a) (fst k) -> agrees k (snd (w_els a k e)) (fst (w_els a k e)) no -> say (fst (w_els a k e)) = u_els e).
Proof.
  apply prog_all; intros; try split; intros; cbn [w_ex w_exs w_tgts w_its w_st w_blk w_ifs w_els fst snd] in *;
    repeat match goal with H : S_exs _ |- _ => destruct H end;
    cbn [u_ex u_exs u_its u_st u_blk u_ifs u_els];
    repeat (rewrite ?app_fst, ?say_app, ?say_var; cbn [fst snd app]);
    repeat match goal with A : agrees _ _ _ _ |- _ => progress (repeat (rewrite ?app_snd, ?app_fst in A; cbn [fst snd] in A)) end;
    repeat match goal with A : rest_ok _ _ _ _ _ |- _ => progress (repeat (rewrite ?app_snd, ?app_fst in A; cbn [fst snd] in A)) end;
    auto.
  all: try match goal with |- context [match ?e with XConst _ => _ | _ => _ end] => is_var e; destruct e end; cbn [fst snd] in *.
  all: try match goal with A : agrees ?k ?k' ?ds ?R, RO : rest_ok (env ?a) ?k ?k' ?rest ?R, B : below (env ?a) (fst ?k) |- _ => apply (drop_rest _ _ _ _ _ _ B RO) in A; clear RO end.
  all: rewrite ?say_var; cbn [app].
  all: try match goal with B : below (env ?a) (fst ?k) |- context [rev (locals_of (fst ?k) ?d ?fd ?xs) ++ env ?a] => pose proof (below_new _ _ d fd xs B) end.
  all: repeat match goal with
    | H : forall a k, below (env a) (fst k) -> _ -> say (fst (w_ex a k ?e)) = _ |- context [say (fst (w_ex ?a ?k ?e))] => rewrite (H a k) by first [solve [bel]|solve [ag]]
    | H : forall a k, below (env a) (fst k) -> _ -> say (fst (w_exs a k ?e)) = _ |- context [say (fst (w_exs ?a ?k ?e))] => rewrite (H a k) by first [solve [bel]|solve [ag]]
    | H : forall a k, below (env a) (fst k) -> _ -> say (fst (w_tgts a k ?e)) = _ |- context [say (fst (w_tgts ?a ?k ?e))] => rewrite (H a k) by first [solve [bel]|solve [ag]]
    | H : forall a k, below (env a) (fst k) -> _ -> say (fst (w_its a k ?e)) = _ |- context [say (fst (w_its ?a ?k ?e))] => rewrite (H a k) by first [solve [bel]|solve [ag]]
    | H : forall a k, below (env a) (fst k) -> _ -> say (fst (w_ifs a k ?e)) = _ |- context [say (fst (w_ifs ?a ?k ?e))] => rewrite (H a k) by first [solve [bel]|solve [ag]]
    | H : forall a k, below (env a) (fst k) -> _ -> say (fst (w_els a k ?e)) = _ |- context [say (fst (w_els ?a ?k ?e))] => rewrite (H a k) by first [solve [bel]|solve [ag]]
    | H : forall a k rest R, below (env a) (fst k) -> _ -> _ -> say (fst (fst (w_blk a k ?e))) = _ |- context [say (fst (fst (w_blk (enter ?a ?k' ?e) ?k ?e)))] =>
        rewrite (H (enter a k' e) k none no) by first [solve [bel]|solve [ag]|apply rest_none]
    end; auto.
  - (* function *)
    match goal with H : forall a k rest R, _, A : agrees _ _ _ no |- _ => refine (fun_say _ a k None false ps H _ _) end; [assumption|].
    match goal with A : agrees _ _ _ no |- _ => intros t v I; rewrite (A t v I), onb_app, onb_params; reflexivity end.
  - (* repeat *)
    f_equal.
    + match goal with H : forall a k rest R, below _ _ -> _ |- _ => apply (H (enter a k b) (next_block k) (fun t x => on_ex t x c) (fun t v => onb t v (fst (w_ex
         (with_env (enter a k b) (snd (w_blk (enter a k b) (next_block k) b))) (snd (fst (w_blk (enter a k b) (next_block k) b))) c)))) end.
      * assumption.
      * match goal with A : agrees _ _ _ no |- _ => intros t v I; rewrite (A t v) end; [rewrite onb_app; unfold no; now rewrite orb_false_r|].
        unfold inr in *. assert (G := grow_ex c (with_env (enter a k b) (snd (w_blk (enter a k b) (next_block k) b))) (snd (fst (w_blk (enter a k b) (next_block k) b)))).
        unfold later in G. cbn in I. lia.
      * intros t v x vis N I V. destruct (walk_stands t v x (under_env x N)) as (W & _). apply W; [exact V|]. left. exact (proj2 I).
    + match goal with H : forall a k, below _ _ -> _ -> say (fst (w_ex a k c)) = _ |- _ => apply H end; [now apply (below_blk b (enter a k b) (next_block k))|ag].
  - (* for *)
    match goal with H : forall a k rest R, below _ _ -> _, A : agrees _ _ _ no, B : below (env a0) (fst k) |- _ => rename H into HB, A into HA, B into BE end.
    set (k1 := snd (w_ex a0 (next_decl k) a)) in *. set (k2 := snd (w_ex a0 k1 z)) in *. set (k3 := snd (w_exs a0 k2 step)) in *.
    assert (L1 : later (next_decl k) k1) by apply grow_ex. assert (L2 : later k1 k2) by apply grow_ex. assert (L3 : later k2 k3) by apply grow_exs.
    unfold later in L1, L2, L3. cbn [next_decl fst] in L1.
    destruct (blk_say (with_env a0 (rev (locals_of (fst k) (depth a0 + 1) (fdepth a0) [x]) ++ env a0)) b (env a0) loud 0 (fst k) (depth a0 + 1) (fdepth a0) [x] (env a0) (next_block k3) k3 BE ltac:(cbn; lia) eq_refl HB) as [E1 E2].
    + intros t v I O. cbn [next_block fst] in O. rewrite (HA t v I). rewrite !onb_app, onb_new. unfold no. rewrite orb_false_r.
      rewrite (proj1 (silent t v (fst k) a0 (next_decl k) BE (proj1 I)) a) by (unfold out; cbn [next_decl fst]; fold k1; lia).
      rewrite (proj1 (silent t v (fst k) a0 k1 BE (proj1 I)) z) by (unfold out; fold k2; lia).
      rewrite (proj1 (proj2 (silent t v (fst k) a0 k2 BE (proj1 I))) step) by (unfold out; fold k3; lia). reflexivity.
    + intros i I. reflexivity.
    + now rewrite E1, E2.
  - (* for in *)
    match goal with H : forall a k rest R, below _ _ -> _, A : agrees _ _ _ no, B : below (env a) (fst k) |- _ => rename H into HB, A into HA, B into BE end.
    set (k1 := snd (w_exs a (next_decl k) es)) in *.
    assert (L1 : later (next_decl k) k1) by apply grow_exs. unfold later in L1. cbn [next_decl fst] in L1.
    destruct (blk_say (with_env a (rev (locals_of (fst k) (depth a + 1) (fdepth a) xs) ++ env a)) b (env a) loud 0 (fst k) (depth a + 1) (fdepth a) xs (env a) (next_block k1) k1 BE ltac:(cbn; lia) eq_refl HB) as [E1 E2].
    + intros t v I O. cbn [next_block fst] in O. rewrite (HA t v I). rewrite !onb_app, onb_new. unfold no. rewrite orb_false_r.
      rewrite (proj1 (proj2 (silent t v (fst k) a (next_decl k) BE (proj1 I))) es) by (unfold out; cbn [next_decl fst]; fold k1; lia). reflexivity.
    + intros i I. reflexivity.
    + now rewrite E1, E2.
  - (* local *)
    match goal with A : agrees _ _ _ R, B : below (env a) (fst k) |- _ => rename A into HA, B into BE end.
    assert (L1 : later (next_decl k) (snd (w_exs a (next_decl k) es))) by apply grow_exs. unfold later in L1. cbn [next_decl fst] in L1.
    f_equal.
    + apply say_new; [|intros i I; reflexivity]. intros t pre x ys X N.
      assert (I : inr (fst k, length pre) k (snd (w_exs a (next_decl k) es))) by (unfold inr; cbn [fst]; lia).
      rewrite (HA t _ I), onb_app, onb_new.
      rewrite (proj1 (proj2 (silent t (fst k, length pre) (fst k) a (next_decl k) BE (proj1 I))) es) by (left; cbn; lia). cbn [orb].
      match goal with RO : rest_ok _ _ _ rest R |- _ => apply (RO t _ x _ N I) end. rewrite X. now apply vis_this.
    + match goal with H : forall a k, below _ _ -> _ -> say (fst (w_exs a k es)) = _ |- _ => apply H end.
      * apply (below_le _ _ _ BE). cbn; lia.
      * apply (agrees_sub _ _ _ _ _ _ _ _ HA); [unfold later; cbn; lia|unfold later; lia|]. intros t v I. rewrite onb_app, onb_new. cbn [orb]. f_equal.
        match goal with RO : rest_ok _ _ _ rest R |- _ => rewrite (RO t v [] false eq_refl) end; [reflexivity| |].
        -- unfold inr in *. cbn [next_decl fst] in I. lia.
        -- unfold inr in I. cbn [next_decl fst] in I. apply vis_none with (S (fst k)); [now apply below_new|lia].
  - (* local function *)
    match goal with H : forall a k rest R, below _ _ -> _, A : agrees _ _ _ R, B : below (env a) (fst k), B' : below _ (S (fst k)), RO : rest_ok _ _ _ rest R |- _ =>
      rename H into HB, A into HA, B into BE, B' into BN, RO into HR end.
    set (a1 := with_env a (rev (locals_of (fst k) (depth a) (fdepth a) [x]) ++ env a)) in *.
    set (bd := w_blk (enter (enter_fun a1 (next_decl k) (Some x) (param_names ps)) (next_decl k) b) (next_block (next_decl (next_decl k))) b) in *.
    assert (L1 : later (next_block (next_decl (next_decl k))) (snd (fst bd))) by apply grow_blk. unfold later in L1. cbn [next_decl next_block fst] in L1.
    f_equal.
    + apply say_new; [|intros i I; reflexivity]. intros t pre y ys X N.
      assert (Z : pre = [] /\ y = x /\ ys = []) by (destruct pre as [|? [|? ?]]; cbn in X; [injection X as <- <-; auto|discriminate X|discriminate X]).
      destruct Z as (-> & -> & ->). cbn [length].
      assert (I : inr (fst k, O) k (snd (fst bd))) by (unfold inr; cbn [fst]; lia).
      assert (V := vis_this (env a) (fst k) (depth a) (fdepth a) [] x [] BE). cbn [app length] in V.
      rewrite (HA t _ I), !onb_app, onb_new, onb_params. cbn [orb]. rewrite (HR t _ x _ N I V). cbn [is_in existsb negb andb].
      f_equal. destruct (walk_stands t (fst k, O) x (under_env x N)) as (_ & _ & _ & _ & W & _ & _). unfold bd.
      apply W; [|left; cbn; lia]. cbn [env enter enter_fun]. change (named ps) with (param_names ps).
      apply (vis_new _ _ _ true); [exact V|]. cbn [fst next_decl]. apply n_Sn.
    + refine (fun_say b a1 (next_decl k) (Some x) false ps HB BN _). intros t v I. unfold inr in I. cbn [next_decl fst] in I.
      assert (I' : inr v k (snd (fst bd))) by (split; [lia|exact (proj2 I)]).
      rewrite (HA t v I'), !onb_app, onb_new, onb_params. cbn [orb]. f_equal. rewrite (HR t v [] false eq_refl I'); [reflexivity|].
      apply vis_none with (S (fst k)); [exact BN|lia].
  - (* function *)
    match goal with H : forall a k rest R, below _ _ -> _, A : agrees _ _ _ no, B : below (env a) (fst k) |- _ => rename H into HB, A into HA, B into BE end.
    assert (E : self_of meth ++ named ps = self_params (is_some meth) ps) by (destruct meth; reflexivity). rewrite E.
    replace (length (self_of meth)) with (length (if is_some meth then [self_name] else [])) by (destruct meth; reflexivity).
    apply fun_say; [exact HB|exact BE|].
    intros t v I. rewrite (HA t v I), !onb_app, onb_params. rewrite (silent_var t v (fst k) a _ x BE (proj1 I)). reflexivity.
  - destruct (lookup_label (labs a) x false); reflexivity.
  - (* block *)
    match goal with H : forall a k rest R, below _ _ -> _ -> _ -> say (fst (fst (w_st _ _ _))) = _, H' : forall a k rest R, below _ _ -> _ -> _ -> say (fst (fst (w_blk _ _ _))) = _, A : agrees _ _ _ R, B : below (env a) (fst k), RO : rest_ok _ _ _ rest R |- _ =>
      rename H into HS, H' into HB, A into HA, B into BE, RO into HR end.
    assert (BS := below_st a k s BE). set (k1 := snd (fst (w_st a k s))) in *. set (e1 := snd (w_st a k s)) in *.
    set (r := w_blk (with_env a e1) k1 b) in *.
    assert (L1 : later k k1) by apply grow_st. assert (L2 : later k1 (snd (fst r))) by apply grow_blk. unfold later in L1, L2.
    f_equal.
    + apply (HS a k _ (fun t v => onb t v (fst (fst r)) || R t v) BE).
      * fold k1. intros t v I. rewrite (HA t v) by (unfold inr in *; lia). rewrite onb_app. now rewrite orb_assoc.
      * fold k1 e1. intros t v x vis N I V.
        destruct (walk_stands t v x (under_env x N)) as (_ & _ & _ & _ & W & _ & _).
        assert (O : out v k1 (snd (fst r))) by (left; exact (proj2 I)).
        unfold r at 1. rewrite (W b (with_env a e1) k1 vis V O).
        rewrite (HR t v x (vis && negb (is_in x (brought b))) N); [| |].
        -- rewrite (on_tail t x b (rest t x)). destruct vis; reflexivity.
        -- unfold inr in *. lia.
        -- apply vis_blk; assumption.
    + apply (HB (with_env a e1) k1 rest R BS).
      * fold r. apply (agrees_sub _ _ _ _ _ _ _ _ HA); [exact L1|unfold later; lia|]. intros t v I. rewrite onb_app.
        rewrite (proj1 (proj2 (proj2 (proj2 (proj2 (silent t v (fst k) a k BE ltac:(unfold inr in I; lia)))))) s); [reflexivity|]. right. exact (proj1 I).
      * fold r. intros t v x vis N I V. apply (HR t v x vis N); [unfold inr in *; lia|exact V].
Qed.
End Say.
