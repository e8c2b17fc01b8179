(** Lemmas about merging: what depends on names, and what cannot see a new cell. *)
From Coq Require Import List ZArith Bool PArith Lia.
From Verif Require Import M_Merge S_Merge.
Import ListNotations.
Open Scope Z_scope.

Scheme expr_mut := Induction for expr Sort Prop
with exprs_mut := Induction for exprs Sort Prop
with items_mut := Induction for items Sort Prop.
Combined Scheme expr_all from expr_mut, exprs_mut, items_mut.

Lemma bind_ext {W A B} (a b : out W A) (k k' : A -> W -> out W B) :
  a = b -> (forall x w, b = Done x w -> k x w = k' x w) -> bind a k = bind b k'.
Proof. intros -> H. destruct b; cbn; auto. Qed.
Lemma bind_assoc {W A B D} (a : out W A) (k : A -> W -> out W B) (h : B -> W -> out W D) :
  bind (bind a k) h = bind a (fun x w => bind (k x w) h).
Proof. now destruct a. Qed.
Lemma bind_done {W A} (a : out W A) : bind a (fun x w => Done x w) = a.
Proof. now destruct a. Qed.

Section Env.
Context (L : lua).

Lemma list_vals_cons2 e va x y xs w : list_vals L e va (x :: y :: xs) w =
  bind (vals L e va x w) (fun v w => bind (list_vals L e va (y :: xs) w) (fun vs w => Done (first L v :: vs) w)).
Proof. reflexivity. Qed.
(** * Names *)
Definition agree (e e' : env L) (x : vnode) : Prop :=
  look L (v_name x) e = look L (v_name x) e' /\
  (is_global x = true \/ look L (v_name x) e = None -> look L n_env e = look L n_env e').

Lemma getvar_agree e e' x w : agree e e' x -> getvar L e (v_name x) w = getvar L e' (v_name x) w.
Proof. intros (A & B). unfold getvar. rewrite <- A. destruct (look L (v_name x) e); [reflexivity|]. rewrite <- B by auto. reflexivity. Qed.
Lemma free_agree e e' free : Forall (agree e e') free ->
  map (fun n => look L n e) (map fst (flat_map node_occ free)) = map (fun n => look L n e') (map fst (flat_map node_occ free)).
Proof.
  induction 1 as [|x l (A & B) _ IH]; [reflexivity|]. cbn [flat_map]. rewrite !map_app, IH. f_equal. unfold node_occ.
  cbn [map fst]. rewrite A. f_equal. destruct (is_global x); [|reflexivity]. cbn [map fst]. now rewrite B by auto.
Qed.

Ltac split_occ := repeat match goal with H : Forall _ (_ ++ _) |- _ => apply Forall_app in H as (? & ?) end.
Lemma agree_all e e' va :
  (forall x, Forall (agree e e') (occ x) -> forall w, vals L e va x w = vals L e' va x w) /\
  (forall es, Forall (agree e e') (occ_args es) -> forall w, vals_args L e va es w = vals_args L e' va es w) /\
  (forall its, Forall (agree e e') (occ_items its) -> forall w, vals_items L e va its w = vals_items L e' va its w).
Proof.
  apply expr_all; cbn [occ occ_args occ_items]; intros; split_occ; cbn [vals vals_args vals_items]; try reflexivity;
    repeat (apply bind_ext; [solve [auto]|intros]); try reflexivity; auto.
  - match goal with H : Forall _ [_] |- _ => inversion H; subst end. apply bind_ext; [now apply getvar_agree|auto].
  - now rewrite (free_agree e e').
  - destruct (truthy L _); [|reflexivity]. apply bind_ext; auto.
  - destruct (truthy L _); [reflexivity|]. apply bind_ext; auto.
  - destruct es; [auto|]. apply bind_ext; [auto|]. intros. apply bind_ext; auto.
  - destruct its; [apply bind_ext; auto| | |]; (apply bind_ext; [auto|]; intros; apply bind_ext; auto).
Qed.
Lemma list_vals_agree e e' va xs : Forall (agree e e') (flat_map occ xs) -> forall w, list_vals L e va xs w = list_vals L e' va xs w.
Proof.
  induction xs as [|x xs IH]; intros H w; [reflexivity|]. cbn [flat_map] in H. split_occ. destruct (agree_all e e' va) as (A & _ & _).
  destruct xs as [|y xs]; [now apply A|]. rewrite !list_vals_cons2. apply bind_ext; [now apply A|]. intros. apply bind_ext; [now apply IH|auto].
Qed.

(** * Numbers of values *)
Lemma vals_one e va x w vs w' : is_vararg x = false -> vals L e va x w = Done vs w' -> exists v, vs = [v].
Proof.
  intros N E. destruct x; try discriminate N; cbn [vals] in E; unfold bind in E;
    repeat match type of E with
    | context [match ?a with Done _ _ => _ | Fail _ => _ end] => destruct a; try discriminate E
    | context [if ?a then _ else _] => destruct a; try discriminate E
    | context [let (_, _) := ?a in _] => destruct a
    end; injection E as <- <-; eauto.
Qed.

(** every expression cut to one value *)
Fixpoint singles (e : env L) (va : list (V L)) (xs : list expr) (w : W L) : out (W L) (list (V L)) :=
  match xs with
  | [] => Done [] w
  | x :: xs => bind (vals L e va x w) (fun v w => bind (singles e va xs w) (fun vs w => Done (first L v :: vs) w))
  end.
Lemma singles_length e va xs : forall w vs w', singles e va xs w = Done vs w' -> length vs = length xs.
Proof.
  induction xs as [|x xs IH]; cbn; intros w vs w' E; [now injection E as <- <-|].
  destruct (vals L e va x w) as [v w1|]; cbn in E; [|discriminate]. destruct (singles e va xs w1) as [vs1 w2|] eqn:E1; cbn in E; [|discriminate].
  injection E as <- <-. cbn. now rewrite (IH _ _ _ E1).
Qed.
Lemma last_vararg_cons x y xs : last_vararg (x :: y :: xs) = last_vararg (y :: xs).
Proof.
  unfold last_vararg. change (rev (x :: y :: xs)) with (rev (y :: xs) ++ [x]). destruct (rev (y :: xs)) as [|z zs] eqn:E; [|reflexivity].
  apply (f_equal (@length expr)) in E. rewrite rev_length in E. discriminate.
Qed.
Lemma list_vals_singles e va xs : last_vararg xs = false -> forall w, list_vals L e va xs w = singles e va xs w.
Proof.
  induction xs as [|x xs IH]; intros N w; [reflexivity|]. destruct xs as [|y xs].
  - cbn. change (is_vararg x = false) in N. destruct (vals L e va x w) as [vs w'|] eqn:E; cbn; [|reflexivity].
    destruct (vals_one _ _ _ _ _ _ N E) as (v & ->). reflexivity.
  - rewrite last_vararg_cons in N. rewrite list_vals_cons2. change (singles e va (x :: y :: xs) w) with
      (bind (vals L e va x w) (fun v w => bind (singles e va (y :: xs) w) (fun vs w => Done (first L v :: vs) w))).
    apply bind_ext; [reflexivity|]. intros v w' _. now rewrite IH.
Qed.
Lemma list_vals_app e va a b : b <> [] -> forall w,
  list_vals L e va (a ++ b) w = bind (singles e va a w) (fun va' w => bind (list_vals L e va b w) (fun vb w => Done (va' ++ vb) w)).
Proof.
  intros N. induction a as [|x a IH]; intros w.
  - cbn. now rewrite bind_done.
  - cbn [app]. change (list_vals L e va (x :: a ++ b) w) with
      (match a ++ b with [] => vals L e va x w | _ => bind (vals L e va x w) (fun v w => bind (list_vals L e va (a ++ b) w) (fun vs w => Done (first L v :: vs) w)) end).
    destruct (a ++ b) as [|y l] eqn:E; [now apply app_eq_nil in E as (_ & ->)|]. cbn [singles]. rewrite bind_assoc. apply bind_ext; [reflexivity|].
    intros v w' _. rewrite (IH w'). rewrite !bind_assoc. apply bind_ext; [reflexivity|]. intros vs w'' _. cbn. rewrite !bind_assoc. now apply bind_ext.
Qed.
Lemma list_vals_merged e va a b : b <> [] \/ last_vararg a = false -> forall w,
  list_vals L e va (a ++ b) w = bind (singles e va a w) (fun va' w => bind (list_vals L e va b w) (fun vb w => Done (va' ++ vb) w)).
Proof.
  intros [N|N] w; [now apply list_vals_app|]. destruct b as [|y b]; [|now apply list_vals_app].
  rewrite app_nil_r, list_vals_singles by easy. cbn. rewrite <- (bind_done (singles e va a w)) at 1. apply bind_ext; [reflexivity|].
  intros. now rewrite app_nil_r.
Qed.
Lemma adjust_same vs : adjust L (length vs) vs = vs.
Proof. unfold adjust. rewrite firstn_app, Nat.sub_diag, firstn_all. cbn. now rewrite app_nil_r. Qed.
Lemma adjust_length n vs : length (adjust L n vs) = n.
Proof. unfold adjust. rewrite firstn_length, app_length, repeat_length. lia. Qed.
(** cut to as many values as there are expressions, it does not matter if the last gives more *)
Lemma adjust_cons n v vs : adjust L (S n) (v :: vs) = v :: adjust L n vs.
Proof.
  unfold adjust. cbn [app firstn]. f_equal. rewrite !firstn_app. f_equal. change (repeat (nil L) (S n)) with (nil L :: repeat (nil L) n).
  rewrite repeat_cons, firstn_app, repeat_length. replace (n - length vs - n)%nat with O by lia. cbn. now rewrite app_nil_r.
Qed.
Lemma list_vals_cut {B} e va xs (k : list (V L) -> W L -> out (W L) B) w :
  bind (list_vals L e va xs w) (fun vs w => k (adjust L (length xs) vs) w) = bind (singles e va xs w) k.
Proof.
  revert k w. induction xs as [|x xs IH]; intros k w; [reflexivity|]. destruct xs as [|y xs].
  - cbn. destruct (vals L e va x w) as [vs w'|]; cbn; [|reflexivity]. now destruct vs.
  - rewrite list_vals_cons2. change (singles e va (x :: y :: xs) w) with
      (bind (vals L e va x w) (fun v w => bind (singles e va (y :: xs) w) (fun vs w => Done (first L v :: vs) w))).
    rewrite !bind_assoc. apply bind_ext; [reflexivity|]. intros v w' _. rewrite !bind_assoc.
    rewrite <- (IH (fun vs w0 => bind (Done (first L v :: vs) w0) k) w'). apply bind_ext; [reflexivity|]. intros vs w'' _. cbn [bind].
    change (length (x :: y :: xs)) with (S (length (y :: xs))). now rewrite adjust_cons.
Qed.
Lemma adjust_app n (a b : list (V L)) : adjust L (length a + n) (a ++ b) = a ++ adjust L n b.
Proof. induction a as [|v a IH]; [reflexivity|]. cbn [length app Nat.add]. now rewrite adjust_cons, IH. Qed.
Lemma adjust_nil n : adjust L n [] = repeat (nil L) n.
Proof. unfold adjust. cbn. apply firstn_all2. now rewrite repeat_length. Qed.
Lemma adjust_more m n vs : (length vs <= n)%nat -> adjust L (n + m) vs = adjust L n vs ++ repeat (nil L) m.
Proof.
  revert n. induction vs as [|v vs IH]; intros n H.
  - rewrite !adjust_nil. apply repeat_app.
  - destruct n; [cbn in H; lia|]. cbn [Nat.add]. rewrite !adjust_cons, IH by (cbn in H; lia). reflexivity.
Qed.
End Env.
