(** Lemmas for the linter: its messages. *)
From Coq Require Import String List ZArith Bool Lia.
From Verif Require Import M_Base L_Util M_Fold M_Token M_Expr M_Stmt M_Rename M_Lint S_Lint L_Stmt L_Lint L_Lint2 L_Lint3.
Import ListNotations.
Local Opaque str env_name print_name self_name init_name.

(** ** Unused locals *)
Lemma id_in_spec (t : bool) v ds : id_in v (if t then assigned_locals ds else used_locals ds) = onb t v ds.
Proof.
  unfold assigned_locals, used_locals. induction ds as [|d ds IH]; [now destruct t|].
  unfold onb in *. cbn [existsb flat_map]. rewrite <- IH. clear IH.
  destruct d as [n w p q|n w h f|n r h f|n w p|n w], t; cbn [stands app any_target orb]; try reflexivity.
  - destruct (any_target h); cbn [app Bool.eqb andb id_in existsb orb]; [|reflexivity]. unfold same_id. now rewrite (Nat.eqb_sym (fst v)), (Nat.eqb_sym (snd v)).
  - destruct (any_target h); cbn [app Bool.eqb andb id_in existsb orb]; [reflexivity|]. unfold same_id. now rewrite (Nat.eqb_sym (fst v)), (Nat.eqb_sym (snd v)).
Qed.
Lemma filter_flat {A B} (p : B -> bool) (f : A -> list B) l : filter p (flat_map f l) = flat_map (fun a => filter p (f a)) l.
Proof. induction l as [|a l IH]; cbn; [reflexivity|]. now rewrite filter_app, IH. Qed.
Lemma node_unused o builtins ds d : filter about_unused (lint_node o builtins ds d) = if o_unused o then told (fun t v => onb t v ds) d else [].
Proof.
  destruct d as [n w p q|n w h f|n r h f|n w p|n w]; cbn [lint_node told].
  - rewrite filter_app. replace (filter about_unused (duplicate_local o ds n w p)) with (@nil message).
    + cbn [app]. unfold unused_local. pose proof (id_in_spec true (lid w) ds) as E1. pose proof (id_in_spec false (lid w) ds) as E2. cbn [M_Lint.assigned_locals] in *.
      rewrite E1, E2. destruct (o_unused o); [|reflexivity]. cbn [andb].
      destruct (negb (onb false (lid w) ds) && negb (under n)); [|reflexivity]. destruct (onb true (lid w) ds); [reflexivity|]. now destruct q.
    + unfold duplicate_local. repeat match goal with |- context [if ?c then _ else _] => destruct c | |- context [match ?c with Some _ => _ | None => _ end] => destruct c end; reflexivity.
  - destruct (root_name (NLocal n w h f)) as [((n' & h') & f')|]; [|now destruct (o_unused o)]. transitivity (@nil message); [|now destruct (o_unused o)].
    unfold lint_global. repeat match goal with |- context [if ?c then _ else _] => destruct c | |- context [match ?c with Use => _ | Assign => _ | FunAssign => _ | OpAssign => _ end] => destruct c end; reflexivity.
  - destruct (root_name (NGlobal n r h f)) as [((n' & h') & f')|]; [|now destruct (o_unused o)]. transitivity (@nil message); [|now destruct (o_unused o)].
    unfold lint_global. repeat match goal with |- context [if ?c then _ else _] => destruct c | |- context [match ?c with Use => _ | Assign => _ | FunAssign => _ | OpAssign => _ end] => destruct c end; reflexivity.
  - transitivity (@nil message); [|now destruct (o_unused o)]. unfold lint_label.
    repeat match goal with |- context [if ?c then _ else _] => destruct c | |- context [match ?c with Some _ => _ | None => _ end] => destruct c end; reflexivity.
  - now destruct (o_unused o).
Qed.
Lemma lint_unused o builtins lb b : filter about_unused (lint_code o builtins lb b) = if o_unused o then unused_locals b else [].
Proof.
  unfold lint_code. rewrite filter_flat. rewrite (flat_map_ext _ _ (node_unused o builtins (nodes lb b))).
  destruct (o_unused o); [|now induction (nodes lb b)].
  destruct (told_all (fun t v => onb t v (nodes lb b))) as (_ & _ & _ & _ & W & _ & _).
  apply (W b (enter (outermost lb) (1, 0)%nat b) (1, 1)%nat none no).
  - intros y w I. cbn [env enter outermost] in I. apply in_rev, in_locals in I. cbn. lia.
  - intros t v I. unfold no. now rewrite orb_false_r.
  - apply rest_none.
Qed.

(** ** Globals *)
Lemma mem_in x l : mem x l = true <-> In x l.
Proof.
  induction l as [|y l IH]; cbn; [easy|]. rewrite orb_true_iff, IH. split; intros [H|H]; auto; [apply zeqb_list_true in H; auto|left; apply zeqb_list_true; auto].
Qed.
Lemma mem_not x l : mem x l = false <-> ~ In x l.
Proof. rewrite <- mem_in. now destruct (mem x l). Qed.
Section Globals.
Context (o : lint_opts) (builtins lb : list name) (no_env : ~ In env_name lb) (b : blk).
Let ds := nodes lb b.
Lemma roots_in m : In m (globals lb b) <-> exists d, In d ds /\ root_name d = Some m.
Proof.
  rewrite <- (nodes_globals lb (proj2 (mem_not _ _) no_env)). unfold roots. rewrite in_flat_map. fold ds. split.
  - intros (d & I & H). exists d. split; [exact I|]. destruct (root_name d); [destruct H as [->|[]]; reflexivity|destruct H].
  - intros (d & I & H). exists d. split; [exact I|]. rewrite H. now left.
Qed.
Lemma custom_in x : In x (custom_globals o ds) <-> In x (o_globals o) \/ defines lb b x.
Proof.
  unfold custom_globals. rewrite in_app_iff, in_flat_map. apply or_iff_compat_l. unfold defines. split.
  - intros (d & I & H). destruct (root_name d) as [((n & h) & f)|] eqn:E; [|destruct H].
    exists h, f. assert (X : n = x /\ (h = Assign \/ h = FunAssign) /\ f <> InFun).
    { destruct h; try destruct H; destruct f; cbn in H; try destruct H as [H|[]]; try destruct H; repeat split; auto; discriminate. }
    destruct X as (-> & X). split; [|exact X]. apply roots_in. eauto.
  - intros (h & f & I & H & F). apply roots_in in I. destruct I as (d & I & E). exists d. split; [exact I|]. rewrite E.
    destruct H as [-> | ->]; (destruct f; [now left|now left|now elim F]).
Qed.
Lemma assigned_in x : In x (assigned_globals ds) <-> sets_global lb b x.
Proof.
  unfold assigned_globals. rewrite in_flat_map. unfold sets_global. split.
  - intros (d & I & H). destruct (root_name d) as [((n & h) & f)|] eqn:E; [|destruct H]. exists h, f.
    assert (X : n = x /\ h <> Use) by (destruct h; cbn in H; try destruct H as [H|[]]; try destruct H; split; auto; discriminate).
    destruct X as (-> & X). split; [|exact X]. apply roots_in. eauto.
  - intros (h & f & I & H). apply roots_in in I. destruct I as (d & I & E). exists d. split; [exact I|]. rewrite E. destruct h; [now elim H|now left|now left|now left].
Qed.
Lemma used_in x : In x (used_globals o ds) <-> In x (o_used o) \/ reads_global lb b x.
Proof.
  unfold used_globals. rewrite in_app_iff, in_flat_map. apply or_iff_compat_l. unfold reads_global. split.
  - intros (d & I & H). destruct (root_name d) as [((n & h) & f)|] eqn:E; [|destruct H]. exists f.
    assert (X : n = x /\ h = Use) by (destruct h; cbn in H; try destruct H as [H|[]]; try destruct H; split; auto).
    destruct X as (-> & ->). apply roots_in. eauto.
  - intros (f & I). apply roots_in in I. destruct I as (d & I & E). exists d. split; [exact I|]. rewrite E. now left.
Qed.
(** messages about globals are those of their places *)
Definition about_global (m : message) : bool :=
  match m with MNotFound _ _ | MBuiltinAssigned _ _ | MGlobalUnused _ | MGlobalAssigned _ => true | _ => false end.
Lemma lint_globals m : about_global m = true ->
  (In m (lint_code o builtins lb b) <-> exists x h f, In (x, h, f) (globals lb b) /\ In m (lint_global o builtins ds x h)).
Proof.
  intro A. unfold lint_code. fold ds. rewrite in_flat_map. split.
  - intros (d & I & H).
    assert (X : match root_name d with Some (n, h, _) => In m (lint_global o builtins ds n h) | None => False end).
    { destruct d as [n w p q|n w h f|n r h f|n w p|n w]; cbn [lint_node] in H; try exact H.
      - apply in_app_or in H. exfalso. revert H A. unfold duplicate_local, unused_local.
        repeat match goal with |- context [if ?c then _ else _] => destruct c | |- context [match ?c with Some _ => _ | None => _ end] => destruct c end; cbn; intuition (subst; discriminate).
      - destruct (root_name (NLocal n w h f)) as [((n' & h') & f')|]; exact H.
      - destruct (root_name (NGlobal n r h f)) as [((n' & h') & f')|]; exact H.
      - apply in_app_or in H. exfalso. revert H A.
        repeat match goal with |- context [if ?c then _ else _] => destruct c | |- context [match ?c with Some _ => _ | None => _ end] => destruct c end; cbn; intuition (subst; discriminate). }
    destruct (root_name d) as [((n & h) & f)|] eqn:E; [|destruct X]. exists n, h, f. split; [apply roots_in; eauto|exact X].
  - intros (x & h & f & I & H). apply roots_in in I. destruct I as (d & I & E). exists d. split; [exact I|].
    destruct d as [n w p q|n w h' f'|n r h' f'|n w p|n w]; try discriminate E; cbn [lint_node]; rewrite E; exact H.
Qed.
End Globals.
