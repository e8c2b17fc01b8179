(** Lemmas for the linter: locals that hide others. *)
From Coq Require Import String List ZArith Bool Lia.
From Verif Require Import M_Base L_Util M_Fold M_Token M_Expr M_Stmt M_Rename M_Lint S_Lint L_Stmt L_Lint L_Lint4.
Import ListNotations.
Local Opaque str env_name print_name self_name init_name.

(** new locals that are picked *)
Section Hiding.
Context (sel : name -> local -> option local -> bool).
Definition old (d : vnode) : list name := match d with NNew n w p _ => if sel n w p then [n] else [] | _ => [] end.
Definition olds (ds : list vnode) : list name := flat_map old ds.
Lemma olds_app a b : olds (a ++ b) = olds a ++ olds b.
Proof. apply flat_map_app. Qed.
Lemma olds_var a h x : olds (var a h x) = [].
Proof. unfold var. destruct (lookup (env a) x); [reflexivity|]. now destruct (lookup (env a) env_name). Qed.

Context (lb : list name) (no_env : mem env_name lb = false) (pick : list name -> list name -> list name).
Notation good := (good lb).
Context (olds_new : forall a k sc q num d fd xs, good a k sc -> (0 <= fd)%Z -> olds (new_nodes (env a) q (locals_of num d fd xs)) = pick sc xs).
Notation h_ex := (h_ex pick).
Notation h_exs := (h_exs pick).
Notation h_its := (h_its pick).
Notation h_st := (h_st pick).
Notation h_blk := (h_blk pick).
Notation h_ifs := (h_ifs pick).
Notation h_els := (h_els pick).
Lemma olds_params a k sc n i ps : good a k sc -> olds (fun_params a n i ps) = pick sc ((if i then [self_name] else []) ++ param_names ps).
Proof. intro G. unfold fun_params. apply olds_new with k; [exact G|]. destruct G as (_ & _ & G). lia. Qed.
Definition Q_exs es := (forall a k sc, good a k sc -> olds (fst (w_exs a k es)) = h_exs sc es) /\
                       (forall a k sc, good a k sc -> olds (fst (w_tgts a k es)) = h_exs sc es).

Ltac gd := match goal with G : good ?a ?k ?sc |- good ?a _ ?sc => apply (good_later lb a k _ sc G); lat end.
Lemma walk_hiding :
  (forall e a k sc, good a k sc -> olds (fst (w_ex a k e)) = h_ex sc e) /\
  (forall es, Q_exs es) /\
  (forall i a k sc, good a k sc -> olds (fst (w_its a k i)) = h_its sc i) /\
  (forall s a k sc, good a k sc -> olds (fst (fst (w_st a k s))) = h_st sc s) /\
  (forall b a k sc, good a k sc -> olds (fst (fst (w_blk a k b))) = h_blk sc b) /\
  (forall i a k sc, good a k sc -> olds (fst (w_ifs a k i)) = h_ifs sc i) /\
  (forall e a k sc, good a k sc -> olds (fst (w_els a k e)) = h_els sc e).
Proof.
  assert (GK : forall a k k' sc, good a k sc -> later k k' -> good a k' sc) by (intros; now apply good_later with k).
  assert (GE : forall a k k' sc b, good a k sc -> good (enter a k' b) (next_block k) sc).
  { intros. apply good_enter. eapply good_later; [eassumption|apply later_block]. }
  assert (BL : forall b, (forall a k sc, good a k sc -> olds (fst (fst (w_blk a k b))) = h_blk sc b) ->
     forall a k k' sc, good a k sc -> olds (fst (fst (w_blk (enter a k' b) (next_block k) b))) = h_blk sc b).
  { intros b H a k k' sc G. apply (H (enter a k' b)). now apply GE. }
  assert (FU : forall b, (forall a k sc, good a k sc -> olds (fst (fst (w_blk a k b))) = h_blk sc b) ->
     forall a k x xs sc sc', good a k sc -> (forall y, mem y sc' = mem y (xs ++ sc)) ->
     olds (fst (fst (w_blk (enter (enter_fun a k x xs) k b) (next_block (next_decl k)) b))) = h_blk sc' b).
  { intros b H a k x xs sc sc' G M. rewrite (H _ _ sc'); [reflexivity|].
    apply good_enter. eapply good_fun; [exact G| |exact M]. apply later_fun. }
  apply prog_all; intros; try split; intros; cbn [w_ex w_exs w_tgts w_its w_st w_blk w_ifs w_els fst snd];
    repeat match goal with H : Q_exs _ |- _ => destruct H end;
    cbn [S_Lint.h_ex S_Lint.h_exs S_Lint.h_its S_Lint.h_st S_Lint.h_blk S_Lint.h_ifs S_Lint.h_els];
    repeat (rewrite ?app_fst, ?olds_app; cbn [fst snd]); auto.
  all: try match goal with |- context [match ?e with XConst _ => _ | _ => _ end] => is_var e; destruct e end; cbn [fst snd].
  all: rewrite ?olds_var; cbn [app].
  all: repeat match goal with G : good ?a ?k ?sc |- context [olds (new_nodes (env ?a) ?q (locals_of ?n ?d ?fd ?xs))] => rewrite (olds_new a k sc q n d fd xs G (proj2 (proj2 G)))
    | G : good ?a ?k ?sc |- context [olds (fun_params ?a ?n ?i ?ps)] => rewrite (olds_params a k sc n i ps G) end; cbn [app].
  all: repeat match goal with
    | H : forall a k sc, good a k sc -> olds (fst (w_ex a k ?e)) = _, G : good ?a _ ?sc |- context [olds (fst (w_ex ?a ?k ?e))] => rewrite (H a k sc) by gd
    | H : forall a k sc, good a k sc -> olds (fst (w_exs a k ?e)) = _, G : good ?a _ ?sc |- context [olds (fst (w_exs ?a ?k ?e))] => rewrite (H a k sc) by gd
    | H : forall a k sc, good a k sc -> olds (fst (w_tgts a k ?e)) = _, G : good ?a _ ?sc |- context [olds (fst (w_tgts ?a ?k ?e))] => rewrite (H a k sc) by gd
    | H : forall a k sc, good a k sc -> olds (fst (w_its a k ?e)) = _, G : good ?a _ ?sc |- context [olds (fst (w_its ?a ?k ?e))] => rewrite (H a k sc) by gd
    | H : forall a k sc, good a k sc -> olds (fst (w_ifs a k ?e)) = _, G : good ?a _ ?sc |- context [olds (fst (w_ifs ?a ?k ?e))] => rewrite (H a k sc) by gd
    | H : forall a k sc, good a k sc -> olds (fst (w_els a k ?e)) = _, G : good ?a _ ?sc |- context [olds (fst (w_els ?a ?k ?e))] => rewrite (H a k sc) by gd
    | H : forall a k sc, good a k sc -> olds (fst (fst (w_st a k ?e))) = _, G : good ?a _ ?sc |- context [olds (fst (fst (w_st ?a ?k ?e)))] => rewrite (H a k sc) by gd
    | H : forall a k sc, good a k sc -> olds (fst (fst (w_blk a k ?e))) = _, G : good ?a _ ?sc |- context [olds (fst (fst (w_blk (enter ?a ?k' ?e) (next_block ?k) ?e)))] =>
        rewrite (BL e H a k k' sc) by gd
    end; auto.
  - change (param_names ps) with (named ps). f_equal. apply FU with sc; [assumption|assumption|reflexivity].
  - f_equal. match goal with H : forall a k sc, good a k sc -> olds (fst (w_ex a k c)) = _ |- _ => rewrite (H _ _ (brought b ++ sc)) end; [reflexivity|].
    destruct H1 as (S & K & F). split; [|split; [|exact F]].
    + eapply blk_sees; [|reflexivity]. apply GE. now split.
    + pose proof (grow_blk b (enter a k b) (next_block k)) as L. unfold later in L. cbn in L. lia.
  - do 4 f_equal. match goal with H : forall a k sc, good a k sc -> olds (fst (fst (w_blk a k b))) = _ |- _ => rewrite (H _ _ (x :: sc)) end; [reflexivity|].
    apply good_enter. match goal with G : good ?a ?k ?sc |- good ?a' ?k' ?sc' => apply (good_new lb a k k' (fst k) (depth a + 1) (fdepth a) [x] sc sc' a' G); [lat|lia|apply G|apply G|reflexivity|reflexivity] end.
  - do 2 f_equal. match goal with H : forall a k sc, good a k sc -> olds (fst (fst (w_blk a k b))) = _ |- _ => rewrite (H _ _ (xs ++ sc)) end; [reflexivity|].
    apply good_enter. match goal with G : good ?a ?k ?sc |- good ?a' ?k' ?sc' => apply (good_new lb a k k' (fst k) (depth a + 1) (fdepth a) xs sc sc' a' G); [lat|lia|apply G|apply G|reflexivity|reflexivity] end.
  - f_equal. match goal with G : good a k sc |- _ => assert (G1 : good (with_env a (rev (locals_of (fst k) (depth a) (fdepth a) [x]) ++ env a)) (next_decl k) (x :: sc)) by
      (apply (good_new lb a k (next_decl k) (fst k) (depth a) (fdepth a) [x] sc (x :: sc) _ G); [lat|lia|apply G|apply G|reflexivity|reflexivity]) end.
    f_equal; [exact (olds_params _ _ _ (next_decl k) false ps G1)|].
    refine (FU b H _ (next_decl k) (Some x) (param_names ps) (x :: sc) (named ps ++ x :: sc) G1 _). reflexivity.
  - f_equal; [destruct meth; reflexivity|]. match goal with H : forall a k sc, good a k sc -> olds (fst (fst (w_blk a k b))) = _ |- _ => apply (FU b H) with (sc := sc) end; [assumption|].
    intro y. unfold self_params, self_of. destruct meth; cbn [is_some]; reflexivity.
  - destruct (lookup_label (labs a) x false); reflexivity.
  - f_equal. match goal with H : forall a k sc, good a k sc -> olds (fst (fst (w_blk a k b))) = _ |- _ => rewrite (H _ _ (brings s ++ sc)) end; [reflexivity|].
    match goal with G : good ?a ?k ?sc |- good ?a' ?k' ?sc' => apply (good_new lb a k k' (fst k) (depth a) (fdepth a) (brings s) sc sc' a' G); [lat|lia|apply G|apply G|apply st_env|reflexivity] end.
Qed.

Lemma nodes_hiding b : olds (nodes lb b) = h_blk [] b.
Proof.
  unfold nodes. destruct walk_hiding as (_ & _ & _ & _ & H & _). rewrite (H b _ _ []); [reflexivity|].
  apply good_enter. split; [|cbn; lia]. exists []. split; [reflexivity|]. split; [now intros n v []|reflexivity].
Qed.
End Hiding.

(** The two ways to pick *)
Definition sel_old (n : name) (w : local) (p : option local) : bool :=
  match p with Some p => negb (builtin_local p || ((lfdepth p <? 0)%Z && (lfdepth p <? lfdepth w)%Z)) | None => false end && negb (no_name n).
Definition sel_new (n : name) (w : local) (p : option local) : bool := match p with Some p => builtin_local p | None => true end && negb (no_name n).
Section Picks.
Context (lb : list name) (no_env : mem env_name lb = false).
Notation good := (good lb).
Lemma old_new a k sc q num d fd xs : good a k sc -> (0 <= fd)%Z -> olds sel_old (new_nodes (env a) q (locals_of num d fd xs)) = hiding sc xs.
Proof.
  intros G F. unfold new_nodes, locals_of. rewrite map_map. generalize 0%nat as i. induction xs as [|x xs IH]; intro i; [reflexivity|].
  cbn [places map hiding filter]. unfold olds in *. cbn [flat_map]. rewrite IH. fold (hiding sc xs).
  cbn [old]. unfold sel_old at 1. pose proof (sees_look lb no_env a sc x (proj1 G)) as L. change (is_in x sc) with (mem x sc).
  destruct (lookup (env a) x) as [p|].
  - destruct (mem x sc); [destruct L as (-> & L)|destruct L as (_ & L & _)].
    + replace (lfdepth p <? 0)%Z with false by (symmetry; apply Z.ltb_ge; exact L). cbn. now destruct (no_name x).
    + replace (lfdepth p <? 0)%Z with true by (symmetry; apply Z.ltb_lt; exact L). cbn [lfdepth].
      replace (lfdepth p <? fd)%Z with true by (symmetry; apply Z.ltb_lt; lia). now rewrite orb_true_r.
  - destruct L as (-> & _). reflexivity.
Qed.
Lemma new_new a k sc q num d fd xs : good a k sc -> (0 <= fd)%Z -> olds sel_new (new_nodes (env a) q (locals_of num d fd xs)) = fresh sc xs.
Proof.
  intros G F. unfold new_nodes, locals_of. rewrite map_map. generalize 0%nat as i. induction xs as [|x xs IH]; intro i; [reflexivity|].
  cbn [places map fresh filter]. unfold olds in *. cbn [flat_map]. rewrite IH. fold (fresh sc xs).
  cbn [old]. unfold sel_new at 1. pose proof (sees_look lb no_env a sc x (proj1 G)) as L. change (is_in x sc) with (mem x sc).
  assert (E : zeqb_list x env_name = true -> no_name x = true) by (intros E; unfold no_name; change (str "_ENV") with env_name; now rewrite E, orb_true_r).
  destruct (lookup (env a) x) as [p|].
  - destruct (mem x sc); [destruct L as (-> & L); reflexivity|destruct L as (_ & _ & ->)]. cbn [negb andb]. destruct (zeqb_list x env_name); [now rewrite E|cbn; now destruct (no_name x)].
  - destruct L as (-> & _). cbn. now destruct (no_name x).
Qed.
End Picks.

Lemma node_hiding o builtins ds d : flat_map said_hiding (lint_node o builtins ds d) = if o_duplicate o then old sel_old d else [].
Proof.
  assert (LG : forall n h, flat_map said_hiding (lint_global o builtins ds n h) = []).
  { intros n h. unfold lint_global. repeat match goal with |- context [if ?c then _ else _] => destruct c | |- context [match ?c with Use => _ | Assign => _ | FunAssign => _ | OpAssign => _ end] => destruct c end; reflexivity. }
  destruct d as [n w p q|n w h f|n r h f|n w p|n w]; cbn [lint_node old].
  - rewrite flat_map_app. replace (flat_map said_hiding (unused_local o ds n w q)) with (@nil name).
    2: { unfold unused_local. repeat match goal with |- context [if ?c then _ else _] => destruct c end; reflexivity. }
    rewrite app_nil_r. unfold duplicate_local. change (zeqb_list n env_name) with (zeqb_list n (str "_ENV")). fold (no_name n). unfold sel_old.
    destruct (o_duplicate o); [|reflexivity]. cbn [andb]. destruct p as [p|]; [|destruct (no_name n); cbn; repeat match goal with |- context [if ?c then _ else _] => destruct c end; reflexivity].
    destruct (no_name n); [rewrite andb_false_r; reflexivity|]. rewrite andb_true_r. cbn [negb].
    destruct (builtin_local p); cbn [orb negb].
    + repeat match goal with |- context [if ?c then _ else _] => destruct c end; reflexivity.
    + destruct (lfdepth p <? lfdepth w)%Z; [rewrite andb_true_r|rewrite andb_false_r; cbn [negb]; now destruct (ldepth p <? ldepth w)%Z].
      destruct (lfdepth p <? 0)%Z; cbn [negb]; [reflexivity|]. now destruct (lfdepth p =? 0)%Z.
  - destruct (root_name (NLocal n w h f)) as [((n' & h') & f')|]; [rewrite LG|]; now destruct (o_duplicate o).
  - destruct (root_name (NGlobal n r h f)) as [((n' & h') & f')|]; [rewrite LG|]; now destruct (o_duplicate o).
  - transitivity (@nil name); [|now destruct (o_duplicate o)]. unfold lint_label.
    repeat match goal with |- context [if ?c then _ else _] => destruct c | |- context [match ?c with Some _ => _ | None => _ end] => destruct c end; reflexivity.
  - now destruct (o_duplicate o).
Qed.
Lemma flat_flat {A B C} (f : A -> list B) (g : B -> list C) l : flat_map g (flat_map f l) = flat_map (fun a => flat_map g (f a)) l.
Proof. induction l as [|a l IH]; cbn; [reflexivity|]. now rewrite flat_map_app, IH. Qed.
Lemma lint_hiding o builtins lb b : ~ In env_name lb -> flat_map said_hiding (lint_code o builtins lb b) = if o_duplicate o then hiding_locals b else [].
Proof.
  intro N. unfold lint_code. rewrite flat_flat, (flat_map_ext _ _ (node_hiding o builtins (nodes lb b))). destruct (o_duplicate o); [|now induction (nodes lb b)].
  unfold hiding_locals. apply mem_not in N. exact (nodes_hiding sel_old lb hiding (old_new lb N) b).
Qed.

(** What is said of locals called like globals *)
Lemma node_global o builtins ds d m : (exists x, m = MLocalGlobal x \/ m = MLocalBuiltin x) ->
  (In m (lint_node o builtins ds d) <-> o_duplicate o = true /\ o_duplicate_global o = true /\ exists x, In x (old sel_new d) /\
     if mem x (custom_globals o ds) then m = MLocalGlobal x else (mem x (used_globals o ds) || mem x (assigned_globals ds)) = true /\ m = MLocalBuiltin x).
Proof.
  intros M.
  assert (LG : forall n h, ~ In m (lint_global o builtins ds n h)).
  { intros n h. unfold lint_global. destruct M as (x & [->| ->]); repeat match goal with |- context [if ?c then _ else _] => destruct c | |- context [match ?c with Use => _ | Assign => _ | FunAssign => _ | OpAssign => _ end] => destruct c end; cbn; intuition discriminate. }
  assert (X : ~ In m [] <-> True) by tauto.
  destruct d as [n w p q|n w h f|n r h f|n w p|n w]; cbn [lint_node old].
  - assert (UL : ~ In m (unused_local o ds n w q)).
    { unfold unused_local. destruct M as (x & [->| ->]); repeat match goal with |- context [if ?c then _ else _] => destruct c end; cbn; intuition discriminate. }
    rewrite in_app_iff. transitivity (In m (duplicate_local o ds n w p)); [tauto|]. unfold duplicate_local. change (zeqb_list n env_name) with (zeqb_list n (str "_ENV")). fold (no_name n). unfold sel_new.
    destruct (o_duplicate o); [|cbn; intuition discriminate]. cbn [andb]. destruct (no_name n); [rewrite andb_false_r; cbn; firstorder discriminate|]. rewrite andb_true_r. cbn [negb].
    destruct p as [p|]; [destruct (builtin_local p)|].
    2: { transitivity False; [|cbn; firstorder]. split; [|tauto]. destruct M as (x & [->| ->]); repeat match goal with |- context [if ?c then _ else _] => destruct c end; cbn; intuition discriminate. }
    all: destruct (o_duplicate_global o); [|cbn; intuition discriminate]; split.
    1, 3: intros H; split; [reflexivity|]; split; [reflexivity|]; exists n; split; [now left|]; destruct (mem n (custom_globals o ds)); [destruct H as [H|[]]; now symmetry|]; destruct (mem n (used_globals o ds) || mem n (assigned_globals ds)); [|destruct H]; destruct H as [H|[]]; now split.
    all: intros (_ & _ & x & [<-|[]] & H); destruct (mem n (custom_globals o ds)); [now left|]; destruct H as (-> & H); now left.
  - transitivity False; [|cbn; firstorder]. split; [|tauto]. destruct (root_name (NLocal n w h f)) as [((n' & h') & f')|]; [apply LG|intros []].
  - transitivity False; [|cbn; firstorder]. split; [|tauto]. destruct (root_name (NGlobal n r h f)) as [((n' & h') & f')|]; [apply LG|intros []].
  - transitivity False; [|cbn; firstorder]. split; [|tauto]. unfold lint_label. destruct M as (x & [->| ->]);
    repeat match goal with |- context [if ?c then _ else _] => destruct c | |- context [match ?c with Some _ => _ | None => _ end] => destruct c end; cbn; intuition discriminate.
  - cbn. firstorder.
Qed.
Lemma lint_like_global o builtins lb b m : ~ In env_name lb -> (exists x, m = MLocalGlobal x \/ m = MLocalBuiltin x) ->
  (In m (lint_code o builtins lb b) <-> o_duplicate o = true /\ o_duplicate_global o = true /\ exists x, In x (fresh_locals b) /\
     if mem x (custom_globals o (nodes lb b)) then m = MLocalGlobal x else (mem x (used_globals o (nodes lb b)) || mem x (assigned_globals (nodes lb b))) = true /\ m = MLocalBuiltin x).
Proof.
  intros N M. apply mem_not in N. unfold lint_code, fresh_locals. rewrite <- (nodes_hiding sel_new lb fresh (new_new lb N) b). unfold olds. rewrite in_flat_map. split.
  - intros (d & I & H). apply node_global in H; [|exact M]. destruct H as (A & B & x & J & H). split; [exact A|]. split; [exact B|]. exists x. split; [|exact H]. apply in_flat_map. now exists d.
  - intros (A & B & x & J & H). apply in_flat_map in J. destruct J as (d & I & J). exists d. split; [exact I|]. apply node_global; [exact M|]. split; [exact A|]. split; [exact B|]. now exists x.
Qed.
