(** Parsing a program again after new names were written into it finds the same
    variables, if no new name captures another. *)
From Verif Require Import M_Base L_Util M_Rename S_Rename L_Ident L_Scope.
From Coq Require Import List.
Import ListNotations.
Open Scope nat_scope.

Lemma index_of_In n l : In n l -> exists i, index_of n l = Some i.
Proof.
  induction l as [|m l IH]; [easy|]. intros I. cbn [index_of].
  destruct (zeqb_list n m) eqn:E; [now exists 0|].
  destruct I as [->|I]; [now rewrite zeqb_list_refl in E|].
  destruct (IH I) as (i & ->). now exists (S i).
Qed.

Lemma index_of_nth n l i : index_of n l = Some i -> In n l.
Proof.
  revert i. induction l as [|m l IH]; intros i; [easy|]. cbn [index_of].
  destruct (zeqb_list n m) eqn:E.
  - apply zeqb_list_true in E. subst. now left.
  - destruct (index_of n l) as [j|]; [|easy]. intros _. right. now apply (IH j).
Qed.

Lemma index_of_inj n m l i : index_of n l = Some i -> index_of m l = Some i -> n = m.
Proof.
  revert i. induction l as [|x l IH]; intros i; [easy|]. cbn [index_of].
  destruct (zeqb_list n x) eqn:E1, (zeqb_list m x) eqn:E2.
  - apply zeqb_list_true in E1, E2. now subst.
  - intros [= <-]. destruct (index_of m l); easy.
  - intros H [= <-]. destruct (index_of n l); easy.
  - destruct (index_of n l) as [a|]; [|easy]. destruct (index_of m l) as [b|]; [|easy].
    cbn [option_map]. intros [= <-] [= E]. apply (IH a); [easy|now subst].
Qed.

Section Rewalk.
Context (F : kind -> name -> name) (all : list node) (root : list (name * var)).

Definition fname (nd : node) : name := F (n_kind nd) (n_name nd).
Definition ren_item (it : name * var) : name * var := (F (KLocal (snd it)) (fst it), snd it).
Definition ren_frame (fr : frame) : frame :=
  {| f_id := f_id fr; f_items := map ren_item (f_items fr) |}.
Definition ren_scope (sc : scope) : scope := map ren_frame sc.
Definition lab_var (id : nat) (names : list name) (n : name) : option lvar :=
  match index_of n names with Some i => Some (id, i) | None => None end.
Definition ren_block (b : nat * list name) : nat * list name :=
  (fst b, map (fun n => F (KLabel (lab_var (fst b) (snd b) n)) n) (snd b)).
Definition ren_labels (ls : labels) : labels := map ren_block ls.
Definition ren_node (nd : node) : node :=
  {| n_name := fname nd; n_kind := n_kind nd; n_chain := n_chain nd;
     n_implicit := n_implicit nd; n_zero := n_zero nd |}.

(** [w], named [nw], is declared: in the outermost scope or by a node *)
Definition decl (w : var) (nw : name) : Prop :=
  In (nw, w) root \/ exists nd, In nd all /\ n_kind nd = KLocal w /\ n_name nd = nw.

Context
  (H1 : forall nd v w nw, In nd all -> n_kind nd = KLocal v -> decl w nw ->
     In (fst w) (upto (fst v) (n_chain nd)) ->
     (fst w = 0 -> In (nw, w) root /\ In (n_name nd, v) root) ->
     F (KLocal w) nw = F (KLocal v) (n_name nd) -> nw = n_name nd \/ w = v)
  (H2 : forall nd w nw, In nd all -> n_kind nd = KGlobal -> decl w nw ->
     In (fst w) (n_chain nd) -> (fst w = 0 -> In (nw, w) root) ->
     F (KLocal w) nw = F KGlobal (n_name nd) -> nw = n_name nd)
  (H3 : forall nd v nd' w, In nd all -> n_kind nd = KLabel (Some v) ->
     In nd' all -> n_kind nd' = KLabel (Some w) ->
     In (fst w) (upto (fst v) (n_chain nd)) ->
     F (KLabel (Some w)) (n_name nd') = F (KLabel (Some v)) (n_name nd) -> w = v)
  (Himp : forall nd, In nd all -> n_implicit nd = true ->
     (n_kind nd = KGlobal \/ exists v, n_kind nd = KLocal v) -> fname nd = n_name nd)
  (Hlab : forall nd, In nd all -> n_kind nd <> KLabel None).

Definition scope_ok (sc : scope) (k : state) : Prop :=
  NoDup (chain sc) /\ Forall (fun i => i < fst k) (chain sc) /\
  (forall fr n v, In fr sc -> In (n, v) (f_items fr) ->
     fst v = f_id fr /\ decl v n /\ (fst v = 0 -> In (n, v) root)) /\
  last (chain sc) 1 = 0 /\
  exists v, scope_find sc env_name = Some v.

Definition labs_ok (ls : labels) (k : state) : Prop :=
  NoDup (map fst ls) /\ Forall (fun i => i < snd k) (map fst ls) /\
  forall id names n, In (id, names) ls -> In n names ->
    exists nd, In nd all /\ n_kind nd = KLabel (lab_var id names n) /\ n_name nd = n.

Lemma chain_ren sc : chain (ren_scope sc) = chain sc.
Proof. unfold chain, ren_scope. rewrite map_map. reflexivity. Qed.

Lemma map_fst_ren ls : map fst (ren_labels ls) = map fst ls.
Proof. unfold ren_labels. rewrite map_map. reflexivity. Qed.

Lemma upto_In s l x : In x (upto s l) -> In x l.
Proof.
  induction l as [|y l IH]; [easy|]. cbn [upto]. intros [->|I]; [now left|].
  destruct (y =? s); [easy|]. right. auto.
Qed.

Lemma upto_all s l : ~ In s l -> upto s l = l.
Proof.
  induction l as [|y l IH]; [easy|]. intros N. cbn [upto].
  destruct (Nat.eqb_spec y s) as [->|]; [destruct N; now left|].
  rewrite IH; [easy|]. intros I. apply N. now right.
Qed.

Lemma upto_app s a l : ~ In s a -> upto s (a ++ s :: l) = a ++ [s].
Proof.
  induction a as [|y a IH]; intros N; cbn [app upto].
  - now rewrite Nat.eqb_refl.
  - destruct (Nat.eqb_spec y s) as [->|]; [destruct N; now left|].
    rewrite IH; [easy|]. intros I. apply N. now right.
Qed.

(** ** Looking up a new name *)

Lemma dict_get_In {A} (d : list (name * A)) n v : dict_get d n = Some v -> In (n, v) d.
Proof.
  induction d as [|(m, w) d IH]; [easy|]. cbn [dict_get].
  destruct (zeqb_list n m) eqn:E; [|intros; right; auto].
  apply zeqb_list_true in E. intros [= ->]. subst. now left.
Qed.

Lemma dict_ren_some d n a v : dict_get d n = Some v ->
  (forall m w, In (m, w) d -> F (KLocal w) m = a -> m = n \/ w = v) ->
  F (KLocal v) n = a -> dict_get (map ren_item d) a = Some v.
Proof.
  induction d as [|(m, w) d IH]; [easy|]. cbn [dict_get map]. intros E H Ha.
  unfold ren_item at 1. cbn [fst snd].
  destruct (zeqb_list n m) eqn:Q.
  - injection E as ->. apply zeqb_list_true in Q. subst m. rewrite Ha, zeqb_list_refl. easy.
  - destruct (zeqb_list a (F (KLocal w) m)) eqn:R.
    + apply zeqb_list_true in R. symmetry in R.
      apply (H m w (or_introl eq_refl)) in R. destruct R as [->| ->]; [|easy].
      now rewrite zeqb_list_refl in Q.
    + apply IH; try easy. intros. apply (H m0 w0); [now right|easy].
Qed.

Lemma dict_ren_none d n a : dict_get d n = None ->
  (forall m w, In (m, w) d -> F (KLocal w) m = a -> m = n) ->
  dict_get (map ren_item d) a = None.
Proof.
  induction d as [|(m, w) d IH]; [easy|]. cbn [dict_get map]. intros E H.
  unfold ren_item at 1. cbn [fst snd].
  destruct (zeqb_list n m) eqn:Q; [easy|].
  destruct (zeqb_list a (F (KLocal w) m)) eqn:R.
  - apply zeqb_list_true in R. symmetry in R. apply (H m w (or_introl eq_refl)) in R. subst m.
    now rewrite zeqb_list_refl in Q.
  - apply IH; try easy. intros. apply (H m0 w0); [now right|easy].
Qed.

Lemma find_item sc n v : scope_find sc n = Some v -> exists fr, In fr sc /\ In (n, v) (f_items fr).
Proof.
  induction sc as [|fr sc IH]; [easy|]. cbn [scope_find].
  destruct (dict_get (f_items fr) n) as [w|] eqn:D.
  - intros [= ->]. apply dict_get_In in D. exists fr. split; [now left|easy].
  - intros E. destruct (IH E) as (fr' & I & J). exists fr'. split; [now right|easy].
Qed.

Lemma find_ren_gen sc pre n a v :
  NoDup (pre ++ chain sc) ->
  (forall fr m w, In fr sc -> In (m, w) (f_items fr) -> fst w = f_id fr) ->
  (forall fr m w, In fr sc -> In (m, w) (f_items fr) ->
     In (fst w) (upto (fst v) (pre ++ chain sc)) -> F (KLocal w) m = a -> m = n \/ w = v) ->
  scope_find sc n = Some v -> F (KLocal v) n = a ->
  scope_find (ren_scope sc) a = Some v.
Proof.
  revert pre. induction sc as [|fr sc IH]; intros pre N I H E Ha; [easy|].
  assert (Fv : In (fst v) (chain (fr :: sc))).
  { destruct (find_item _ _ _ E) as (fr' & J & J2). rewrite (I fr' n v J J2).
    unfold chain. now apply in_map. }
  cbn [scope_find ren_scope map] in *. cbn [ren_frame f_items].
  assert (Up : In (f_id fr) (upto (fst v) (pre ++ chain (fr :: sc)))).
  { apply in_split in Fv. destruct Fv as (b & e & Eq).
    assert (Nv : ~ In (fst v) (pre ++ b)).
    { rewrite Eq in N. rewrite app_assoc in N. apply NoDup_remove_2 in N.
      intros J. apply N. apply in_or_app. now left. }
    rewrite Eq, app_assoc, upto_app by easy. rewrite <- app_assoc.
    apply in_or_app. right. cbn [chain map] in Eq. destruct b as [|x b]; injection Eq as -> _; now left. }
  destruct (dict_get (f_items fr) n) as [w|] eqn:D.
  - injection E as ->. rewrite (dict_ren_some _ n a v D); try easy.
    intros m w J Q. apply (H fr m w (or_introl eq_refl) J); [|easy].
    rewrite (I fr m w (or_introl eq_refl) J). exact Up.
  - rewrite (dict_ren_none _ n a D).
    + fold (ren_scope sc). apply (IH (pre ++ [f_id fr])); try easy.
      * now rewrite <- app_assoc.
      * intros fr' m w J. apply I. now right.
      * intros fr' m w J J2 U. rewrite <- app_assoc in U. apply (H fr' m w (or_intror J) J2 U).
    + intros m w J Q. destruct (H fr m w (or_introl eq_refl) J) as [?| ->]; try easy.
      * rewrite (I fr m w (or_introl eq_refl) J). exact Up.
      * exfalso. pose proof (I fr m v (or_introl eq_refl) J) as Ev.
        destruct (find_item _ _ _ E) as (fr' & J1 & J2). rewrite (I fr' n v (or_intror J1) J2) in Ev.
        cbn [chain map] in N. apply NoDup_remove_2 in N. apply N. apply in_or_app. right.
        rewrite <- Ev. now apply in_map.
Qed.

Lemma find_none_ren sc n a :
  (forall fr m w, In fr sc -> In (m, w) (f_items fr) -> F (KLocal w) m = a -> m = n) ->
  scope_find sc n = None -> scope_find (ren_scope sc) a = None.
Proof.
  induction sc as [|fr sc IH]; intros H E; [easy|].
  cbn [scope_find ren_scope map] in *. cbn [ren_frame f_items].
  destruct (dict_get (f_items fr) n) as [w|] eqn:D; [easy|].
  rewrite (dict_ren_none _ n a D).
  - apply IH; [|easy]. intros fr' m w J. apply (H fr' m w (or_intror J)).
  - intros m w J. apply (H fr m w (or_introl eq_refl) J).
Qed.

Lemma upto_last l s : NoDup l -> last l 1 = 0 -> In s l -> In 0 (upto s l) -> s = 0.
Proof.
  induction l as [|x l IH]; [easy|]. intros N La Is U. inversion N as [|? ? Nx N']; subst.
  cbn [upto] in U. destruct (Nat.eqb_spec x s) as [->|Ne].
  - destruct U as [->|[]]. easy.
  - destruct Is as [->|Is]; [easy|]. destruct l as [|y l]; [easy|].
    destruct U as [->|U].
    + exfalso. apply Nx. change (last (0 :: y :: l) 1) with (last (y :: l) 1) in La.
      rewrite <- La. clear. revert y. induction l as [|z l IH]; intros y; [now left|].
      right. apply IH.
    + now apply IH.
Qed.

(** a node for a local, in its scope *)
Lemma find_ren sc k nd v : scope_ok sc k -> In nd all -> n_kind nd = KLocal v ->
  n_chain nd = chain sc -> scope_find sc (n_name nd) = Some v ->
  scope_find (ren_scope sc) (fname nd) = Some v.
Proof.
  intros (N & _ & D & La & _) I K C E.
  apply (find_ren_gen sc [] (n_name nd) (fname nd) v); try easy.
  - intros fr m w J J2. now apply (D fr m w).
  - intros fr m w J J2 U Q. cbn [app] in U. apply (H1 nd v w m I K).
    + now apply (D fr m w).
    + now rewrite C.
    + intros Z. split; [now apply (D fr m w J J2)|].
      destruct (find_item _ _ _ E) as (fr' & J3 & J4). apply (D fr' _ _ J3 J4).
      rewrite Z in U. apply (upto_last _ _ N La); [|exact U].
      rewrite (proj1 (D fr' _ _ J3 J4)). unfold chain. now apply in_map.
    + rewrite Q. unfold fname. now rewrite K.
  - unfold fname. now rewrite K.
Qed.

Lemma find_ren_global sc k nd : scope_ok sc k -> In nd all -> n_kind nd = KGlobal ->
  n_chain nd = chain sc -> scope_find sc (n_name nd) = None ->
  scope_find (ren_scope sc) (fname nd) = None.
Proof.
  intros (N & _ & D & _) I K C E.
  apply (find_none_ren sc (n_name nd)); [|easy].
  intros fr m w J J2 Q. destruct (D fr m w J J2) as (Fw & Dw & Rw). apply (H2 nd w m I K Dw); [|exact Rw|].
  - rewrite C, Fw. unfold chain. now apply in_map.
  - rewrite Q. unfold fname. now rewrite K.
Qed.

Lemma ren_node_eq n kd ch im z :
  ren_node {| n_name := n; n_kind := kd; n_chain := ch; n_implicit := im; n_zero := z |} =
  {| n_name := F kd n; n_kind := kd; n_chain := ch; n_implicit := im; n_zero := z |}.
Proof. reflexivity. Qed.

Lemma var_nodes_ren sc k z im n : scope_ok sc k -> incl (var_nodes sc z im n) all ->
  var_nodes (ren_scope sc) z im (hd n (written fname (var_nodes sc z im n))) =
  map ren_node (var_nodes sc z im n).
Proof.
  intros Ok I. unfold var_nodes in *. destruct (scope_find sc n) as [v|] eqn:E.
  - cbn [written map hd].
    set (nd := {| n_name := n; n_kind := KLocal v; n_chain := chain sc;
                  n_implicit := im; n_zero := z |}) in *.
    rewrite (find_ren sc k nd v); try easy; [|apply I; now left].
    rewrite chain_ren. unfold nd. now rewrite ren_node_eq.
  - set (nd := {| n_name := n; n_kind := KGlobal; n_chain := chain sc;
                  n_implicit := im; n_zero := z |}) in *.
    cbn [written map hd].
    rewrite (find_ren_global sc k nd); try easy; [|apply I; now left].
    rewrite chain_ren. unfold nd at 1 2. rewrite ren_node_eq. f_equal.
    destruct Ok as (N & B & D & La & (v & Ev)). rewrite Ev in *.
    set (ne := {| n_name := env_name; n_kind := KLocal v; n_chain := chain sc;
                  n_implicit := true; n_zero := false |}) in *.
    assert (Ie : In ne all) by (apply I; right; now left).
    assert (Fe : fname ne = env_name) by (apply (Himp ne Ie eq_refl); right; now exists v).
    rewrite <- Fe at 1. rewrite (find_ren sc k ne v); try easy; [|now repeat (split; eauto)].
    cbn [map]. unfold ne at 1. rewrite ren_node_eq. unfold fname, ne in Fe. cbn [n_kind n_name] in Fe.
    now rewrite Fe.
Qed.

(** ** Declarations *)

Lemma new_nodes_ren id up im ns : forall i,
  new_nodes id i up im (written fname (new_nodes id i up im ns)) =
  map ren_node (new_nodes id i up im ns).
Proof.
  revert im. induction ns as [|n ns IH]; intros im i; [easy|]. cbn [new_nodes written map]. f_equal.
  apply IH.
Qed.

Lemma places_ren id up im ns : forall i,
  places id i (written fname (new_nodes id i up im ns)) = map ren_item (places id i ns).
Proof.
  revert im. induction ns as [|n ns IH]; intros im i; [easy|]. cbn [new_nodes written map places]. f_equal.
  apply IH.
Qed.

Lemma new_frame_ren id up im ns :
  new_frame id (written fname (new_nodes id 0 up im ns)) = ren_frame (new_frame id ns).
Proof. unfold new_frame, ren_frame. cbn [f_id f_items]. f_equal. now rewrite places_ren, map_rev. Qed.

Lemma places_nodes id up im ns : forall i n v, In (n, v) (places id i ns) ->
  fst v = id /\ exists nd, In nd (new_nodes id i up im ns) /\ n_kind nd = KLocal v /\ n_name nd = n.
Proof.
  revert im. induction ns as [|m ns IH]; intros im i n v I; [easy|]. cbn [places new_nodes] in *.
  destruct I as [[= <- <-]|I].
  - split; [easy|]. eexists. split; [now left|]. easy.
  - destruct (IH (tl im) (S i) n v I) as (E & nd & J & K). split; [easy|]. exists nd. split; [now right|easy].
Qed.

Lemma find_app_some sc fr n v : scope_find sc n = Some v -> exists w, scope_find (fr :: sc) n = Some w.
Proof. intros E. cbn [scope_find]. destruct (dict_get (f_items fr) n); eauto. Qed.

Lemma scope_ok_new sc ks kb im ns : scope_ok sc (ks, kb) ->
  incl (new_nodes ks 0 (chain sc) im ns) all ->
  scope_ok (new_frame ks ns :: sc) (S ks, kb).
Proof.
  intros (N & B & D & La & (v & Ev)) I. cbn [fst] in *. split; [|split; [|split; [|split]]].
  - cbn [chain map new_frame f_id]. constructor; [|easy]. intros J.
    rewrite Forall_forall in B. specialize (B ks J). lia.
  - cbn [chain map new_frame f_id fst]. constructor; [lia|].
    eapply Forall_impl; [|exact B]. cbn. lia.
  - intros fr n w [<-|J] J2.
    + cbn [new_frame f_id f_items] in *. apply in_rev in J2.
      destruct (places_nodes ks (chain sc) im ns 0 n w J2) as (E & nd & K & K2). split; [easy|].
      split; [right; exists nd; split; [now apply I|easy]|].
      intros Z. exfalso. rewrite E in Z. subst ks.
      destruct (chain sc) as [|x l]; [discriminate La|]. inversion B. lia.
    + now apply (D fr).
  - cbn [chain map new_frame f_id]. fold (chain sc). destruct (chain sc); [discriminate La|exact La].
  - now apply find_app_some with v.
Qed.

Lemma scope_ok_le sc k k' : scope_ok sc k -> fst k <= fst k' -> scope_ok sc k'.
Proof.
  clear H1 H2 H3 Himp Hlab.
  intros (N & B & D & E) L. split; [easy|]. split; [|easy].
  eapply Forall_impl; [|exact B]. cbn. lia.
Qed.

Lemma labs_ok_le ls k k' : labs_ok ls k -> snd k <= snd k' -> labs_ok ls k'.
Proof.
  clear H1 H2 H3 Himp Hlab.
  intros (N & B & D) L. split; [easy|]. split; [|easy].
  eapply Forall_impl; [|exact B]. cbn. lia.
Qed.

Lemma labs_ok_nil k : labs_ok [] k.
Proof. split; [constructor|]. split; [constructor|]. easy. Qed.

(** ** Labels *)

Lemma index_ren (g : name -> name) names n : (forall m, In m names -> g m = g n -> m = n) -> 
  index_of (g n) (map g names) = index_of n names.
Proof.
  induction names as [|m names IH]; intros H; [easy|]. cbn [map index_of].
  destruct (zeqb_list n m) eqn:E.
  - apply zeqb_list_true in E. subst. now rewrite zeqb_list_refl.
  - destruct (zeqb_list (g n) (g m)) eqn:Q.
    + apply zeqb_list_true in Q. symmetry in Q. apply H in Q; [|now left]. subst.
      now rewrite zeqb_list_refl in E.
    + rewrite IH; [easy|]. intros m' I. apply H. now right.
Qed.

Lemma index_ren_none (g : name -> name) names a : (forall m, In m names -> g m <> a) ->
  index_of a (map g names) = None.
Proof.
  induction names as [|m names IH]; intros H; [easy|]. cbn [map index_of].
  destruct (zeqb_list a (g m)) eqn:Q.
  - apply zeqb_list_true in Q. symmetry in Q. apply H in Q; [easy|now left].
  - rewrite IH; [easy|]. intros m' I. apply H. now right.
Qed.

Lemma find_label_ren_gen ls pre n v a :
  NoDup (pre ++ map fst ls) ->
  (forall id names m w, In (id, names) ls -> In m names -> lab_var id names m = Some w ->
     In id (upto (fst v) (pre ++ map fst ls)) -> F (KLabel (Some w)) m = a -> w = v) ->
  find_label ls n = Some v -> F (KLabel (Some v)) n = a ->
  find_label (ren_labels ls) a = Some v.
Proof.
  revert pre. induction ls as [|(id, names) ls IH]; intros pre N H E Ha; [easy|].
  cbn [find_label ren_labels map ren_block fst snd] in *.
  assert (Fv : In (fst v) (id :: map fst ls)).
  { destruct (index_of n names) as [i|] eqn:D.
    - injection E as <-. now left.
    - right. clear - E. induction ls as [|(id', names') ls IH]; [easy|]. cbn [find_label] in E.
      destruct (index_of n names') as [i|] eqn:D.
      + injection E as <-. now left.
      + right. now apply IH. }
  assert (Up : In id (upto (fst v) (pre ++ id :: map fst ls))).
  { apply in_split in Fv. destruct Fv as (b & e & Eq).
    assert (Nv : ~ In (fst v) (pre ++ b)).
    { rewrite Eq in N. rewrite app_assoc in N. apply NoDup_remove_2 in N.
      intros J. apply N. apply in_or_app. now left. }
    rewrite Eq, app_assoc, upto_app by easy. rewrite <- app_assoc.
    apply in_or_app. right. destruct b as [|x b]; injection Eq as -> _; now left. }
  set (g := fun n0 => F (KLabel (lab_var id names n0)) n0).
  destruct (index_of n names) as [i|] eqn:D.
  - injection E as <-.
    assert (Gn : g n = a) by (unfold g, lab_var; now rewrite D).
    rewrite <- Gn, (index_ren g names n), D; [easy|].
    intros m I Q. rewrite Gn in Q. unfold g in Q. destruct (index_of_In m names I) as (j & Ej).
    unfold lab_var in Q. rewrite Ej in Q.
    assert (L : (id, j) = (id, i)).
    { apply (H id names m (id, j) (or_introl eq_refl) I); [|easy|easy]. unfold lab_var. now rewrite Ej. }
    injection L as ->. now apply (index_of_inj m n names i).
  - rewrite index_ren_none.
    + apply (IH (pre ++ [id])); try easy.
      * now rewrite <- app_assoc.
      * intros id' names' m w I J K U. rewrite <- app_assoc in U.
        apply (H id' names' m w (or_intror I) J K U).
    + intros m I Q. unfold g in Q. destruct (index_of_In m names I) as (j & Ej).
      assert (Ew : lab_var id names m = Some (id, j)) by (unfold lab_var; now rewrite Ej).
      rewrite Ew in Q. pose proof (H id names m (id, j) (or_introl eq_refl) I Ew Up Q) as <-.
      cbn [fst] in *. clear - N E. revert E. 
      assert (X : ~ In id (map fst ls)) by (apply NoDup_remove_2 in N; intros J; apply N; apply in_or_app; now right).
      clear N. intros E. apply X. clear X. induction ls as [|(id', names') ls IH]; [easy|].
      cbn [find_label] in E. destruct (index_of n names') as [i|].
      * injection E as -> _. now left.
      * right. now apply IH.
Qed.

Lemma find_label_ren ls k nd v : labs_ok ls k -> In nd all -> n_kind nd = KLabel (Some v) ->
  n_chain nd = map fst ls -> find_label ls (n_name nd) = Some v ->
  find_label (ren_labels ls) (fname nd) = Some v.
Proof.
  intros (N & _ & D) I K C E.
  apply (find_label_ren_gen ls [] (n_name nd) v); try easy.
  - intros id names m w J J2 W U Q. cbn [app] in U.
    destruct (D id names m J J2) as (nd' & I' & K' & E').
    rewrite W in K'. apply (H3 nd v nd' w I K I' K').
    + rewrite C. unfold lab_var in W. destruct (index_of m names); [|easy]. injection W as <-. easy.
    + rewrite E', Q. unfold fname. now rewrite K.
  - unfold fname. now rewrite K.
Qed.

Lemma block_labels_written sc ls k l : forall l' ns k' sc',
  walks fname sc ls k l = (l', ns, k', sc') ->
  block_labels l' = map (fun n => F (KLabel (find_label ls n)) n) (block_labels l) /\
  (forall n, In n (block_labels l) ->
     In {| n_name := n; n_kind := KLabel (find_label ls n); n_chain := map fst ls;
           n_implicit := false; n_zero := false |} ns).
Proof.
  revert sc k. induction l as [|t l IH]; intros sc k l' ns k' sc' E.
  - cbn in E. injection E as <- <- <- <-. easy.
  - rewrite walks_cons in E.
    destruct (walk fname sc ls k t) as (((t1, n1), k1), sc1) eqn:W.
    destruct (walks fname sc1 ls k1 l) as (((l1, n2), k2), sc2) eqn:X.
    destruct (IH _ _ _ _ _ _ X) as (B & I). injection E as <- <- <- <-.
    rewrite !block_labels_cons, B. rewrite walk_eq in W. cbn zeta in W.
    destruct t; unfold walk_block in W;
      repeat match type of W with context [walks fname ?a ?b ?c ?d] => 
        destruct (walks fname a b c d) as (((?, ?), ?), ?) end;
      injection W as <- <- <- <-;
      try (split; [reflexivity|]; intros m J; apply in_or_app; right; now apply I).
    split; [reflexivity|]. intros m J. change (In m (n :: block_labels l)) in J.
    destruct J as [<-|J]; [now left|]. apply in_or_app. right. now apply I.
Qed.

(** ** The whole traversal *)

Definition rewalks (t : syn) : Prop := forall sc ls k t' ns k' sc',
  walk fname sc ls k t = (t', ns, k', sc') -> incl ns all -> scope_ok sc k -> labs_ok ls k ->
  walk n_name (ren_scope sc) (ren_labels ls) k t' = (t', map ren_node ns, k', ren_scope sc') /\
  scope_ok sc' k' /\ fst k <= fst k' /\ snd k <= snd k'.

Lemma rewalks_list l : Forall rewalks l -> forall sc ls k l' ns k' sc',
  walks fname sc ls k l = (l', ns, k', sc') -> incl ns all -> scope_ok sc k -> labs_ok ls k ->
  walks n_name (ren_scope sc) (ren_labels ls) k l' = (l', map ren_node ns, k', ren_scope sc') /\
  scope_ok sc' k' /\ fst k <= fst k' /\ snd k <= snd k'.
Proof.
  intros Fa. induction Fa as [|t l Ht Fa IH]; intros sc ls k l' ns k' sc' E I So Lo.
  - cbn in E. injection E as <- <- <- <-. easy.
  - rewrite walks_cons in E.
    destruct (walk fname sc ls k t) as (((t1, n1), k1), sc1) eqn:W.
    destruct (walks fname sc1 ls k1 l) as (((l1, n2), k2), sc2) eqn:X.
    injection E as <- <- <- <-.
    apply incl_app_inv in I. destruct I as (I1 & I2).
    destruct (Ht _ _ _ _ _ _ _ W I1 So Lo) as (E1 & So1 & L1 & M1).
    destruct (IH _ _ _ _ _ _ _ X I2 So1 (labs_ok_le _ _ _ Lo M1)) as (E2 & So2 & L2 & M2).
    rewrite walks_cons, E1, E2. rewrite map_app. split; [easy|]. split; [easy|]. lia.
Qed.

Lemma lab_var_find id names ls n : In n names -> find_label ((id, names) :: ls) n = lab_var id names n.
Proof. intros I. cbn [find_label]. unfold lab_var. destruct (index_of_In n names I) as (i & ->). easy. Qed.

Lemma labs_ok_new ls ks kb l sc l' ns k' sc' : labs_ok ls (ks, kb) ->
  walks fname sc ((kb, block_labels l) :: ls) (ks, S kb) l = (l', ns, k', sc') -> incl ns all ->
  labs_ok ((kb, block_labels l) :: ls) (ks, S kb).
Proof.
  clear H1 H2 H3 Himp Hlab.
  intros (N & B & D) E I. cbn [fst snd] in *. split; [|split].
  - cbn [map fst]. constructor; [|easy]. intros J. rewrite Forall_forall in B. specialize (B kb J). lia.
  - cbn [map fst snd]. constructor; [lia|]. eapply Forall_impl; [|exact B]. cbn. lia.
  - intros id names n [[= <- <-]|J] Jn; [|now apply (D id names n)].
    destruct (block_labels_written _ _ _ _ _ _ _ _ E) as (_ & Q). specialize (Q n Jn).
    apply I in Q. rewrite lab_var_find in Q by easy. eexists. split; [exact Q|]. easy.
Qed.

Lemma ren_labels_new ls kb l sc k l' ns k' sc' :
  walks fname sc ((kb, block_labels l) :: ls) k l = (l', ns, k', sc') ->
  (kb, block_labels l') :: ren_labels ls = ren_labels ((kb, block_labels l) :: ls).
Proof.
  intros E. destruct (block_labels_written _ _ _ _ _ _ _ _ E) as (Q & _). rewrite Q.
  unfold ren_labels. cbn [map]. f_equal. unfold ren_block. cbn [fst snd]. f_equal.
  apply map_ext_in. intros n J. now rewrite lab_var_find.
Qed.

Lemma rewalk_block l : Forall rewalks l -> forall sc ls k l' ns k' sc',
  walk_block fname sc ls k l = (l', ns, k', sc') -> incl ns all -> scope_ok sc k -> labs_ok ls k ->
  walk_block n_name (ren_scope sc) (ren_labels ls) k l' = (l', map ren_node ns, k', ren_scope sc') /\
  fst k <= fst k' /\ snd k <= snd k'.
Proof.
  intros Fa sc ls (ks, kb) l' ns k' sc' E I So Lo. unfold walk_block in *. cbn [fst snd] in *.
  pose proof (labs_ok_new _ _ _ _ _ _ _ _ _ Lo E I) as Lo'.
  destruct (rewalks_list l Fa _ _ _ _ _ _ _ E I (scope_ok_le _ (ks, kb) (ks, S kb) So (le_n _)) Lo')
    as (Q & _ & L & M).
  cbn [fst snd] in *. rewrite (ren_labels_new _ _ _ _ _ _ _ _ _ E), Q. split; [easy|]. lia.
Qed.

Lemma ren_scope_new id up im ns sc :
  new_frame id (written fname (new_nodes id 0 up im ns)) :: ren_scope sc =
  ren_scope (new_frame id ns :: sc).
Proof. rewrite new_frame_ren. reflexivity. Qed.

Lemma hd_written sc z im n d : hd d (written fname (var_nodes sc z im n)) =
  hd n (written fname (var_nodes sc z im n)).
Proof. unfold var_nodes. destruct (scope_find sc n); easy. Qed.

Lemma label_none n kd ls : In {| n_name := n; n_kind := KLabel (find_label ls n); n_chain := kd;
    n_implicit := false; n_zero := false |} all -> exists v, find_label ls n = Some v.
Proof.
  intros I. destruct (find_label ls n) as [v|]; [now exists v|]. exfalso.
  exact (Hlab _ I eq_refl).
Qed.

Lemma rewalks_all t : rewalks t.
Proof.
  induction t as [z n|z tb n| |ns es He|fn ps b Hb|m ps b Hb|ns es b He Hb|b Hb|b c Hb Hc|n|n]
    using syn_ind'; intros sc ls (ks, kb) t' nn k' sc' E I So Lo;
    rewrite walk_eq in E; cbn zeta in E; cbn [fst snd] in E.
  - injection E as <- <- <- <-. rewrite walk_eq. cbn zeta.
    rewrite (var_nodes_ren sc (ks, kb)) by easy. split; [|easy]. do 3 f_equal. f_equal.
    assert (X : hd n (written fname (var_nodes sc z false n)) = F (match scope_find sc n with Some v => KLocal v | None => KGlobal end) n).
    { unfold var_nodes. destruct (scope_find sc n); easy. }
    rewrite X. unfold var_nodes. destruct (scope_find sc n); easy.
  - injection E as <- <- <- <-. rewrite walk_eq. cbn zeta. rewrite chain_ren. easy.
  - injection E as <- <- <- <-. rewrite walk_eq. split; [|easy]. do 2 f_equal. f_equal.
    rewrite <- (var_nodes_ren sc (ks, kb)) by easy. f_equal. symmetry.
    unfold var_nodes in I |- *. destruct (scope_find sc print_name); cbn [written map hd].
    + apply (Himp _ (I _ (or_introl eq_refl)) eq_refl). right. now exists v.
    + apply (Himp _ (I _ (or_introl eq_refl)) eq_refl). now left.
  - destruct (walks fname sc ls (S ks, kb) es) as (((es', n1), k1), sc1) eqn:X.
    injection E as <- <- <- <-. apply incl_app_inv in I. destruct I as (I1 & I2).
    destruct (rewalks_list es He _ _ _ _ _ _ _ X I2 (scope_ok_le _ (ks, kb) (S ks, kb) So ltac:(cbn; lia))
                (labs_ok_le _ (ks, kb) (S ks, kb) Lo ltac:(cbn; lia))) as (Q & _ & L & M).
    rewrite walk_eq. cbn zeta. cbn [fst snd] in *. rewrite Q, chain_ren, new_nodes_ren.
    rewrite ren_scope_new, map_app. split; [|split; [|lia]].
    + do 3 f_equal. f_equal. unfold written. rewrite map_map. reflexivity.
    + apply (scope_ok_le _ (S ks, kb)); [|easy]. now apply (scope_ok_new sc ks kb []).
  - match type of E with context [walk_block fname ?a ?b ?c ?d] => 
      destruct (walk_block fname a b c d) as (((b', n1), k1), sc1) eqn:X end.
    injection E as <- <- <- <-.
    change (?x :: ?y ++ n1) with ((new_nodes ks 0 (chain sc) [] [fn]) ++ y ++ n1) in I.
    apply incl_app_inv in I. destruct I as (I1 & I2).
    apply incl_app_inv in I2. destruct I2 as (I2 & I3).
    pose proof (scope_ok_new sc ks kb [] [fn] So I1) as So1.
    pose proof (scope_ok_new _ (S ks) kb [] ps So1 I2) as So2.
    destruct (rewalk_block b Hb _ _ _ _ _ _ _ X I3 So2 (labs_ok_nil _)) as (Q & L & M).
    rewrite walk_eq. cbn zeta. cbn [fst snd] in *.
    match goal with |- context [[fname ?nd]] =>
      change [fname nd] with (written fname (new_nodes ks 0 (chain sc) [] [fn])) end.
    rewrite !ren_scope_new. rewrite !chain_ren.
    change (ks :: chain sc) with (chain (new_frame ks [fn] :: sc)).
    change (@nil (nat * list name)) with (ren_labels []). rewrite Q.
    rewrite !new_nodes_ren. split; [|split; [|lia]].
    + rewrite <- !map_app. do 3 f_equal. f_equal.
      unfold written. rewrite map_map. reflexivity.
    + now apply (scope_ok_le _ (S ks, kb)); [|cbn [fst] in *; lia].
  - match type of E with context [walk_block fname ?a ?b ?c ?d] => 
      destruct (walk_block fname a b c d) as (((b', n1), k1), sc1) eqn:X end.
    injection E as <- <- <- <-. apply incl_app_inv in I. destruct I as (I1 & I2).
    pose proof (scope_ok_new sc ks kb [m] _ So I1) as So1.
    destruct (rewalk_block b Hb _ _ _ _ _ _ _ X I2 So1 (labs_ok_nil _)) as (Q & L & M).
    rewrite walk_eq. cbn zeta. cbn [fst snd] in *.
    set (ps' := if m then self_name :: ps else ps) in *.
    assert (W : (if m then self_name :: (if m then tl (written fname (new_nodes ks 0 (chain sc) [m] ps')) else
                  written fname (new_nodes ks 0 (chain sc) [m] ps')) else
                  (if m then tl (written fname (new_nodes ks 0 (chain sc) [m] ps')) else
                  written fname (new_nodes ks 0 (chain sc) [m] ps'))) =
                written fname (new_nodes ks 0 (chain sc) [m] ps')).
    { destruct m; [|easy]. unfold ps' in *. cbn [new_nodes written map tl hd] in *. f_equal.
      symmetry. apply (Himp _ (I1 _ (or_introl eq_refl)) eq_refl). right. now exists (ks, 0). }
    rewrite W. rewrite !ren_scope_new. rewrite !chain_ren.
    change (@nil (nat * list name)) with (ren_labels []). rewrite Q.
    rewrite new_nodes_ren, map_app. split; [|split; [|lia]].
    + do 3 f_equal. f_equal. unfold written. rewrite map_map.
      assert (Fr : forall nd, fname (ren_node nd) = fname nd -> n_name (ren_node nd) = fname nd) by easy.
      destruct m; reflexivity.
    + apply (scope_ok_le _ (ks, kb)); [easy|cbn [fst] in *; lia].
  - destruct (walks fname sc ls (S ks, kb) es) as (((es', n1), k1), sc1) eqn:X.
    match type of E with context [walk_block fname ?a ?b ?c ?d] => 
      destruct (walk_block fname a b c d) as (((b', n2), k2), sc2) eqn:Y end.
    injection E as <- <- <- <-. apply incl_app_inv in I. destruct I as (I1 & I2).
    apply incl_app_inv in I2. destruct I2 as (I2 & I3).
    destruct (rewalks_list es He _ _ _ _ _ _ _ X I2 (scope_ok_le _ (ks, kb) (S ks, kb) So ltac:(cbn; lia))
                (labs_ok_le _ (ks, kb) (S ks, kb) Lo ltac:(cbn; lia))) as (Q & _ & L & M).
    cbn [fst snd] in *.
    pose proof (scope_ok_new sc ks kb [] _ So I1) as So1.
    destruct (rewalk_block b Hb _ _ _ _ _ _ _ Y I3 (scope_ok_le _ _ k1 So1 L) (labs_ok_le _ (ks, kb) k1 Lo M))
      as (Q2 & L2 & M2).
    rewrite walk_eq. cbn zeta. cbn [fst snd] in *. rewrite Q, chain_ren, ren_scope_new, Q2, new_nodes_ren.
    rewrite !map_app. split; [|split; [|lia]].
    + do 3 f_equal. f_equal. unfold written. rewrite map_map. reflexivity.
    + apply (scope_ok_le _ (ks, kb)); [easy|cbn [fst] in *; lia].
  - match type of E with context [walk_block fname ?a ?b ?c ?d] => 
      destruct (walk_block fname a b c d) as (((b', n1), k1), sc1) eqn:X end.
    injection E as <- <- <- <-.
    destruct (rewalk_block b Hb _ _ _ _ _ _ _ X I So Lo) as (Q & L & M).
    rewrite walk_eq. rewrite Q. split; [easy|]. split; [|easy].
    now apply (scope_ok_le _ (ks, kb)).
  - match type of E with context [walks fname sc ?a ?b ?c] => 
      destruct (walks fname sc a b c) as (((b', n1), k1), sc1) eqn:X end.
    match type of E with context [walks fname sc1 ?a ?b ?c] => 
      destruct (walks fname sc1 a b c) as (((c', n2), k2), sc2) eqn:Y end.
    injection E as <- <- <- <-. apply incl_app_inv in I. destruct I as (I1 & I2).
    pose proof (labs_ok_new _ _ _ _ _ _ _ _ _ Lo X I1) as Lo'.
    destruct (rewalks_list b Hb _ _ _ _ _ _ _ X I1 (scope_ok_le _ (ks, kb) (ks, S kb) So (le_n _)) Lo')
      as (Q & So1 & L & M). cbn [fst snd] in *.
    destruct (rewalks_list c Hc _ _ _ _ _ _ _ Y I2 So1 (labs_ok_le _ (ks, S kb) _ Lo' M))
      as (Q2 & So2 & L2 & M2).
    rewrite walk_eq. cbn zeta. cbn [fst snd] in *.
    rewrite (ren_labels_new _ _ _ _ _ _ _ _ _ X), Q, Q2, map_app.
    split; [easy|]. split; [|lia]. apply (scope_ok_le _ (ks, kb)); [easy|cbn [fst] in *; lia].
  - injection E as <- <- <- <-. rewrite walk_eq. cbn zeta.
    pose proof (I _ (or_introl eq_refl)) as J. destruct (label_none _ _ _ J) as (v & Ev).
    rewrite Ev in *.
    rewrite (find_label_ren ls (ks, kb) _ v Lo J) by easy. rewrite map_fst_ren. easy.
  - injection E as <- <- <- <-. rewrite walk_eq. cbn zeta.
    pose proof (I _ (or_introl eq_refl)) as J. destruct (label_none _ _ _ J) as (v & Ev).
    rewrite Ev in *.
    rewrite (find_label_ren ls (ks, kb) _ v Lo J) by easy. rewrite map_fst_ren. easy.
Qed.
End Rewalk.
