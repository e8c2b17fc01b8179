(** Lemmas on scopes: the model of the parser follows the scoping rules of the
    specification, and writing other names into a program keeps the meaning of
    every name, if no new name captures another. *)
From Verif Require Import M_Base L_Util M_Rename S_Rename L_Ident.
From Coq Require Import List.
Import ListNotations.
Open Scope nat_scope.

(** * Induction on programs *)

Section Ind.
Context (P : syn -> Prop).
Context (HName : forall z n, P (YName z n)) (HMember : forall z t n, P (YMember z t n))
  (HPrint : P YPrint) (HLocal : forall ns es, Forall P es -> P (YLocal ns es))
  (HLocalFun : forall f ps b, Forall P b -> P (YLocalFun f ps b))
  (HFun : forall m ps b, Forall P b -> P (YFun m ps b))
  (HFor : forall ns es b, Forall P es -> Forall P b -> P (YFor ns es b))
  (HBlock : forall b, Forall P b -> P (YBlock b))
  (HRepeat : forall b c, Forall P b -> Forall P c -> P (YRepeat b c))
  (HLabel : forall n, P (YLabel n)) (HGoto : forall n, P (YGoto n)).

Fixpoint syn_ind' (t : syn) : P t :=
  let all := fix all (l : list syn) : Forall P l :=
    match l with [] => Forall_nil P | t :: l' => Forall_cons t (syn_ind' t) (all l') end in
  match t with
  | YName z n => HName z n
  | YMember z t n => HMember z t n
  | YPrint => HPrint
  | YLocal ns es => HLocal ns es (all es)
  | YLocalFun f ps b => HLocalFun f ps b (all b)
  | YFun m ps b => HFun m ps b (all b)
  | YFor ns es b => HFor ns es b (all es) (all b)
  | YBlock b => HBlock b (all b)
  | YRepeat b c => HRepeat b c (all b) (all c)
  | YLabel n => HLabel n
  | YGoto n => HGoto n
  end.
End Ind.

(** * Unfolding *)

Definition walk_block f (sc : scope) (ls : labels) (k : state) (l : list syn) :=
  walks f sc ((snd k, block_labels l) :: ls) (fst k, S (snd k)) l.

Lemma walks_cons f sc ls k t l :
  walks f sc ls k (t :: l) =
  let '(t', n1, k, sc) := walk f sc ls k t in
  let '(l'', n2, k, sc) := walks f sc ls k l in
  (t' :: l'', n1 ++ n2, k, sc).
Proof. reflexivity. Qed.

Lemma walk_eq f sc ls k t :
  walk f sc ls k t =
  match t with
  | YName z n => let ns := var_nodes sc z false n in
                 (YName z (hd n (written f ns)), ns, k, sc)
  | YMember z tb n =>
      let nd := {| n_name := n; n_kind := KMember tb; n_chain := chain sc;
                   n_implicit := false; n_zero := z |} in
      (YMember z tb (f nd), [nd], k, sc)
  | YPrint => (YPrint, var_nodes sc false true print_name, k, sc)
  | YLocal ns es =>
      let nds := new_nodes (fst k) 0 (chain sc) [] ns in
      let '(es', n1, k', _) := walks f sc ls (S (fst k), snd k) es in
      (YLocal (written f nds) es', nds ++ n1, k', new_frame (fst k) ns :: sc)
  | YLocalFun fn ps body =>
      let nds := new_nodes (fst k) 0 (chain sc) [] [fn] in
      let sc' := new_frame (fst k) [fn] :: sc in
      let nds' := new_nodes (S (fst k)) 0 (chain sc') [] ps in
      let '(b, n1, k', _) :=
        walk_block f (new_frame (S (fst k)) ps :: sc') [] (S (S (fst k)), snd k) body in
      (YLocalFun (hd fn (written f nds)) (written f nds') b, nds ++ nds' ++ n1, k', sc')
  | YFun method ps body =>
      let ps' := if method then self_name :: ps else ps in
      let nds := new_nodes (fst k) 0 (chain sc) [method] ps' in
      let '(b, n1, k', _) := walk_block f (new_frame (fst k) ps' :: sc) [] (S (fst k), snd k) body in
      (YFun method (if method then tl (written f nds) else written f nds) b, nds ++ n1, k', sc)
  | YFor ns es body =>
      let nds := new_nodes (fst k) 0 (chain sc) [] ns in
      let '(es', n1, k1, _) := walks f sc ls (S (fst k), snd k) es in
      let '(b, n2, k2, _) := walk_block f (new_frame (fst k) ns :: sc) ls k1 body in
      (YFor (written f nds) es' b, nds ++ n1 ++ n2, k2, sc)
  | YBlock body =>
      let '(b, n1, k', _) := walk_block f sc ls k body in
      (YBlock b, n1, k', sc)
  | YRepeat body cond =>
      let ls' := (snd k, block_labels body) :: ls in
      let '(b, n1, k1, sc') := walks f sc ls' (fst k, S (snd k)) body in
      let '(c, n2, k2, _) := walks f sc' ls' k1 cond in
      (YRepeat b c, n1 ++ n2, k2, sc)
  | YLabel n =>
      let nd := {| n_name := n; n_kind := KLabel (find_label ls n); n_chain := map fst ls;
                   n_implicit := false; n_zero := false |} in
      (YLabel (f nd), [nd], k, sc)
  | YGoto n =>
      let nd := {| n_name := n; n_kind := KLabel (find_label ls n); n_chain := map fst ls;
                   n_implicit := false; n_zero := false |} in
      (YGoto (f nd), [nd], k, sc)
  end.
Proof.
  destruct k as (ks, kb). destruct t; try reflexivity.
  unfold walk_block. cbn [fst snd].
  change (walk f sc ls (ks, kb) (YFor ns es body)) with
    (let nds := new_nodes ks 0 (chain sc) [] ns in
     let '(es', n1, k, _) := walks f sc ls (S ks, kb) es in
     let '(b, n2, k, _) := (let '(ks', kb') := k in
        walks f (new_frame ks ns :: sc) ((kb', block_labels body) :: ls) (ks', S kb') body) in
     (YFor (written f nds) es' b, nds ++ n1 ++ n2, k, sc)).
  cbn zeta. destruct (walks f sc ls (S ks, kb) es) as (((es', n1), (k1, k2)), sc1). reflexivity.
Qed.

Lemma block_labels_cons t l :
  block_labels (t :: l) = match t with YLabel n => [n] | _ => [] end ++ block_labels l.
Proof. reflexivity. Qed.

(** * The nodes do not depend on the names written *)

Section Indep.
Context (f g : node -> name).

Definition indep (t : syn) : Prop := forall sc ls k t1 n1 k1 sc1 t2 n2 k2 sc2,
  walk f sc ls k t = (t1, n1, k1, sc1) -> walk g sc ls k t = (t2, n2, k2, sc2) ->
  n1 = n2 /\ k1 = k2 /\ sc1 = sc2.

Lemma indep_list l : Forall indep l -> forall sc ls k t1 n1 k1 sc1 t2 n2 k2 sc2,
  walks f sc ls k l = (t1, n1, k1, sc1) -> walks g sc ls k l = (t2, n2, k2, sc2) ->
  n1 = n2 /\ k1 = k2 /\ sc1 = sc2.
Proof.
  intros F. induction F as [|t l Ht F IH]; intros sc ls k t1 n1 k1 sc1 t2 n2 k2 sc2 E1 E2.
  - cbn in E1, E2. injection E1 as <- <- <- <-. injection E2 as <- <- <- <-. easy.
  - rewrite walks_cons in E1, E2.
    destruct (walk f sc ls k t) as (((a1, b1), c1), d1) eqn:W1.
    destruct (walk g sc ls k t) as (((a2, b2), c2), d2) eqn:W2.
    destruct (Ht _ _ _ _ _ _ _ _ _ _ _ W1 W2) as (-> & -> & ->).
    destruct (walks f d2 ls c2 l) as (((u1, v1), x1), y1) eqn:X1.
    destruct (walks g d2 ls c2 l) as (((u2, v2), x2), y2) eqn:X2.
    destruct (IH _ _ _ _ _ _ _ _ _ _ _ X1 X2) as (-> & -> & ->).
    injection E1 as <- <- <- <-. injection E2 as <- <- <- <-. easy.
Qed.

Lemma indep_all t : indep t.
Proof.
  induction t as [z n|z tb n| |ns es He|fn ps b Hb|m ps b Hb|ns es b He Hb|b Hb|b c Hb Hc|n|n]
    using syn_ind'; intros sc ls k t1 n1 k1 sc1 t2 n2 k2 sc2 E1 E2;
    rewrite walk_eq in E1, E2; cbn zeta in E1, E2; unfold walk_block in E1, E2.
  1,2,3,10,11: injection E1 as <- <- <- <-; injection E2 as <- <- <- <-; easy.
  - destruct (walks f sc ls (S (fst k), snd k) es) as (((u1, v1), x1), y1) eqn:X1.
    destruct (walks g sc ls (S (fst k), snd k) es) as (((u2, v2), x2), y2) eqn:X2.
    destruct (indep_list es He _ _ _ _ _ _ _ _ _ _ _ X1 X2) as (-> & -> & ->).
    injection E1 as <- <- <- <-; injection E2 as <- <- <- <-; easy.
  - match type of E1 with context [walks f ?a ?b ?c ?d] => 
      destruct (walks f a b c d) as (((u1, v1), x1), y1) eqn:X1;
      destruct (walks g a b c d) as (((u2, v2), x2), y2) eqn:X2 end.
    destruct (indep_list _ Hb _ _ _ _ _ _ _ _ _ _ _ X1 X2) as (-> & -> & ->).
    injection E1 as <- <- <- <-; injection E2 as <- <- <- <-; easy.
  - match type of E1 with context [walks f ?a ?b ?c ?d] => 
      destruct (walks f a b c d) as (((u1, v1), x1), y1) eqn:X1;
      destruct (walks g a b c d) as (((u2, v2), x2), y2) eqn:X2 end.
    destruct (indep_list _ Hb _ _ _ _ _ _ _ _ _ _ _ X1 X2) as (-> & -> & ->).
    injection E1 as <- <- <- <-; injection E2 as <- <- <- <-; easy.
  - destruct (walks f sc ls (S (fst k), snd k) es) as (((u1, v1), x1), y1) eqn:X1.
    destruct (walks g sc ls (S (fst k), snd k) es) as (((u2, v2), x2), y2) eqn:X2.
    destruct (indep_list es He _ _ _ _ _ _ _ _ _ _ _ X1 X2) as (-> & -> & ->).
    match type of E1 with context [walks f ?a ?b ?c ?d] => 
      destruct (walks f a b c d) as (((u1', v1'), x1'), y1') eqn:X1';
      destruct (walks g a b c d) as (((u2', v2'), x2'), y2') eqn:X2' end.
    destruct (indep_list _ Hb _ _ _ _ _ _ _ _ _ _ _ X1' X2') as (-> & -> & ->).
    injection E1 as <- <- <- <-; injection E2 as <- <- <- <-; easy.
  - match type of E1 with context [walks f ?a ?b ?c ?d] => 
      destruct (walks f a b c d) as (((u1, v1), x1), y1) eqn:X1;
      destruct (walks g a b c d) as (((u2, v2), x2), y2) eqn:X2 end.
    destruct (indep_list _ Hb _ _ _ _ _ _ _ _ _ _ _ X1 X2) as (-> & -> & ->).
    injection E1 as <- <- <- <-; injection E2 as <- <- <- <-; easy.
  - match type of E1 with context [walks f ?a ?b ?c ?d] => 
      destruct (walks f a b c d) as (((u1, v1), x1), y1) eqn:X1;
      destruct (walks g a b c d) as (((u2, v2), x2), y2) eqn:X2 end.
    destruct (indep_list _ Hb _ _ _ _ _ _ _ _ _ _ _ X1 X2) as (-> & -> & ->).
    match type of E1 with context [walks f ?a ?b ?c ?d] => 
      destruct (walks f a b c d) as (((u1', v1'), x1'), y1') eqn:X1';
      destruct (walks g a b c d) as (((u2', v2'), x2'), y2') eqn:X2' end.
    destruct (indep_list _ Hc _ _ _ _ _ _ _ _ _ _ _ X1' X2') as (-> & -> & ->).
    injection E1 as <- <- <- <-; injection E2 as <- <- <- <-; easy.
Qed.
End Indep.

Lemma root_indep f g builtins prog :
  snd (walk_root f builtins prog) = snd (walk_root g builtins prog).
Proof.
  unfold walk_root.
  match goal with |- context [walks f ?a ?b ?c ?d] => 
    destruct (walks f a b c d) as (((u1, v1), x1), y1) eqn:X1;
    destruct (walks g a b c d) as (((u2, v2), x2), y2) eqn:X2 end.
  refine (proj1 (indep_list f g prog _ _ _ _ _ _ _ _ _ _ _ _ X1 X2)).
  apply Forall_forall. intros t _. apply indep_all.
Qed.

(** * The model follows the scoping rules *)

Definition occ_of (nd : node) : occ :=
  match n_kind nd with
  | KLocal v => OLocal (n_name nd) v
  | KGlobal => OGlobal (n_name nd)
  | KMember t => OMember t (n_name nd)
  | KLabel v => OLabel (n_name nd) v
  end.

Definition flat_scope (sc : scope) : list (name * var) := flat_map f_items sc.
Definition flat_labels (ls : labels) : list (name * lvar) :=
  flat_map (fun b => declare (fst b) (snd b)) ls.

Lemma meaning_app {A} (a b : list (name * A)) n :
  meaning (a ++ b) n = match meaning a n with Some v => Some v | None => meaning b n end.
Proof.
  induction a as [|(m, v) a IH]; [easy|]. cbn [app meaning]. destruct (zeqb_list n m); [easy|exact IH].
Qed.

Lemma dict_meaning {A} (d : list (name * A)) n : dict_get d n = meaning d n.
Proof. induction d as [|(m, v) d IH]; [easy|]. cbn. now rewrite IH. Qed.

Lemma find_meaning sc n : scope_find sc n = meaning (flat_scope sc) n.
Proof.
  induction sc as [|fr sc IH]; [easy|]. unfold flat_scope. cbn [scope_find flat_map].
  rewrite meaning_app, dict_meaning, IH. easy.
Qed.

Lemma places_declare_gen id ns : forall i,
  places id i ns = combine ns (combine (repeat id (length ns)) (seq i (length ns))).
Proof.
  induction ns as [|n ns IH]; intros i; [easy|]. cbn [places length repeat seq combine].
  now rewrite IH.
Qed.

Lemma places_declare id ns : places id 0 ns = declare id ns.
Proof. apply places_declare_gen. Qed.

Lemma index_declare_gen (id : nat) ns n : forall i,
  meaning (combine ns (combine (repeat id (length ns)) (seq i (length ns)))) n =
  match index_of n ns with Some j => Some (id, i + j) | None => None end.
Proof.
  induction ns as [|m ns IH]; intros i; [easy|]. cbn [length repeat seq combine meaning index_of].
  destruct (zeqb_list n m).
  - now rewrite Nat.add_0_r.
  - rewrite IH. destruct (index_of n ns); cbn [option_map]; [|easy]. f_equal. f_equal. lia.
Qed.

Lemma index_declare id ns n :
  meaning (declare id ns) n = match index_of n ns with Some j => Some (id, j) | None => None end.
Proof. unfold declare. rewrite index_declare_gen. easy. Qed.

Lemma find_label_meaning ls n : find_label ls n = meaning (flat_labels ls) n.
Proof.
  induction ls as [|(id, ns) ls IH]; [easy|]. unfold flat_labels. cbn [find_label flat_map fst snd].
  rewrite meaning_app, index_declare, IH. destruct (index_of n ns); easy.
Qed.

Lemma var_nodes_mention sc z i n : map occ_of (var_nodes sc z i n) = mention (flat_scope sc) n.
Proof.
  unfold var_nodes, mention. rewrite !find_meaning. change local_id with var.
  destruct (meaning (flat_scope sc) n); [easy|].
  destruct (meaning (flat_scope sc) env_name); easy.
Qed.

Lemma new_nodes_declared_gen id up ns : forall i im,
  map occ_of (new_nodes id i up im ns) =
  map (fun '(n, v) => OLocal n v) (combine ns (combine (repeat id (length ns)) (seq i (length ns)))).
Proof.
  induction ns as [|n ns IH]; intros i im; [easy|].
  cbn [new_nodes length repeat seq combine map]. now rewrite IH.
Qed.

Lemma new_nodes_declared id up im ns : map occ_of (new_nodes id 0 up im ns) = declared id ns.
Proof. apply new_nodes_declared_gen. Qed.

Lemma flat_new_frame id ns sc : flat_scope (new_frame id ns :: sc) = rev (declare id ns) ++ flat_scope sc.
Proof. unfold flat_scope, new_frame. cbn [flat_map f_items]. now rewrite places_declare. Qed.

Definition occs_all :=
  fix all (env : list (name * local_id)) (lab : list (name * label_id))
      (k : nat * nat) (l : list syn) {struct l} :=
    match l with
    | [] => ([], k, env)
    | t :: l' => let '(o1, k, env) := occs env lab k t in
                 let '(o2, k, env) := all env lab k l' in
                 (o1 ++ o2, k, env)
    end.

Lemma occs_cons env lab k t l : occs_all env lab k (t :: l) =
  let '(o1, k, env) := occs env lab k t in
  let '(o2, k, env) := occs_all env lab k l in
  (o1 ++ o2, k, env).
Proof. reflexivity. Qed.

Lemma occs_eq env lab k t : occs env lab k t =
  match t with
  | YName _ n => (mention env n, k, env)
  | YMember _ tb n => ([OMember tb n], k, env)
  | YPrint => (mention env print_name, k, env)
  | YLocal ns es =>
      let '(o, k', _) := occs_all env lab (S (fst k), snd k) es in
      (declared (fst k) ns ++ o, k', rev (declare (fst k) ns) ++ env)
  | YLocalFun f ps body =>
      let env' := rev (declare (fst k) [f]) ++ env in
      let d := S (fst k) in
      let '(o, k', _) := occs_all (rev (declare d ps) ++ env') (declare (snd k) (block_labels body))
                             (S d, S (snd k)) body in
      (declared (fst k) [f] ++ declared d ps ++ o, k', env')
  | YFun method ps body =>
      let ps := if method then self_name :: ps else ps in
      let '(o, k', _) := occs_all (rev (declare (fst k) ps) ++ env) (declare (snd k) (block_labels body))
                             (S (fst k), S (snd k)) body in
      (declared (fst k) ps ++ o, k', env)
  | YFor ns es body =>
      let '(o1, k', _) := occs_all env lab (S (fst k), snd k) es in
      let '(o2, k'', _) := occs_all (rev (declare (fst k) ns) ++ env)
                               (declare (snd k') (block_labels body) ++ lab)
                               (fst k', S (snd k')) body in
      (declared (fst k) ns ++ o1 ++ o2, k'', env)
  | YBlock body =>
      let '(o, k', _) := occs_all env (declare (snd k) (block_labels body) ++ lab) (fst k, S (snd k)) body in
      (o, k', env)
  | YRepeat body cond =>
      let lab' := declare (snd k) (block_labels body) ++ lab in
      let '(o1, k', env') := occs_all env lab' (fst k, S (snd k)) body in
      let '(o2, k'', _) := occs_all env' lab' k' cond in
      (o1 ++ o2, k'', env)
  | YLabel n | YGoto n => ([OLabel n (meaning lab n)], k, env)
  end.
Proof. destruct t; reflexivity. Qed.

Definition follows (t : syn) : Prop := forall f sc ls k t' ns k' sc',
  walk f sc ls k t = (t', ns, k', sc') ->
  occs (flat_scope sc) (flat_labels ls) k t = (map occ_of ns, k', flat_scope sc').

Lemma follows_list l : Forall follows l -> forall f sc ls k l' ns k' sc',
  walks f sc ls k l = (l', ns, k', sc') ->
  occs_all (flat_scope sc) (flat_labels ls) k l = (map occ_of ns, k', flat_scope sc').
Proof.
  intros F. induction F as [|t l Ht F IH]; intros f sc ls k l' ns k' sc' E.
  - cbn in E. injection E as <- <- <- <-. reflexivity.
  - rewrite walks_cons in E. rewrite occs_cons.
    destruct (walk f sc ls k t) as (((a1, b1), c1), d1) eqn:W1.
    rewrite (Ht _ _ _ _ _ _ _ _ W1).
    destruct (walks f d1 ls c1 l) as (((u1, v1), x1), y1) eqn:X1.
    rewrite (IH _ _ _ _ _ _ _ _ X1).
    injection E as <- <- <- <-. now rewrite map_app.
Qed.

Lemma flat_labels_cons b ns ls : flat_labels ((b, ns) :: ls) = declare b ns ++ flat_labels ls.
Proof. reflexivity. Qed.
Lemma flat_labels_one b ns : flat_labels [(b, ns)] = declare b ns.
Proof. rewrite flat_labels_cons. apply app_nil_r. Qed.

Lemma follows_all t : follows t.
Proof.
  induction t as [z n|z tb n| |ns es He|fn ps b Hb|m ps b Hb|ns es b He Hb|b Hb|b c Hb Hc|n|n]
    using syn_ind'; intros f sc ls k t' nn k' sc' E;
    rewrite walk_eq in E; rewrite occs_eq; cbn zeta in E |- *; unfold walk_block in E;
    cbn [fst snd] in E.
  - injection E as <- <- <- <-. now rewrite var_nodes_mention.
  - injection E as <- <- <- <-. reflexivity.
  - injection E as <- <- <- <-. now rewrite var_nodes_mention.
  - match type of E with context [walks f ?a ?b ?c ?d] => 
      destruct (walks f a b c d) as (((u1, v1), x1), y1) eqn:X1 end.
    pose proof (follows_list _ He _ _ _ _ _ _ _ _ X1) as Q. rewrite Q.
    injection E as <- <- <- <-. now rewrite map_app, new_nodes_declared, flat_new_frame.
  - match type of E with context [walks f ?a ?b ?c ?d] => 
      destruct (walks f a b c d) as (((u1, v1), x1), y1) eqn:X1 end.
    pose proof (follows_list _ Hb _ _ _ _ _ _ _ _ X1) as Q.
    rewrite !flat_new_frame, flat_labels_one in Q. rewrite Q.
    injection E as <- <- <- <-.
    rewrite flat_new_frame. change (?a :: ?b ++ ?c) with ((a :: b) ++ c).
    rewrite <- (new_nodes_declared (S (fst k)) (chain (new_frame (fst k) [fn] :: sc)) [] ps).
    rewrite <- map_app. reflexivity.
  - match type of E with context [walks f ?a ?b ?c ?d] => 
      destruct (walks f a b c d) as (((u1, v1), x1), y1) eqn:X1 end.
    pose proof (follows_list _ Hb _ _ _ _ _ _ _ _ X1) as Q.
    rewrite !flat_new_frame, flat_labels_one in Q. rewrite Q.
    injection E as <- <- <- <-. now rewrite map_app, new_nodes_declared.
  - match type of E with context [walks f ?a ?b ?c es] => 
      destruct (walks f a b c es) as (((u1, v1), x1), y1) eqn:X1 end.
    pose proof (follows_list _ He _ _ _ _ _ _ _ _ X1) as Q. rewrite Q.
    match type of E with context [walks f ?a ?b ?c ?d] => 
      destruct (walks f a b c d) as (((u2, v2), x2), y2) eqn:X2 end.
    pose proof (follows_list _ Hb _ _ _ _ _ _ _ _ X2) as Q2.
    rewrite !flat_new_frame, flat_labels_cons in Q2. rewrite Q2.
    injection E as <- <- <- <-. now rewrite !map_app, new_nodes_declared.
  - match type of E with context [walks f ?a ?b ?c ?d] => 
      destruct (walks f a b c d) as (((u1, v1), x1), y1) eqn:X1 end.
    pose proof (follows_list _ Hb _ _ _ _ _ _ _ _ X1) as Q.
    rewrite flat_labels_cons in Q. rewrite Q.
    injection E as <- <- <- <-. reflexivity.
  - match type of E with context [walks f ?a ?b ?c b] => idtac | _ => idtac end.
    match type of E with context [walks f sc ?a ?b ?c] => 
      destruct (walks f sc a b c) as (((u1, v1), x1), y1) eqn:X1 end.
    pose proof (follows_list _ Hb _ _ _ _ _ _ _ _ X1) as Q.
    rewrite flat_labels_cons in Q. rewrite Q.
    match type of E with context [walks f ?a ?b ?c ?d] => 
      destruct (walks f a b c d) as (((u2, v2), x2), y2) eqn:X2 end.
    pose proof (follows_list _ Hc _ _ _ _ _ _ _ _ X2) as Q2.
    rewrite flat_labels_cons in Q2. rewrite Q2.
    injection E as <- <- <- <-. now rewrite !map_app.
  - injection E as <- <- <- <-. now rewrite <- find_label_meaning.
  - injection E as <- <- <- <-. now rewrite <- find_label_meaning.
Qed.

Lemma parse_occurrences builtins prog :
  occurrences builtins prog = map occ_of (parse builtins prog).
Proof.
  unfold occurrences, parse, walk_root. rewrite occs_eq. cbn [fst snd].
  destruct (walks n_name [new_frame 0 (env_name :: builtins)] [(0, block_labels prog)] (1, 1) prog)
    as (((u1, v1), x1), y1) eqn:X1.
  pose proof (follows_list prog ltac:(apply Forall_forall; intros; apply follows_all)
                _ _ _ _ _ _ _ _ X1) as Q.
  rewrite flat_new_frame, flat_labels_one in Q. unfold flat_scope in Q at 1. cbn [flat_map] in Q.
  rewrite app_nil_r in Q. rewrite app_nil_r. rewrite Q. reflexivity.
Qed.
