(** Renaming and trees: the renamed names put back into the tree. *)
From Coq Require Import String List ZArith Bool Lia.
From Verif Require Import M_Base M_Fold M_Token M_Expr M_Stmt M_Rename M_Names S_Rename S_Alpha L_Util L_Stmt L_Scope L_Alpha L_Link.
Import ListNotations.
Open Scope nat_scope.

(** ** What the bare names say *)
Definition bare_occ (a : occ) : occ := match a with OMember _ n => OMember [] n | a => a end.
Definition bare_r (r : list occ * (nat * nat) * list (name * local_id)) : list occ * (nat * nat) * list (name * local_id) :=
  let '(o, k, e) := r in (map bare_occ o, k, e).
Definition bared (t : syn) : Prop := forall env lab k, occs env lab k (bare t) = bare_r (occs env lab k t).
Lemma bared_list l : Forall bared l -> forall env lab k, occs_all env lab k (map bare l) = bare_r (occs_all env lab k l).
Proof.
  intros F. induction F as [|t l Ht F IH]; intros env lab k; [reflexivity|]. cbn [map]. rewrite !occs_cons, Ht.
  destruct (occs env lab k t) as [[o1 k1] e1]. cbn [bare_r]. rewrite IH. destruct (occs_all e1 lab k1 l) as [[o2 k2] e2]. cbn [bare_r]. now rewrite map_app.
Qed.
Lemma bare_labels l : block_labels (map bare l) = block_labels l.
Proof. induction l as [|t l IH]; [reflexivity|]. cbn [map]. rewrite !block_labels_cons, IH. now destruct t. Qed.
Lemma bare_declared d ns : map bare_occ (declared d ns) = declared d ns.
Proof. unfold declared. rewrite map_map. apply map_ext. intros [n v]. reflexivity. Qed.
Lemma bare_mention env n : map bare_occ (mention env n) = mention env n.
Proof. unfold mention. destruct (meaning env n); [reflexivity|]. now destruct (meaning env env_name). Qed.
Lemma bared_all t : bared t.
Proof.
  induction t as [z n|z tb n| |ns es He|fn ps b Hb|m ps b Hb|ns es b He Hb|b Hb|b c Hb Hc|n|n] using syn_ind'; intros env lab k; cbn [bare];
    rewrite !occs_eq; cbv zeta; rewrite ?bare_labels.
  - cbn [bare_r]. now rewrite bare_mention.
  - reflexivity.
  - cbn [bare_r]. now rewrite bare_mention.
  - rewrite (bared_list _ He). destruct (occs_all _ _ _ es) as [[o1 k1] e1]. cbn [bare_r]. now rewrite map_app, bare_declared.
  - rewrite (bared_list _ Hb). destruct (occs_all _ _ _ b) as [[o1 k1] e1]. cbn [bare_r]. now rewrite !map_app, !bare_declared.
  - rewrite (bared_list _ Hb). destruct (occs_all _ _ _ b) as [[o1 k1] e1]. cbn [bare_r]. now rewrite !map_app, !bare_declared.
  - rewrite (bared_list _ He). destruct (occs_all _ _ _ es) as [[o1 k1] e1]. cbn [bare_r]. rewrite (bared_list _ Hb). destruct (occs_all _ _ _ b) as [[o2 k2] e2]. cbn [bare_r].
    now rewrite !map_app, bare_declared.
  - rewrite (bared_list _ Hb). destruct (occs_all _ _ _ b) as [[o1 k1] e1]. reflexivity.
  - rewrite (bared_list _ Hb). destruct (occs_all _ _ _ b) as [[o1 k1] e1]. cbn [bare_r]. rewrite (bared_list _ Hc). destruct (occs_all _ _ _ c) as [[o2 k2] e2]. cbn [bare_r].
    now rewrite map_app.
  - reflexivity.
  - reflexivity.
Qed.
Lemma bare_occurrences bs prog : occurrences bs (map bare prog) = map bare_occ (occurrences bs prog).
Proof.
  unfold occurrences. change (YBlock (map bare prog)) with (bare (YBlock prog)). rewrite bared_all.
  destruct (occs _ _ _ (YBlock prog)) as [[o k] e]. reflexivity.
Qed.

(** "_ENV" is no global *)
Definition env_seen (t : syn) : Prop := forall env lab k o k' env', meaning env env_name <> None -> occs env lab k t = (o, k', env') ->
  ~ In (OGlobal env_name) o /\ meaning env' env_name <> None.
Lemma seen_app (a b : list (name * local_id)) : meaning b env_name <> None -> meaning (a ++ b) env_name <> None.
Proof. intros H. rewrite meaning_app. now destruct (meaning a env_name). Qed.
Lemma env_seen_list l : Forall env_seen l -> forall env lab k o k' env', meaning env env_name <> None -> occs_all env lab k l = (o, k', env') ->
  ~ In (OGlobal env_name) o /\ meaning env' env_name <> None.
Proof.
  intros F. induction F as [|t l Ht F IH]; intros env lab k o k' env' H E; [cbn in E; injection E as <- <- <-; easy|].
  rewrite occs_cons in E. destruct (occs env lab k t) as [[o1 k1] e1] eqn:E1. destruct (Ht _ _ _ _ _ _ H E1) as (A & B).
  destruct (occs_all e1 lab k1 l) as [[o2 k2] e2] eqn:E2. destruct (IH _ _ _ _ _ _ B E2) as (C & D). injection E as <- <- <-.
  split; [|exact D]. intros I. apply in_app_or in I. tauto.
Qed.
Lemma declared_no d ns : ~ In (OGlobal env_name) (declared d ns).
Proof. unfold declared. intros I. apply in_map_iff in I. destruct I as ([n v] & X & _). discriminate X. Qed.
Lemma mention_no (env : list (name * local_id)) n : meaning env env_name <> None -> ~ In (OGlobal env_name) (mention env n).
Proof.
  unfold mention. intros H. destruct (meaning env n) eqn:Q; [intros [I|[]]; discriminate I|]. intros [I|I].
  - injection I as ->. contradiction.
  - destruct (meaning env env_name); [destruct I as [I|[]]; discriminate I|exact I].
Qed.
Lemma env_seen_all t : env_seen t.
Proof.
  induction t as [z n|z tb n| |ns es He|fn ps b Hb|m ps b Hb|ns es b He Hb|b Hb|b c Hb Hc|n|n] using syn_ind'; intros env lab k o k' env' H E;
    rewrite occs_eq in E; cbv zeta in E.
  1,3: injection E as <- <- <-; split; [now apply mention_no|exact H].
  1,8,9: injection E as <- <- <-; split; [intros [I|[]]; discriminate I|exact H].
  - destruct (occs_all _ _ _ es) as [[o1 k1] e1] eqn:E1. destruct (env_seen_list _ He _ _ _ _ _ _ H E1) as (A & _). injection E as <- <- <-.
    split; [|now apply seen_app]. intros I. apply in_app_or in I. destruct I as [I|I]; [exact (declared_no _ _ I)|exact (A I)].
  - destruct (occs_all _ _ _ b) as [[o1 k1] e1] eqn:E1. destruct (env_seen_list _ Hb _ _ _ _ _ _ (seen_app _ _ (seen_app _ _ H)) E1) as (A & _). injection E as <- <- <-.
    split; [|now apply (seen_app (rev (declare (fst k) [fn])))]. intros [I|I]; [discriminate I|]. apply in_app_or in I. destruct I as [I|I]; [exact (declared_no _ _ I)|exact (A I)].
  - destruct (occs_all _ _ _ b) as [[o1 k1] e1] eqn:E1. destruct (env_seen_list _ Hb _ _ _ _ _ _ (seen_app _ _ H) E1) as (A & _). injection E as <- <- <-.
    split; [|exact H]. intros I. apply in_app_or in I. destruct I as [I|I]; [exact (declared_no _ _ I)|exact (A I)].
  - destruct (occs_all _ _ _ es) as [[o1 k1] e1] eqn:E1. destruct (env_seen_list _ He _ _ _ _ _ _ H E1) as (A & _).
    destruct (occs_all _ _ _ b) as [[o2 k2] e2] eqn:E2. destruct (env_seen_list _ Hb _ _ _ _ _ _ (seen_app _ _ H) E2) as (B & _). injection E as <- <- <-.
    split; [|exact H]. intros I. apply in_app_or in I. destruct I as [I|I]; [exact (declared_no _ _ I)|]. apply in_app_or in I. tauto.
  - destruct (occs_all _ _ _ b) as [[o1 k1] e1] eqn:E1. destruct (env_seen_list _ Hb _ _ _ _ _ _ H E1) as (A & _). injection E as <- <- <-. now split.
  - destruct (occs_all _ _ _ b) as [[o1 k1] e1] eqn:E1. destruct (env_seen_list _ Hb _ _ _ _ _ _ H E1) as (A & B).
    destruct (occs_all _ _ _ c) as [[o2 k2] e2] eqn:E2. destruct (env_seen_list _ Hc _ _ _ _ _ _ B E2) as (C & _). injection E as <- <- <-.
    split; [|exact H]. intros I. apply in_app_or in I. tauto.
Qed.

(** ** A whole program *)
Lemma meaning_name {A} (l : list (name * A)) x v : meaning l x = Some v -> In x (map fst l).
Proof. induction l as [|[y w] l IH]; [discriminate|]. cbn. destruct (zeqb_list x y) eqn:E; [intros _; apply zeqb_list_true in E; now left|]. intros Q. right. now apply IH. Qed.
Lemma meaning_some {A} (l : list (name * A)) x : In x (map fst l) -> exists v, meaning l x = Some v.
Proof.
  induction l as [|[y w] l IH]; [intros []|]. cbn. intros H. destruct (zeqb_list x y) eqn:E; [eauto|]. apply IH. destruct H as [H|H]; [|exact H].
  subst. now rewrite zeqb_list_refl in E.
Qed.
Lemma no_global_env bs prog : ~ In (OGlobal env_name) (occurrences bs prog).
Proof.
  unfold occurrences. destruct (occs _ _ _ (YBlock prog)) as [[o k] e] eqn:E. refine (proj1 (env_seen_all (YBlock prog) _ _ _ _ _ _ _ E)).
  destruct (meaning_some (rev (declare 0 (env_name :: bs))) env_name) as (v & X); [|intros Y; enough (Some v = None) by discriminate; transitivity (meaning (rev (declare 0 (env_name :: bs))) env_name); [symmetry; exact X|exact Y]].
  rewrite map_rev, declare_fst. apply in_rev. rewrite rev_involutive. now left.
Qed.
Lemma program_link g k bs b b' : shape_blk b' = shape_blk b -> (forall x, In x (env_name :: bs) -> g x = x) ->
  Forall2 (R g k) (occurrences bs (names_blk b)) (occurrences bs (names_blk b')) -> alpha_blk (Gg g) (Kk k) [] (frame b b') b b'.
Proof.
  intros Sh Hg F. set (root := rev (declare 0 (env_name :: bs))).
  assert (Hr : map fst root = rev (env_name :: bs)) by (unfold root; now rewrite map_rev, declare_fst).
  assert (ROOT : forall x v, meaning root x = Some v -> g x = x).
  { intros x v M. apply meaning_name in M. rewrite Hr in M. apply in_rev in M. now apply Hg. }
  assert (ENV : exists v, meaning root env_name = Some v).
  { apply meaning_some. rewrite Hr. apply in_rev. rewrite rev_involutive. now left. }
  assert (G : good root [] [] (1, 0)).
  { split; [reflexivity|]. cbn [app]. split; [unfold root; rewrite map_rev, declare_snd; apply NoDup_rev, ids_nodup|].
    intros v H. unfold root in H. rewrite map_rev, declare_snd in H. apply in_rev, ids_fst in H. cbn [fst]. lia. }
  destruct (link_all g k root ROOT ENV) as (_ & _ & _ & _ & HB & _).
  destruct (link_block g k root ROOT b b' [] [] [] [] (1, 0) (HB b) Sh G (lgood_nil _)) as (K1 & (o & o' & E & E' & _ & Q)).
  assert (X : forall l p K2 e, occs_all root [] (1, 0) [YBlock l] = (p, K2, e) -> occurrences bs l = p).
  { intros l p K2 e X. rewrite occs_cons in X. unfold occurrences. change (rev (declare 0 (env_name :: bs))) with root.
    destruct (occs root [] (1, 0) (YBlock l)) as [[q k1] e1]. cbn in X. injection X as <- _ _. now rewrite app_nil_r. }
  rewrite (X _ _ _ _ E), (X _ _ _ _ E') in F. specialize (Q [] []). rewrite !app_nil_r in Q. destruct (Q F) as (A & _).
  change (zip [] []) with (@nil (list Z * list Z)) in A. exact A.
Qed.

(** ** The new names in the old tree *)
Fixpoint form (t : syn) : syn :=
  match t with
  | YName _ n => YName false []
  | YMember _ _ n => YMember false [] []
  | YPrint => YPrint
  | YLocal ns es => YLocal (map (fun _ => []) ns) (map form es)
  | YLocalFun f ps b => YLocalFun [] (map (fun _ => []) ps) (map form b)
  | YFun me ps b => YFun me (map (fun _ => []) ps) (map form b)
  | YFor ns es b => YFor (map (fun _ => []) ns) (map form es) (map form b)
  | YBlock b => YBlock (map form b)
  | YRepeat b c => YRepeat (map form b) (map form c)
  | YLabel n => YLabel []
  | YGoto n => YGoto []
  end.
Lemma map_form_list f l : Forall (fun t => form (f t) = form t) l -> map form (map f l) = map form l.
Proof. intros F. induction F as [|t l H F IH]; [reflexivity|]. cbn. now rewrite H, IH. Qed.
Lemma form_bare t : form (bare t) = form t.
Proof.
  induction t as [z n|z tb n| |ns es He|fn ps b Hb|m ps b Hb|ns es b He Hb|b Hb|b c Hb Hc|n|n] using syn_ind'; cbn [bare form];
    repeat match goal with H : Forall _ _ |- _ => rewrite (map_form_list _ _ H); clear H end; reflexivity.
Qed.
Definition formed (t : syn) : Prop := forall f sc ls k t' ns k' sc', walk f sc ls k t = (t', ns, k', sc') -> form t' = form t.
Lemma formed_list l : Forall formed l -> forall f sc ls k l' ns k' sc', walks f sc ls k l = (l', ns, k', sc') -> map form l' = map form l.
Proof.
  intros F. induction F as [|t l Ht F IH]; intros f sc ls k l' ns k' sc' E.
  - cbn in E. injection E as <- <- <- <-. reflexivity.
  - rewrite walks_cons in E. destruct (walk f sc ls k t) as (((a1, b1), c1), d1) eqn:W1.
    destruct (walks f d1 ls c1 l) as (((u1, v1), x1), y1) eqn:X1. injection E as <- <- <- <-. cbn [map].
    now rewrite (Ht _ _ _ _ _ _ _ _ W1), (IH _ _ _ _ _ _ _ _ X1).
Qed.
Lemma blanks {A B} (l : list A) (l' : list B) : length l = length l' -> map (fun _ => @nil Z) l = map (fun _ => []) l'.
Proof. revert l'. induction l as [|x l IH]; intros [|y l'] E; try discriminate E; [reflexivity|]. cbn. f_equal. apply IH. now injection E. Qed.
Lemma new_nodes_len id up : forall ns i im, length (new_nodes id i up im ns) = length ns.
Proof. induction ns as [|n ns IH]; intros i im; [reflexivity|]. cbn [new_nodes length]. now rewrite IH. Qed.
Lemma written_len f nds : length (written f nds) = length nds.
Proof. unfold written. apply map_length. Qed.
Lemma formed_all t : formed t.
Proof.
  induction t as [z n|z tb n| |ns es He|fn ps b Hb|m ps b Hb|ns es b He Hb|b Hb|b c Hb Hc|n|n] using syn_ind'; intros f sc ls k t' nds k' sc' E;
    rewrite walk_eq in E; cbv zeta in E; unfold walk_block in E; cbn [fst snd] in E;
    repeat match type of E with context [walks f ?a ?b ?c ?d] => let X := fresh "X" in destruct (walks f a b c d) as (((? & ?) & ?) & ?) eqn:X end;
    injection E as <- <- <- <-; cbn [form]; repeat match goal with X : walks _ _ _ _ _ = _ |- _ => eapply formed_list in X; [rewrite X; clear X|assumption] end; try reflexivity;
    try (f_equal; apply blanks; now rewrite written_len, new_nodes_len).
  f_equal. apply blanks. destruct m; [|now rewrite written_len, new_nodes_len].
  pose proof (written_len f (new_nodes (fst k) 0 (chain sc) [true] (self_name :: ps))) as L. rewrite new_nodes_len in L.
  destruct (written f (new_nodes (fst k) 0 (chain sc) [true] (self_name :: ps))); [discriminate L|]. now injection L.
Qed.
Lemma form_root f bs prog : map form (fst (walk_root f bs prog)) = map form prog.
Proof.
  unfold walk_root. match goal with |- context [walks f ?a ?b ?c ?d] => destruct (walks f a b c d) as (((u1, v1), x1), y1) eqn:X1 end.
  cbn [fst]. eapply formed_list; [|exact X1]. apply Forall_forall. intros t _. apply formed_all.
Qed.

Definition bareness (t : syn) : Prop := bare t = t.
Lemma bare_fix_list l : map bare l = l <-> Forall bareness l.
Proof.
  induction l as [|t l IH]; [split; constructor|]. cbn [map]. split.
  - intros E. injection E as E1 E2. constructor; [exact E1|]. now apply IH.
  - intros F. inversion F; subst. f_equal; [assumption|]. now apply IH.
Qed.
Lemma bare_bare t : bare (bare t) = bare t.
Proof.
  assert (H : forall l, Forall (fun t => bare (bare t) = bare t) l -> map bare (map bare l) = map bare l).
  { intros l F. induction F as [|x l H F IH]; [reflexivity|]. cbn. now rewrite H, IH. }
  induction t as [z n|z tb n| |ns es He|fn ps b Hb|m ps b Hb|ns es b He Hb|b Hb|b c Hb Hc|n|n] using syn_ind'; cbn [bare]; rewrite ?H by assumption; reflexivity.
Qed.

Lemma form_app l1 l2 l : map form l = map form (l1 ++ l2) -> exists a b, l = a ++ b /\ map form a = map form l1 /\ map form b = map form l2.
Proof. rewrite map_app. intros E. apply map_eq_app in E. destruct E as (a & b & -> & A & B). eauto. Qed.
Lemma form_one t l : map form l = [t] -> exists x, l = [x] /\ form x = t.
Proof. destruct l as [|x [|y l]]; intros E; try discriminate E. injection E as E. eauto. Qed.
Lemma form_cons t l0 l : map form l = t :: l0 -> exists x r, l = x :: r /\ form x = t /\ map form r = l0.
Proof. destruct l as [|x l]; intros E; [discriminate E|]. injection E as E1 E2. eauto. Qed.
Lemma blank_len {A B} (l : list A) (l' : list B) : map (fun _ => @nil Z) l = map (fun _ => []) l' -> length l = length l'.
Proof. intros E. apply (f_equal (@length _)) in E. now rewrite !map_length in E. Qed.

Lemma fill_params : forall ps ns, length ns = length (params ps) -> exists ps', params ps' = ns /\ map (option_map (fun _ : list Z => @nil Z)) ps' = map (option_map (fun _ => [])) ps.
Proof.
  induction ps as [|[x|] ps IH]; intros ns L.
  - destruct ns; [|discriminate L]. now exists [].
  - destruct ns as [|n ns]; [discriminate L|]. destruct (IH ns) as (ps' & A & B); [now injection L|]. exists (Some n :: ps'). cbn. rewrite B. split; [exact (f_equal (cons n) A)|reflexivity].
  - destruct (IH ns L) as (ps' & A & B). exists (None :: ps'). cbn. rewrite B. now split.
Qed.
Lemma fill_members : forall ks l, map form l = map form (map member ks) -> map bare l = l -> exists ks', map member ks' = l /\ length ks' = length ks.
Proof.
  induction ks as [|k ks IH]; intros l E Bl.
  - destruct l; [|discriminate E]. now exists [].
  - cbn [map] in E. apply form_cons in E. destruct E as (x & r & -> & Ex & Er). cbn [map] in Bl. injection Bl as B1 B2.
    destruct (IH r Er B2) as (ks' & A & B). destruct x; try discriminate Ex. cbn in B1. injection B1 as <- <-. exists (n :: ks'). cbn. rewrite A, B. now split.
Qed.

Definition FE (e : ex) : Prop := forall l, map form l = map form (names_ex e) -> map bare l = l -> exists e', shape_ex e' = shape_ex e /\ names_ex e' = l.
Definition FEs (e : exs) : Prop := forall l, map form l = map form (names_exs e) -> map bare l = l -> exists e', shape_exs e' = shape_exs e /\ names_exs e' = l.
Definition FI (e : its) : Prop := forall l, map form l = map form (names_its e) -> map bare l = l -> exists e', shape_its e' = shape_its e /\ names_its e' = l.
Definition FS (e : st) : Prop := forall l, map form l = map form (names_st e) -> map bare l = l -> exists e', shape_st e' = shape_st e /\ names_st e' = l.
Definition FB (e : blk) : Prop := forall l, map form l = map form (names_blk e) -> map bare l = l -> exists e', shape_blk e' = shape_blk e /\ names_blk e' = l.
Definition FF (e : ifs) : Prop := forall l, map form l = map form (names_ifs e) -> map bare l = l -> exists e', shape_ifs e' = shape_ifs e /\ names_ifs e' = l.
Definition FL (e : els) : Prop := forall l, map form l = map form (names_els e) -> map bare l = l -> exists e', shape_els e' = shape_els e /\ names_els e' = l.

Lemma bare_app l1 l2 : map bare (l1 ++ l2) = l1 ++ l2 -> map bare l1 = l1 /\ map bare l2 = l2.
Proof. rewrite !bare_fix_list, Forall_app. tauto. Qed.
Ltac split_app E B := let a := fresh "la" in let b := fresh "lb" in let Ea := fresh "Ea" in let Ba := fresh "Ba" in
  apply form_app in E; destruct E as (a & b & -> & Ea & E); apply bare_app in B; destruct B as (Ba & B).

Lemma same_blank {A B} (l : list A) (l' : list B) : length l = length l' -> map (fun _ => @nil Z) l = map (fun _ => []) l'.
Proof. apply blanks. Qed.

Theorem fill_all : (forall e, FE e) /\ (forall es, FEs es) /\ (forall i, FI i) /\ (forall s, FS s) /\ (forall b, FB b) /\ (forall i, FF i) /\ (forall e, FL e).
Proof.
  apply prog_all.
  - intros t l E B. destruct l; [|discriminate E]. now exists (XConst t).
  - intros l E B. destruct l; [|discriminate E]. now exists XDots.
  - intros x l E B. apply form_one in E. destruct E as (y & -> & E). destruct y; try discriminate E. cbn in B. injection B as <-. now exists (XVar n).
  - intros ps b Hb l E B. apply form_one in E. destruct E as (y & -> & E). destruct y as [| | | | |me qs body| | | | |]; try discriminate E. cbn in E, B. injection E as -> E1 E2. injection B as B.
    destruct (Hb _ E2 B) as (b' & S1 & <-). destruct (fill_params ps qs (blank_len _ _ E1)) as (ps' & <- & P). exists (XFun ps' b'). cbn. rewrite P, S1. now split.
  - intros e He l E B. destruct (He l E B) as (e' & S1 & <-). exists (XGroup e'). cbn. rewrite S1. now split.
  - intros op e He l E B. destruct (He l E B) as (e' & S1 & <-). exists (XUn op e'). cbn. rewrite S1. now split.
  - intros op a Ha b Hb l E B. cbn [names_ex] in E. split_app E B. destruct (Ha _ Ea Ba) as (a' & S1 & <-). destruct (Hb _ E B) as (b' & S2 & <-). exists (XBin op a' b'). cbn. rewrite S1, S2. now split.
  - intros e He key l E B. cbn [names_ex] in E. split_app E B. destruct (He _ Ea Ba) as (a' & S1 & <-). destruct (fill_members [key] _ E B) as (ks & <- & L). destruct ks as [|k [|? ?]]; try discriminate L.
    exists (XMem a' k). cbn. rewrite S1. now split.
  - intros a Ha b Hb l E B. cbn [names_ex] in E. split_app E B. destruct (Ha _ Ea Ba) as (a' & S1 & <-). destruct (Hb _ E B) as (b' & S2 & <-). exists (XIdx a' b'). cbn. rewrite S1, S2. now split.
  - intros a Ha short b Hb l E B. cbn [names_ex] in E. split_app E B. destruct (Ha _ Ea Ba) as (a' & S1 & <-). destruct (Hb _ E B) as (b' & S2 & <-). exists (XCall a' short b'). cbn. rewrite S1, S2. now split.
  - intros a Ha key short b Hb l E B. cbn [names_ex] in E. split_app E B. destruct (Ha _ Ea Ba) as (a' & S1 & <-). change (member key :: names_exs b) with (map member [key] ++ names_exs b) in E.
    split_app E B. destruct (fill_members [key] _ Ea0 Ba0) as (ks & <- & L). destruct ks as [|k [|? ?]]; try discriminate L.
    destruct (Hb _ E B) as (b' & S2 & <-). exists (XMeth a' k short b'). cbn. rewrite S1, S2. now split.
  - intros i Hi l E B. destruct (Hi l E B) as (e' & S1 & <-). exists (XTab e'). cbn. rewrite S1. now split.
  - intros l E B. destruct l; [|discriminate E]. now exists XNil.
  - intros a Ha b Hb l E B. cbn [names_exs] in E. split_app E B. destruct (Ha _ Ea Ba) as (a' & S1 & <-). destruct (Hb _ E B) as (b' & S2 & <-). exists (XCons a' b'). cbn. rewrite S1, S2. now split.
  - intros l E B. destruct l; [|discriminate E]. now exists INil.
  - intros a Ha b Hb sep i Hi l E B. cbn [names_its] in E. split_app E B. split_app E B. destruct (Ha _ Ea Ba) as (a' & S1 & <-). destruct (Hb _ Ea0 Ba0) as (b' & S2 & <-). destruct (Hi _ E B) as (i' & S3 & <-).
    exists (IIdx a' b' sep i'). cbn. rewrite S1, S2, S3. now split.
  - intros key b Hb sep i Hi l E B. cbn [names_its] in E. change (member key :: names_ex b ++ names_its i) with (map member [key] ++ names_ex b ++ names_its i) in E. split_app E B. split_app E B.
    destruct (fill_members [key] _ Ea Ba) as (ks & <- & L). destruct ks as [|k [|? ?]]; try discriminate L. destruct (Hb _ Ea0 Ba0) as (b' & S2 & <-). destruct (Hi _ E B) as (i' & S3 & <-).
    exists (IMem k b' sep i'). cbn. rewrite S2, S3. now split.
  - intros b Hb sep i Hi l E B. cbn [names_its] in E. split_app E B. destruct (Hb _ Ea Ba) as (b' & S2 & <-). destruct (Hi _ E B) as (i' & S3 & <-).
    exists (IItem b' sep i'). cbn. rewrite S2, S3. now split.
  - intros l E B. destruct l; [|discriminate E]. now exists SSemi.
  - intros b Hb l E B. apply form_one in E. destruct E as (y & -> & E). destruct y as [| | | | | | |body| | |]; try discriminate E. cbn in E, B. injection E as E. injection B as B.
    destruct (Hb _ E B) as (b' & S1 & <-). exists (SDo b'). cbn. rewrite S1. now split.
  - intros i Hi l E B. destruct (Hi l E B) as (i' & S1 & <-). exists (SIf i'). cbn. rewrite S1. now split.
  - intros c Hc b Hb l E B. cbn [names_st] in E. split_app E B. destruct (Hc _ Ea Ba) as (c' & S1 & <-).
    apply form_one in E. destruct E as (y & -> & E). destruct y as [| | | | | | |body| | |]; try discriminate E. cbn in E, B. injection E as E. injection B as B.
    destruct (Hb _ E B) as (b' & S2 & <-). exists (SWhile c' b'). cbn. rewrite S1, S2. now split.
  - intros ne c Hc b Hb l E B. cbn [names_st] in E. split_app E B. destruct (Hc _ Ea Ba) as (c' & S1 & <-).
    apply form_one in E. destruct E as (y & -> & E). destruct y as [| | | | | | |body| | |]; try discriminate E. cbn in E, B. injection E as E. injection B as B.
    destruct (Hb _ E B) as (b' & S2 & <-). exists (SWhileShort ne c' b'). cbn. rewrite S1, S2. now split.
  - intros b Hb c Hc l E B. apply form_one in E. destruct E as (y & -> & E). destruct y as [| | | | | | | |body cond| |]; try discriminate E. cbn in E, B. injection E as E E2. injection B as B B2.
    destruct (Hb _ E B) as (b' & S1 & <-). destruct (Hc _ E2 B2) as (c' & S2 & <-). exists (SRepeat b' c'). cbn. rewrite S1, S2. now split.
  - intros x a Ha z Hz step Hst b Hb l E B. apply form_one in E. destruct E as (y & -> & E). destruct y as [| | | | | |ns es body| | | |]; try discriminate E. cbn in E, B. injection E as E0 E E2. injection B as B B2.
    split_app E B. split_app E B. destruct (Ha _ Ea Ba) as (a' & S1 & <-). destruct (Hz _ Ea0 Ba0) as (z' & S2 & <-). destruct (Hst _ E B) as (s' & S3 & <-). destruct (Hb _ E2 B2) as (b' & S4 & <-).
    destruct ns as [|n [|? ?]]; try discriminate E0. exists (SFor n a' z' s' b'). cbn. rewrite S1, S2, S3, S4. now split.
  - intros xs es Hes b Hb l E B. apply form_one in E. destruct E as (y & -> & E). destruct y as [| | | | | |ns ess body| | | |]; try discriminate E. cbn in E, B. injection E as E0 E E2. injection B as B B2.
    destruct (Hes _ E B) as (es' & S3 & <-). destruct (Hb _ E2 B2) as (b' & S4 & <-). exists (SForIn ns es' b'). cbn. rewrite S3, S4. split; [exact (f_equal (fun q => SForIn q (shape_exs es) (shape_blk b)) E0)|reflexivity].
  - intros l E B. destruct l; [|discriminate E]. now exists SBreak.
  - intros es Hes l E B. destruct (Hes l E B) as (i' & S1 & <-). exists (SReturn i'). cbn. rewrite S1. now split.
  - intros xs es Hes l E B. apply form_one in E. destruct E as (y & -> & E). destruct y as [| | |ns ess| | | | | | |]; try discriminate E. cbn in E, B. injection E as E0 E. injection B as B.
    destruct (Hes _ E B) as (es' & S3 & <-). rewrite map_map in E0. pose proof (blank_len _ _ E0) as L. exists (SLocal (combine ns (map snd xs)) es'). cbn. rewrite S3.
    assert (X : map fst (combine ns (map snd xs)) = ns /\ map (fun x : list Z * option (list Z) => (@nil Z, snd x)) (combine ns (map snd xs)) = map (fun x => ([], snd x)) xs).
    { clear -L. revert xs L. induction ns as [|n ns IH]; intros [|x xs] L; try discriminate L; [now split|]. cbn. destruct (IH xs) as (A & C); [now injection L|]. rewrite A, C. now split. }
    destruct X as (X1 & X2). split; [f_equal; exact X2|]. exact (f_equal (fun q => [YLocal q (names_exs es')]) X1).
  - intros x ps b Hb l E B. apply form_one in E. destruct E as (y & -> & E). destruct y as [| | | |fn qs body| | | | | |]; try discriminate E. cbn in E, B. injection E as E1 E2. injection B as B.
    destruct (Hb _ E2 B) as (b' & S1 & <-). destruct (fill_params ps qs (blank_len _ _ E1)) as (ps' & <- & P). exists (SLocalFun fn ps' b'). cbn. rewrite P, S1. now split.
  - intros x path meth ps b Hb l E B. cbn [names_st] in E. apply form_cons in E. destruct E as (y & r & -> & Ey & E). destruct y; try discriminate Ey. cbn [map bare] in B. injection B as <- B.
    split_app E B. destruct (fill_members _ _ Ea Ba) as (ks & <- & L).
    apply form_one in E. destruct E as (y & -> & E). destruct y as [| | | | |me qs body| | | | |]; try discriminate E. cbn in E, B. injection E as -> E1 E2. injection B as B.
    destruct (Hb _ E2 B) as (b' & S1 & <-). destruct (fill_params ps qs (blank_len _ _ E1)) as (ps' & <- & P).
    destruct meth as [k|].
    + rewrite app_length in L. cbn in L. destruct (@exists_last _ ks) as (kp & km & ->); [intros ->; cbn in L; lia|]. rewrite app_length in L. cbn in L.
      exists (SFun n kp (Some km) ps' b'). cbn. rewrite P, S1, (same_blank kp path) by lia. now split.
    + rewrite app_nil_r in L. exists (SFun n ks None ps' b'). cbn. rewrite P, S1, (same_blank ks path L), app_nil_r. now split.
  - intros x l E B. apply form_one in E. destruct E as (y & -> & E). destruct y; try discriminate E. now exists (SGoto n).
  - intros x l E B. apply form_one in E. destruct E as (y & -> & E). destruct y; try discriminate E. now exists (SLabel n).
  - intros a Ha b Hb l E B. cbn [names_st] in E. split_app E B. destruct (Ha _ Ea Ba) as (a' & S1 & <-). destruct (Hb _ E B) as (b' & S2 & <-). exists (SAssign a' b'). cbn. rewrite S1, S2. now split.
  - intros a Ha op b Hb l E B. cbn [names_st] in E. split_app E B. destruct (Ha _ Ea Ba) as (a' & S1 & <-). destruct (Hb _ E B) as (b' & S2 & <-). exists (SOp a' op b'). cbn. rewrite S1, S2. now split.
  - intros es Hes l E B. cbn [names_st] in E. apply form_cons in E. destruct E as (y & r & -> & Ey & E). destruct y; try discriminate Ey. cbn [map bare] in B. injection B as B.
    destruct (Hes _ E B) as (i' & S1 & <-). exists (SPrint i'). cbn. rewrite S1. now split.
  - intros es Hes l E B. destruct (Hes l E B) as (i' & S1 & <-). exists (SCall i'). cbn. rewrite S1. now split.
  - intros l E B. destruct l; [|discriminate E]. now exists BNil.
  - intros s Hs b Hb l E B. cbn [names_blk] in E. split_app E B. destruct (Hs _ Ea Ba) as (a' & S1 & <-). destruct (Hb _ E B) as (b' & S2 & <-). exists (BCons a' b'). cbn. rewrite S1, S2. now split.
  - intros w c Hc b Hb e He l E B. cbn [names_ifs] in E. split_app E B. destruct (Hc _ Ea Ba) as (c' & S1 & <-).
    apply form_cons in E. destruct E as (y & r & -> & Ey & E). destruct y as [| | | | | | |body| | |]; try discriminate Ey. cbn in Ey, B. injection Ey as Ey. injection B as B1 B.
    destruct (Hb _ Ey B1) as (b' & S2 & <-). destruct (He _ E B) as (e' & S3 & <-). exists (ILong w c' b' e'). cbn. rewrite S1, S2, S3. now split.
  - intros w c Hc b Hb e He l E B. cbn [names_ifs] in E. split_app E B. destruct (Hc _ Ea Ba) as (c' & S1 & <-).
    apply form_cons in E. destruct E as (y & r & -> & Ey & E). destruct y as [| | | | | | |body| | |]; try discriminate Ey. cbn in Ey, B. injection Ey as Ey. injection B as B1 B.
    destruct (Hb _ Ey B1) as (b' & S2 & <-). destruct (He _ E B) as (e' & S3 & <-). exists (IShort w c' b' e'). cbn. rewrite S1, S2, S3. now split.
  - intros l E B. destruct l; [|discriminate E]. now exists ENone.
  - intros b Hb l E B. apply form_one in E. destruct E as (y & -> & E). destruct y as [| | | | | | |body| | |]; try discriminate E. cbn in E, B. injection E as E. injection B as B.
    destruct (Hb _ E B) as (b' & S1 & <-). exists (EElse b'). cbn. rewrite S1. now split.
  - intros i Hi l E B. destruct (Hi l E B) as (i' & S1 & <-). exists (EElif i'). cbn. rewrite S1. now split.
Qed.

Theorem fill_program b l : map form l = map form (names_blk b) -> exists b', shape_blk b' = shape_blk b /\ names_blk b' = map bare l.
Proof.
  intros E. destruct fill_all as (_ & _ & _ & _ & H & _). apply H.
  - rewrite map_form_list; [exact E|]. apply Forall_forall. intros t _. apply form_bare.
  - rewrite map_map. apply map_ext. intros t. apply bare_bare.
Qed.
