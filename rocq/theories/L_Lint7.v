(** Lemmas for the linter: labels that are not used. *)
From Coq Require Import String List ZArith Bool Lia.
From Verif Require Import M_Base L_Util M_Fold M_Token M_Expr M_Stmt M_Rename M_Lint S_Lint L_Stmt L_Lint L_Lint4.
Import ListNotations.
Local Opaque str env_name print_name self_name init_name.
Local Open Scope nat_scope.
Arguments Nat.ltb : simpl never.

Notation id := (nat * nat)%type.
Notation gotos := used_labels.
Lemma gotos_app a b : gotos (a ++ b) = gotos a ++ gotos b.
Proof. apply flat_map_app. Qed.
Definition at_label (ls : list lscope) (y : name) (v : id) : Prop := exists w, lookup_label ls y false = Some w /\ bid w = v.
Definition low (m : nat) (ls : list lscope) : Prop := Forall (fun s => s_names s = [] \/ s_num s < m) ls.
Definition good (ls : list lscope) (fd : Z) (m : nat) : Prop := low m ls /\ exists s up, ls = s :: up /\ s_fdepth s = fd.
Lemma low_more m m' ls : m <= m' -> low m ls -> low m' ls.
Proof. intros L. apply Forall_impl. intros s [H|H]; [auto|right; lia]. Qed.
Lemma good_more m m' ls fd : m <= m' -> good ls fd m -> good ls fd m'.
Proof. intros L (A & B). split; [|exact B]. now apply (low_more m). Qed.
Lemma at_low ls m : low m ls -> forall c y w, lookup_label ls y c = Some w -> fst (bid w) < m.
Proof.
  intros Lw. induction Lw as [|s ls H Lw IH]; intros c y w E; [discriminate E|]. cbn [lookup_label] in E. destruct (index_of y (s_names s)) as [i|] eqn:I.
  - injection E as <-. cbn. destruct H as [H|H]; [rewrite H in I; discriminate I|exact H].
  - destruct ls as [|s' ls]; [discriminate E|]. destruct (c || _)%bool; [|discriminate E]. exact (IH _ _ _ E).
Qed.

Definition inside (ls : list lscope) (lo hi : nat) (ns : list vnode) : Prop := lo <= hi /\ forall v, In v (gotos ns) -> lo <= fst v < hi \/ exists y, at_label ls y v.
Definition goes_to (ls : list lscope) (lo : nat) (ns : list vnode) (P : name -> bool) : Prop :=
  forall v, fst v < lo -> (In v (gotos ns) <-> exists y, at_label ls y v /\ P y = true).
Definition agree (ds : list vnode) (lo hi : nat) (ns : list vnode) : Prop := forall v, lo <= fst v < hi -> (In v (gotos ds) <-> In v (gotos ns)).
Definition say (ds : list vnode) (d : vnode) : list name :=
  match d with NLabel n v _ => if negb (id_in (bid v) (gotos ds)) && negb (under n) then [n] else [] | _ => [] end.
Definition says (ds ns : list vnode) : list name := flat_map (say ds) ns.

(** what is true of a piece: [P]: the labels around it that it goes to; [ms]: its own labels that are not used *)
Definition W (ls : list lscope) (k : nat) (ns : list vnode) (k' : nat) (P : name -> bool) (ms : list name) : Prop :=
  inside ls k k' ns /\ goes_to ls k ns P /\ forall ds, agree ds k k' ns -> says ds ns = ms.
Definition none_ (_ : name) : bool := false.

Lemma inside_in ls k k1 k2 ns v : low k ls -> inside ls k1 k2 ns -> In v (gotos ns) -> fst v < k \/ k1 <= fst v < k2.
Proof. intros G (_ & H) I. destruct (H v I) as [X|(y & w & E & <-)]; [auto|]. left. exact (at_low _ _ G _ _ _ E). Qed.
Lemma agree_l ls ds k k1 k2 n1 n2 : low k ls -> inside ls k k1 n1 -> inside ls k1 k2 n2 -> agree ds k k2 (n1 ++ n2) -> agree ds k k1 n1 /\ agree ds k1 k2 n2.
Proof.
  intros G I1 I2 A. pose proof (proj1 I1). pose proof (proj1 I2). split; intros v Hv; (rewrite (A v) by lia); rewrite gotos_app, in_app_iff; split; try tauto; intros [J|J]; auto; exfalso.
  - destruct (inside_in _ _ _ _ _ _ G I2 J); lia.
  - destruct (inside_in _ _ _ _ _ _ G I1 J); lia.
Qed.
Lemma inside_app ls k k1 k2 n1 n2 : inside ls k k1 n1 -> inside ls k1 k2 n2 -> inside ls k k2 (n1 ++ n2).
Proof.
  intros (A & B) (C & D). split; [lia|]. intros v. rewrite gotos_app, in_app_iff. intros [I|I]; [destruct (B v I)|destruct (D v I)]; auto; left; lia.
Qed.
Lemma goes_app ls k k1 n1 n2 P1 P2 : k <= k1 -> goes_to ls k n1 P1 -> goes_to ls k1 n2 P2 -> goes_to ls k (n1 ++ n2) (fun y => P1 y || P2 y).
Proof.
  intros L A B v Hv. rewrite gotos_app, in_app_iff, (A v Hv), (B v) by lia. split.
  - intros [(y & H & E)|(y & H & E)]; exists y; rewrite E, ?orb_true_r; auto.
  - intros (y & H & E). apply orb_true_iff in E. destruct E; [left|right]; now exists y.
Qed.
Lemma W_app ls k k1 k2 n1 n2 P1 P2 ms1 ms2 : low k ls -> W ls k n1 k1 P1 ms1 -> W ls k1 n2 k2 P2 ms2 -> W ls k (n1 ++ n2) k2 (fun y => P1 y || P2 y) (ms1 ++ ms2).
Proof.
  intros G (A1 & B1 & C1) (A2 & B2 & C2). split; [now apply (inside_app ls k k1)|]. split; [exact (goes_app _ _ _ _ _ _ _ (proj1 A1) B1 B2)|].
  intros ds A. destruct (agree_l _ _ _ _ _ _ _ G A1 A2 A) as (X & Y). unfold says in *. now rewrite flat_map_app, C1, C2.
Qed.
Lemma W_ext ls k ns k' P P' ms ms' : (forall y, P y = P' y) -> ms = ms' -> W ls k ns k' P ms -> W ls k ns k' P' ms'.
Proof. intros E <- (A & B & C). split; [exact A|]. split; [|exact C]. intros v Hv. rewrite (B v Hv). split; intros (y & H & X); exists y; (split; [exact H|]); [rewrite <- E|rewrite E]; exact X. Qed.
(** pieces without labels and gotos *)
Definition mute (d : vnode) : bool := match d with NLabel _ _ _ | NGoto _ _ => false | _ => true end.
Lemma mute_gotos ns : forallb mute ns = true -> gotos ns = [] /\ forall ds, says ds ns = [].
Proof.
  induction ns as [|d ns IH]; [auto|]. cbn [forallb]. rewrite andb_true_iff. intros (M & F). destruct (IH F) as (A & B). split; [|intros ds]; destruct d; try discriminate M; [exact A|exact A|exact A|exact (B ds)|exact (B ds)|exact (B ds)].
Qed.
Lemma W_mute ls k ns : forallb mute ns = true -> W ls k ns k none_ [].
Proof.
  intros M. destruct (mute_gotos ns M) as (E & S). split; [|split; [|intros ds _; apply S]].
  - split; [lia|]. now rewrite E.
  - intros v _. rewrite E. split; [intros []|intros (y & _ & X); discriminate X].
Qed.
Lemma mute_new env q l : forallb mute (new_nodes env q l) = true.
Proof. unfold new_nodes. induction l as [|[n v] l IH]; [reflexivity|exact IH]. Qed.
Lemma mute_var a h x : forallb mute (var a h x) = true.
Proof. unfold var. destruct (lookup (env a) x); [reflexivity|]. now destruct (lookup (env a) env_name). Qed.
(** an expression goes nowhere *)
Lemma W_more ls k ns k' ms : W [] k ns k' none_ ms -> W ls k ns k' none_ ms.
Proof.
  intros (A & B & C). split; [|split; [|exact C]].
  - split; [apply A|]. intros v I. destruct (proj2 A v I) as [X|(y & w & X & _)]; [auto|discriminate X].
  - intros v Hv. rewrite (B v Hv). split; intros (y & _ & X); discriminate X.
Qed.

(** ** Blocks *)
(** of the statements of a block: the labels of the block itself are looked up in [goes] *)
Definition WB (ls : list lscope) (k : nat) (ns : list vnode) (k' : nat) (P : name -> bool) (labels : list name) (ms : (name -> bool) -> list name) : Prop :=
  inside ls k k' ns /\ goes_to ls k ns P /\
  forall ds goes, agree ds k k' ns -> (forall l, In l labels -> exists w, lookup_label ls l false = Some w /\ id_in (bid w) (gotos ds) = goes l) -> says ds ns = ms goes.
Lemma own_labels_in b : labels_in b = own_labels b.
Proof. induction b as [|s b IH] using (fun P n c => blk_ind P n c); [reflexivity|]. destruct s; cbn [labels_in own_labels app]; now rewrite IH. Qed.
Lemma index_in y l : index_of y l = None <-> is_in y l = false.
Proof. induction l as [|x l IH]; [easy|]. cbn [index_of is_in existsb]. unfold is_in in IH. destruct (zeqb_list y x); [easy|]. cbn [orb]. rewrite <- IH. now destruct (index_of y l). Qed.
Lemma index_inj l : forall x y i, index_of x l = Some i -> index_of y l = Some i -> x = y.
Proof.
  induction l as [|z l IH]; intros x y i X Y; [discriminate X|]. cbn [index_of] in X, Y. destruct (zeqb_list x z) eqn:A, (zeqb_list y z) eqn:B.
  - apply zeqb_list_true in A, B. congruence.
  - injection X as <-. destruct (index_of y l); discriminate Y.
  - injection Y as <-. destruct (index_of x l); discriminate X.
  - destruct (index_of x l) as [i1|] eqn:E1; [|discriminate X]. destruct (index_of y l) as [i2|] eqn:E2; [|discriminate Y]. cbn in X, Y. apply (IH x y i1); congruence.
Qed.
Lemma id_in_iff v l : id_in v l = true <-> In v l.
Proof.
  unfold id_in. rewrite existsb_exists. unfold same_id. split.
  - intros ((p & q) & I & E). apply andb_true_iff in E. destruct E as (E1 & E2). apply Nat.eqb_eq in E1, E2. destruct v as (p' & q'). cbn in *. now subst.
  - intros I. exists v. split; [exact I|]. now rewrite !Nat.eqb_refl.
Qed.
(** a block inside: [down]: it is part of the same function *)
Lemma block_in ls fd fd' k ns k' b ms : good ls fd k ->
  WB (LScope k fd' (labels_in b) :: ls) (S k) ns k' (fun y => to_blk y b) (labels_in b) ms ->
  W (if (fd =? fd')%Z then ls else []) k ns k' (fun y => if (fd =? fd')%Z then negb (is_in y (own_labels b)) && to_blk y b else false) (ms (fun y => to_blk y b)).
Proof.
  intros (Lw & s & up & -> & Es) ((A1 & A2) & B & C). rewrite own_labels_in in *.
  assert (At : forall y v, at_label (LScope k fd' (own_labels b) :: s :: up) y v <->
    (exists i, index_of y (own_labels b) = Some i /\ v = (k, i)) \/ (index_of y (own_labels b) = None /\ (fd =? fd')%Z = true /\ at_label (s :: up) y v)).
  { intros y v. unfold at_label. cbn [lookup_label s_names s_num s_fdepth orb]. rewrite Es. destruct (index_of y (own_labels b)) as [i|] eqn:I.
    - split; [intros (w & [= <-] & <-); left; now exists i|]. intros [(j & [= <-] & ->)|(X & _)]; [|discriminate X]. eexists. split; reflexivity.
    - fold lookup_label. destruct (fd =? fd')%Z.
      + split; [intros H; right; auto|]. intros [(j & X & _)|(_ & _ & H)]; [discriminate X|exact H].
      + split; [intros (w & X & _); discriminate X|]. intros [(j & X & _)|(_ & X & _)]; discriminate X. }
  assert (Iff : forall v, fst v < k -> (exists y, at_label (LScope k fd' (own_labels b) :: s :: up) y v /\ to_blk y b = true) <->
    exists y, at_label (if (fd =? fd')%Z then s :: up else []) y v /\ (if (fd =? fd')%Z then negb (is_in y (own_labels b)) && to_blk y b else false) = true).
  { intros v Hv. split.
    - intros (y & H & T). apply At in H. destruct H as [(i & _ & ->)|(N & F & H)]; [cbn in Hv; lia|]. exists y. rewrite F. split; [exact H|]. apply index_in in N. now rewrite N, T.
    - intros (y & H & T). destruct (fd =? fd')%Z eqn:F; [|discriminate T]. apply andb_true_iff in T. destruct T as (N & T). apply negb_true_iff, index_in in N. exists y. split; [|exact T]. apply At. right. auto. }
  split; [|split].
  - split; [lia|]. intros v I. destruct (A2 v I) as [X|(y & H)]; [left; lia|]. apply At in H. destruct H as [(i & _ & ->)|(_ & -> & H)]; [left; cbn; lia|right; now exists y].
  - intros v Hv. rewrite (B v) by lia. apply Iff. exact Hv.
  - intros ds Ag. apply C; [intros v Hv; apply Ag; lia|]. intros l I. destruct (index_of l (own_labels b)) as [i|] eqn:X.
    + exists (Label (k, i) fd'). cbn [lookup_label s_names s_num s_fdepth]. rewrite X. split; [reflexivity|]. cbn [bid].
      apply eq_true_iff_eq. rewrite id_in_iff, (Ag (k, i)) by (cbn; lia). rewrite (B (k, i)) by (cbn; lia). split.
      * intros (y & H & T). apply At in H. destruct H as [(j & Y & [= <-])|(_ & _ & w & E & E')]; [now rewrite (index_inj _ _ _ _ X Y)|].
        exfalso. pose proof (at_low _ _ Lw _ _ _ E) as Q. rewrite E' in Q. cbn in Q. lia.
      * intros T. exists l. split; [|exact T]. apply At. left. now exists i.
    + exfalso. apply index_in in X. unfold is_in in X. assert (Y : existsb (zeqb_list l) (own_labels b) = true) by (apply existsb_exists; exists l; split; [exact I|apply zeqb_list_refl]). congruence.
Qed.

Lemma WB_of ls k ns k' P lab ms ms' : (forall g, ms = ms' g) -> W ls k ns k' P ms -> WB ls k ns k' P lab ms'.
Proof. intros E (A & B & C). split; [exact A|]. split; [exact B|]. intros ds g Ag _. rewrite <- E. now apply C. Qed.
Lemma WB_app ls k k1 k2 n1 n2 P1 P2 l1 l2 ms1 ms2 : low k ls -> WB ls k n1 k1 P1 l1 ms1 -> WB ls k1 n2 k2 P2 l2 ms2 -> WB ls k (n1 ++ n2) k2 (fun y => P1 y || P2 y) (l1 ++ l2) (fun g => ms1 g ++ ms2 g).
Proof.
  intros G (A1 & B1 & C1) (A2 & B2 & C2). split; [now apply (inside_app ls k k1)|]. split; [exact (goes_app _ _ _ _ _ _ _ (proj1 A1) B1 B2)|].
  intros ds g A Hl. destruct (agree_l _ _ _ _ _ _ _ G A1 A2 A) as (X & Y). unfold says in *. rewrite flat_map_app. f_equal; [apply C1|apply C2]; auto; intros l I; apply Hl, in_app_iff; auto.
Qed.

(** ** The pieces of a program *)
Definition at_good (a : at_) (k : numbers) : Prop := good (labs a) (fdepth a) (snd k).
Definition WX (ls : list lscope) (k : numbers) (r : list vnode * numbers) (P : name -> bool) (ms : list name) : Prop := W ls (snd k) (fst r) (snd (snd r)) P ms.
Lemma WX_more k r ls ms : WX [] k r none_ ms -> WX ls k r none_ ms.
Proof. apply W_more. Qed.
Lemma WX_app ls k r f P1 P2 ms1 ms2 : low (snd k) ls -> WX ls k r P1 ms1 -> (snd k <= snd (snd r) -> WX ls (snd r) (f (snd r)) P2 ms2) ->
  WX ls k (app_nodes r f) (fun y => P1 y || P2 y) (ms1 ++ ms2).
Proof.
  intros G A B. specialize (B (proj1 (proj1 A))). unfold WX in *. rewrite app_fst, app_snd. exact (W_app _ _ _ _ _ _ _ _ _ _ G A B).
Qed.
Lemma WX_ext ls k r P P' ms ms' : WX ls k r P ms -> (forall y, P y = P' y) -> ms = ms' -> WX ls k r P' ms'.
Proof. intros A B C. exact (W_ext _ _ _ _ _ _ _ _ B C A). Qed.
Definition E_ex e := forall a k, at_good a k -> WX [] k (w_ex a k e) none_ (l_ex e).
Definition E_exs es := (forall a k, at_good a k -> WX [] k (w_exs a k es) none_ (l_exs es)) /\ (forall a k, at_good a k -> WX [] k (w_tgts a k es) none_ (l_exs es)).
Definition E_its i := forall a k, at_good a k -> WX [] k (w_its a k i) none_ (l_its i).
Definition labels_of (s : st) : list name := match s with SLabel l => [l] | _ => [] end.
Definition E_st s := forall a k, at_good a k ->
  WB (labs a) (snd k) (fst (fst (w_st a k s))) (snd (snd (fst (w_st a k s)))) (fun y => to_st y s) (labels_of s) (fun g => l_st g s).
Definition E_blk b := forall a k, at_good a k ->
  WB (labs a) (snd k) (fst (fst (w_blk a k b))) (snd (snd (fst (w_blk a k b)))) (fun y => to_blk y b) (labels_in b) (fun g => l_blk g b).
Definition E_ifs i := forall a k, at_good a k -> WX (labs a) k (w_ifs a k i) (fun y => to_ifs y i) (l_ifs i).
Definition E_els e := forall a k, at_good a k -> WX (labs a) k (w_els a k e) (fun y => to_els y e) (l_els e).

Lemma good_next a k (k' : numbers) : snd k <= snd k' -> at_good a k -> at_good a k'.
Proof. unfold at_good. intros L. now apply good_more. Qed.
Lemma low_nil m : low m []. Proof. constructor. Qed.
Lemma good_enter ls fd k fd' l k' : k < k' -> good ls fd k -> good (LScope k fd' l :: ls) fd' k'.
Proof. intros L (A & _). split; [|eexists _, _; split; reflexivity]. constructor; [right; exact L|]. apply (low_more k); [lia|exact A]. Qed.
(** a block in a statement *)
Lemma in_block a k b e : E_blk b -> at_good a k -> WX (labs a) k (fst (w_blk (enter (with_env a e) k b) (next_block k) b)) (fun y => negb (is_in y (own_labels b)) && to_blk y b) (l_blk (fun y => to_blk y b) b).
Proof.
  intros H G. assert (X := H (enter (with_env a e) k b) (next_block k)). unfold at_good in X, G. cbn [enter with_env labs fdepth next_block snd] in X.
  specialize (X (good_enter _ _ _ _ _ _ (Nat.lt_succ_diag_r _) G)). apply (block_in _ (fdepth a)) in X; [|exact G]. rewrite Z.eqb_refl in X. exact X.
Qed.
Lemma in_block' a k b : E_blk b -> at_good a k -> WX (labs a) k (fst (w_blk (enter a k b) (next_block k) b)) (fun y => negb (is_in y (own_labels b)) && to_blk y b) (l_blk (fun y => to_blk y b) b).
Proof. intros H G. exact (in_block a k b (env a) H G). Qed.
(** a function *)
Lemma in_fun a k b f ps d : E_blk b -> at_good a k ->
  W [] (snd k) (fst (fst (w_blk (enter (enter_fun a d f ps) k b) (next_block (next_decl k)) b))) (snd (snd (fst (w_blk (enter (enter_fun a d f ps) k b) (next_block (next_decl k)) b)))) none_ (l_blk (fun y => to_blk y b) b).
Proof.
  intros H G. assert (X := H (enter (enter_fun a d f ps) k b) (next_block (next_decl k))). unfold at_good in X, G. cbn [enter enter_fun labs fdepth next_block next_decl snd] in X.
  specialize (X (good_enter _ _ _ _ _ _ (Nat.lt_succ_diag_r _) G)). apply (block_in _ (fdepth a)) in X; [|exact G].
  replace (fdepth a =? fdepth a + 1)%Z with false in X by (symmetry; apply Z.eqb_neq; lia). exact X.
Qed.
Lemma W_front ls k k' ns r P ms : low k ls -> forallb mute ns = true -> W ls k r k' P ms -> W ls k (ns ++ r) k' P ms.
Proof.
  intros G M A. eapply W_ext; [| |exact (W_app _ _ _ _ _ _ _ _ _ _ G (W_mute _ _ _ M) A)]; reflexivity.
Qed.
Lemma WX_mute ls k ns (k' : numbers) : snd k' = snd k -> forallb mute ns = true -> WX ls k (ns, k') none_ [].
Proof. intros E M. unfold WX. cbn. rewrite E. now apply W_mute. Qed.
Ltac nx := first [assumption|apply low_nil|match goal with G : at_good _ _ |- low _ _ => exact (proj1 G) end|
  (eapply good_next; [|eassumption]; cbn [next_decl next_block snd fst] in *; lia)].
Ltac leaf := first
  [ match goal with H : E_ex _ |- _ => apply H; nx end
  | match goal with H : _ /\ _ |- _ => first [apply (proj1 H); nx|apply (proj2 H); nx] end
  | match goal with H : E_its _ |- _ => apply H; nx end
  | match goal with H : E_ifs _ |- _ => apply H; nx end
  | match goal with H : E_els _ |- _ => apply H; nx end
  | (apply in_block'; nx) | (apply in_block; nx)
  | (apply WX_mute; [reflexivity|first [apply mute_var|apply mute_new|reflexivity]])
  | (apply WX_more; match goal with H : E_ex _ |- _ => apply H; nx end)
  | (apply WX_more; match goal with H : _ /\ _ |- _ => first [apply (proj1 H); nx|apply (proj2 H); nx] end) ].
Ltac chain := first [leaf|(apply WX_app; [nx|chain|intros; chain])].
Ltac done := eapply WX_ext; [chain|cbn; unfold none_; auto using orb_false_r|cbn [app]; rewrite ?app_nil_r; reflexivity].

Lemma st_plain s : (forall a k, at_good a k -> WX (labs a) k (fst (w_st a k s)) (fun y => to_st y s) (l_st none_ s)) -> (forall g, l_st none_ s = l_st g s) -> E_st s.
Proof. intros A B a k G. exact (WB_of _ _ _ _ _ _ _ _ B (A a k G)). Qed.
Lemma W_two ls k n1 n2 n3 k' ms : low k ls -> forallb mute n1 = true -> forallb mute n2 = true -> W ls k n3 k' none_ ms -> W ls k (n1 ++ n2 ++ n3) k' none_ ms.
Proof. intros. now do 2 (apply W_front; [assumption|assumption|]). Qed.
Lemma in_fun2 a k b f ps d (k0 : numbers) : snd k0 = snd k -> E_blk b -> at_good a k -> W [] (snd k0) (fst (fst (w_blk (enter (enter_fun a d f ps) k b) (next_block (next_decl k)) b))) (snd (snd (fst (w_blk (enter (enter_fun a d f ps) k b) (next_block (next_decl k)) b)))) none_ (l_blk (fun y => to_blk y b) b).
Proof. intros ->. apply in_fun. Qed.
Lemma labels_all : (forall e, E_ex e) /\ (forall es, E_exs es) /\ (forall i, E_its i) /\ (forall s, E_st s) /\ (forall b, E_blk b) /\ (forall i, E_ifs i) /\ (forall e, E_els e).
Proof.
  apply prog_all; intros; unfold E_exs in *; try match goal with |- _ /\ _ => split end; try match goal with |- E_st _ => apply st_plain; [|reflexivity] end.
  all: try (let a := fresh "at0" in let k := fresh "k0" in intros a k G; cbn [w_ex w_exs w_tgts w_its w_ifs w_els l_ex l_exs l_its l_ifs l_els w_st l_st to_st fst snd]; done).
  - intros a k G. cbn [w_ex l_ex]. unfold WX. cbn [fst snd]. apply W_front; [nx|apply mute_new|]. now apply in_fun.
  - intros a k G. cbn [w_tgts l_exs]. destruct e; cbn [w_ex l_ex] in *; done.
  - intros a k G. cbn [w_st l_st to_st fst snd]. eapply WX_ext.
    + apply WX_app; [nx|apply in_block'; nx|]. intros L. apply WX_more. apply H0. unfold at_good. cbn [with_env enter labs fdepth].
      apply (good_enter _ (fdepth a)); [|exact G]. pose proof (proj1 (proj1 (H (enter a k b) (next_block k) (good_enter _ _ _ _ _ _ (Nat.lt_succ_diag_r _) G)))) as Q. cbn [next_block snd] in Q. lia.
    + intros y. unfold none_. now rewrite orb_false_r.
    + reflexivity.
  - intros a k G. cbn [w_st l_st to_st fst snd]. apply WX_more. unfold WX. cbn [fst snd]. apply W_two; [nx|apply mute_new|apply mute_new|].
    apply in_fun2; [reflexivity|assumption|exact G].
  - intros a k G. cbn [w_st l_st to_st fst snd]. apply WX_more. unfold WX. cbn [fst snd]. apply W_two; [nx|apply mute_var|apply mute_new|]. now apply in_fun.
  - intros a k G. cbn [w_st l_st to_st fst snd]. unfold WX. cbn [fst snd]. split; [|split].
    + split; [lia|]. intros v I. cbn in I. destruct (lookup_label (labs a) x false) as [w|] eqn:E; [|destruct I]. destruct I as [<-|[]]. right. exists x, w. auto.
    + intros v _. cbn. split.
      * destruct (lookup_label (labs a) x false) as [w|] eqn:E; [|intros []]. intros [<-|[]]. exists x. split; [exists w; auto|]. apply zeqb_list_refl.
      * intros (y & (w & E & <-) & T). apply zeqb_list_true in T. subst y. rewrite E. now left.
    + reflexivity.
  - intros a k G. cbn [w_st l_st to_st labels_of fst snd]. split; [|split].
    + split; [lia|]. destruct (lookup_label (labs a) x false); intros v [].
    + intros v _. split; [destruct (lookup_label (labs a) x false); intros []|]. intros (y & _ & T). discriminate T.
    + intros ds g _ Hl. destruct (Hl x (or_introl eq_refl)) as (w & E & <-). rewrite E. cbn. rewrite app_nil_r.
      destruct (id_in (bid w) (gotos ds)), (under x); reflexivity.
  - intros a k G. cbn [w_st l_st to_st fst snd]. destruct target; cbn [w_ex l_ex] in *; done.
  - intros a k G. cbn [w_blk fst snd labels_in]. apply (WB_of _ _ _ _ _ _ [] (fun _ => [])); [reflexivity|]. apply W_mute. reflexivity.
  - intros a k G. cbn [w_blk fst snd to_blk l_blk]. replace (labels_in (BCons s b)) with (labels_of s ++ labels_in b) by (destruct s; reflexivity).
    pose proof (H a k G) as X. eapply WB_app; [nx|exact X|]. apply (H0 (with_env a (snd (w_st a k s)))). unfold at_good. cbn [with_env labs fdepth].
    refine (good_more _ _ _ _ _ G). exact (proj1 (proj1 X)).
Qed.

Lemma lint_label_says o builtins ds d : flat_map said_label (lint_node o builtins ds d) = if o_unused o then say ds d else [].
Proof.
  destruct d as [n v prev q|n v h f|n r h f|n v prev|n v]; cbn [lint_node say].
  - rewrite flat_map_app. unfold duplicate_local, unused_local.
    repeat match goal with |- context [if ?c then _ else _] => match c with o_unused o => fail 1 | _ => destruct c end | |- context [match prev with _ => _ end] => destruct prev end; destruct (o_unused o); reflexivity.
  - cbn [root_name]. destruct (builtin_local v); [|now destruct (o_unused o)]. unfold lint_global. rewrite flat_map_app.
    repeat match goal with |- context [if ?c then _ else _] => match c with o_unused o => fail 1 | _ => destruct c end | |- context [match h with _ => _ end] => destruct h end; destruct (o_unused o); reflexivity.
  - cbn [root_name]. destruct r; [|now destruct (o_unused o)]. unfold lint_global. rewrite flat_map_app.
    repeat match goal with |- context [if ?c then _ else _] => match c with o_unused o => fail 1 | _ => destruct c end | |- context [match h with _ => _ end] => destruct h end; destruct (o_unused o); reflexivity.
  - unfold lint_label. rewrite flat_map_app. match goal with |- ?a ++ _ = _ => replace a with (@nil name) end.
    + destruct (o_unused o), (id_in (bid v) (gotos ds)), (under n); reflexivity.
    + repeat match goal with |- context [if ?c then _ else _] => destruct c | |- context [match prev with _ => _ end] => destruct prev end; reflexivity.
  - now destruct (o_unused o).
Qed.
Lemma flat_flat {A B C} (f : B -> list C) (g : A -> list B) l : flat_map f (flat_map g l) = flat_map (fun a => flat_map f (g a)) l.
Proof. induction l as [|a l IH]; [reflexivity|]. cbn. now rewrite flat_map_app, IH. Qed.
Lemma lint_unused_labels o builtins lb b : flat_map said_label (lint_code o builtins lb b) = if o_unused o then unused_labels b else [].
Proof.
  unfold lint_code. rewrite flat_flat. rewrite (flat_map_ext _ (fun d => if o_unused o then say (nodes lb b) d else [])) by (intros d; apply lint_label_says).
  destruct (o_unused o).
  - change (says (nodes lb b) (nodes lb b) = unused_labels b). unfold nodes.
    assert (G : good [LScope 0 (-1) []] (-1) 0). { split; [constructor; [now left|constructor]|]. eexists _, _. split; reflexivity. }
    pose proof (proj1 (proj2 (proj2 (proj2 (proj2 labels_all)))) b (enter (outermost lb) (1, 0) b) (1, 1)) as X.
    assert (G1 : at_good (enter (outermost lb) (1, 0) b) (1, 1)) by (apply good_enter with (2 := G); cbn; lia).
    specialize (X G1). cbn [enter outermost labs fdepth snd] in X. apply (block_in _ _ _ _ _ _ _ _ G) in X. apply (proj2 (proj2 X)). intros v _. reflexivity.
  - induction (nodes lb b); auto.
Qed.
