(** Merging declarations: new cells are not seen. *)
From Coq Require Import List ZArith Bool PArith Lia Permutation.
From Verif Require Import M_Merge S_Merge L_Merge.
Import ListNotations.
Open Scope Z_scope.

Section Hidden.
Context (L : lua) (sees : V L -> C L -> Prop) (wsees : W L -> C L -> Prop) (H : cells_hidden L sees wsees).
Notation unseen := (unseen L sees wsees).
Notation blind := (blind L sees wsees).

Definition hides (c : C L) (vs : list (V L)) : Prop := forall v, In v vs -> ~ sees v c.
Definition quiet {A} (c : C L) (res : A -> list (V L)) (step : W L -> out (W L) A) : Prop := unseen c [] res step.

Lemma quiet_of {A} c vs (res : A -> list (V L)) step : unseen c vs res step -> hides c vs -> quiet c res step.
Proof. intros U Hv w (_ & B). apply U. split; [exact Hv|exact B]. Qed.
Lemma quiet_done {A} c (res : A -> list (V L)) a : hides c (res a) -> quiet c res (fun w => Done a w).
Proof. intros Ha w (_ & B). cbn. split; [split; assumption|reflexivity]. Qed.
Lemma quiet_bind {A B} c (ra : A -> list (V L)) (rb : B -> list (V L)) step (k : A -> W L -> out (W L) B) :
  quiet c ra step -> (forall a, hides c (ra a) -> quiet c rb (k a)) -> quiet c rb (fun w => bind (step w) k).
Proof.
  intros Q K w Bw. specialize (Q w Bw). destruct (step w) as [a w1|w1].
  - destruct Q as ((Ha & B1) & E). cbn [bind]. specialize (K a Ha w1 (conj (fun v (F : In v []) => match F with end) B1)).
    destruct (k a w1) as [b w2|w2].
    + destruct K as (Hb & E2). split; [assumption|]. intros u Hu. rewrite E by assumption. cbn. now apply E2.
    + destruct K as (Hb & E2). split; [assumption|]. intros u Hu. rewrite E by assumption. cbn. now apply E2.
  - destruct Q as (B1 & E). cbn [bind]. split; [assumption|]. intros u Hu. now rewrite E.
Qed.
Lemma hides_first c vs : hides c vs -> ~ sees (first L vs) c.
Proof. intros Hv. destruct vs; [apply (h_nil _ _ _ H)|apply Hv; now left]. Qed.
Lemma hides_1 c v : ~ sees v c -> hides c [v].
Proof. intros N u [<-|[]]. exact N. Qed.
Lemma hides_app c a b : hides c a -> hides c b -> hides c (a ++ b).
Proof. intros A B v I. apply in_app_or in I as [I|I]; auto. Qed.

(** an environment from which [c] cannot be got at *)
Definition env_blind (c : C L) (e : env L) : Prop := forall n, slot_not L c (look L n e) /\ hides c (slot_values L (look L n e)).

Lemma getvar_quiet c e n : env_blind c e -> quiet c (fun v => [v]) (getvar L e n).
Proof.
  intros B. assert (R : forall s, slot_not L c (Some s) -> hides c (slot_values L (Some s)) ->
    forall w, ~ wsees w c -> ~ sees (read L s w) c /\ forall u, read L s (cset L c u w) = read L s w).
  { intros [v|d] N Hv w Bw; cbn; [split; [apply Hv; now left|reflexivity]|].
    apply (h_cget _ _ _ H); [|exact Bw]. intros ->. now apply N. }
  unfold getvar. destruct (B n) as (N & Hv). destruct (look L n e) as [s|].
  - intros w (_ & Bw). destruct (R s N Hv w Bw) as (A & E). split; [split; [now apply hides_1|exact Bw]|]. intros u _. now rewrite E.
  - destruct (B n_env) as (N' & Hv'). destruct (look L n_env e) as [s|].
    + intros w (_ & Bw). destruct (R s N' Hv' w Bw) as (A & E).
      pose proof (h_index _ _ _ H c (read L s w) (str L n) w) as I. cbv beta in I.
      assert (Bl : blind c [read L s w; str L n] w) by (split; [intros v [<-|[<-|[]]]; [exact A|apply (h_str _ _ _ H)]|exact Bw]).
      specialize (I Bl). destruct (index L (read L s w) (str L n) w) as [v w'|w'].
      * destruct I as (I1 & I2). split; [exact I1|]. intros u Hu. rewrite E. now apply I2.
      * destruct I as (I1 & I2). split; [exact I1|]. intros u Hu. rewrite E. now apply I2.
    + apply (quiet_of c []); [apply (h_gget _ _ _ H)|intros v []].
Qed.

Definition kv_values (kvs : list (option (V L) * V L)) : list (V L) :=
  map snd kvs ++ flat_map (fun kv => match fst kv with Some k => [k] | None => [] end) kvs.
Lemma kv_cons k v kvs c : match k with Some k => ~ sees k c | None => True end -> ~ sees v c -> hides c (kv_values kvs) -> hides c (kv_values ((k, v) :: kvs)).
Proof.
  intros Hk Hv Hr u I. unfold kv_values in *. cbn [map snd flat_map fst] in I. apply in_app_or in I as [[<-|I]|I]; [exact Hv| |].
  - apply Hr, in_or_app. now left.
  - apply in_app_or in I as [I|I]; [|apply Hr, in_or_app; now right]. destruct k as [k|]; [destruct I as [<-|[]]; exact Hk|destruct I].
Qed.

Ltac qb ra := refine (quiet_bind _ ra _ _ _ _ _); [solve [eauto]|intros].
Ltac q1 := apply quiet_done; apply hides_1.
Lemma vals_quiet c e va : env_blind c e -> hides c va ->
  (forall x, quiet c (fun vs => vs) (vals L e va x)) /\
  (forall es, quiet c (fun vs => vs) (vals_args L e va es)) /\
  (forall its, quiet c kv_values (vals_items L e va its)).
Proof.
  intros Be Bv.
  assert (P1 : forall (p : W L -> out (W L) (V L)), quiet c (fun v => [v]) p -> quiet c (fun vs => vs) (fun w => bind (p w) (fun v w => Done [v] w))).
  { intros p Q. refine (quiet_bind _ _ _ _ _ Q _). intros a Ha. now apply quiet_done. }
  apply expr_all; cbn [vals vals_args vals_items].
  - intros z ns. q1. apply (h_const _ _ _ H).
  - now apply quiet_done.
  - intros x. apply P1. now apply getvar_quiet.
  - intros f free. set (ss := map (fun n => look L n e) (map fst (flat_map node_occ free))).
    assert (Q : quiet c (fun v => [v]) (fun w => let (v, w) := closure L f ss w in Done v w)).
    { apply (quiet_of c (flat_map (slot_values L) ss)).
      - apply (h_closure _ _ _ H). intros s I. apply in_map_iff in I as (n & <- & _). apply Be.
      - intros v I. apply in_flat_map in I as (s & I & J). apply in_map_iff in I as (n & <- & _). now apply (Be n). }
    apply P1 in Q. intros w Bw. specialize (Q w Bw). cbv beta in *. destruct (closure L f ss w) as (v, w') eqn:E. cbn [bind] in Q.
    destruct Q as (Q1 & Q2). split; [exact Q1|]. intros u Hu. specialize (Q2 u Hu). destruct (closure L f ss (cset L c u w)) as (v', w''). exact Q2.
  - intros x IH. qb (fun vs : list (V L) => vs). q1. now apply hides_first.
  - intros x IH. qb (fun vs : list (V L) => vs). q1. apply (h_truth _ _ _ H).
  - intros l IHl r IHr. qb (fun vs : list (V L) => vs). destruct (truthy L _); [|q1; now apply hides_first].
    qb (fun vs : list (V L) => vs). q1. now apply hides_first.
  - intros l IHl r IHr. qb (fun vs : list (V L) => vs). destruct (truthy L _); [q1; now apply hides_first|].
    qb (fun vs : list (V L) => vs). q1. now apply hides_first.
  - intros op x IH. qb (fun vs : list (V L) => vs). apply P1. eapply quiet_of; [apply (h_op1 _ _ _ H)|]. apply hides_1. now apply hides_first.
  - intros op l IHl r IHr. qb (fun vs : list (V L) => vs). qb (fun vs : list (V L) => vs). apply P1. eapply quiet_of; [apply (h_op2 _ _ _ H)|].
    intros v [<-|[<-|[]]]; now apply hides_first.
  - intros x IH key. qb (fun vs : list (V L) => vs). apply P1. eapply quiet_of; [apply (h_index _ _ _ H)|].
    intros v [<-|[<-|[]]]; [now apply hides_first|apply (h_str _ _ _ H)].
  - intros x IHx k IHk. qb (fun vs : list (V L) => vs). qb (fun vs : list (V L) => vs). apply P1. eapply quiet_of; [apply (h_index _ _ _ H)|].
    intros v [<-|[<-|[]]]; now apply hides_first.
  - intros f IHf args IHa. qb (fun vs : list (V L) => vs). qb (fun vs : list (V L) => vs). eapply quiet_of; [apply (h_call _ _ _ H)|].
    intros v [<-|I]; [now apply hides_first|auto].
  - intros x IHx key args IHa. qb (fun vs : list (V L) => vs). refine (quiet_bind _ (fun v => [v]) _ _ _ _ _).
    { eapply quiet_of; [apply (h_index _ _ _ H)|]. intros v [<-|[<-|[]]]; [now apply hides_first|apply (h_str _ _ _ H)]. }
    intros f Hf. qb (fun vs : list (V L) => vs). eapply quiet_of; [apply (h_call _ _ _ H)|].
    intros v [<-|[<-|I]]; [apply Hf; now left|now apply hides_first|auto].
  - intros its IH. qb kv_values. apply P1. eapply quiet_of; [apply (h_table _ _ _ H)|assumption].
  - now apply quiet_done.
  - intros x IHx es IHes. destruct es; [exact IHx|]. qb (fun vs : list (V L) => vs). qb (fun vs : list (V L) => vs). apply quiet_done.
    intros v [<-|I]; [now apply hides_first|auto].
  - apply quiet_done. intros v [].
  - intros k IHk x IHx its IH. qb (fun vs : list (V L) => vs). qb (fun vs : list (V L) => vs). qb kv_values. apply quiet_done.
    apply kv_cons; [now apply hides_first|now apply hides_first|assumption].
  - intros key x IHx its IH. qb (fun vs : list (V L) => vs). qb kv_values. apply quiet_done.
    apply kv_cons; [apply (h_str _ _ _ H)|now apply hides_first|assumption].
  - intros x IHx its IH. destruct its.
    + qb (fun vs : list (V L) => vs). apply quiet_done. clear - H0. induction a as [|v a IHa]; [intros v []|]. cbn [map].
      apply kv_cons; [exact I|apply H0; now left|]. apply IHa. intros u I. apply H0. now right.
    + qb (fun vs : list (V L) => vs). qb kv_values. apply quiet_done. apply kv_cons; [exact I|now apply hides_first|assumption].
    + qb (fun vs : list (V L) => vs). qb kv_values. apply quiet_done. apply kv_cons; [exact I|now apply hides_first|assumption].
    + qb (fun vs : list (V L) => vs). qb kv_values. apply quiet_done. apply kv_cons; [exact I|now apply hides_first|assumption].
Qed.
Lemma list_vals_quiet c e va xs : env_blind c e -> hides c va -> quiet c (fun vs => vs) (list_vals L e va xs).
Proof.
  intros Be Bv. destruct (vals_quiet c e va Be Bv) as (A & _ & _). induction xs as [|x xs IH]; [now apply quiet_done|].
  destruct xs as [|y xs]; [apply A|]. change (quiet c (fun vs => vs) (fun w => bind (vals L e va x w) (fun v w => bind (list_vals L e va (y :: xs) w) (fun vs w => Done (first L v :: vs) w)))).
  qb (fun vs : list (V L) => vs). qb (fun vs : list (V L) => vs). apply quiet_done. intros v [<-|I]; [now apply hides_first|auto].
Qed.
Lemma singles_quiet c e va xs : env_blind c e -> hides c va -> quiet c (fun vs => vs) (singles L e va xs).
Proof.
  intros Be Bv. destruct (vals_quiet c e va Be Bv) as (A & _ & _). induction xs as [|x xs IH]; [now apply quiet_done|].
  cbn [singles]. qb (fun vs : list (V L) => vs). qb (fun vs : list (V L) => vs). apply quiet_done. intros v [<-|I]; [now apply hides_first|auto].
Qed.

(** * Several cells *)
Definition csets (cvs : list (C L * V L)) (w : W L) : W L := fold_left (fun w cv => cset L (fst cv) (snd cv) w) cvs w.
Definition omap {A} (f : W L -> W L) (x : out (W L) A) : out (W L) A := match x with Done a w => Done a (f w) | Fail w => Fail (f w) end.

Lemma csets_blind cvs : forall w c, ~ wsees w c -> (forall v, In v (map snd cvs) -> ~ sees v c) -> ~ wsees (csets cvs w) c.
Proof.
  induction cvs as [|(d, u) cvs IH]; intros w c B Hv; [exact B|]. cbn. apply IH.
  - apply (h_cset _ _ _ H); [exact B|]. apply Hv. now left.
  - intros v I. apply Hv. now right.
Qed.
Lemma quiet_many {A} (res : A -> list (V L)) step cvs : (forall c, In c (map fst cvs) -> quiet c res step) ->
  (forall c v, In c (map fst cvs) -> In v (map snd cvs) -> ~ sees v c) ->
  forall w, (forall c, In c (map fst cvs) -> ~ wsees w c) -> step (csets cvs w) = omap (csets cvs) (step w).
Proof.
  induction cvs as [|(c, u) cvs IH]; intros Q S w B; [cbn; now destruct (step w)|]. cbn [csets fold_left fst snd]. change (fold_left _ cvs ?w) with (csets cvs w).
  rewrite IH.
  - assert (B0 : blind c [] w) by (split; [intros v []|apply B; now left]). pose proof (Q c (or_introl eq_refl) w B0) as Qc.
    destruct (step w) as [a w'|w']; destruct Qc as (_ & E); rewrite E by (apply S; now left); reflexivity.
  - intros d I. apply Q. now right.
  - intros d v I J. apply S; now right.
  - intros d I. apply (h_cset _ _ _ H); [apply B; now right|]. apply S; [now right|now left].
Qed.
Lemma csets_app a b w : csets (a ++ b) w = csets b (csets a w).
Proof. apply fold_left_app. Qed.
Lemma csets_cons_last c u cvs : forall w, ~ In c (map fst cvs) -> csets ((c, u) :: cvs) w = csets (cvs ++ [(c, u)]) w.
Proof.
  induction cvs as [|(d, v) cvs IH]; intros w N; [reflexivity|]. cbn [csets fold_left fst snd app]. change (fold_left _ ?l ?w) with (csets l w).
  rewrite (h_comm _ _ _ H) by (intros E; apply N; now left). change (csets cvs (cset L c u (cset L d v w))) with (csets ((c, u) :: cvs) (cset L d v w)).
  rewrite IH by (intros I; apply N; now right). reflexivity.
Qed.
Lemma csets_swap a b w : NoDup (map fst (a ++ b)) -> csets (a ++ b) w = csets (b ++ a) w.
Proof.
  revert b w. induction a as [|(c, u) a IH]; intros b w N; [now rewrite app_nil_r|]. cbn [map fst app] in N. inversion N as [|? ? Nc Na]; subst.
  change (csets (((c, u) :: a) ++ b) w) with (csets (a ++ b) (cset L c u w)). rewrite IH by exact Na.
  change (csets (b ++ a) (cset L c u w)) with (csets ((c, u) :: b ++ a) w).
  rewrite map_app in Nc. change ((c, u) :: b ++ a) with (((c, u) :: b) ++ a). rewrite csets_app, csets_cons_last by (intros I; apply Nc, in_or_app; now right).
  rewrite <- csets_app, <- app_assoc. reflexivity.
Qed.

(** * Declarations *)
Context (cell : vid -> C L).
Definition dslot (xv : vnode * V L) : name * slot (V L) (C L) :=
  (v_name (fst xv), if v_captured (fst xv) then Cell (cell (v_id (fst xv))) else Val (snd xv)).
Definition dcells (xvs : list (vnode * V L)) : list (C L * V L) :=
  flat_map (fun xv => if v_captured (fst xv) then [(cell (v_id (fst xv)), snd xv)] else []) xvs.
Lemma declare_is xvs : forall e w, declare L cell xvs e w = (rev (map dslot xvs) ++ e, csets (dcells xvs) w).
Proof.
  induction xvs as [|(x, v) xvs IH]; intros e w; [reflexivity|]. cbn [declare map rev dcells flat_map fst snd]. rewrite <- app_assoc.
  destruct (v_captured x) eqn:Ec; rewrite IH.
  - assert (dslot (x, v) = (v_name x, Cell (cell (v_id x)))) as -> by (unfold dslot; cbn [fst snd]; now rewrite Ec). reflexivity.
  - assert (dslot (x, v) = (v_name x, Val v)) as -> by (unfold dslot; cbn [fst snd]; now rewrite Ec). reflexivity.
Qed.
Lemma dcells_app a b : dcells (a ++ b) = dcells a ++ dcells b.
Proof. apply flat_map_app. Qed.
Lemma dcells_fst xvs : incl (map fst (dcells xvs)) (map (fun x => cell (v_id x)) (map fst xvs)).
Proof.
  induction xvs as [|(x, v) xvs IH]; intros c I; [destruct I|]. cbn [dcells flat_map fst snd map] in *. destruct (v_captured x); [|right; now apply IH].
  cbn in I. destruct I as [<-|I]; [now left|right; now apply IH].
Qed.
Lemma dcells_snd xvs : incl (map snd (dcells xvs)) (map snd xvs).
Proof.
  induction xvs as [|(x, v) xvs IH]; intros c I; [destruct I|]. cbn [dcells flat_map fst snd map] in *. destruct (v_captured x); [|right; now apply IH].
  cbn in I. destruct I as [<-|I]; [now left|right; now apply IH].
Qed.
Lemma dcells_nodup xvs : NoDup (map (fun x => cell (v_id x)) (map fst xvs)) -> NoDup (map fst (dcells xvs)).
Proof.
  induction xvs as [|(x, v) xvs IH]; intros N; [constructor|]. cbn [dcells flat_map fst snd map] in *. inversion N as [|? ? N1 N2]; subst.
  destruct (v_captured x); [|now apply IH]. cbn. constructor; [|now apply IH]. intros I. apply N1. now apply dcells_fst.
Qed.
Lemma look_app n a b : look L n (a ++ b) = match look L n a with Some s => Some s | None => look L n b end.
Proof. induction a as [|(m, s) a IH]; [reflexivity|]. cbn. now destruct (Pos.eqb n m). Qed.
Lemma look_none n a : look L n a = None <-> ~ In n (map fst a).
Proof.
  induction a as [|(m, s) a IH]; [easy|]. cbn. destruct (Pos.eqb_spec n m) as [->|N]; [split; [discriminate|intros F; exfalso; apply F; now left]|].
  rewrite IH. split; [intros A [->|I]; tauto|tauto].
Qed.
End Hidden.
