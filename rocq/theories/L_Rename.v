(** Lemmas on the choice of new names. *)
From Verif Require Import M_Base L_Util M_Rename S_Rename L_Ident L_Scope L_Rewalk.
From Coq Require Import String List Permutation.
Import ListNotations.
Open Scope nat_scope.

Lemma var_eqb_eq a b : var_eqb a b = true <-> a = b.
Proof.
  destruct a as (a1, a2), b as (b1, b2). unfold var_eqb. cbn [fst snd].
  rewrite andb_true_iff, !Nat.eqb_eq. split; [intros (-> & ->)|intros [= -> ->]]; easy.
Qed.

Lemma vid_eqb_eq a b : vid_eqb a b = true <-> a = b.
Proof.
  destruct a, b; cbn [vid_eqb]; rewrite ?var_eqb_eq, ?zeqb_list_true; split; congruence.
Qed.

Lemma vid_eqb_refl a : vid_eqb a a = true.
Proof. now apply vid_eqb_eq. Qed.

Lemma vid_dec (a b : vid) : {a = b} + {a <> b}.
Proof.
  destruct (vid_eqb a b) eqn:E; [left|right].
  - now apply vid_eqb_eq.
  - intros ->. now rewrite vid_eqb_refl in E.
Qed.

Lemma vmem_In v l : vmem v l = true <-> In v l.
Proof.
  unfold vmem. rewrite existsb_exists. split.
  - intros (x & I & E). apply vid_eqb_eq in E. now subst.
  - intros I. exists v. split; [easy|apply vid_eqb_refl].
Qed.

Lemma nmem_In x l : nmem x l = true <-> In x l.
Proof.
  unfold nmem. rewrite existsb_exists. split.
  - intros (y & I & E). apply Nat.eqb_eq in E. now subst.
  - intros I. exists x. split; [easy|apply Nat.eqb_refl].
Qed.

(** * The sorted list of variables *)

Lemma keys_spec seen l : NoDup (keys seen l) /\
  forall v, In v (keys seen l) <-> In v l /\ ~ In v seen.
Proof.
  revert seen. induction l as [|x l IH]; intros seen; cbn [keys].
  - split; [constructor|]. cbn. tauto.
  - destruct (vmem x seen) eqn:M.
    + apply vmem_In in M. destruct (IH seen) as (N & H). split; [easy|]. intros v. rewrite H.
      cbn [In]. split; [tauto|]. intros ([->|I] & J); tauto.
    + assert (Nx : ~ In x seen) by (intros J; apply vmem_In in J; congruence).
      destruct (IH (x :: seen)) as (N & H). split.
      * constructor; [|easy]. rewrite H. cbn [In]. tauto.
      * intros v. cbn [In]. rewrite H. cbn [In].
        destruct (vid_dec x v) as [->|]; [tauto|]. tauto.
Qed.

Lemma insert_by_perm c v l : Permutation (v :: l) (insert_by c v l).
Proof.
  induction l as [|x l IH]; cbn [insert_by]; [easy|].
  destruct (c v <=? c x); [|easy].
  eapply perm_trans; [apply perm_swap|]. now apply perm_skip.
Qed.

Lemma sorted_uses_perm l : Permutation (keys [] l) (sorted_uses l).
Proof.
  unfold sorted_uses. generalize (fun v => count v l) as c. intros c. generalize (keys [] l) as ks.
  assert (G : forall ks acc, Permutation (ks ++ acc) (fold_left (fun acc v => insert_by c v acc) ks acc)).
  { induction ks as [|x ks IH]; intros acc; [easy|]. cbn [fold_left app].
    eapply perm_trans; [|apply IH]. eapply perm_trans; [apply Permutation_middle|].
    apply Permutation_app_head. apply insert_by_perm. }
  intros ks. specialize (G ks []). now rewrite app_nil_r in G.
Qed.

Lemma sorted_uses_In l v : In v (sorted_uses l) <-> In v l.
Proof.
  pose proof (sorted_uses_perm l) as P. pose proof (proj2 (keys_spec [] l) v) as K.
  split; intros I.
  - apply (Permutation_in _ (Permutation_sym P)) in I. tauto.
  - apply (Permutation_in _ P). apply K. cbn. tauto.
Qed.

Lemma sorted_uses_NoDup l : NoDup (sorted_uses l).
Proof. eapply Permutation_NoDup; [apply sorted_uses_perm|apply keys_spec]. Qed.

Section Facts.
Context (o : opts) (nodes : list node).
Notation compat := (compatible o nodes).

Lemma compatible_sym a b : compat a b = compat b a.
Proof. destruct a, b; cbn [compatible]; try easy; apply andb_comm. Qed.

(** what one call of select_var or select_vars does *)
Definition selects (rem exc : list vid) (avoid : vid -> bool) (r e s : list vid) : Prop :=
  Permutation rem (r ++ s) /\ e = exc ++ s /\
  (forall v, In v s -> avoid v = false /\ forall w, In w exc -> compat v w = true) /\
  ForallOrdPairs (fun a b => compat b a = true) s.

Lemma try_select_true exc avoid v : try_select o nodes exc avoid v = true ->
  avoid v = false /\ forall w, In w exc -> compat v w = true.
Proof.
  unfold try_select. rewrite andb_true_iff, negb_true_iff, forallb_forall. tauto.
Qed.

Lemma select_var_spec rem exc avoid r e s :
  select_var o nodes rem exc avoid = (r, e, s) -> selects rem exc avoid r e s.
Proof.
  revert r e s. induction rem as [|v rem IH]; intros r e s E; cbn [select_var] in E.
  - injection E as <- <- <-. split; [easy|]. rewrite app_nil_r. split; [easy|]. split; [easy|constructor].
  - destruct (try_select o nodes exc avoid v) eqn:T.
    + injection E as <- <- <-. apply try_select_true in T. split.
      * apply Permutation_cons_append.
      * split; [easy|]. split; [|repeat constructor]. intros w [<-|[]]. exact T.
    + destruct (select_var o nodes rem exc avoid) as ((r', e'), s') eqn:X. injection E as <- <- <-.
      destruct (IH _ _ _ eq_refl) as (P & Q). split; [|easy]. cbn [app]. now apply perm_skip.
Qed.

Lemma select_vars_spec rem exc avoid r e s :
  select_vars o nodes rem exc avoid = (r, e, s) -> selects rem exc avoid r e s.
Proof.
  revert exc r e s. induction rem as [|v rem IH]; intros exc r e s E; cbn [select_vars] in E.
  - injection E as <- <- <-. split; [easy|]. rewrite app_nil_r. split; [easy|]. split; [easy|constructor].
  - destruct (try_select o nodes exc avoid v) eqn:T.
    + destruct (select_vars o nodes rem (exc ++ [v]) avoid) as ((r', e'), s') eqn:X.
      injection E as <- <- <-. apply try_select_true in T.
      destruct (IH _ _ _ _ X) as (P & -> & H & O). split; [|split; [|split]].
      * apply Permutation_cons_app. exact P.
      * now rewrite <- app_assoc.
      * intros w [<-|I]; [exact T|]. destruct (H w I) as (A & B). split; [easy|].
        intros x J. apply B. apply in_or_app. now left.
      * constructor; [|easy]. rewrite Forall_forall. intros w I. destruct (H w I) as (_ & B).
        apply B. apply in_or_app. right. now left.
    + destruct (select_vars o nodes rem exc avoid) as ((r', e'), s') eqn:X. injection E as <- <- <-.
      destruct (IH _ _ _ _ X) as (P & Q). split; [|easy]. cbn [app]. now apply perm_skip.
Qed.

Lemma pairs_compat s v w : ForallOrdPairs (fun a b => compat b a = true) s ->
  In v s -> In w s -> v <> w -> compat v w = true.
Proof.
  intros O. induction O as [|x s Fx O IH]; [easy|]. rewrite Forall_forall in Fx.
  intros [<-|I] [<-|J] N; try easy.
  - rewrite compatible_sym. now apply Fx.
  - now apply Fx.
  - now apply IH.
Qed.

Lemma fop_app (R : vid -> vid -> Prop) a b : ForallOrdPairs R a -> ForallOrdPairs R b ->
  (forall x y, In x a -> In y b -> R x y) -> ForallOrdPairs R (a ++ b).
Proof.
  intros A B H. induction A as [|x a Fx A IH]; [easy|]. cbn [app]. constructor.
  - rewrite Forall_forall in *. intros y I. apply in_app_or in I. destruct I as [I|I]; [now apply Fx|].
    apply H; [now left|easy].
  - apply IH. intros. apply H; [now right|easy].
Qed.

(** two calls, the second with the variables of the first excluded as well *)
Lemma selects_chain rem1 rem2 exc avoid r1 e1 s1 r2 e2 s2 :
  selects rem1 exc avoid r1 e1 s1 -> selects rem2 e1 avoid r2 e2 s2 ->
  e2 = exc ++ s1 ++ s2 /\
  (forall v, In v (s1 ++ s2) -> avoid v = false /\ forall w, In w exc -> compat v w = true) /\
  ForallOrdPairs (fun a b => compat b a = true) (s1 ++ s2).
Proof.
  intros (_ & -> & H1 & O1) (_ & -> & H2 & O2). split; [now rewrite app_assoc|]. split.
  - intros v I. apply in_app_or in I. destruct I as [I|I]; [now apply H1|].
    destruct (H2 v I) as (A & B). split; [easy|]. intros w J. apply B. apply in_or_app. now left.
  - apply fop_app; try easy. intros x y I J. apply (H2 y J). apply in_or_app. now right.
Qed.

Definition all_todo (d : todo) : list vid := d_locals d ++ d_globals d ++ d_members d ++ d_labels d.

Definition typed (d : todo) : Prop :=
  (forall v, In v (d_locals d) -> is_local v = true) /\
  (forall v, In v (d_globals d) -> is_global v = true) /\
  (forall v, In v (d_members d) -> is_member v = true) /\
  (forall v, In v (d_labels d) -> is_label v = true).

Definition excluded_for (ident : name) : list vid :=
  (if mem ident (global_excludes o nodes) then [VGlobal ident] else []) ++
  (if mem ident (member_excludes o nodes) then [VMember ident] else []) ++
  local_excludes o nodes ident.

Definition avoided (ident : name) (v : vid) : bool :=
  o_pico8 o && zmem (hd 0%Z ident) (str "bxBX") && after_zero o nodes v.

Ltac perm := rewrite ?(Permutation_count_occ vid_dec) in *;
  let q := fresh "q" in intros q;
  repeat match goal with P : forall _, count_occ _ _ _ = _ |- _ => specialize (P q) end;
  rewrite ?count_occ_app in *; lia.

Lemma perm3 (A B C a b c x y z : list vid) : Permutation A (a ++ x) -> Permutation B (b ++ y) -> Permutation C (c ++ z) ->
  Permutation (A ++ B ++ C) (a ++ b ++ c ++ x ++ y ++ z).
Proof. intros P Q R. perm. Qed.

Lemma perm3' (A B C a b c x y z : list vid) : Permutation A (a ++ x) -> Permutation B (b ++ y) -> Permutation C (c ++ z) ->
  Permutation (A ++ B ++ C) (a ++ b ++ c ++ y ++ z ++ x).
Proof. intros P Q R. perm. Qed.

(** what one identifier is chosen for *)
Lemma choose_spec ident d d' s : choose o nodes ident d = (d', s) -> typed d ->
  Permutation (all_todo d) (all_todo d' ++ s) /\ typed d' /\
  (forall v, In v s -> is_label v = false ->
     ident <> env_name /\ avoided ident v = false /\
     forall w, In w (excluded_for ident) -> compat v w = true) /\
  (forall v w, In v s -> In w s -> v <> w -> compat v w = true).
Proof.
  unfold choose. fold (avoided ident). fold (excluded_for ident). intros E (Tl & Tg & Tm & Tb).
  cbn zeta in E.
  assert (X : exists rl rg rm s1,
    (if zeqb_list ident env_name then (d, [])
     else if negb (o_focus_chars o) then
        let '(rl, e1, s1) := select_vars o nodes (d_locals d) (excluded_for ident) (avoided ident) in
        let '(rg, e2, s2) := select_var o nodes (d_globals d) e1 (avoided ident) in
        let '(rm, _, s3) := select_var o nodes (d_members d) e2 (avoided ident) in
        ({| d_locals := rl; d_globals := rg; d_members := rm; d_labels := d_labels d |},
         s1 ++ s2 ++ s3)
      else
        let '(rg, e1, s1) := select_var o nodes (d_globals d) (excluded_for ident) (avoided ident) in
        let '(rm, e2, s2) := select_var o nodes (d_members d) e1 (avoided ident) in
        let '(rl, _, s3) := select_vars o nodes (d_locals d) e2 (avoided ident) in
        ({| d_locals := rl; d_globals := rg; d_members := rm; d_labels := d_labels d |},
         s1 ++ s2 ++ s3)) =
    ({| d_locals := rl; d_globals := rg; d_members := rm; d_labels := d_labels d |}, s1) /\
    Permutation (d_locals d ++ d_globals d ++ d_members d) (rl ++ rg ++ rm ++ s1) /\
    incl rl (d_locals d) /\ incl rg (d_globals d) /\ incl rm (d_members d) /\
    (forall v, In v s1 -> ident <> env_name /\ avoided ident v = false /\
       forall w, In w (excluded_for ident) -> compat v w = true) /\
    ForallOrdPairs (fun a b => compat b a = true) s1).
  { destruct (zeqb_list ident env_name) eqn:Ie.
    - exists (d_locals d), (d_globals d), (d_members d), []. destruct d; cbn.
      split; [easy|]. rewrite app_nil_r. split; [easy|]. repeat (split; [apply incl_refl|]).
      split; [easy|constructor].
    - assert (Ne : ident <> env_name) by (now apply zeqb_list_false).
      assert (Pi : forall a b c : list vid, Permutation a (b ++ c) -> incl b a).
      { intros a b c P x I. apply (Permutation_in _ (Permutation_sym P)). apply in_or_app. now left. }
      destruct (negb (o_focus_chars o)).
      + destruct (select_vars o nodes (d_locals d) (excluded_for ident) (avoided ident)) as ((rl, e1), s1) eqn:S1.
        destruct (select_var o nodes (d_globals d) e1 (avoided ident)) as ((rg, e2), s2) eqn:S2.
        destruct (select_var o nodes (d_members d) e2 (avoided ident)) as ((rm, e3), s3) eqn:S3.
        apply select_vars_spec in S1. apply select_var_spec in S2, S3.
        destruct (selects_chain _ _ _ _ _ _ _ _ _ _ S1 S2) as (E2 & H2 & O2).
        assert (S12 : selects (d_locals d ++ d_globals d) (excluded_for ident) (avoided ident) (rl ++ rg) e2 (s1 ++ s2)).
        { split; [|split; [now rewrite E2|easy]].
          destruct S1 as (P1 & _), S2 as (P2 & _). rewrite P1, P2. rewrite <- !app_assoc.
          apply Permutation_app_head. rewrite !app_assoc. apply Permutation_app_tail.
          apply Permutation_app_comm. }
        destruct (selects_chain _ _ _ _ _ _ _ _ _ _ S12 S3) as (E3 & H3 & O3).
        exists rl, rg, rm, (s1 ++ s2 ++ s3). split; [easy|]. rewrite <- app_assoc in H3, O3.
        destruct S1 as (P1 & _), S2 as (P2 & _), S3 as (P3 & _).
        split; [|split; [|split; [|split; [|split]]]]; [|now apply (Pi _ _ s1)|now apply (Pi _ _ s2)|now apply (Pi _ _ s3)| |easy].
        * now apply perm3.
        * intros v I. split; [easy|]. now apply H3.
      + destruct (select_var o nodes (d_globals d) (excluded_for ident) (avoided ident)) as ((rg, e1), s1) eqn:S1.
        destruct (select_var o nodes (d_members d) e1 (avoided ident)) as ((rm, e2), s2) eqn:S2.
        destruct (select_vars o nodes (d_locals d) e2 (avoided ident)) as ((rl, e3), s3) eqn:S3.
        apply select_vars_spec in S3. apply select_var_spec in S1, S2.
        destruct (selects_chain _ _ _ _ _ _ _ _ _ _ S1 S2) as (E2 & H2 & O2).
        assert (S12 : selects (d_globals d ++ d_members d) (excluded_for ident) (avoided ident) (rg ++ rm) e2 (s1 ++ s2)).
        { split; [|split; [now rewrite E2|easy]].
          destruct S1 as (P1 & _), S2 as (P2 & _). rewrite P1, P2. rewrite <- !app_assoc.
          apply Permutation_app_head. rewrite !app_assoc. apply Permutation_app_tail.
          apply Permutation_app_comm. }
        destruct (selects_chain _ _ _ _ _ _ _ _ _ _ S12 S3) as (E3 & H3 & O3).
        exists rl, rg, rm, (s1 ++ s2 ++ s3). split; [easy|]. rewrite <- app_assoc in H3, O3.
        destruct S1 as (P1 & _), S2 as (P2 & _), S3 as (P3 & _).
        split; [|split; [|split; [|split; [|split]]]]; [|now apply (Pi _ _ s3)|now apply (Pi _ _ s1)|now apply (Pi _ _ s2)| |easy].
        * now apply perm3'.
        * intros v I. split; [easy|]. now apply H3. }
  destruct X as (rl & rg & rm & s1 & Ex & P & Il & Ig & Im & H & O).
  rewrite Ex in E. clear Ex. cbn [d_labels d_locals d_globals d_members] in E.
  destruct (select_vars o nodes (d_labels d) [] (fun _ => false)) as ((rb, e4), s4) eqn:S4.
  apply select_vars_spec in S4. destruct S4 as (P4 & _ & _ & O4). injection E as <- <-.
  assert (L4 : forall v, In v s4 -> is_label v = true).
  { intros v I. apply Tb. apply (Permutation_in _ (Permutation_sym P4)). apply in_or_app. now right. }
  assert (L1 : forall v, In v s1 -> is_label v = false).
  { intros v I. assert (J : In v (d_locals d ++ d_globals d ++ d_members d)).
    { apply (Permutation_in _ (Permutation_sym P)). do 3 (apply in_or_app; right). easy. }
    apply in_app_or in J. destruct J as [J|J]; [apply Tl in J; now destruct v|].
    apply in_app_or in J. destruct J as [J|J]; [apply Tg in J; now destruct v|].
    apply Tm in J; now destruct v. }
  split; [|split; [|split]].
  - unfold all_todo. cbn [d_labels d_locals d_globals d_members].
    replace (d_locals d ++ d_globals d ++ d_members d ++ d_labels d)
      with ((d_locals d ++ d_globals d ++ d_members d) ++ d_labels d) by (now rewrite <- !app_assoc).
    rewrite P, P4. rewrite <- !app_assoc. do 3 apply Permutation_app_head.
    rewrite !app_assoc. apply Permutation_app_tail. apply Permutation_app_comm.
  - split; [|split; [|split]]; cbn [d_labels d_locals d_globals d_members]; intros v I.
    + apply Tl. now apply Il.
    + apply Tg. now apply Ig.
    + apply Tm. now apply Im.
    + apply Tb. apply (Permutation_in _ (Permutation_sym P4)). apply in_or_app. now left.
  - intros v I Lb. apply in_app_or in I. destruct I as [I|I]; [now apply H|].
    apply L4 in I. congruence.
  - intros v w I J N. apply in_app_or in I, J.
    destruct I as [I|I], J as [J|J].
    + now apply (pairs_compat s1).
    + apply L1 in I. apply L4 in J. destruct v, w; try discriminate; reflexivity.
    + apply L4 in I. apply L1 in J. destruct v, w; try discriminate; reflexivity.
    + now apply (pairs_compat s4).
Qed.

(** ** The loop *)

Context (Nchars : NoDup (o_chars o)) (Xchars : exists c, In c (o_chars o) /\ isdigit c = false).

(** what a list of renames satisfies *)
Definition good_renames (rn : renames) : Prop :=
  (forall v w a, In (v, a) rn -> In (w, a) rn -> v <> w -> compat v w = true) /\
  (forall v a, In (v, a) rn -> valid_ident (o_chars o) a /\ ~ In a keywords /\
     (is_label v = false -> a <> env_name /\ avoided a v = false /\
        forall w, In w (excluded_for a) -> compat v w = true)).

Lemma assign_spec fuel : forall ident d acc rn,
  ok_or_nil (o_chars o) ident -> typed d -> good_renames acc ->
  (forall v a, In (v, a) acc -> a = ident \/ before (o_chars o) a ident) ->
  assign o nodes fuel ident d acc = Ok rn ->
  good_renames rn /\ Permutation (map fst acc ++ all_todo d) (map fst rn).
Proof.
  induction fuel as [|fuel IH]; intros ident d acc rn Oi T G B E; cbn [assign] in E;
    (destruct (done d) eqn:D; [injection E as <-; split; [easy|]|]).
  - unfold done, all_todo in *. destruct (d_locals d), (d_globals d), (d_members d), (d_labels d); try discriminate D.
    now rewrite app_nil_r.
  - discriminate E.
  - unfold done, all_todo in *. destruct (d_locals d), (d_globals d), (d_members d), (d_labels d); try discriminate D.
    now rewrite app_nil_r.
  - cbn zeta in E.
    destruct (next_ident_spec (o_chars o) ident Nchars Xchars Oi) as (V & Bf & _).
    set (i' := next_ident (o_chars o) ident) in *.
    assert (B' : forall v a, In (v, a) acc -> before (o_chars o) a i').
    { intros v a I. destruct (B v a I) as [->|Q]; [easy|]. eapply before_trans; eauto. }
    destruct (mem i' keywords) eqn:K.
    + apply (IH i' d acc rn); try easy; [now right|]. intros v a I. right. now apply (B' v).
    + destruct (choose o nodes i' d) as (d', s) eqn:C.
      destruct (choose_spec i' d d' s C T) as (P & T' & H & O).
      assert (Nk : ~ In i' keywords) by (intros I; apply mem_In in I; congruence).
      destruct (IH i' d' (acc ++ map (fun v => (v, i')) s) rn) as (Gr & Pr); try easy.
      * now right.
      * destruct G as (G1 & G2). split.
        -- intros v w a I J N. apply in_app_or in I, J.
           destruct I as [I|I], J as [J|J].
           ++ now apply (G1 v w a).
           ++ apply in_map_iff in J. destruct J as (x & [= <- <-] & _). apply B' in I.
              now apply before_irrefl in I.
           ++ apply in_map_iff in I. destruct I as (x & [= <- <-] & _). apply B' in J.
              now apply before_irrefl in J.
           ++ apply in_map_iff in I, J. destruct I as (x & [= <- <-] & I), J as (y & [= <-] & J).
              now apply O.
        -- intros v a I. apply in_app_or in I. destruct I as [I|I]; [now apply G2|].
           apply in_map_iff in I. destruct I as (x & [= <- <-] & I). split; [easy|]. split; [easy|].
           intros Lb. now apply H.
      * intros v a I. apply in_app_or in I. destruct I as [I|I].
        -- right. now apply (B' v).
        -- apply in_map_iff in I. destruct I as (x & [= <- <-] & _). now left.
      * split; [easy|]. rewrite <- Pr, map_app, map_map. cbn [fst].
        rewrite map_id, P, <- app_assoc. apply Permutation_app_head. apply Permutation_app_comm.
Qed.

Lemma uses_In which v : In v (uses o nodes which) <->
  which v = true /\ exists nd, In nd nodes /\ effective o nodes nd = Rename v.
Proof.
  unfold uses. rewrite in_flat_map. split.
  - intros (nd & I & J). destruct (effective o nodes nd) as [w|] eqn:E; [|easy].
    destruct (which w) eqn:W; [|easy]. destruct J as [<-|[]]. split; [easy|]. now exists nd.
  - intros (W & nd & I & E). exists nd. split; [easy|]. rewrite E, W. now left.
Qed.

Lemma todo0_typed : typed (todo0 o nodes).
Proof.
  split; [|split; [|split]]; intros v I; cbn [todo0 d_locals d_globals d_members d_labels] in I;
    apply sorted_uses_In, uses_In in I; tauto.
Qed.

Lemma todo0_In v : In v (all_todo (todo0 o nodes)) <->
  exists nd, In nd nodes /\ effective o nodes nd = Rename v.
Proof.
  unfold all_todo, todo0. cbn [d_locals d_globals d_members d_labels].
  rewrite !in_app_iff, !sorted_uses_In, !uses_In. split; [tauto|].
  intros H. destruct v; cbn [is_local is_global is_member is_label]; tauto.
Qed.

Lemma NoDup_app4 (a b : list vid) : NoDup a -> NoDup b -> (forall v, In v a -> ~ In v b) -> NoDup (a ++ b).
Proof.
  intros Na Nb D. induction Na as [|x a Nx Na IH]; [easy|]. cbn [app]. constructor.
  - rewrite in_app_iff. intros [I|I]; [easy|]. apply (D x); [now left|easy].
  - apply IH. intros v I. apply D. now right.
Qed.

Lemma todo0_NoDup : NoDup (all_todo (todo0 o nodes)).
Proof.
  destruct todo0_typed as (Tl & Tg & Tm & Tb).
  unfold all_todo, todo0 in *. cbn [d_locals d_globals d_members d_labels] in *.
  repeat apply NoDup_app4; try apply sorted_uses_NoDup; intros v I;
    rewrite ?in_app_iff; intros J.
  - apply Tm in I. apply Tb in J. now destruct v.
  - apply Tg in I. destruct J as [J|J]; [apply Tm in J|apply Tb in J]; now destruct v.
  - apply Tl in I. destruct J as [J|[J|J]]; [apply Tg in J|apply Tm in J|apply Tb in J]; now destruct v.
Qed.

Lemma assign_all fuel rn : assign o nodes fuel [] (todo0 o nodes) [] = Ok rn ->
  good_renames rn /\ NoDup (map fst rn) /\
  forall v, In v (map fst rn) <-> exists nd, In nd nodes /\ effective o nodes nd = Rename v.
Proof.
  intros E. destruct (assign_spec fuel [] (todo0 o nodes) [] rn) as (G & P); try easy.
  - now left.
  - apply todo0_typed.
  - split; [easy|]. split; [eapply Permutation_NoDup; [exact P|apply todo0_NoDup]|].
    intros v. rewrite <- todo0_In. cbn [map app] in P. split; intros I.
    + now apply (Permutation_in _ (Permutation_sym P)).
    + now apply (Permutation_in _ P).
Qed.

Lemma lookup_In rn v a : lookup rn v = Some a -> In (v, a) rn.
Proof.
  induction rn as [|(w, b) rn IH]; [easy|]. cbn [lookup]. destruct (vid_eqb v w) eqn:E.
  - apply vid_eqb_eq in E. intros [= ->]. subst. now left.
  - intros H. right. auto.
Qed.

Lemma In_lookup rn v : In v (map fst rn) -> exists a, lookup rn v = Some a.
Proof.
  induction rn as [|(w, b) rn IH]; [easy|]. cbn [map fst lookup]. intros I.
  destruct (vid_eqb v w) eqn:E; [now exists b|]. destruct I as [->|I]; [|now apply IH].
  now rewrite vid_eqb_refl in E.
Qed.

(** ** From the renames to the hypotheses of the traversal *)

Context (fuel : nat) (rn : renames) (Ern : assign o nodes fuel [] (todo0 o nodes) [] = Ok rn).
Context (root : list (name * var))
  (Hroot : forall n w, In (n, w) root -> fst w = 0 /\
     (n = env_name \/ (In n (o_builtins o) /\ builtin_local w = true /\
        ie_contains (r_globals (o_rules o)) n = true))).

Definition newF (k : kind) (n : name) : name :=
  new_name o nodes rn {| n_name := n; n_kind := k; n_chain := []; n_implicit := false; n_zero := false |}.

Lemma newF_fname nd : fname newF nd = new_name o nodes rn nd.
Proof. reflexivity. Qed.

Lemma effective_eq nd nd' : n_kind nd = n_kind nd' -> n_name nd = n_name nd' ->
  effective o nodes nd = effective o nodes nd'.
Proof. unfold effective. intros -> ->. reflexivity. Qed.

(** the name a node gets *)
Lemma new_name_cases nd : In nd nodes ->
  (exists v a, effective o nodes nd = Rename v /\ In (v, a) rn /\ new_name o nodes rn nd = a /\ lookup rn v = Some a) \/
  (exists x, effective o nodes nd = Keep x /\ new_name o nodes rn nd = n_name nd).
Proof.
  intros I. unfold new_name. destruct (effective o nodes nd) as [v|x] eqn:E.
  - left. destruct (assign_all fuel rn Ern) as (_ & _ & H).
    destruct (In_lookup rn v) as (a & La); [apply H; now exists nd|].
    exists v, a. rewrite La. split; [easy|]. split; [now apply lookup_In|easy].
  - right. now exists x.
Qed.

Lemma effective_local nd v : n_kind nd = KLocal v ->
  effective o nodes nd = Rename (VLocal v) \/ effective o nodes nd = Keep (Some (VLocal v)) \/
  (effective o nodes nd = Keep None /\ n_name nd = env_name).
Proof.
  intros K. unfold effective. rewrite K.
  destruct (_ || _); [now right; left|].
  destruct (zeqb_list (n_name nd) env_name) eqn:E; [|now left].
  apply zeqb_list_true in E. right. now right.
Qed.

Lemma effective_global_node nd : n_kind nd = KGlobal ->
  effective o nodes nd = Rename (VGlobal (n_name nd)) \/
  effective o nodes nd = Keep (Some (VGlobal (n_name nd))).
Proof.
  intros K. unfold effective, effective_global. rewrite K. destruct (_ || _); tauto.
Qed.

Lemma kept_local_excluded nd v : In nd nodes -> effective o nodes nd = Keep (Some (VLocal v)) ->
  In (VLocal v) (excluded_for (n_name nd)).
Proof.
  intros I E. unfold excluded_for. do 2 (apply in_or_app; right).
  unfold local_excludes. apply in_flat_map. exists nd. split; [easy|].
  rewrite E, zeqb_list_refl. now left.
Qed.

Lemma kept_global_excluded nd n : In nd nodes -> effective o nodes nd = Keep (Some (VGlobal n)) ->
  In (VGlobal n) (excluded_for n).
Proof.
  intros I E. unfold excluded_for. apply in_or_app. left.
  assert (M : mem n (global_excludes o nodes) = true).
  { apply mem_In. unfold global_excludes. apply in_or_app. right. apply in_flat_map.
    exists nd. split; [easy|]. rewrite E. now left. }
  rewrite M. now left.
Qed.

Lemma kept_member_excluded nd n : In nd nodes -> effective o nodes nd = Keep (Some (VMember n)) ->
  In (VMember n) (excluded_for n).
Proof.
  intros I E. unfold excluded_for. apply in_or_app. right. apply in_or_app. left.
  assert (M : mem n (member_excludes o nodes) = true).
  { apply mem_In. unfold member_excludes. apply in_or_app. right. apply in_flat_map.
    exists nd. split; [easy|]. rewrite E. now left. }
  rewrite M. now left.
Qed.

Lemma used_local_In nd v s : In nd nodes -> n_kind nd = KLocal v ->
  In s (upto (fst v) (n_chain nd)) -> used_local nodes s v = true.
Proof.
  intros I K U. unfold used_local. apply existsb_exists. exists nd. split; [easy|]. rewrite K.
  apply andb_true_iff. split; [now apply var_eqb_eq|now apply nmem_In].
Qed.

Lemma used_global_In nd s : In nd nodes -> n_kind nd = KGlobal ->
  In s (n_chain nd) -> used_global nodes s (n_name nd) = true.
Proof.
  intros I K U. unfold used_global. apply existsb_exists. exists nd. split; [easy|]. rewrite K.
  apply andb_true_iff. split; [apply zeqb_list_refl|now apply nmem_In].
Qed.

Lemma used_label_In nd v s : In nd nodes -> n_kind nd = KLabel (Some v) ->
  In s (upto (fst v) (n_chain nd)) -> used_label o nodes s v = true.
Proof.
  intros I K U. unfold used_label. apply existsb_exists. exists nd. split; [easy|]. rewrite K.
  apply andb_true_iff. split; [now apply var_eqb_eq|]. apply nmem_In.
  destruct (o_pico8 o); [easy|]. now apply upto_In in U.
Qed.

Lemma root_kept n w : In (n, w) root -> newF (KLocal w) n = n.
Proof.
  intros I. unfold newF, new_name, effective. cbn [n_kind n_name].
  destruct (Hroot n w I) as (_ & [->|(_ & B & P)]).
  - destruct (_ || _); [easy|]. now rewrite zeqb_list_refl.
  - rewrite B, P. cbn [andb]. rewrite orb_true_r. easy.
Qed.

Lemma fact1 : forall nd v w nw, In nd nodes -> n_kind nd = KLocal v -> decl nodes root w nw ->
  In (fst w) (upto (fst v) (n_chain nd)) ->
  (fst w = 0 -> In (nw, w) root /\ In (n_name nd, v) root) ->
  newF (KLocal w) nw = newF (KLocal v) (n_name nd) -> nw = n_name nd \/ w = v.
Proof.
  intros nd v w nw I K Dw U Z E.
  destruct (Nat.eq_dec (fst w) 0) as [Q|Q].
  { destruct (Z Q) as (R1 & R2). rewrite !root_kept in E by easy. now left. }
  destruct Dw as [R|(nd' & I' & K' & N')]; [apply Hroot in R; tauto|]. clear Z Q.
  subst nw. rewrite <- K, <- K' in E. change (new_name o nodes rn nd' = new_name o nodes rn nd) in E.
  destruct (assign_all fuel rn Ern) as ((G1 & G2) & _ & _).
  pose proof (used_local_In nd v (fst w) I K U) as Us.
  destruct (new_name_cases nd I) as [(x & a & Ex & Ia & Na & _)|(x & Ex & Na)];
  destruct (new_name_cases nd' I') as [(x' & a' & Ex' & Ia' & Na' & _)|(x' & Ex' & Na')];
  rewrite Na, Na' in E.
  - subst a'. destruct (effective_local nd v K) as [X|[X|(X & _)]]; rewrite Ex in X; [|discriminate X..].
    injection X as ->. destruct (effective_local nd' w K') as [X|[X|(X & _)]]; rewrite Ex' in X; [|discriminate X..].
    injection X as ->. destruct (vid_dec (VLocal v) (VLocal w)) as [[= ->]|N]; [now right|].
    pose proof (G1 _ _ _ Ia Ia' N) as C. cbn [compatible] in C. rewrite Us in C. discriminate C.
  - destruct (effective_local nd v K) as [X|[X|(X & _)]]; rewrite Ex in X; [|discriminate X..].
    injection X as ->.
    destruct (effective_local nd' w K') as [X|[X|(X & Y)]]; rewrite Ex' in X; [discriminate X| |].
    + injection X as ->. pose proof (kept_local_excluded nd' w I' Ex') as J. rewrite E in J.
      destruct (G2 _ _ Ia) as (_ & _ & C). destruct (C eq_refl) as (_ & _ & C').
      specialize (C' _ J). cbn [compatible] in C'. rewrite Us in C'. discriminate C'.
    + destruct (G2 _ _ Ia) as (_ & _ & C). destruct (C eq_refl) as (C' & _). congruence.
  - destruct (effective_local nd' w K') as [X|[X|(X & _)]]; rewrite Ex' in X; [|discriminate X..].
    injection X as ->.
    destruct (effective_local nd v K) as [X|[X|(X & Y)]]; rewrite Ex in X; [discriminate X| |].
    + injection X as ->. pose proof (kept_local_excluded nd v I Ex) as J. rewrite <- E in J.
      destruct (G2 _ _ Ia') as (_ & _ & C). destruct (C eq_refl) as (_ & _ & C').
      specialize (C' _ J). cbn [compatible] in C'. rewrite Us in C'. rewrite andb_false_r in C'. discriminate C'.
    + destruct (G2 _ _ Ia') as (_ & _ & C). destruct (C eq_refl) as (C' & _). congruence.
  - now left.
Qed.

Lemma fact2 : forall nd w nw, In nd nodes -> n_kind nd = KGlobal -> decl nodes root w nw ->
  In (fst w) (n_chain nd) -> (fst w = 0 -> In (nw, w) root) ->
  newF (KLocal w) nw = newF KGlobal (n_name nd) -> nw = n_name nd.
Proof.
  intros nd w nw I K Dw U Z E.
  destruct (assign_all fuel rn Ern) as ((G1 & G2) & _ & _).
  pose proof (used_global_In nd (fst w) I K U) as Us.
  rewrite <- K in E. change (newF (n_kind nd) (n_name nd)) with (new_name o nodes rn nd) in E.
  destruct (Nat.eq_dec (fst w) 0) as [Q|Q].
  { specialize (Z Q). rewrite root_kept in E by easy.
    destruct (new_name_cases nd I) as [(x & a & Ex & Ia & Na & _)|(x & Ex & Na)]; rewrite Na in E; [|easy].
    exfalso. subst a. destruct (effective_global_node nd K) as [X|X]; rewrite Ex in X; [|discriminate X].
    injection X as ->. destruct (G2 _ _ Ia) as (_ & _ & C). destruct (C eq_refl) as (C1 & _ & C2).
    destruct (Hroot nw w Z) as (_ & [->|(B & _)]); [easy|].
    specialize (C2 (VGlobal nw)). cbn [compatible] in C2.
    assert (X : false = true); [|discriminate X]. apply C2.
    unfold excluded_for. apply in_or_app. left.
    assert (M : mem nw (global_excludes o nodes) = true).
    { apply mem_In. unfold global_excludes. apply in_or_app. now left. }
    rewrite M. now left. }
  destruct Dw as [R|(nd' & I' & K' & N')]; [apply Hroot in R; tauto|]. clear Z Q.
  subst nw. rewrite <- K' in E. change (new_name o nodes rn nd' = new_name o nodes rn nd) in E.
  destruct (new_name_cases nd I) as [(x & a & Ex & Ia & Na & _)|(x & Ex & Na)];
  destruct (new_name_cases nd' I') as [(x' & a' & Ex' & Ia' & Na' & _)|(x' & Ex' & Na')];
  rewrite Na, Na' in E.
  - exfalso. subst a'. destruct (effective_global_node nd K) as [X|X]; rewrite Ex in X; [|discriminate X].
    injection X as ->. destruct (effective_local nd' w K') as [X|[X|(X & _)]]; rewrite Ex' in X; [|discriminate X..].
    injection X as ->. pose proof (G1 _ _ _ Ia Ia' ltac:(discriminate)) as C. cbn [compatible] in C.
    rewrite Us in C. discriminate C.
  - exfalso. destruct (effective_global_node nd K) as [X|X]; rewrite Ex in X; [|discriminate X].
    injection X as ->.
    destruct (effective_local nd' w K') as [X|[X|(X & Y)]]; rewrite Ex' in X; [discriminate X| |].
    + injection X as ->. pose proof (kept_local_excluded nd' w I' Ex') as J. rewrite E in J.
      destruct (G2 _ _ Ia) as (_ & _ & C). destruct (C eq_refl) as (_ & _ & C').
      specialize (C' _ J). cbn [compatible] in C'. rewrite Us in C'. discriminate C'.
    + destruct (G2 _ _ Ia) as (_ & _ & C). destruct (C eq_refl) as (C' & _). congruence.
  - exfalso. destruct (effective_local nd' w K') as [X|[X|(X & _)]]; rewrite Ex' in X; [|discriminate X..].
    injection X as ->.
    destruct (effective_global_node nd K) as [X|X]; rewrite Ex in X; [discriminate X|].
    injection X as ->. pose proof (kept_global_excluded nd _ I Ex) as J. rewrite <- E in J.
    destruct (G2 _ _ Ia') as (_ & _ & C). destruct (C eq_refl) as (_ & _ & C').
    specialize (C' _ J). cbn [compatible] in C'. rewrite E, Us in C'. discriminate C'.
  - easy.
Qed.

Lemma fact3 : forall nd v nd' w, In nd nodes -> n_kind nd = KLabel (Some v) ->
  In nd' nodes -> n_kind nd' = KLabel (Some w) ->
  In (fst w) (upto (fst v) (n_chain nd)) ->
  newF (KLabel (Some w)) (n_name nd') = newF (KLabel (Some v)) (n_name nd) -> w = v.
Proof.
  intros nd v nd' w I K I' K' U E.
  destruct (assign_all fuel rn Ern) as ((G1 & G2) & _ & _).
  pose proof (used_label_In nd v (fst w) I K U) as Us.
  rewrite <- K, <- K' in E. change (new_name o nodes rn nd' = new_name o nodes rn nd) in E.
  assert (X : effective o nodes nd = Rename (VLabel v)) by (unfold effective; now rewrite K).
  assert (X' : effective o nodes nd' = Rename (VLabel w)) by (unfold effective; now rewrite K').
  destruct (new_name_cases nd I) as [(x & a & Ex & Ia & Na & _)|(x & Ex & Na)]; rewrite X in Ex; [|discriminate Ex].
  destruct (new_name_cases nd' I') as [(x' & a' & Ex' & Ia' & Na' & _)|(x' & Ex' & Na')]; rewrite X' in Ex'; [|discriminate Ex'].
  injection Ex as <-. injection Ex' as <-. rewrite Na, Na' in E. subst a'.
  destruct (vid_dec (VLabel v) (VLabel w)) as [[= ->]|N]; [easy|].
  pose proof (G1 _ _ _ Ia Ia' N) as C. cbn [compatible] in C. rewrite Us in C. discriminate C.
Qed.

Lemma fact_imp : forall nd, In nd nodes -> n_implicit nd = true ->
  (n_kind nd = KGlobal \/ exists v, n_kind nd = KLocal v) -> fname newF nd = n_name nd.
Proof.
  intros nd I M K. rewrite newF_fname. unfold new_name.
  assert (X : exists x, effective o nodes nd = Keep x); [|destruct X as (x & ->); easy].
  unfold effective. destruct K as [K|(v & K)]; rewrite K.
  - unfold effective_global.
    assert (Y : implicit_global nodes (n_name nd) = true).
    { unfold implicit_global. apply existsb_exists. exists nd. rewrite M, K, zeqb_list_refl. easy. }
    rewrite Y. eexists. reflexivity.
  - assert (Y : implicit_local nodes v = true).
    { unfold implicit_local. apply existsb_exists. exists nd. rewrite M, K.
      split; [easy|]. now apply var_eqb_eq. }
    rewrite Y. eexists. reflexivity.
Qed.
End Facts.
