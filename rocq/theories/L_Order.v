(** Lemmas on the order of files and on aliases. *)
From Verif Require Import M_Base L_Util M_Files S_Files.
From Coq Require Import Permutation.
Open Scope Z_scope.

Lemma NoDup_app_remove_l {A} (a b : list A) : NoDup (a ++ b) -> NoDup b.
Proof. induction a as [|x a IH]; intros N; [easy|]. cbn [app] in N. inversion N; subst. now apply IH. Qed.

(* ------------------------------------------------------------------ *)
(** * Counters *)

Lemma cget_cadd c n d m : cget (cadd c n d) m = if (m =? n)%nat then cget c m + d else cget c m.
Proof.
  induction c as [|(k, v) c IH]; cbn [cadd cget].
  - destruct (m =? n)%nat; lia.
  - destruct (Nat.eqb_spec n k) as [->|N]; cbn [cget].
    + destruct (m =? k)%nat; lia.
    + rewrite IH. destruct (Nat.eqb_spec m k) as [->|N']; [|easy]. destruct (Nat.eqb_spec k n); [congruence|lia].
Qed.

Definition ckeys (c : counter) : list nat := map fst c.

Lemma ckeys_cadd_In c n d : In n (ckeys c) -> ckeys (cadd c n d) = ckeys c.
Proof.
  induction c as [|(k, v) c IH]; [easy|]. cbn [ckeys map fst cadd]. intros I. destruct (Nat.eqb_spec n k) as [->|N]; [easy|].
  cbn [map fst]. f_equal. apply IH. destruct I; [congruence|easy].
Qed.

Lemma ckeys_cadd c n d : NoDup (ckeys c) -> NoDup (ckeys (cadd c n d)) /\
  forall x, In x (ckeys (cadd c n d)) <-> x = n \/ In x (ckeys c).
Proof.
  induction c as [|(k, v) c IH]; intros N; cbn [ckeys map fst cadd] in *.
  - split; [constructor; [easy|constructor]|]. intros x. cbn. intuition congruence.
  - inversion N; subst. destruct (IH H2) as (A & B). destruct (Nat.eqb_spec n k) as [->|Nk]; cbn [map fst].
    + split; [easy|]. intros x. cbn. intuition congruence.
    + split.
      * constructor; [|easy]. intros I. apply B in I. destruct I; [congruence|easy].
      * intros x. cbn [In]. fold (ckeys (cadd c n d)). rewrite (B x). unfold ckeys. intuition congruence.
Qed.

Lemma cget_out c n : ~ In n (ckeys c) -> cget c n = 0.
Proof.
  induction c as [|(k, v) c IH]; [easy|]. cbn [ckeys map fst cget]. intros N.
  destruct (Nat.eqb_spec n k) as [->|]; [destruct N; now left|]. apply IH. intros I. apply N. now right.
Qed.

Definition times (l : list nat) (n : nat) : Z := Z.of_nat (count_occ Nat.eq_dec l n).

Lemma times_cons x l n : times (x :: l) n = (if (n =? x)%nat then 1 else 0) + times l n.
Proof.
  unfold times. cbn [count_occ]. destruct (Nat.eq_dec x n) as [->|N].
  - rewrite Nat.eqb_refl. lia.
  - destruct (Nat.eqb_spec n x); [congruence|lia].
Qed.

Lemma times_app a b n : times (a ++ b) n = times a n + times b n.
Proof. unfold times. rewrite count_occ_app. lia. Qed.

Lemma times_pos l n : 0 <= times l n.
Proof. unfold times. lia. Qed.

Lemma times_In l n : In n l <-> 0 < times l n.
Proof. unfold times. rewrite (count_occ_In Nat.eq_dec). lia. Qed.

Lemma count_all l : forall c, NoDup (ckeys c) ->
  let c' := fold_left (fun c d => cadd c d 1) l c in
  NoDup (ckeys c') /\ (forall n, cget c' n = cget c n + times l n) /\
  (forall n, In n (ckeys c') <-> In n (ckeys c) \/ In n l).
Proof.
  induction l as [|x l IH]; intros c N; cbn [fold_left].
  - split; [easy|]. split; [intros n; unfold times; cbn; lia|]. intros n. cbn. tauto.
  - destruct (ckeys_cadd c x 1 N) as (A & B). destruct (IH (cadd c x 1) A) as (C & D & E).
    split; [exact C|]. split.
    + intros n. rewrite D, cget_cadd, times_cons. destruct (n =? x)%nat; lia.
    + intros n. rewrite E, B. cbn. intuition congruence.
Qed.

(* ------------------------------------------------------------------ *)
(** * Graphs *)

Section Graph.
Context (g : graph) (Ng : NoDup (map fst g)).

Definition deps (n : nat) : list nat := match deps_of g n with Some l => l | None => [] end.

Lemma deps_of_In n l : deps_of g n = Some l <-> In (n, l) g.
Proof.
  revert Ng. induction g as [|(m, ds) g' IH]; intros N; [easy|]. cbn [map fst] in N. inversion N; subst.
  cbn [deps_of]. destruct (Nat.eqb_spec n m) as [->|Nm].
  - split; [intros [= ->]; now left|]. intros [[= ->]|I]; [easy|]. apply (in_map fst) in I. easy.
  - rewrite IH by easy. split; [now right|]. intros [[= -> ->]|I]; easy.
Qed.

Lemma deps_of_has n : In n (map fst g) -> deps_of g n = Some (deps n).
Proof.
  intros I. apply in_map_iff in I. destruct I as ((m, l) & E & I). cbn in E. subst m.
  apply deps_of_In in I. unfold deps. now rewrite I.
Qed.

(** the edges that end in [n] and start in a node of [l] *)
Definition into (l : list nat) (n : nat) : Z := fold_right (fun u a => times (deps u) n + a) 0 l.

Lemma into_cons u l n : into (u :: l) n = times (deps u) n + into l n.
Proof. reflexivity. Qed.

Lemma into_pos l n : 0 <= into l n.
Proof. induction l as [|u l IH]; [easy|]. rewrite into_cons. pose proof (times_pos (deps u) n). lia. Qed.

Lemma into_perm l l' n : Permutation l l' -> into l n = into l' n.
Proof. induction 1; rewrite ?into_cons; lia. Qed.

Lemma into_In l n : 0 < into l n <-> exists u, In u l /\ In n (deps u).
Proof.
  induction l as [|u l IH].
  - split; [cbn; lia|]. intros (u & [] & _).
  - rewrite into_cons. pose proof (times_pos (deps u) n). pose proof (into_pos l n). split.
    + intros H1. destruct (Z.eq_dec (times (deps u) n) 0) as [E|E].
      * destruct (proj1 IH ltac:(lia)) as (v & I & J). exists v. split; [now right|easy].
      * exists u. split; [now left|]. apply times_In. lia.
    + intros (v & [<-|I] & J).
      * apply times_In in J. lia.
      * assert (0 < into l n) by (apply IH; eauto). lia.
Qed.

Lemma into_all n : times (concat (map snd g)) n = into (map fst g) n.
Proof.
  assert (H : forall h, (forall u l, In (u, l) h -> deps u = l) -> times (concat (map snd h)) n = into (map fst h) n).
  { induction h as [|(u, l) h IH]; intros H; [easy|]. cbn [map snd fst concat]. rewrite times_app, into_cons, IH.
    - now rewrite (H u l) by now left.
    - intros v m I. apply H. now right. }
  apply H. intros u l I. unfold deps. apply deps_of_In in I. now rewrite I.
Qed.

(** every node mentioned is a node *)
Context (closed : forall n l d, In (n, l) g -> In d l -> In d (map fst g)).

Lemma deps_closed u d : In d (deps u) -> In d (map fst g).
Proof.
  unfold deps. destruct (deps_of g u) as [l|] eqn:E; [|easy]. apply deps_of_In in E. exact (closed u l d E).
Qed.

Lemma release_spec ds : forall c stack c' stack', release ds c stack = (c', stack') ->
  (forall n, In n ds -> In n (ckeys c)) -> (forall n, times ds n <= cget c n) ->
  ckeys c' = ckeys c /\ (forall n, cget c' n = cget c n - times ds n) /\
  exists new, stack' = new ++ stack /\ NoDup new /\ forall n, In n new <-> In n ds /\ cget c' n = 0.
Proof.
  induction ds as [|d ds IH]; intros c stack c' stack' E K L; cbn [release] in E.
  - injection E as <- <-. split; [easy|]. split; [intros n; unfold times; cbn; lia|]. exists [].
    split; [easy|]. split; [constructor|]. easy.
  - assert (Kc : ckeys (cadd c d (-1)) = ckeys c) by (apply ckeys_cadd_In; apply K; now left).
    apply IH in E.
    + destruct E as (A & B & new & -> & N & I). split; [congruence|]. split.
      { intros n. rewrite B, cget_cadd, times_cons. destruct (n =? d)%nat; lia. }
      assert (Cd : cget (cadd c d (-1)) d = cget c d - 1) by (rewrite cget_cadd, Nat.eqb_refl; lia).
      destruct (Z.eqb_spec (cget (cadd c d (-1)) d) 0) as [Z0|Z0].
      * exists (new ++ [d]). split; [now rewrite <- app_assoc|].
        assert (Nd : ~ In d ds).
        { intros J. apply times_In in J. pose proof (L d) as Ld. rewrite times_cons, Nat.eqb_refl in Ld. lia. }
        split.
        -- apply (Permutation_NoDup (Permutation_cons_append new d)). constructor; [|easy]. intros J. apply I in J. easy.
        -- intros n. rewrite in_app_iff, I. cbn [In]. split.
           ++ intros [(J & Q)|[<-|[]]]; [now split; [right|]|]. split; [now left|]. rewrite B, Z0.
              pose proof (times_pos ds d). destruct (Z.eq_dec (times ds d) 0) as [->|X]; [easy|].
              exfalso. apply Nd. apply times_In. lia.
           ++ intros ([<-|J] & Q); [right; now left|left; easy].
      * exists new. split; [easy|]. split; [easy|]. intros n. rewrite I. cbn [In]. split; [intuition|].
        intros ([<-|J] & Q); [|easy]. split; [|easy]. apply times_In. rewrite B in Q.
        pose proof (times_pos ds d) as Tp. pose proof (L d) as Ld. rewrite times_cons, Nat.eqb_refl in Ld.
        destruct (Z.eq_dec (times ds d) 0); lia.
    + intros n I. rewrite Kc. apply K. now right.
    + intros n. specialize (L n). rewrite times_cons in L. rewrite cget_cadd. destruct (n =? d)%nat; lia.
Qed.

(** the state of the loop: [result] taken, [stack] to take, [left] neither *)
Definition state_ok (result stack left : list nat) (c : counter) : Prop :=
  Permutation (map fst g) (result ++ stack ++ left) /\
  NoDup (ckeys c) /\
  (forall n, cget c n = into (stack ++ left) n) /\
  (forall n, In n (ckeys c) <-> exists u, In n (deps u)) /\
  (forall n, In n (result ++ stack) -> cget c n = 0) /\
  (forall n, In n left -> cget c n <> 0) /\
  (forall a n b, result = a ++ n :: b -> forall u, In u (map fst g) -> In n (deps u) -> In u a).

Lemma state_step node stack left result c c' stack' :
  state_ok result (node :: stack) left c -> release (deps node) c stack = (c', stack') ->
  exists left', state_ok (result ++ [node]) stack' left' c' /\
    (length (stack' ++ left') = length (stack ++ left))%nat.
Proof.
  intros (P & N & C & K & Z0 & Zl & O) R.
  assert (Np : NoDup (result ++ (node :: stack) ++ left)) by (eapply Permutation_NoDup; eauto).
  destruct (release_spec (deps node) c stack c' stack' R) as (Kc & Cc & new & -> & Nn & In_).
  { intros n I. apply K. eauto. }
  { intros n. rewrite C. cbn [app]. rewrite into_cons. pose proof (into_pos (stack ++ left) n). lia. }
  assert (Cn : forall n, cget c' n = into (stack ++ left) n).
  { intros n. rewrite Cc, C. cbn [app]. rewrite into_cons. lia. }
  (* the new ones were left *)
  assert (Nl : forall n, In n new -> In n left).
  { intros n I. apply In_ in I. destruct I as (I & Q).
    assert (X : cget c n <> 0).
    { specialize (Cc n). apply times_In in I. lia. }
    assert (J : In n (result ++ (node :: stack) ++ left)).
    { apply (Permutation_in _ P). now apply (deps_closed node). }
    rewrite app_assoc in J. apply in_app_or in J. destruct J as [J|J]; [|easy]. destruct X. now apply Z0. }
  set (left' := filter (fun n => negb (existsb (Nat.eqb n) new)) left).
  assert (Pl : Permutation left (new ++ left')).
  { apply NoDup_Permutation.
    - apply NoDup_app_remove_l in Np. now apply NoDup_app_remove_l in Np.
    - assert (X : forall (a b : list nat), NoDup a -> NoDup b -> (forall x, In x a -> ~ In x b) -> NoDup (a ++ b)).
      { clear. induction a as [|x a IH]; intros b Na Nb D; [easy|]. inversion Na; subst. cbn [app]. constructor.
        - rewrite in_app_iff. intros [I|I]; [easy|]. exact (D x (or_introl eq_refl) I).
        - apply IH; try easy. intros y I. apply D. now right. }
      apply X; [easy| |].
      + apply NoDup_filter. apply NoDup_app_remove_l in Np. now apply NoDup_app_remove_l in Np.
      + intros x I J. apply filter_In in J. destruct J as (_ & J). apply negb_true_iff in J.
        assert (Q : existsb (Nat.eqb x) new = true); [|congruence]. apply existsb_exists. exists x.
        split; [easy|apply Nat.eqb_refl].
    - intros x. rewrite in_app_iff. split.
      + intros I. destruct (existsb (Nat.eqb x) new) eqn:Q.
        * apply existsb_exists in Q. destruct Q as (y & J & E). apply Nat.eqb_eq in E. subst y. now left.
        * right. apply filter_In. now rewrite Q.
      + intros [I|I]; [now apply Nl|]. apply filter_In in I. easy. }
  assert (Ps : Permutation (stack ++ left) ((new ++ stack) ++ left')).
  { rewrite (Permutation_app_comm new stack), <- app_assoc. now rewrite <- Pl. }
  exists left'. split; [|symmetry; now apply Permutation_length].
  split; [|split; [|split; [|split; [|split; [|split]]]]].
  - rewrite P. rewrite <- app_assoc. apply Permutation_app_head. cbn [app]. constructor. exact Ps.
  - now rewrite Kc.
  - intros n. rewrite Cn. now apply into_perm.
  - intros n. rewrite Kc. apply K.
  - intros n I. rewrite !in_app_iff in I. destruct I as [[I|[<-|[]]]|[I|I]].
    + rewrite Cc. pose proof (Z0 n ltac:(apply in_or_app; now left)) as Q. pose proof (times_pos (deps node) n).
      pose proof (into_pos (stack ++ left) n) as X. specialize (Cn n). specialize (Cc n). lia.
    + pose proof (Z0 node ltac:(apply in_or_app; right; now left)) as Q. pose proof (times_pos (deps node) node).
      pose proof (into_pos (stack ++ left) node) as X. specialize (Cn node). specialize (Cc node). lia.
    + now apply In_.
    + pose proof (Z0 n ltac:(apply in_or_app; right; now right)) as Q. pose proof (times_pos (deps node) n).
      pose proof (into_pos (stack ++ left) n) as X. specialize (Cn n). specialize (Cc n). lia.
  - intros n I Q. apply filter_In in I. destruct I as (I & J). apply negb_true_iff in J.
    assert (X : existsb (Nat.eqb n) new = true); [|congruence]. apply existsb_exists. exists n.
    split; [|apply Nat.eqb_refl]. apply In_. split; [|easy]. apply times_In.
    specialize (Zl n I). specialize (Cc n). pose proof (times_pos (deps node) n). lia.
  - intros a n b E u Iu D. destruct b as [|x b] using rev_ind.
    + apply app_inj_tail in E. destruct E as (-> & ->).
      (* all edges into [node] start in the result *)
      pose proof (Z0 n ltac:(apply in_or_app; right; now left)) as Q. rewrite C in Q.
      apply (Permutation_in _ P) in Iu. apply in_app_or in Iu. destruct Iu as [Iu|Iu]; [easy|].
      exfalso. assert (X : 0 < into ((n :: stack) ++ left) n) by (apply into_In; now exists u). lia.
    + clear IHb. rewrite app_comm_cons, app_assoc in E. apply app_inj_tail in E. destruct E as (-> & _).
      now apply (O a n b).
Qed.

Lemma topo_loop_spec fuel : forall result stack left c, state_ok result stack left c ->
  (length (stack ++ left) <= fuel)%nat ->
  exists result' left' c', topo_loop fuel g stack c result = Ok (result', c') /\ state_ok result' [] left' c'.
Proof.
  induction fuel as [|fuel IH]; intros result stack left c St L.
  - destruct stack; [|cbn in L; lia]. exists result, left, c. split; [reflexivity|exact St].
  - destruct stack as [|node stack]; [exists result, left, c; split; [reflexivity|exact St]|].
    cbn [topo_loop]. assert (I : In node (map fst g)).
    { destruct St as (P & _). apply (Permutation_in _ (Permutation_sym P)). rewrite in_app_iff. right. now left. }
    rewrite (deps_of_has node I). destruct (release (deps node) c stack) as (c', stack') eqn:R.
    destruct (state_step node stack left result c c' stack' St R) as (left' & St' & Len).
    apply (IH _ _ left' _ St'). rewrite Len. cbn [app length] in L. lia.
Qed.

Lemma topologic_state : exists result left c,
  topologic_sort g = Ok (rev (result ++ map fst (filter (fun e => negb (snd e =? 0)) c))) /\
  state_ok result [] left c.
Proof.
  unfold topologic_sort.
  destruct (count_all (concat (map snd g)) [] ltac:(constructor)) as (N & C & K).
  set (c0 := fold_left _ _ _) in *. cbn [ckeys map In] in K.
  set (next := filter _ (map fst g)).
  set (left0 := filter (fun n => negb (cget c0 n =? 0)) (map fst g)).
  assert (P : Permutation (map fst g) (next ++ left0)).
  { unfold next, left0. generalize (map fst g) as l. induction l as [|x l IH]; [easy|]. cbn [filter].
    destruct (cget c0 x =? 0); cbn [negb app]; [now constructor|]. rewrite IH at 1. apply Permutation_middle. }
  destruct (topo_loop_spec (length g) [] (rev next) left0 c0) as (result & left & c & E & St).
  - split; [|split; [|split; [|split; [|split; [|split]]]]].
    + cbn [app]. rewrite <- Permutation_rev. exact P.
    + exact N.
    + intros n. rewrite C. cbn [cget]. rewrite Z.add_0_l, into_all. apply into_perm.
      rewrite <- Permutation_rev. exact P.
    + intros n. rewrite K. split.
      * intros [[]|I]. apply in_concat in I. destruct I as (l & Il & I). apply in_map_iff in Il.
        destruct Il as ((u, l') & E & Il). cbn in E. subst l'. exists u. apply deps_of_In in Il. unfold deps. now rewrite Il.
      * intros (u & I). right. unfold deps in I. destruct (deps_of g u) as [l|] eqn:E; [|easy].
        apply deps_of_In in E. apply in_concat. exists l. split; [|easy]. apply (in_map snd) in E. exact E.
    + intros n I. cbn [app] in I. rewrite <- in_rev in I. apply filter_In in I. now apply Z.eqb_eq.
    + intros n I. apply filter_In in I. destruct I as (_ & I). apply negb_true_iff in I. now apply Z.eqb_neq.
    + intros a n b Q. destruct a; discriminate Q.
  - rewrite app_length, rev_length, <- app_length. rewrite <- (Permutation_length P). rewrite map_length. lia.
  - exists result, left, c. split; [|exact St]. now rewrite E.
Qed.

Lemma rest_spec result left c : state_ok result [] left c ->
  Permutation left (map fst (filter (fun e => negb (snd e =? 0)) c)).
Proof.
  intros (P & N & C & K & Z0 & Zl & O). cbn [app] in *.
  assert (G : forall c : counter, NoDup (ckeys c) -> NoDup (map fst (filter (fun e => negb (snd e =? 0)) c)) /\
    forall n, In n (map fst (filter (fun e => negb (snd e =? 0)) c)) <-> cget c n <> 0).
  { clear. induction c as [|(k, v) c IH]; intros N; [split; [constructor|]; cbn; intuition congruence|].
    cbn [ckeys map fst] in N. inversion N; subst. destruct (IH H2) as (A & B). cbn [filter snd].
    destruct (Z.eqb_spec v 0) as [->|Nv]; cbn [negb map fst cget].
    - split; [easy|]. intros n. rewrite B. destruct (Nat.eqb_spec n k) as [->|]; [|easy].
      rewrite cget_out by easy. easy.
    - split.
      + constructor; [|easy]. intros I. apply B in I. rewrite cget_out in I; easy.
      + intros n. cbn [In]. rewrite B. destruct (Nat.eqb_spec n k) as [->|Nk]; [intuition congruence|]. intuition congruence. }
  destruct (G c N) as (A & B). apply NoDup_Permutation; [|exact A|].
  - assert (Np : NoDup (result ++ left)) by (eapply Permutation_NoDup; eauto). now apply NoDup_app_remove_l in Np.
  - intros n. rewrite B. split; [apply Zl|]. intros Q.
    assert (I : In n (result ++ left)).
    { apply (Permutation_in _ P). destruct (in_dec Nat.eq_dec n (ckeys c)) as [I|I].
      - apply K in I. destruct I as (u & I). now apply (deps_closed u).
      - now rewrite cget_out in Q. }
    apply in_app_or in I. destruct I as [I|I]; [|easy]. destruct Q. apply Z0. apply in_or_app. now left.
Qed.

(** nodes with finitely many chains of nodes that need them are taken *)
Lemma taken result left c : state_ok result [] left c ->
  forall n, Acc (fun u v => In u (map fst g) /\ In v (deps u)) n -> In n (map fst g) -> In n result.
Proof.
  intros (P & N & C & K & Z0 & Zl & O) n A. cbn [app] in *. induction A as [n _ IH]. intros I.
  apply (Permutation_in _ P) in I. apply in_app_or in I. destruct I as [I|I]; [easy|]. exfalso.
  apply (Zl n I). rewrite C. pose proof (into_pos left n).
  destruct (Z.eq_dec (into left n) 0) as [?|Q]; [easy|]. exfalso.
  destruct (proj1 (into_In left n) ltac:(lia)) as (u & Iu & D).
  assert (Ig : In u (map fst g)) by (apply (Permutation_in _ (Permutation_sym P)); apply in_or_app; now right).
  pose proof (IH u (conj Ig D) Ig) as Ir.
  assert (Np : NoDup (result ++ left)) by (eapply Permutation_NoDup; eauto).
  apply in_split in Ir. destruct Ir as (x & y & ->). rewrite <- app_assoc in Np. cbn [app] in Np.
  apply NoDup_remove_2 in Np. apply Np. rewrite !in_app_iff. now right; right.
Qed.
End Graph.

(* ------------------------------------------------------------------ *)
(** * Aliases *)

Lemma spaced_cons x l : x <> [] -> Forall (fun y => y <> []) l -> spaced (x :: l) = join_args x (spaced l).
Proof.
  intros N F. destruct l as [|y l]; [now destruct x|].
  assert (spaced (y :: l) <> []) by (inversion F; destruct y; [easy|destruct l; easy]).
  change (spaced (x :: y :: l)) with (x ++ 32 :: spaced (y :: l)). destruct x; [easy|]. now destruct (spaced (y :: l)).
Qed.
Lemma arguments_cons x l : arguments (x :: l) = join_args x (arguments l).
Proof.
  unfold arguments. cbn [filter]. destruct x as [|c x]; [easy|]. cbn [nonempty]. apply spaced_cons; [easy|].
  apply Forall_forall. intros y I. apply filter_In in I. now destruct y.
Qed.
Lemma joined_arguments : forall l args, fold_left (fun args pre => join_args pre args) l args = arguments (rev l ++ [args]).
Proof.
  induction l as [|a l IH] using rev_ind; intros args; [now destruct args|].
  rewrite fold_left_app, rev_app_distr. cbn [fold_left rev app]. now rewrite IH, arguments_cons.
Qed.

Lemma map_aliases_spec strip t : forall fuel name args m a, map_aliases strip fuel t name args = Ok (m, a) ->
  exists l, resolves (alias_get t) name l m /\ a = strip (fold_left (fun args pre => join_args pre args) l args).
Proof.
  induction fuel as [|fuel IH]; intros name args m a E; cbn [map_aliases] in E;
    destruct (alias_get t name) as [(target, pre)|] eqn:G; try discriminate E.
  - injection E as <- <-. exists []. split; [now constructor|easy].
  - destruct (IH _ _ _ _ E) as (l & R & Ea). exists (pre :: l). split; [econstructor; eauto|easy].
  - injection E as <- <-. exists []. split; [now constructor|easy].
Qed.

Lemma resolves_runs strip t name l m : resolves (alias_get t) name l m -> forall args fuel, (length l <= fuel)%nat ->
  map_aliases strip fuel t name args = Ok (m, strip (fold_left (fun args pre => join_args pre args) l args)).
Proof.
  intros R. induction R as [n E|n t' a l m E R IH]; intros args fuel L.
  - destruct fuel; cbn [map_aliases]; now rewrite E.
  - destruct fuel as [|fuel]; [cbn in L; lia|]. cbn [map_aliases length] in *. rewrite E. apply IH. lia.
Qed.

Lemma resolves_end_free t name l m : resolves (alias_get t) name l m -> alias_get t m = None.
Proof. induction 1; easy. Qed.
