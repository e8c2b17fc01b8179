(** What a merge has checked; merging declarations. *)
From Coq Require Import List ZArith Bool PArith Lia.
From Verif Require Import M_Merge S_Merge L_Merge L_Merge2.
Import ListNotations.
Open Scope Z_scope.

Lemma occ_ids_all :
  (forall e y, In y (occ e) -> incl (node_ids y) (ids e)) /\
  (forall es y, In y (occ_args es) -> incl (node_ids y) (ids_args es)) /\
  (forall its y, In y (occ_items its) -> incl (node_ids y) (ids_items its)).
Proof.
  apply expr_all; cbn [occ occ_args occ_items ids ids_args ids_items]; intros;
    repeat match goal with I : In _ (_ ++ _) |- _ => apply in_app_or in I as [I|I] end;
    try match goal with F : In _ [] |- _ => destruct F end.
  all: try solve [intros i J; repeat (first [match goal with H : forall y, _ -> incl _ ?l |- In _ ?l => eapply H; eassumption end
      | apply in_or_app; left; match goal with H : forall y, _ -> incl _ ?l |- In _ ?l => eapply H; eassumption end
      | apply in_or_app; right | right])].
  - destruct H as [->|[]]. apply incl_refl.
  - intros i J. apply in_flat_map. eauto.
Qed.
Lemma occ_ids e y : In y (occ e) -> incl (node_ids y) (ids e).
Proof. destruct occ_ids_all as (A & _). apply A. Qed.

Lemma vid_eqb_refl i : vid_eqb i i = true.
Proof. destruct i; cbn; [apply Z.eqb_refl|apply Pos.eqb_refl|apply Pos.eqb_refl]. Qed.
Lemma vid_eqb_true i j : vid_eqb i j = true -> i = j.
Proof.
  destruct i, j; cbn; try discriminate; intros E; f_equal; solve [now apply Z.eqb_eq|now apply Pos.eqb_eq].
Qed.
Lemma contains_no vars e : contains vars e = false -> forall i, In i (ids e) -> ~ In i vars.
Proof.
  unfold contains. intros E i I J. assert (existsb (fun i => existsb (vid_eqb i) vars) (ids e) = true) as F; [|now rewrite E in F].
  apply existsb_exists. exists i. split; [exact I|]. apply existsb_exists. exists i. split; [exact J|apply vid_eqb_refl].
Qed.

Lemma targets_found_vars loc ts : Forall is_var ts -> forall s, targets_found loc ts s = Some
  {| f_vars := f_vars s ++ map v_id (nodes ts);
     f_require := f_require s || existsb (fun x => is_global x || (negb loc && v_captured x)) (nodes ts);
     f_member := f_member s; f_index := f_index s |}.
Proof.
  induction 1 as [|t ts T _ IH]; intros s; [cbn; rewrite app_nil_r, orb_false_r; now destruct s|]. destruct t; try destruct T.
  cbn [targets_found nodes map existsb]. rewrite IH. cbn [f_vars f_require f_member f_index]. rewrite <- app_assoc. f_equal. f_equal. now rewrite <- !orb_assoc.
Qed.
Lemma nodes_vars ts : Forall is_var ts -> ts = map EVar (nodes ts).
Proof. induction 1 as [|t ts T _ IH]; [reflexivity|]. destruct t; try destruct T. cbn. now f_equal. Qed.
Lemma nodes_app a b : nodes (a ++ b) = nodes a ++ nodes b.
Proof. induction a as [|t a IH]; [reflexivity|]. destruct t; cbn; now rewrite IH. Qed.
Lemma nodes_length ts : Forall is_var ts -> length (nodes ts) = length ts.
Proof. intros A. rewrite (nodes_vars ts A) at 2. now rewrite map_length. Qed.

(** what a successful merge of variables has checked *)
Record checked (safe has_env : bool) (prev next m : stmt) : Prop := {
  ch_le : (length (s_sources prev) <= length (s_targets prev))%nat;
  ch_lt : (length (s_sources prev) < length (s_targets prev))%nat ->
    last_vararg (s_sources prev) = false /\ last_vararg (s_sources next) = false /\ (length (s_sources next) <= length (s_targets next))%nat;
  ch_free : forall x, In x (s_sources next ++ s_targets next) -> forall i, In i (ids x) -> ~ In i (map v_id (nodes (s_targets prev)));
  ch_trivial : existsb (fun x => is_global x || (negb (s_local prev) && v_captured x)) (nodes (s_targets prev)) = true ->
    Forall (fun x => trivial safe true true true has_env x = true) (s_sources next) /\
    Forall (fun x => trivial safe true true false has_env x = true) (s_targets next);
  ch_names : s_local prev = true -> (length (s_sources prev) < length (s_targets prev))%nat ->
    forall t u, In t (skipn (length (s_sources prev)) (s_targets prev)) -> In u (s_targets next) -> same_name t u = false;
  ch_is : m = {| s_local := s_local prev;
     s_targets := firstn (length (s_sources prev)) (s_targets prev) ++ s_targets next ++ skipn (length (s_sources prev)) (s_targets prev);
     s_sources := s_sources prev ++ s_sources next |} }.

Lemma existsb_no {A} (p : A -> bool) l : existsb p l = false -> forall x, In x l -> p x = false.
Proof. intros E x I. destruct (p x) eqn:F; [|reflexivity]. assert (existsb p l = true) by (apply existsb_exists; eauto). congruence. Qed.

Lemma merge_checked safe has_env forb prev next m : Forall is_var (s_targets prev) ->
  merge safe has_env forb prev next = Some m -> checked safe has_env prev next m.
Proof.
  intros T E. unfold merge in E. rewrite targets_found_vars in E by exact T. cbn [f_vars f_require f_member f_index app orb] in E.
  destruct (Nat.ltb_spec (length (s_targets prev)) (length (s_sources prev))) as [L1|L1]; [discriminate|].
  destruct (Nat.ltb (length (s_sources prev)) (length (s_targets prev)) && _) eqn:E2 in E; [discriminate|]. destruct forb; [discriminate|].
  destruct (existsb _ (s_sources next) || _) eqn:E3 in E; [discriminate|].
  destruct (Nat.ltb (length (s_sources prev)) (length (s_targets prev)) && _ && _) eqn:E4 in E; [discriminate|]. injection E as <-.
  apply orb_false_iff in E3 as (E3 & E3'). pose proof (existsb_no _ _ E3) as F. pose proof (existsb_no _ _ E3') as F'. cbv beta in F, F'.
  assert (G : forall x, In x (s_sources next ++ s_targets next) -> contains (map v_id (nodes (s_targets prev))) x = false).
  { intros x I. apply in_app_or in I as [I|I]; [apply F in I|apply F' in I]; now apply orb_false_iff in I as (-> & _). }
  constructor; try easy.
  - intros Lt. apply Nat.ltb_lt in Lt. rewrite Lt in E2. cbn in E2. apply orb_false_iff in E2 as (E2 & E5). apply orb_false_iff in E2 as (-> & ->).
    apply Nat.ltb_ge in E5. easy.
  - intros x I i J. now apply (contains_no _ x (G x I)).
  - intros R. split; apply Forall_forall; intros x I; [apply F in I|apply F' in I]; rewrite R in I; apply orb_false_iff in I as (_ & I); cbn in I;
      now apply negb_false_iff.
  - intros Lo Lt t u It Iu. apply Nat.ltb_lt in Lt. rewrite Lt, Lo in E4. cbn in E4. pose proof (existsb_no _ _ E4 t It) as H. exact (existsb_no _ _ H u Iu).
Qed.

(** occurrences in the second statement keep their meaning *)
Lemma occ_agree L (e e' : env L) prev next (es : list expr) :
  (forall n, ~ In n (map v_name (nodes (s_targets prev))) -> look L n e' = look L n e) ->
  incl es (s_sources next ++ s_targets next) ->
  (forall x, In x (s_sources next ++ s_targets next) -> forall i, In i (ids x) -> ~ In i (map v_id (nodes (s_targets prev)))) ->
  names_right (s_targets prev) es -> in_scope L e (s_targets prev) es ->
  Forall (agree L e' e) (flat_map occ es).
Proof.
  intros Le Inc Free NR IS. apply Forall_forall. intros y Iy.
  assert (Sub : forall i, In i (node_ids y) -> ~ In i (map v_id (nodes (s_targets prev)))).
  { intros i Ii. apply in_flat_map in Iy as (x & Ix & Iy). apply (Free x); [now apply Inc|]. now apply (occ_ids x y Iy). }
  assert (Nn : forall n i, In (n, i) (node_occ y) -> In i (node_ids y)).
  { intros n i. unfold node_occ, node_ids. destruct (is_global y); cbn; intros [E|[E|[]]] || intros [E|[]]; injection E; auto. }
  assert (Out : forall n i, In (n, i) (node_occ y) -> ~ In n (map v_name (nodes (s_targets prev)))).
  { intros n i I J. apply in_map_iff in J as (x & <- & J). destruct (NR x y (v_name x) i J Iy I eq_refl) as (x' & Ix' & <-).
    apply (Sub (v_id x')); [now apply (Nn (v_name x))|]. now apply in_map. }
  assert (Hn : ~ In (v_name y) (map v_name (nodes (s_targets prev)))) by (apply (Out _ (v_id y)); now left).
  split; [now apply Le|]. intros [G|N].
  - apply Le. apply (Out _ (v_env y)). unfold node_occ. rewrite G. right. now left.
  - destruct (is_global y) eqn:G; [apply Le; apply (Out _ (v_env y)); unfold node_occ; rewrite G; right; now left|].
    rewrite Le in N by exact Hn. exfalso. destruct (IS y Iy G) as [A|(x & Ix & Ex)]; [contradiction|]. apply Hn. rewrite <- Ex. now apply in_map.
Qed.

Lemma combine_app {A B} (a a' : list A) (b b' : list B) : length a = length b -> combine (a ++ a') (b ++ b') = combine a b ++ combine a' b'.
Proof. revert b. induction a as [|x a IH]; intros [|y b] E; try discriminate; [reflexivity|]. cbn. now rewrite IH by (cbn in E; lia). Qed.
Lemma map_fst_combine {A B} (a : list A) (b : list B) : length a = length b -> map fst (combine a b) = a.
Proof. revert b. induction a as [|x a IH]; intros [|y b] E; try discriminate; [reflexivity|]. cbn. now rewrite IH by (cbn in E; lia). Qed.
Lemma map_snd_combine_in {A B} (a : list A) (b : list B) : incl (map snd (combine a b)) b.
Proof. intros v I. apply in_map_iff in I as ((x & v') & <- & I). now apply in_combine_r in I. Qed.

Lemma nodup_app_r {A} (a b : list A) : NoDup (a ++ b) -> NoDup b.
Proof. induction a as [|x a IH]; [easy|]. intros N. inversion N; subst. auto. Qed.

Section Locals.
Context (L : lua) (sees : V L -> C L -> Prop) (wsees : W L -> C L -> Prop) (H : cells_hidden L sees wsees) (cell : vid -> C L).

Lemma look_dslots n (xvs : list (vnode * V L)) (e : env L) : ~ In n (map v_name (map fst xvs)) -> look L n (rev (map (dslot L cell) xvs) ++ e) = look L n e.
Proof.
  intros N. rewrite look_app. assert (look L n (rev (map (dslot L cell) xvs)) = None) as ->; [|reflexivity]. apply look_none. intros I. apply N.
  rewrite <- map_rev, map_map in I. apply in_map_iff in I as (xv & <- & I). apply in_rev in I. cbn. apply in_map. now apply in_map.
Qed.
Lemma look_swap n (a b e : env L) : (forall m, In m (map fst a) -> ~ In m (map fst b)) -> look L n (a ++ b ++ e) = look L n (b ++ a ++ e).
Proof.
  intros D. rewrite !look_app. destruct (look L n a) as [s|] eqn:Ea; destruct (look L n b) as [t|] eqn:Eb; try reflexivity.
  exfalso. assert (In n (map fst a)) as Ia by (destruct (in_dec Pos.eq_dec n (map fst a)); [easy|]; exfalso; apply look_none in n0; congruence).
  apply D in Ia. apply look_none in Ia. congruence.
Qed.
Lemma dslots_names (xvs : list (vnode * V L)) : map fst (rev (map (dslot L cell) xvs)) = rev (map v_name (map fst xvs)).
Proof. rewrite map_rev, !map_map. reflexivity. Qed.

Definition news (prev next : stmt) : list (C L) := map (fun x => cell (v_id x)) (nodes (s_targets prev ++ s_targets next)).

Lemma run_local_eq va s e w : s_local s = true -> run L cell va s e w =
  bind (list_vals L e va (s_sources s) w) (fun vs w => let xvs := combine (nodes (s_targets s)) (adjust L (length (s_targets s)) vs) in
    Done (rev (map (dslot L cell) xvs) ++ e) (csets L (dcells L cell xvs) w)).
Proof. intros E. unfold run. rewrite E. apply bind_ext; [reflexivity|]. intros vs w' _. cbv zeta. now rewrite declare_is. Qed.

Theorem locals_same safe has_env forb va prev next m e w :
  s_local prev = true -> s_local next = true -> merge safe has_env forb prev next = Some m ->
  Forall is_var (s_targets prev) -> Forall is_var (s_targets next) ->
  names_right (s_targets prev) (s_sources next) -> in_scope L e (s_targets prev) (s_sources next) ->
  NoDup (news prev next) ->
  (forall c, In c (news prev next) -> env_blind L sees c e /\ hides L sees c va /\ ~ wsees w c) ->
  s_sources next <> [] \/ last_vararg (s_sources prev) = false ->
  same_end L wsees (news prev next) (bind (run L cell va prev e w) (fun e w => run L cell va next e w)) (run L cell va m e w).
Proof.
  intros Lp Ln M Tp Tn NR IS ND New Sh. destruct (merge_checked _ _ _ _ _ _ Tp M) as [C1 C2 C3 _ C5 ->].
  set (a := s_sources prev) in *. set (b := s_sources next) in *. set (np := length a) in *.
  set (P := nodes (s_targets prev)) in *. set (N := nodes (s_targets next)) in *.
  assert (LP : length P = length (s_targets prev)) by now apply nodes_length. assert (LN : length N = length (s_targets next)) by now apply nodes_length.
  assert (NP : news prev next = map (fun x => cell (v_id x)) (P ++ N)) by (unfold news; now rewrite nodes_app).
  set (P1 := firstn np P). set (P2 := skipn np P).
  assert (EP : P = P1 ++ P2) by (symmetry; apply firstn_skipn).
  assert (LP1 : length P1 = np) by (unfold P1; rewrite firstn_length; lia). assert (LP2 : length P2 = (length (s_targets prev) - np)%nat) by (unfold P2; rewrite skipn_length; lia).
  assert (Em : nodes (firstn np (s_targets prev) ++ s_targets next ++ skipn np (s_targets prev)) = P1 ++ N ++ P2).
  { rewrite !nodes_app. unfold P1, P2, P. rewrite (nodes_vars _ Tp) at 1 2. rewrite firstn_map, skipn_map. f_equal; [|f_equal].
    - generalize (firstn np (nodes (s_targets prev))). intros l. induction l as [|x l IH]; [reflexivity|]. cbn. now rewrite IH.
    - generalize (skipn np (nodes (s_targets prev))). intros l. induction l as [|x l IH]; [reflexivity|]. cbn. now rewrite IH. }
  assert (Lm : length (firstn np (s_targets prev) ++ s_targets next ++ skipn np (s_targets prev)) = (np + (length N + length P2))%nat).
  { rewrite !app_length, firstn_length, skipn_length. lia. }
  rewrite (run_local_eq va prev) by exact Lp. rewrite run_local_eq by exact Lp. cbn [s_local s_targets s_sources]. rewrite Em, Lm. fold a b P. cbv zeta.
  rewrite (list_vals_merged L e va a b Sh w). rewrite !bind_assoc.
  (* both begin with the first sources, cut to one value each *)
  assert (Cut : bind (list_vals L e va a w) (fun vs w => bind (let xvs := combine P (adjust L (length (s_targets prev)) vs) in
      Done (rev (map (dslot L cell) xvs) ++ e) (csets L (dcells L cell xvs) w)) (fun e w => run L cell va next e w)) =
    bind (singles L e va a w) (fun vs w => bind (let xvs := combine P (adjust L (length (s_targets prev)) vs) in
      Done (rev (map (dslot L cell) xvs) ++ e) (csets L (dcells L cell xvs) w)) (fun e w => run L cell va next e w))).
  { destruct (Nat.eq_dec np (length (s_targets prev))) as [Eq|Ne].
    - rewrite <- Eq. pose proof (list_vals_cut L e va a (fun vs w => bind (let xvs := combine P vs in
        Done (rev (map (dslot L cell) xvs) ++ e) (csets L (dcells L cell xvs) w)) (fun e w => run L cell va next e w)) w) as Q. fold np in Q.
      rewrite Q. apply bind_ext; [reflexivity|]. intros vs w' Es. apply singles_length in Es. unfold np. rewrite <- Es. now rewrite adjust_same.
    - destruct C2 as (Na & _); [lia|]. rewrite list_vals_singles by exact Na. reflexivity. }
  refine (eq_ind_r (fun t => same_end L wsees (news prev next) t _) _ Cut). clear Cut.
  assert (Qs : forall c, In c (news prev next) -> quiet L sees wsees c (fun vs => vs) (singles L e va a)).
  { intros c Ic. destruct (New c Ic) as (B1 & B2 & _). now apply singles_quiet. }
  destruct (singles L e va a w) as [vs w1|w1] eqn:Es.
  2:{ cbn. exists []. split; [reflexivity|]. split; [intros c []|intros c []]. }
  pose proof (singles_length _ _ _ _ _ _ _ Es) as Lvs. fold np in Lvs.
  assert (Av : adjust L (length (s_targets prev)) vs = vs ++ repeat (nil L) (length P2)).
  { rewrite <- (adjust_nil L (length P2)), <- adjust_app, app_nil_r. f_equal. lia. }
  assert (New1 : forall c, In c (news prev next) -> hides L sees c (vs ++ repeat (nil L) (length P2)) /\ ~ wsees w1 c).
  { intros c Ic. pose proof (Qs c Ic w) as Q. destruct (New c Ic) as (_ & _ & B3).
    assert (B0 : blind L sees wsees c [] w) by (split; [intros v []|exact B3]). specialize (Q B0). rewrite Es in Q. destruct Q as ((Q1 & Q2) & _).
    split; [|exact Q2]. apply hides_app; [exact Q1|]. intros v I. apply repeat_spec in I. subst. apply (h_nil _ _ _ H). }
  cbn [bind]. cbv zeta. rewrite Av. set (PX := combine P (vs ++ repeat (nil L) (length P2))).
  assert (FP : map fst PX = P) by (apply map_fst_combine; rewrite app_length, repeat_length; lia).
  assert (PXs : PX = combine P1 vs ++ combine P2 (repeat (nil L) (length P2))) by (unfold PX; rewrite EP at 1; apply combine_app; lia).
  rewrite (run_local_eq va next) by exact Ln.
  (* the second sources see neither the new names nor the new cells *)
  fold b N. rewrite (list_vals_agree L _ e va b).
  2:{ apply (occ_agree L e _ prev next b).
      - intros n Nn. apply look_dslots. now rewrite FP.
      - intros x I. apply in_or_app. now left.
      - exact C3.
      - exact NR.
      - exact IS. }
  assert (Dn : incl (map fst (dcells L cell PX)) (news prev next)).
  { intros c I. apply dcells_fst in I. rewrite FP in I. rewrite NP, map_app. apply in_or_app. now left. }
  rewrite (quiet_many L sees wsees H (fun vs => vs) (list_vals L e va b) (dcells L cell PX)).
  2:{ intros c I. apply Dn in I. destruct (New c I) as (B1 & B2 & _). now apply list_vals_quiet. }
  2:{ intros c v I J. apply Dn in I. apply New1 in I as (I & _). apply I. apply dcells_snd in J. now apply map_snd_combine_in in J. }
  2:{ intros c I. apply Dn in I. now apply New1 in I. }
  destruct (list_vals L e va b w1) as [vb w2|w2] eqn:Eb.
  2:{ cbn. exists (dcells L cell PX). split; [reflexivity|]. split; [exact Dn|]. intros c I. pose proof (Dn c I) as In1. apply csets_blind with (sees := sees) (1 := H).
      - destruct (New c In1) as (B1 & B2 & _). pose proof (list_vals_quiet L sees wsees H c e va b B1 B2 w1) as Q.
        assert (B0 : blind L sees wsees c [] w1) by (split; [intros v []|now apply New1]). specialize (Q B0). rewrite Eb in Q. apply Q.
      - intros v J. apply New1 in In1 as (In1 & _). apply In1. apply dcells_snd in J. now apply map_snd_combine_in in J. }
  cbn [omap bind]. cbv zeta.
  assert (Am : adjust L (np + (length N + length P2)) (vs ++ vb) = vs ++ adjust L (length N) vb ++ repeat (nil L) (length P2)).
  { rewrite <- Lvs, adjust_app. f_equal. destruct (Nat.eq_dec np (length (s_targets prev))) as [Eq|Ne].
    - assert (length P2 = O) as -> by lia. now rewrite Nat.add_0_r, app_nil_r.
    - destruct C2 as (_ & Nb & Lb); [lia|]. apply adjust_more. rewrite (list_vals_singles L e va b Nb) in Eb. apply singles_length in Eb. lia. }
  rewrite Am, <- LN. set (NX := combine N (adjust L (length N) vb)).
  assert (FN : map fst NX = N) by (apply map_fst_combine; now rewrite adjust_length).
  assert (MX : combine (P1 ++ N ++ P2) (vs ++ adjust L (length N) vb ++ repeat (nil L) (length P2)) = combine P1 vs ++ NX ++ combine P2 (repeat (nil L) (length P2))).
  { rewrite combine_app by lia. f_equal. now rewrite combine_app by now rewrite adjust_length. }
  rewrite MX. set (X1 := combine P1 vs) in *. set (X2 := combine P2 (repeat (nil L) (length P2))) in *.
  assert (F1 : map fst X1 = P1) by (apply map_fst_combine; lia). assert (F2 : map fst X2 = P2) by (apply map_fst_combine; now rewrite repeat_length).
  rewrite PXs. split.
  - rewrite !dcells_app, !csets_app. set (wx := csets L (dcells L cell X1) w2). rewrite <- !csets_app. apply (csets_swap L sees wsees H).
    rewrite <- dcells_app. apply dcells_nodup. rewrite map_app, F2, FN. rewrite NP, EP, <- app_assoc, map_app in ND. now apply nodup_app_r in ND.
  - intros n. rewrite !map_app, !rev_app_distr, <- !app_assoc. apply look_swap. rewrite !dslots_names, F2, FN. intros k Ik Jk. apply in_rev in Ik, Jk.
    apply in_map_iff in Ik as (x & <- & Ix). apply in_map_iff in Jk as (y & Ey & Iy).
    assert (Lt : (np < length (s_targets prev))%nat) by (destruct P2; [destruct Iy|cbn in LP2; lia]).
    assert (F : same_name (EVar y) (EVar x) = false).
    { apply C5; [exact Lp|exact Lt| |].
      - rewrite (nodes_vars _ Tp), skipn_map. apply in_map. exact Iy.
      - rewrite (nodes_vars _ Tn). now apply in_map. }
    unfold same_name in F. cbn in F. rewrite Ey, Pos.eqb_refl in F. discriminate.
Qed.
End Locals.
