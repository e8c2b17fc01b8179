(** Lemmas for carts as directories. *)
From Verif Require Import M_Base L_Util M_Url M_Files M_Fs S_Fs.
Open Scope Z_scope.

Lemma zeq_dec (a b : name) : {a = b} + {a <> b}.
Proof. apply (list_eq_dec Z.eq_dec). Qed.
Lemma path_dec (a b : list name) : {a = b} + {a <> b}.
Proof. apply (list_eq_dec zeq_dec). Qed.
Lemma zeqb_false a b : zeqb_list a b = false <-> a <> b.
Proof. split; [intros E ->; now rewrite zeqb_list_refl in E|]. intros N. destruct (zeqb_list a b) eqn:E; [apply zeqb_list_true in E; contradiction|reflexivity]. Qed.
Lemma same_path_iff a : forall b, same_path a b = true <-> a = b.
Proof.
  induction a as [|x a IH]; intros [|y b]; cbn; try easy. rewrite andb_true_iff, IH. split.
  - intros (E & ->). apply zeqb_list_true in E. now subst.
  - intros [= -> ->]. now rewrite zeqb_list_refl.
Qed.
Lemma same_path_refl a : same_path a a = true. Proof. now apply same_path_iff. Qed.
Lemma same_path_false a b : same_path a b = false <-> a <> b.
Proof. rewrite <- same_path_iff. now destruct (same_path a b). Qed.
Lemma under_iff b : forall q, under b q = true <-> inside b q.
Proof.
  induction b as [|x b IH]; intros q; cbn; [split; auto; intros _; now exists q|]. destruct q as [|y q].
  - split; [easy|]. intros (r & E). discriminate E.
  - rewrite andb_true_iff, IH. split.
    + intros (E & r & ->). apply zeqb_list_true in E. subst. now exists r.
    + intros (r & [= -> ->]). split; [apply zeqb_list_refl|now exists r].
Qed.
Lemma look_filter p f q : look (filter (fun x => p (fst x)) f) q = if p q then look f q else None.
Proof.
  induction f as [|[k e] f IH]; cbn; [now destruct (p q)|]. destruct (p k) eqn:K; cbn; destruct (same_path q k) eqn:E; auto.
  - apply same_path_iff in E. subst. now rewrite K.
  - apply same_path_iff in E. subst. rewrite IH, K. reflexivity.
Qed.
Lemma look_put f p e q : look (put f p e) q = if same_path q p then Some e else look f q.
Proof.
  unfold put. cbn. destruct (same_path q p) eqn:E; [reflexivity|]. rewrite (look_filter (fun x => negb (same_path p x))).
  apply same_path_false in E. assert (X : same_path p q = false) by (apply same_path_false; congruence). now rewrite X.
Qed.
Lemma is_dir_look f p : p <> [] -> (is_dir f p = true <-> look f p = Some None).
Proof. destruct p as [|x p]; [easy|]. intros _. cbn [is_dir]. destruct (look f (x :: p)) as [[]|]; split; intros; (congruence || reflexivity || discriminate). Qed.

(** ** Paths *)
Lemma split_sep ch a : forall cur b, split_all ch cur (a ++ ch :: b) = split_all ch cur a ++ split_all ch [] b.
Proof. induction a as [|c a IH]; intros cur b; cbn [app split_all]; [now rewrite Z.eqb_refl|]. destruct (c =? ch); cbn [app]; now rewrite IH. Qed.
Lemma split_none ch a : forall cur, ~ In ch a -> split_all ch cur a = [rev cur ++ a].
Proof.
  induction a as [|c a IH]; intros cur N; cbn [split_all]; [now rewrite app_nil_r|]. cbn in N. destruct (Z.eqb_spec c ch) as [->|_]; [tauto|].
  rewrite IH by tauto. cbn. now rewrite <- app_assoc.
Qed.
Lemma norm_app x : forall d y, norm d (x ++ y) = norm (norm d x) y.
Proof. induction x as [|p x IH]; intros d y; cbn [app norm]; [reflexivity|]. destruct (zeqb_list p [] || zeqb_list p dot); [apply IH|]. destruct (zeqb_list p dotdot); apply IH. Qed.
Lemma ends_app a c : ends_slash (a ++ [c]) = (c =? 47).
Proof. induction a as [|x a IH]; [reflexivity|]. cbn [app]. destruct (a ++ [c]) as [|y l] eqn:E; [destruct a; discriminate E|]. exact IH. Qed.
Lemma ends_cut a : ends_slash a = true -> exists b, a = b ++ [47].
Proof.
  intros E. destruct (exists_last (l := a)) as (b & c & ->); [intros ->; discriminate E|]. rewrite ends_app in E. apply Z.eqb_eq in E. subst. now exists b.
Qed.
Lemma starts_app a b : a <> [] -> starts_slash (a ++ b) = starts_slash a.
Proof. destruct a; [easy|reflexivity]. Qed.
Lemma ends_app_r a b : b <> [] -> ends_slash (a ++ b) = ends_slash b.
Proof. intros N. destruct (exists_last N) as (x & c & ->). now rewrite app_assoc, !ends_app. Qed.
Lemma join_nonempty a b : b <> [] -> path_join a b <> [].
Proof. unfold path_join. destruct (starts_slash b); [auto|]. destruct a; [auto|]. destruct (ends_slash (z :: a)); discriminate. Qed.
Lemma split_join a b : a <> [] -> starts_slash b = false -> forall d, norm d (split_all 47 [] (path_join a b)) = norm (norm d (split_all 47 [] a)) (split_all 47 [] b).
Proof.
  intros N S d. unfold path_join. rewrite S. destruct a as [|x a]; [easy|]. destruct (ends_slash (x :: a)) eqn:E.
  - apply ends_cut in E. destruct E as (c & E). rewrite E, <- app_assoc. cbn [app]. rewrite !split_sep, !norm_app. reflexivity.
  - change ((x :: a) ++ 47 :: b) with (x :: a ++ 47 :: b). rewrite app_comm_cons, split_sep, norm_app. reflexivity.
Qed.
(** a path below another *)
Lemma abs_join cwd p c : p <> [] -> starts_slash c = false -> abs cwd (path_join p c) = norm (abs cwd p) (split_all 47 [] c).
Proof.
  intros N S. unfold abs. destruct (starts_slash p) eqn:Sp.
  - assert (X : starts_slash (path_join p c) = true). { unfold path_join. rewrite S. destruct p; [easy|]. destruct (ends_slash (z :: p)); [|]; rewrite starts_app by discriminate; exact Sp. }
    unfold path_join at 1. rewrite X. unfold path_join at 2. rewrite Sp. now apply split_join.
  - assert (X : starts_slash (path_join p c) = false). { unfold path_join. rewrite S. destruct p; [easy|]. destruct (ends_slash (z :: p)); [|]; rewrite starts_app by discriminate; exact Sp. }
    destruct cwd as [|w cwd].
    + unfold path_join at 1. rewrite X. unfold path_join at 2. rewrite Sp. now apply split_join.
    + rewrite split_join by (discriminate || exact X). rewrite split_join by assumption. rewrite (split_join (w :: cwd) p) by (discriminate || exact Sp). reflexivity.
Qed.
Lemma abs_root cwd c : starts_slash c = true -> forall p, abs cwd (path_join p c) = abs cwd c.
Proof. intros S p. unfold abs. f_equal. f_equal. unfold path_join at 2. now rewrite S. Qed.
Lemma norm_plain d c : c <> [] -> c <> dot -> c <> dotdot -> norm d [c] = d ++ [c].
Proof. intros A B C. cbn. apply zeqb_false in A, B, C. now rewrite A, B, C. Qed.
Lemma norm_clean parts : forall d, (forall x, In x d -> x <> dotdot) -> forall x, In x (norm d parts) -> x <> dotdot.
Proof.
  induction parts as [|p parts IH]; intros d H x I; [exact (H x I)|]. cbn [norm] in I. destruct (zeqb_list p [] || zeqb_list p dot); [exact (IH d H x I)|].
  destruct (zeqb_list p dotdot) eqn:E; [|].
  - apply (IH (removelast d)) in I; [exact I|]. intros y J. apply H. clear - J. induction d as [|a d IHd]; [destruct J|]. cbn [removelast] in J. destruct d as [|b d]; [destruct J|]. destruct J as [->|J]; [now left|right; auto].
  - apply (IH (d ++ [p])) in I; [exact I|]. intros y J. apply in_app_iff in J. destruct J as [J|[<-|[]]]; [auto|now apply zeqb_false].
Qed.
Lemma common_skip s : forall l, common s l = length s -> inside s l.
Proof.
  induction s as [|x s IH]; intros l E; [now exists l|]. destruct l as [|y l]; [discriminate E|]. cbn in E. destruct (zeqb_list x y) eqn:X; [|discriminate E].
  apply zeqb_list_true in X. subst y. injection E as E. destruct (IH l E) as (r & ->). now exists r.
Qed.
Lemma common_le s : forall l, (common s l <= length s)%nat.
Proof. induction s as [|x s IH]; intros [|y l]; cbn; try lia. destruct (zeqb_list x y); [specialize (IH l)|]; lia. Qed.
Lemma common_all s r : common s (s ++ r) = length s.
Proof. induction s as [|x s IH]; [reflexivity|]. cbn. now rewrite zeqb_list_refl, IH. Qed.
(** the check is right *)
Lemma is_inside_iff cwd p base : path_is_inside cwd p base = true <-> p <> [] /\ inside (abs cwd base) (abs cwd p).
Proof.
  unfold path_is_inside, relpath. destruct p as [|z p]; [split; [easy|intros (X & _); congruence]|]. set (s := abs cwd base). set (l := abs cwd (z :: p)). split.
  - intros H. split; [discriminate|]. apply common_skip. pose proof (common_le s l). destruct (length s - common s l)%nat eqn:E; [lia|]. cbn [repeat app] in H. rewrite zeqb_list_refl in H. discriminate H.
  - intros (_ & r & E). rewrite E, common_all, Nat.sub_diag. cbn [repeat app]. rewrite skipn_app, skipn_all, Nat.sub_diag. cbn [app skipn]. destruct r as [|x r]; [reflexivity|].
    apply negb_true_iff, zeqb_false. apply (norm_clean (split_all 47 [] (path_join cwd (z :: p))) []); [intros ? []|]. fold (abs cwd (z :: p)). fold l. rewrite E. apply in_app_iff. right. now left.
Qed.

(** ** What is kept *)
Definition kept (base : list name) (f f' : fs) : Prop :=
  forall q, look f' q = look f q \/ inside base q \/ (inside q base /\ look f q = None /\ look f' q = Some None).
Lemma kept_refl b f : kept b f f. Proof. intros q. now left. Qed.
Lemma kept_trans b f g h : kept b f g -> kept b g h -> kept b f h.
Proof.
  intros A B q. destruct (A q) as [E|[E|(E & E1 & E2)]], (B q) as [F|[F|(F & F1 & F2)]]; auto.
  - left; congruence.
  - right; right. split; [exact F|]. split; congruence.
  - right; right. split; [exact E|]. split; [exact E1|]. congruence.
Qed.
Lemma inside_trans a b c : inside a b -> inside b c -> inside a c.
Proof. intros (x & ->) (y & ->). exists (x ++ y). now rewrite app_assoc. Qed.
Lemma inside_two a b c : inside a c -> inside b c -> inside a b \/ inside b a.
Proof.
  revert b c. induction a as [|x a IH]; intros b c (r & E) (s & E'); [left; now exists b|]. destruct b as [|y b]; [right; now exists (x :: a)|].
  subst c. injection E' as -> E. destruct (IH b (a ++ r)) as [(t & ->)|(t & ->)]; [now exists r|now exists s|left; now exists t|right; now exists t].
Qed.
Lemma kept_sub b b' f f' : inside b b' -> kept b' f f' -> kept b f f'.
Proof.
  intros I K q. destruct (K q) as [E|[E|(E & E1 & E2)]]; [auto|right; left; now apply (inside_trans _ b')|].
  destruct (inside_two _ _ _ E I) as [X|X]; [right; right; auto|right; left; exact X].
Qed.
Definition step (b : list name) (f f' : fs) : Prop := sound f' /\ kept b f f'.
Lemma put_sound f p n e : sound f -> is_dir f p = true -> (e <> None -> is_dir f (p ++ [n]) = false) -> sound (put f (p ++ [n]) e).
Proof.
  intros S D N q m. rewrite look_put. destruct (same_path (q ++ [m]) (p ++ [n])) eqn:E.
  - intros _. apply same_path_iff, app_inj_tail in E. destruct E as (-> & ->). destruct p as [|x p]; [now left|right]. rewrite look_put.
    replace (same_path (x :: p) ((x :: p) ++ [n])) with false; [exact (proj1 (is_dir_look f (x :: p) ltac:(discriminate)) D)|].
    symmetry. apply same_path_false. intros X. apply (f_equal (@length _)) in X. rewrite app_length in X. cbn in X. lia.
  - intros H. destruct (S q m H) as [->|H']; [now left|right]. rewrite look_put. destruct (same_path q (p ++ [n])) eqn:E2; [|exact H'].
    apply same_path_iff in E2. subst q. destruct e as [d|]; [|reflexivity]. exfalso. specialize (N ltac:(discriminate)). apply Bool.not_true_iff_false in N. apply N. apply is_dir_look; [now destruct p|exact H'].
Qed.
Lemma makedirs_step rest : forall here f f' ok, sound f -> is_dir f here = true -> makedirs f here rest = (f', ok) -> step (here ++ rest) f f'.
Proof.
  induction rest as [|n rest IH]; intros here f f' ok S D E; cbn [makedirs] in E.
  - injection E as <- _. split; [exact S|apply kept_refl].
  - assert (R : here ++ n :: rest = (here ++ [n]) ++ rest) by now rewrite <- app_assoc. rewrite R.
    destruct (look f (here ++ [n])) as [[d|]|] eqn:L.
    + injection E as <- _. split; [exact S|apply kept_refl].
    + apply (IH _ _ _ _ S) in E; [exact E|]. apply is_dir_look; [now destruct here|exact L].
    + assert (S1 : sound (put f (here ++ [n]) None)) by (apply put_sound; auto; congruence).
      apply IH in E; [|exact S1|apply is_dir_look; [now destruct here|now rewrite look_put, same_path_refl]]. destruct E as (S' & K). split; [exact S'|].
      apply (kept_trans _ _ (put f (here ++ [n]) None)); [|exact K]. intros q. rewrite look_put. destruct (same_path q (here ++ [n])) eqn:Q; [|now left].
      apply same_path_iff in Q. subst q. right; right. split; [now exists rest|auto].
Qed.
Lemma rmtree_step f p f' ok : sound f -> rmtree f p = (f', ok) -> step p f f'.
Proof.
  unfold rmtree. intros S E. destruct (is_dir f p) eqn:D; [|injection E as <- _; split; [exact S|apply kept_refl]]. injection E as <- _. split.
  - intros q n. rewrite !(look_filter (fun x => negb (under p x))). destruct (under p (q ++ [n])) eqn:U; cbn [negb]; [congruence|]. intros H. destruct (S q n H) as [->|H']; [now left|].
    destruct (under p q) eqn:U2; [|now right]. exfalso. apply under_iff in U2. destruct U2 as (r & ->). assert (X : under p ((p ++ r) ++ [n]) = true) by (apply under_iff; exists (r ++ [n]); now rewrite app_assoc). congruence.
  - intros q. rewrite (look_filter (fun x => negb (under p x))). destruct (under p q) eqn:U; [right; left; now apply under_iff|now left].
Qed.
Lemma file_write_step f p d f' ok : sound f -> file_write f p d = (f', ok) -> step p f f'.
Proof.
  unfold file_write. intros S E. destruct (negb (is_dir f p) && is_dir f (removelast p)) eqn:D; [|injection E as <- _; split; [exact S|apply kept_refl]]. injection E as <- _.
  apply andb_true_iff in D. destruct D as (D1 & D2). apply negb_true_iff in D1. destruct (exists_last (l := p)) as (q & n & ->); [intros ->; discriminate D1|]. rewrite removelast_last in D2. split.
  - now apply put_sound.
  - intros x. rewrite look_put. destruct (same_path x (q ++ [n])) eqn:X; [|now left]. apply same_path_iff in X. subst. right; left. exists []. now rewrite app_nil_r.
Qed.
Lemma abs_under cwd p b f d f' ok : sound f -> p <> [] -> ~ In 47 b -> is_dir f (abs cwd p) = true -> file_write f (abs cwd (path_join p b)) d = (f', ok) -> step (abs cwd p) f f'.
Proof.
  intros S N B D E. assert (Sb : starts_slash b = false) by (destruct b as [|c b]; [reflexivity|cbn; apply Z.eqb_neq; intros ->; apply B; now left]).
  rewrite abs_join in E by assumption. rewrite split_none in E by exact B. cbn [rev app] in E.
  assert (Z : zeqb_list b [] || zeqb_list b dot = true -> file_write f (abs cwd p) d = (f', ok) -> step (abs cwd p) f f').
  { intros _ W. exact (file_write_step _ _ _ _ _ S W). }
  cbn [norm] in E. destruct (zeqb_list b [] || zeqb_list b dot); [auto|]. destruct (zeqb_list b dotdot).
  - (* the directory itself is there, so its parent is one *)
    destruct (path_dec (abs cwd p) []) as [X|X].
    + rewrite X in *. exact (file_write_step _ _ _ _ _ S E).
    + destruct (exists_last X) as (q & n & Y). rewrite Y in *. rewrite removelast_last in E.
      assert (Dq : is_dir f q = true). { destruct (path_dec q []) as [->|Q]; [reflexivity|]. apply is_dir_look; [exact Q|]. destruct (S q n) as [H|H]; [|contradiction|exact H]. apply is_dir_look in D; [congruence|now destruct q]. }
      unfold file_write in E. rewrite Dq in E. injection E as <- _. split; [exact S|apply kept_refl].
  - apply (file_write_step _ _ _ _ _ S) in E. destruct E as (S' & K). split; [exact S'|]. apply (kept_sub _ (abs cwd p ++ [b])); [now exists [b]|exact K].
Qed.
Lemma split_some ch s : forall cur, split_all ch cur s <> [].
Proof. induction s as [|c s IH]; intros cur; cbn; [discriminate|]. destruct (c =? ch); [discriminate|apply IH]. Qed.
Lemma basename_plain s : ~ In 47 (path_basename s).
Proof.
  unfold path_basename. assert (X : forall s cur, ~ In 47 cur -> ~ In 47 (last (split_all 47 cur s) [])).
  { clear s. induction s as [|c s IH]; intros cur N; cbn [split_all]; [cbn; now rewrite <- in_rev|]. destruct (Z.eqb_spec c 47) as [->|C].
    - specialize (IH [] ltac:(intros [])). pose proof (split_some 47 s []) as Q. cbn [last]. destruct (split_all 47 [] s); [contradiction|exact IH].
    - apply IH. intros [I|I]; [congruence|contradiction]. }
  apply X. intros [].
Qed.

(** ** Writing stays inside *)
Lemma dir_create_step cwd f p del f' ok : sound f -> dir_create cwd f p del = (f', ok) -> step (abs cwd p) f f'.
Proof.
  unfold dir_create. intros S E. destruct p as [|x p].
  - rewrite andb_false_r in E. injection E as <- _. split; [exact S|apply kept_refl].
  - destruct (if del && exists_ f (abs cwd (x :: p)) then rmtree f (abs cwd (x :: p)) else (f, true)) as [f1 ok1] eqn:R.
    assert (S1 : step (abs cwd (x :: p)) f f1). { destruct (del && _); [exact (rmtree_step _ _ _ _ S R)|]. injection R as <- _. split; [exact S|apply kept_refl]. }
    destruct ok1; [|injection E as <- _; exact S1]. apply makedirs_step in E; [|exact (proj1 S1)|reflexivity]. cbn [app] in E.
    split; [exact (proj1 E)|]. exact (kept_trans _ _ _ _ (proj2 S1) (proj2 E)).
Qed.
Lemma children_step cwd go p fspath : (forall f cp d cfs f' r, sound f -> go f cp d cfs = (f', r) -> step (abs cwd cp) f f') ->
  forall l f f' r, sound f -> write_children cwd go p fspath f l = (f', r) -> step (abs cwd p) f f'.
Proof.
  intros G. induction l as [|[cfs e] l IH]; intros f f' r S E; cbn [write_children] in E.
  - injection E as <- _. split; [exact S|apply kept_refl].
  - destruct (write_child cwd go p fspath f (cfs, e)) as [f1 r1] eqn:W. assert (S1 : step (abs cwd p) f f1).
    { unfold write_child in W. destruct (starts_with fspath cfs); [|injection W as <- _; split; [exact S|apply kept_refl]]. destruct (Nat.eqb _ _); [|injection W as <- _; split; [exact S|apply kept_refl]].
      destruct (path_is_inside cwd _ p) eqn:I; [|injection W as <- _; split; [exact S|apply kept_refl]]. apply is_inside_iff in I. apply G in W; [|exact S]. split; [exact (proj1 W)|]. exact (kept_sub _ _ _ _ (proj2 I) (proj2 W)). }
    destruct r1; [|injection E as <- _; exact S1]. apply IH in E; [|exact (proj1 S1)]. split; [exact (proj1 E)|]. exact (kept_trans _ _ _ _ (proj2 S1) (proj2 E)).
Qed.
Lemma write_fs_step cwd fuel : forall cart del f p dir fspath f' r, sound f -> write_fs cwd fuel cart del f p dir fspath = (f', r) -> step (abs cwd p) f f'.
Proof.
  induction fuel as [|fuel IH]; intros cart del f p dir fspath f' r S E; cbn [write_fs] in E; [injection E as <- _; split; [exact S|apply kept_refl]|]. destruct dir.
  - destruct (dir_create cwd f p del) as [f1 ok] eqn:D. apply dir_create_step in D; [|exact S]. destruct ok; [|injection E as <- _; exact D].
    apply children_step in E; [|intros; eapply IH; eassumption|exact (proj1 D)]. split; [exact (proj1 E)|]. exact (kept_trans _ _ _ _ (proj2 D) (proj2 E)).
  - set (p' := if path_is_dir cwd f p then path_join p (path_basename fspath) else p) in *.
    assert (W : forall d f1 ok, write_at cwd f p' d = (f1, ok) -> step (abs cwd p) f f1).
    { intros d f1 ok X. unfold p', path_is_dir in X. destruct p as [|z p]; [injection X as <- _; split; [exact S|apply kept_refl]|]. destruct (is_dir f (abs cwd (z :: p))) eqn:D; [|exact (file_write_step _ _ _ _ _ S X)].
      unfold write_at in X. destruct (path_join (z :: p) (path_basename fspath)) as [|c x] eqn:J; [injection X as <- _; split; [exact S|apply kept_refl]|]. rewrite <- J in X.
      eapply abs_under; [exact S|discriminate|apply (basename_plain fspath)|exact D|exact X]. }
    destruct (get cart fspath) as [[d|]|]; [|destruct (write_at cwd f p' []) as [f1 ok] eqn:X; injection E as <- _; exact (W _ _ _ X)|injection E as <- _; split; [exact S|apply kept_refl]].
    destruct (write_at cwd f p' d) as [f1 ok] eqn:X. destruct ok; injection E as <- _; exact (W _ _ _ X).
Qed.

(** ** Nothing goes away, and what comes is from the cart *)
Definition grows (from : list (path * entry)) (f f' : fs) : Prop :=
  (forall q, look f q <> None -> look f' q <> None) /\ (forall q, look f q = Some None -> look f' q = Some None) /\
  (forall q d, look f' q = Some (Some d) -> look f q = Some (Some d) \/ exists n, get from n = Some (Some d)).
Lemma grows_refl c f : grows c f f. Proof. unfold grows. auto. Qed.
Lemma grows_trans c f g h : grows c f g -> grows c g h -> grows c f h.
Proof. intros (A & B & C) (A' & B' & C'). split; [auto|]. split; [auto|]. intros q d H. destruct (C' q d H); auto. Qed.
Lemma makedirs_grows c rest : forall here f f' ok, makedirs f here rest = (f', ok) -> grows c f f'.
Proof.
  induction rest as [|n rest IH]; intros here f f' ok E; cbn [makedirs] in E; [injection E as <- _; apply grows_refl|]. destruct (look f (here ++ [n])) as [[d|]|] eqn:L.
  - injection E as <- _. apply grows_refl.
  - exact (IH _ _ _ _ E).
  - apply IH in E. apply (grows_trans _ _ _ _) with (2 := E). split; [|split]; intros q; rewrite look_put; destruct (same_path q (here ++ [n])) eqn:X; auto; discriminate.
Qed.
Lemma write_at_grows cwd c f p d f' ok : (exists n, get c n = Some (Some d)) -> write_at cwd f p d = (f', ok) -> grows c f f'.
Proof.
  intros N E. unfold write_at in E. destruct p as [|z p]; [injection E as <- _; apply grows_refl|]. unfold file_write in E. set (q0 := abs cwd (z :: p)) in *.
  destruct (negb (is_dir f q0) && is_dir f (removelast q0)) eqn:B; [|injection E as <- _; apply grows_refl]. injection E as <- _. apply andb_true_iff in B. destruct B as (B & _). apply negb_true_iff in B.
  split; [|split]; intros q; rewrite look_put; destruct (same_path q q0) eqn:X; auto; apply same_path_iff in X; subst q.
  - discriminate.
  - intros L. exfalso. apply Bool.not_true_iff_false in B. apply B. destruct (path_dec q0 []) as [->|Q]; [reflexivity|]. now apply is_dir_look.
  - intros d0 [= ->]. now right.
Qed.
Lemma get_dict (c : list (path * entry)) n e : NoDup (map fst c) -> In (n, e) c -> get c n = Some e.
Proof.
  induction c as [|[k v] c IH]; intros N I; [destruct I|]. cbn [map fst] in N. inversion N as [|? ? N1 N2]; subst. cbn [get]. destruct I as [[= -> ->]|I]; [now rewrite zeqb_list_refl|].
  destruct (zeqb_list n k) eqn:E; [|auto]. apply zeqb_list_true in E. subst. exfalso. apply N1, in_map_iff. now exists (k, e).
Qed.
Lemma write_fs_grows cwd cart (Dict : NoDup (map fst cart)) fuel : forall f p dir fspath f' r, (dir = false -> get cart fspath <> Some None) -> write_fs cwd fuel cart false f p dir fspath = (f', r) -> grows cart f f'.
Proof.
  induction fuel as [|fuel IH]; intros f p dir fspath f' r Hd E; cbn [write_fs] in E; [injection E as <- _; apply grows_refl|]. destruct dir.
  - destruct (dir_create cwd f p false) as [f1 ok] eqn:D. assert (G : grows cart f f1). { unfold dir_create in D. cbn [andb] in D. destruct p; [injection D as <- _; apply grows_refl|exact (makedirs_grows _ _ _ _ _ _ D)]. }
    destruct ok; [|injection E as <- _; exact G]. apply (grows_trans _ _ f1); [exact G|]. clear f G D.
    assert (X : forall l f f' r, write_children cwd (write_fs cwd fuel cart false) p (with_slash fspath) f l = (f', r) -> (forall x, In x l -> In x cart) -> grows cart f f').
    { clear f' r E f1. induction l as [|[n e] l IHl]; intros f f' r E Sub; cbn [write_children] in E; [injection E as <- _; apply grows_refl|].
      destruct (write_child _ _ _ _ f (n, e)) as [f1 r1] eqn:W. assert (G : grows cart f f1).
      { unfold write_child in W. destruct (starts_with _ _); [|injection W as <- _; apply grows_refl]. destruct (Nat.eqb _ _); [|injection W as <- _; apply grows_refl]. destruct (path_is_inside _ _ _); [|injection W as <- _; apply grows_refl].
        apply IH in W; [exact W|]. intros He. rewrite (get_dict cart n e Dict (Sub _ (or_introl eq_refl))). destruct e; [discriminate|discriminate He]. }
      destruct r1; [|injection E as <- _; exact G]. apply (grows_trans _ _ f1); [exact G|]. apply IHl in E; [exact E|]. intros x I. apply Sub. now right. }
    apply X in E; auto.
  - specialize (Hd eq_refl). destruct (get cart fspath) as [[d|]|] eqn:G; [|congruence|injection E as <- _; apply grows_refl].
    set (p' := if path_is_dir cwd f p then path_join p (path_basename fspath) else p) in *. destruct (write_at cwd f p' d) as [f1 ok] eqn:W. apply (write_at_grows cwd cart) in W; [|now exists fspath]. destruct ok; injection E as <- _; exact W.
Qed.
