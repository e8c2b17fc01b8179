(** Lemmas on filters, merging, the order of files and aliases. *)
From Verif Require Import M_Base L_Util M_Files S_Files.
From Coq Require Import Permutation.
Open Scope Z_scope.

(* ------------------------------------------------------------------ *)
(** * Filters *)

Lemma glob_regex_neg q : glob_regex (33 :: q) = (q, false).
Proof. reflexivity. Qed.

Lemma glob_regex_cases p : (exists q, p = 33 :: q) \/ ((forall r, p <> 33 :: r) /\ glob_regex p = (p, true)).
Proof.
  destruct p as [|c p]; [right; split; [discriminate|reflexivity]|].
  destruct (Z.eq_dec c 33) as [->|N]; [left; now exists p|]. right. split.
  - intros r E. now injection E.
  - unfold glob_regex. destruct c as [|c|c]; try reflexivity.
    do 6 (destruct c as [c|c|]; try reflexivity). now destruct N.
Qed.

Lemma glob_loop_spec m patterns p : forall r,
  glob_loop m (map glob_regex patterns) r p = true <->
  (r = true \/ exists q, In q patterns /\ (forall x, q <> 33 :: x) /\ m q p = true) /\
  (forall q, In (33 :: q) patterns -> m q p = false).
Proof.
  induction patterns as [|a l IH]; intros r; cbn [map glob_loop].
  - split; [intros ->; split; [now left|easy]|]. intros ([->|(q & [] & _)] & _); easy.
  - destruct (glob_regex_cases a) as [(q & ->)|(N & ->)].
    + rewrite glob_regex_neg. destruct (m q p) eqn:M.
      * split; [easy|]. intros (_ & H). specialize (H q (or_introl eq_refl)). congruence.
      * rewrite IH. split; intros (A & B); split.
        -- destruct A as [A|(x & I & R)]; [now left|]. right. exists x. split; [now right|easy].
        -- intros x [E|I]; [injection E as ->; easy|now apply B].
        -- destruct A as [A|(x & [<-|I] & N & R)]; [now left| |].
           ++ now destruct (N q).
           ++ right. now exists x.
        -- intros x I. apply B. now right.
    + destruct (m a p) eqn:M.
      * rewrite IH. split; intros (A & B); split.
        -- right. exists a. split; [now left|easy].
        -- intros x [E|I]; [now destruct (N x)|now apply B].
        -- now left.
        -- intros x I. apply B. now right.
      * rewrite IH. split; intros (A & B); split.
        -- destruct A as [A|(x & I & R)]; [now left|]. right. exists x. split; [now right|easy].
        -- intros x [E|I]; [now destruct (N x)|now apply B].
        -- destruct A as [A|(x & [<-|I] & Nx & R)]; [now left|congruence|]. right. now exists x.
        -- intros x I. apply B. now right.
Qed.

Lemma glob_matches_spec m patterns p : glob_matches m patterns p = true <-> selects m patterns p.
Proof.
  unfold glob_matches, selects. rewrite glob_loop_spec. split; intros (A & B); (split; [|easy]).
  - destruct A as [A|A]; [discriminate A|easy].
  - now right.
Qed.

(* ------------------------------------------------------------------ *)
(** * Dicts of files *)

Section Dict.
Context {file : Type}.
Notation files := (@files file).

Lemma get_In (d : files) k v : NoDup (map fst d) -> (get d k = Some v <-> In (k, v) d).
Proof.
  induction d as [|(k', v') d IH]; intros N; [easy|]. cbn [map fst] in N. inversion N; subst.
  cbn [get]. destruct (zeqb_list k k') eqn:E.
  - apply zeqb_list_true in E. subst k'. split.
    + intros [= ->]. now left.
    + intros [[= ->]|I]; [easy|]. apply (in_map fst) in I. easy.
  - rewrite IH by easy. split; [now right|]. intros [[= -> ->]|I]; [|easy]. now rewrite zeqb_list_refl in E.
Qed.

Lemma get_None (d : files) k : get d k = None <-> ~ In k (map fst d).
Proof.
  induction d as [|(k', v') d IH]; [easy|]. cbn [get map fst]. destruct (zeqb_list k k') eqn:E.
  - apply zeqb_list_true in E. subst. split; [easy|]. intros H. destruct H. now left.
  - rewrite IH. apply zeqb_list_false in E. split; [intros H [->|I]; easy|]. intros H I. apply H. now right.
Qed.

Lemma get_set (d : files) k v k' : get (set d k v) k' = if zeqb_list k' k then Some v else get d k'.
Proof.
  induction d as [|(q, w) d IH]; cbn [set get].
  - now destruct (zeqb_list k' k).
  - destruct (zeqb_list k q) eqn:E; cbn [get].
    + apply zeqb_list_true in E. subst q. now destruct (zeqb_list k' k).
    + rewrite IH. destruct (zeqb_list k' q) eqn:F; [|easy].
      apply zeqb_list_true in F. subst q. destruct (zeqb_list k' k) eqn:G; [|easy].
      apply zeqb_list_true in G. subst k'. now rewrite zeqb_list_refl in E.
Qed.

Lemma set_NoDup (d : files) k v : NoDup (map fst d) -> NoDup (map fst (set d k v)).
Proof.
  assert (I : forall x (d : files), In x (map fst (set d k v)) -> x = k \/ In x (map fst d)).
  { intros x d0. induction d0 as [|(q, w) d0 IH]; cbn [set].
    - intros [<-|[]]. now left.
    - destruct (zeqb_list k q); cbn [map fst]; [now right|]. intros [<-|I]; [right; now left|].
      destruct (IH I); [now left|right; now right]. }
  induction d as [|(q, w) d IH]; cbn [set]; intros N.
  - constructor; [easy|constructor].
  - cbn [map fst] in N. inversion N; subst. destruct (zeqb_list k q) eqn:E; cbn [map fst]; [easy|].
    constructor; [|now apply IH]. intros J. apply I in J. destruct J as [->|J]; [|easy].
    now rewrite zeqb_list_refl in E.
Qed.

Lemma del_filter (d : files) k : NoDup (map fst d) -> del d k = filter (fun e => negb (zeqb_list (fst e) k)) d.
Proof.
  induction d as [|(q, w) d IH]; intros N; [easy|]. cbn [map fst] in N. inversion N; subst.
  cbn [del filter fst]. destruct (zeqb_list k q) eqn:E.
  - apply zeqb_list_true in E. subst q. rewrite zeqb_list_refl. cbn [negb]. symmetry.
    rewrite <- (filter_ext_in (fun _ => true)).
    + clear. induction d as [|x d IH]; [easy|]. cbn. now rewrite IH.
    + intros (x, v) I. cbn [fst]. symmetry. apply negb_true_iff. apply zeqb_list_false. intros ->.
      apply (in_map fst) in I. easy.
  - apply zeqb_list_false in E. assert (E' : zeqb_list q k = false) by (apply zeqb_list_false; congruence).
    rewrite E'. cbn [negb]. now rewrite IH.
Qed.

Lemma filter_NoDup_fst (f : path * option file -> bool) (d : files) : NoDup (map fst d) -> NoDup (map fst (filter f d)).
Proof.
  induction d as [|x d IH]; intros N; [easy|]. cbn [map] in N. inversion N; subst. cbn [filter].
  destruct (f x); [|now apply IH]. cbn [map]. constructor; [|now apply IH].
  intros I. apply in_map_iff in I. destruct I as (y & E & I). apply filter_In in I.
  apply H1. rewrite <- E. now apply in_map.
Qed.

Lemma filter_filter {A} (f g : A -> bool) l : filter f (filter g l) = filter (fun x => g x && f x) l.
Proof.
  induction l as [|x l IH]; [easy|]. cbn [filter]. destruct (g x); cbn [andb filter]; [|easy].
  destruct (f x); now rewrite IH.
Qed.

Lemma fold_del (ks : list path) : forall (d : files), NoDup (map fst d) ->
  fold_left del ks d = filter (fun e => negb (existsb (zeqb_list (fst e)) ks)) d.
Proof.
  induction ks as [|k ks IH]; intros d N; cbn [fold_left existsb].
  - symmetry. rewrite <- (filter_ext (fun _ => true)); [|easy].
    clear. induction d as [|x d IH]; [easy|]. cbn. now rewrite IH.
  - rewrite IH by (rewrite del_filter by easy; now apply filter_NoDup_fst).
    rewrite del_filter by easy. rewrite filter_filter. apply filter_ext. intros (x, v). cbn [fst].
    now rewrite negb_orb.
Qed.

Lemma filter_cart64_eq m (d : files) sections : NoDup (map fst d) ->
  filter_cart64 m d sections = filter (fun e => glob_matches m sections (fst e)) d.
Proof.
  intros N. unfold filter_cart64. rewrite fold_del by easy. apply filter_ext_in. intros (p, v) I. cbn [fst].
  destruct (glob_matches m sections p) eqn:G.
  - apply negb_true_iff. apply not_true_iff_false. intros E. apply existsb_exists in E.
    destruct E as (q & J & E). apply zeqb_list_true in E. subst q. apply filter_In in J. rewrite G in J. now destruct J.
  - apply negb_false_iff. apply existsb_exists. exists p. split; [|apply zeqb_list_refl].
    apply filter_In. split; [|now rewrite G]. apply (in_map fst) in I. exact I.
Qed.

Lemma sorted_perm (d : files) : Permutation d (sorted d).
Proof.
  unfold sorted. assert (Ins : forall x l, Permutation (x :: l) (insert (file:=file) x l)).
  { intros x l. induction l as [|y l IH]; [easy|]. cbn [insert]. destruct (str_leb (fst y) (fst x)); [|easy].
    rewrite perm_swap. now constructor. }
  assert (G : forall d acc : files, Permutation (acc ++ d) (fold_left (fun acc x => insert x acc) d acc)).
  { clear d. intros d. induction d as [|x d IH]; intros acc; cbn [fold_left]; [now rewrite app_nil_r|].
    rewrite <- IH. rewrite <- Ins. apply Permutation_sym. apply Permutation_middle. }
  apply (G d []).
Qed.
End Dict.

(* ------------------------------------------------------------------ *)
(** * Parents *)

Lemma lstrip_slash_cons c s : lstrip_slash (c :: s) = if c =? 47 then lstrip_slash s else c :: s.
Proof.
  cbn [lstrip_slash]. destruct c as [|c|c]; try reflexivity.
  do 6 (destruct c as [c|c|]; try reflexivity).
Qed.

Lemma lstrip_slash_spec s : exists n, s = repeat 47 n ++ lstrip_slash s /\ hd 0 (lstrip_slash s) <> 47.
Proof.
  induction s as [|c s IH]; [exists O; split; [easy|cbn; lia]|]. rewrite lstrip_slash_cons.
  destruct (Z.eqb_spec c 47) as [->|N].
  - destruct IH as (n & E & H). exists (S n). cbn [repeat app]. now rewrite <- E.
  - exists O. split; [easy|exact N].
Qed.

(** a path, without the slashes at its end *)
Lemma rstrip_slash_spec s : exists n, s = rstrip_slash s ++ repeat 47 n /\
  (rstrip_slash s = [] \/ exists a c, rstrip_slash s = a ++ [c] /\ c <> 47).
Proof.
  unfold rstrip_slash. destruct (lstrip_slash_spec (rev s)) as (n & E & H). exists n.
  split.
  - rewrite <- (rev_involutive s) at 1. rewrite E at 1. rewrite rev_app_distr. f_equal.
    clear. induction n as [|n IH]; [easy|]. cbn [repeat rev]. rewrite IH. clear.
    induction n as [|n IH]; [easy|]. cbn [repeat app]. now rewrite IH.
  - destruct (lstrip_slash (rev s)) as [|c l]; [now left|]. right. exists (rev l), c. split; [reflexivity|exact H].
Qed.

Lemma drop_to_slash_spec s : (~ In 47 s /\ drop_to_slash s = []) \/
  (exists a, s = a ++ 47 :: drop_to_slash s /\ ~ In 47 a).
Proof.
  induction s as [|c s IH]; [now left|]. cbn [drop_to_slash]. destruct (Z.eqb_spec c 47) as [->|N].
  - right. exists []. easy.
  - destruct IH as [(A & B)|(a & E & A)].
    + left. split; [|easy]. intros [->|I]; easy.
    + right. exists (c :: a). split; [cbn; now rewrite <- E|]. intros [->|I]; easy.
Qed.

Lemma before_last_slash_spec s : (~ In 47 s /\ before_last_slash s = []) \/
  (exists a, s = before_last_slash s ++ 47 :: a /\ ~ In 47 a).
Proof.
  unfold before_last_slash. destruct (drop_to_slash_spec (rev s)) as [(A & B)|(a & E & A)].
  - left. rewrite B. split; [|easy]. now rewrite <- in_rev in A.
  - right. exists (rev a). split; [|now rewrite <- in_rev].
    rewrite <- (rev_involutive s) at 1. rewrite E at 1. rewrite rev_app_distr. cbn [rev]. now rewrite <- app_assoc.
Qed.

(** what comes before [q]: all directories around [q]'s contents are [q] or around
    the next parent *)
Definition upto (q x : path) : Prop := exists r, q = x ++ r /\ (exists s, x = s ++ [47%Z]) /\ x <> [47%Z].

Lemma parent_step parent : (exists s, parent = s ++ [47%Z]) ->
  let next := before_last_slash (removelast parent) ++ [47%Z] in
  ((length next < length parent)%nat \/ parent = [47%Z]) /\
  (exists s, next = s ++ [47%Z]) /\
  (parent <> [47%Z] -> forall x, upto parent x <-> x = parent \/ upto next x).
Proof.
  intros (s & ->). rewrite removelast_last. cbn zeta. split; [|split; [eexists; reflexivity|]].
  - rewrite !app_length. cbn [length].
    destruct (before_last_slash_spec s) as [(A & B)|(a & E & A)].
    + rewrite B. destruct s; [now right|left; cbn; lia].
    + left. rewrite E at 2. rewrite app_length. cbn [length]. lia.
  - intros N x. split.
    + intros (r & E & (u & ->) & Nx). destruct r as [|c r] using rev_ind; [left; now rewrite app_nil_r in E|].
      clear IHr. rewrite app_assoc in E. apply app_inj_tail in E. destruct E as (E & _). right.
      destruct (before_last_slash_spec s) as [(A & B)|(a & Es & A)].
      * destruct A. rewrite E. rewrite !in_app_iff. left. right. now left.
      * assert (X : exists r', before_last_slash s ++ [47%Z] = (u ++ [47%Z]) ++ r').
        { rewrite Es in E. clear - E A. revert E. generalize (before_last_slash s) as b. intros b E.
          assert (L : (length (u ++ [47%Z]) <= length (b ++ [47%Z]))%nat).
          { destruct (Nat.le_gt_cases (length (u ++ [47%Z])) (length (b ++ [47%Z]))) as [?|G]; [easy|]. exfalso.
            rewrite <- app_assoc in E. cbn [app] in E. rewrite !app_length in G. cbn [length] in G.
            assert (Q : nth (length u) (b ++ 47 :: a) 0 = 47).
            { rewrite E. rewrite app_nth2 by lia. now rewrite Nat.sub_diag. }
            rewrite app_nth2 in Q by lia. destruct (length u - length b)%nat as [|k] eqn:K; [lia|].
            cbn [nth] in Q. apply A. rewrite <- Q. apply nth_In.
            apply (f_equal (@length Z)) in E. rewrite !app_length in E. cbn [length] in E. lia. }
          apply (f_equal (firstn (length (b ++ [47%Z])))) in E.
          replace (b ++ 47 :: a) with ((b ++ [47%Z]) ++ a) in E by (now rewrite <- app_assoc).
          rewrite firstn_app, firstn_all, Nat.sub_diag, app_nil_r in E.
          rewrite firstn_app in E. rewrite (firstn_all2 (u ++ [47%Z])) in E by easy. eauto. }
        destruct X as (r' & X). exists r'. split; [exact X|]. split; [now exists u|exact Nx].
    + intros [->|(r & E & U & Nx)].
      * exists []. split; [now rewrite app_nil_r|]. split; [now exists s|exact N].
      * destruct (before_last_slash_spec s) as [(A & B)|(a & Es & A)].
        -- rewrite B in E. destruct U as (u & ->). destruct u; [easy|]. apply (f_equal (@length Z)) in E.
           rewrite !app_length in E. cbn [length] in E. lia.
        -- exists (r ++ a ++ [47%Z]). split; [|easy]. rewrite Es. rewrite app_assoc, <- E. now rewrite <- !app_assoc.
Qed.

Lemma first_parent p : let q := before_last_slash (rstrip_slash p) ++ [47%Z] in
  (exists s, q = s ++ [47%Z]) /\ (length q <= S (length p))%nat /\
  (forall x, around x p <-> upto q x).
Proof.
  cbn zeta. set (q := rstrip_slash p).
  destruct (rstrip_slash_spec p) as (n & E & H). fold q in E, H.
  split; [eexists; reflexivity|]. split.
  { rewrite app_length. cbn [length]. destruct (before_last_slash_spec q) as [(A & B)|(a & Eq & A)].
    - rewrite B. cbn. lia.
    - rewrite E, app_length. rewrite Eq at 2. rewrite app_length. cbn [length]. lia. }
  intros x. split.
  - intros (r & Er & (c & Ic & Nc) & (s & ->) & Nx).
    (* the rest has a non-slash, so [x] ends inside [q] *)
    assert (L : (length (s ++ [47%Z]) < length q)%nat).
    { destruct (Nat.le_gt_cases (length q) (length (s ++ [47%Z]))) as [G|?]; [|easy]. exfalso.
      rewrite E in Er. apply (f_equal (skipn (length (s ++ [47%Z])))) in Er.
      rewrite skipn_app in Er. rewrite (skipn_all2 q) in Er by easy. cbn [app] in Er.
      rewrite (skipn_app _ (s ++ [47%Z])), skipn_all, Nat.sub_diag in Er. cbn [skipn app] in Er.
      rewrite <- Er in Ic. apply Nc. apply (repeat_spec n 47). revert Ic. generalize (length (s ++ [47%Z]) - length q)%nat.
      intros k I. rewrite <- (firstn_skipn k (repeat 47 n)). apply in_or_app. now right. }
    assert (Eq : exists r', q = (s ++ [47%Z]) ++ r' /\ r' <> []).
    { rewrite E in Er. apply (f_equal (firstn (length q))) in Er.
      rewrite firstn_app, firstn_all, Nat.sub_diag, app_nil_r in Er.
      rewrite firstn_app in Er. rewrite (firstn_all2 (s ++ [47%Z])) in Er by lia. eexists. split; [exact Er|].
      intros Q. rewrite Q, app_nil_r in Er. rewrite Er in L. lia. }
    destruct Eq as (r' & Eq & Nr).
    destruct (before_last_slash_spec q) as [(A & B)|(a & Ea & A)].
    + destruct A. rewrite Eq, !in_app_iff. left. right. now left.
    + (* [q] = b / a, a without slash; [q] = s / r' *)
      assert (X : exists t, before_last_slash q ++ [47%Z] = (s ++ [47%Z]) ++ t).
      { assert (L2 : (length (s ++ [47%Z]) <= length (before_last_slash q ++ [47%Z]))%nat).
        { destruct (Nat.le_gt_cases (length (s ++ [47%Z])) (length (before_last_slash q ++ [47%Z]))) as [?|G]; [easy|]. exfalso.
          rewrite !app_length in G. cbn [length] in G.
          assert (Q : nth (length s) q 0 = 47).
          { rewrite Eq. rewrite <- app_assoc. rewrite app_nth2 by lia. now rewrite Nat.sub_diag. }
          rewrite Ea in Q. rewrite app_nth2 in Q by lia.
          destruct (length s - length (before_last_slash q))%nat as [|k] eqn:K; [lia|].
          cbn [nth] in Q. apply A. rewrite <- Q. apply nth_In.
          apply (f_equal (@length Z)) in Ea. rewrite app_length in Ea. cbn [length] in Ea.
          rewrite app_length in L. cbn [length] in L. lia. }
        set (b := before_last_slash q) in *.
        assert (Eb : (b ++ [47%Z]) ++ a = (s ++ [47%Z]) ++ r').
        { rewrite <- Eq, Ea. now rewrite <- app_assoc. }
        apply (f_equal (firstn (length (b ++ [47%Z])))) in Eb.
        rewrite firstn_app, firstn_all, Nat.sub_diag, app_nil_r in Eb.
        rewrite firstn_app in Eb. rewrite (firstn_all2 (s ++ [47%Z])) in Eb by easy. eauto. }
      destruct X as (t & X). exists t. split; [exact X|]. split; [now exists s|exact Nx].
  - intros (r & Er & (s & ->) & Nx).
    destruct (before_last_slash_spec q) as [(A & B)|(a & Ea & A)].
    + rewrite B in Er. exfalso. destruct s; [easy|]. apply (f_equal (@length Z)) in Er.
      rewrite !app_length in Er. cbn [length] in Er. lia.
    + exists (r ++ a ++ repeat 47 n). split.
      { rewrite E at 1. rewrite Ea. rewrite app_assoc, <- Er. rewrite <- !app_assoc. reflexivity. }
      split; [|split; [now exists s|exact Nx]].
      destruct H as [H|(u & c & Hu & Nc)].
      * rewrite H in Ea. now destruct (before_last_slash q).
      * exists c. split; [|exact Nc]. apply in_or_app. right. apply in_or_app. left.
        rewrite Hu in Ea. destruct a as [|d a] using rev_ind.
        -- rewrite <- Hu in Ea. rewrite Ea in Hu. apply app_inj_tail in Hu. destruct Hu as (_ & <-). easy.
        -- clear IHa. rewrite app_comm_cons, app_assoc in Ea. apply app_inj_tail in Ea. destruct Ea as (_ & <-).
           apply in_or_app. right. now left.
Qed.

(* ------------------------------------------------------------------ *)
(** * Merging *)

(** no empty directory names *)
Definition normal (p : path) : Prop := forall a b, p <> a ++ [47%Z; 47%Z] ++ b.

Lemma upto_around q x : normal q -> (exists s, q = s ++ [47%Z]) -> q <> [47%Z] -> (upto q x <-> x = q \/ around x q).
Proof.
  intros N (s & ->) Nq. split.
  - intros (r & E & (u & ->) & Nx).
    destruct r as [|c r] using rev_ind; [left; now rewrite app_nil_r in E|]. clear IHr.
    right. exists (r ++ [c]). split; [exact E|]. split; [|split; [now exists u|exact Nx]].
    rewrite app_assoc in E. apply app_inj_tail in E. destruct E as (E & <-).
    destruct r as [|d r] using rev_ind.
    + exfalso. rewrite app_nil_r in E. apply (N u []). rewrite E. now rewrite <- app_assoc.
    + clear IHr. exists d. split; [rewrite !in_app_iff; left; right; now left|].
      intros ->. apply (N (u ++ [47%Z] ++ r) []). rewrite E. rewrite <- !app_assoc. easy.
  - intros [->|(r & E & _ & U & Nx)].
    + exists []. split; [now rewrite app_nil_r|]. split; [now exists s|exact Nq].
    + now exists r.
Qed.

Lemma upto_trans q x y : upto q x -> upto x y -> upto q y.
Proof.
  intros (r & E & _) (r' & E' & U). exists (r' ++ r). split; [|exact U]. rewrite E, E'. now rewrite <- app_assoc.
Qed.

Lemma upto_root x : ~ upto [47%Z] x.
Proof.
  intros (r & E & (s & ->) & N). destruct s as [|c s]; [easy|]. cbn [app] in E. injection E as _ E.
  destruct s; discriminate E.
Qed.

Lemma normal_prefix a b : normal (a ++ b) -> normal a.
Proof. intros N x y E. apply (N x (y ++ b)). rewrite E. now rewrite <- !app_assoc. Qed.

Section Merge.
Context {file : Type}.
Notation files := (@files file).

Definition has (d : files) (p : path) : Prop := exists v, get d p = Some v.

Lemma has_set (d : files) k v p : has (set d k v) p <-> p = k \/ has d p.
Proof.
  unfold has. rewrite get_set. destruct (zeqb_list p k) eqn:E.
  - apply zeqb_list_true in E. split; [now left|]. intros _. now exists v.
  - apply zeqb_list_false in E. split; [now right|]. intros [?|?]; easy.
Qed.

Lemma add_parents_spec fuel : forall q (d : files), (exists s, q = s ++ [47%Z]) -> (length q <= S fuel)%nat ->
  (forall k, upto q k -> has d k -> forall x, upto k x -> has d x) ->
  exists d', add_parents fuel q d = Ok d' /\ (NoDup (map fst d) -> NoDup (map fst d')) /\
    (forall x, has d x -> get d' x = get d x) /\
    (forall x, ~ has d x -> upto q x -> get d' x = Some None) /\
    (forall x, ~ has d x -> ~ upto q x -> get d' x = None).
Proof.
  assert (Hn : forall (d : files) x, ~ has d x -> get d x = None).
  { intros d x N. destruct (get d x) as [v|] eqn:G; [|easy]. destruct N. now exists v. }
  induction fuel as [|fuel IH]; intros q d Q L C; cbn [add_parents].
  - assert (q = [47%Z]) as ->.
    { destruct Q as (s & ->). rewrite app_length in L. cbn [length] in L. destruct s; [easy|cbn [length] in L; lia]. }
    rewrite zeqb_list_refl. exists d. split; [easy|]. split; [easy|]. split; [easy|]. split.
    + intros x _ U. now apply upto_root in U.
    + intros x N _. now apply Hn.
  - destruct (zeqb_list q [47%Z]) eqn:E.
    { apply zeqb_list_true in E. subst q. exists d. split; [easy|]. split; [easy|]. split; [easy|]. split.
      + intros x _ U. now apply upto_root in U.
      + intros x N _. now apply Hn. }
    apply zeqb_list_false in E. destruct (get d q) as [v|] eqn:G.
    { exists d. split; [easy|]. split; [easy|]. split; [easy|].
      assert (Uq : upto q q) by (exists []; split; [now rewrite app_nil_r|easy]).
      split.
      + intros x N U. destruct N. apply (C q Uq); [now exists v|exact U].
      + intros x N _. now apply Hn. }
    destruct (parent_step q Q) as (Ln & Qn & St). specialize (St E).
    set (next := before_last_slash (removelast q) ++ [47%Z]) in *.
    destruct Ln as [Ln|Ln]; [|easy].
    assert (Nq : ~ has d q) by (intros (v & H); congruence).
    destruct (IH next (set d q None) Qn ltac:(lia)) as (d' & Ed & Nd & H1 & H2 & H3).
    { intros k U Hk x Ux. rewrite has_set in Hk |- *. right. destruct Hk as [->|Hk].
      - exfalso. destruct U as (r & Er & _). apply (f_equal (@length Z)) in Er. rewrite app_length in Er. lia.
      - apply (C k); try easy. apply St. now right. }
    exists d'. split; [exact Ed|]. split; [intros N; apply Nd; now apply set_NoDup|].
    split; [|split].
    + intros x Hx. rewrite H1 by (apply has_set; now right). rewrite get_set.
      destruct (zeqb_list x q) eqn:Eq; [|easy]. apply zeqb_list_true in Eq. now subst x.
    + intros x Nx U. apply St in U. destruct U as [->|U].
      * rewrite H1 by (apply has_set; now left). now rewrite get_set, zeqb_list_refl.
      * destruct (zeqb_list x q) eqn:Eq.
        -- apply zeqb_list_true in Eq. subst x. rewrite H1 by (apply has_set; now left). now rewrite get_set, zeqb_list_refl.
        -- apply zeqb_list_false in Eq. apply H2; [|exact U]. rewrite has_set. intros [?|?]; easy.
    + intros x Nx U. rewrite St in U. apply H3.
      * rewrite has_set. intros [->|?]; [apply U; now left|easy].
      * intros V. apply U. now right.
Qed.

(** directories around the files are there *)
Definition dirs_there (d : files) : Prop := forall p x, has d p -> around x p -> has d x.
Definition all_normal (d : files) : Prop := forall p, has d p -> normal p.

(** what merging the items [l] has to give *)
Definition merged (sel : path -> Prop) (l d d' : files) : Prop :=
  NoDup (map fst d') /\ dirs_there d' /\ all_normal d' /\
  forall p,
    (forall f, In (p, f) l -> sel p -> get d' p = Some f) /\
    ((forall f, In (p, f) l -> ~ sel p) ->
       (forall f, get d p = Some f -> get d' p = Some f) /\
       (get d p = None -> (exists q f, In (q, f) l /\ sel q /\ around p q) -> get d' p = Some None) /\
       (get d p = None -> (forall q f, In (q, f) l -> sel q -> ~ around p q) -> get d' p = None)).

Lemma merge_one_spec matcher sections l (d d1 : files) p f :
  let sel q := match sections with None => True | Some s => selects matcher s q end in
  merged sel l d d1 -> NoDup (map fst (l ++ [(p, f)])) -> normal p ->
  exists d2, merge_one matcher sections (Ok d1) (p, f) = Ok d2 /\ merged sel (l ++ [(p, f)]) d d2.
Proof.
  intros sel (Nd & Dt & An & M) N Np. unfold merge_one. cbn [bind]. unfold path in *.
  assert (Sel : match sections with None => true | Some s => glob_matches matcher s p end = true <-> sel p).
  { unfold sel. destruct sections as [s|]; [apply glob_matches_spec|easy]. }
  destruct (match sections with None => true | Some s => glob_matches matcher s p end) eqn:Es.
  - assert (Sp : sel p) by now apply Sel. clear Sel Es.
    destruct (first_parent p) as (Q & L & Ar). set (q := before_last_slash (rstrip_slash p) ++ [47%Z]) in *.
    destruct (add_parents_spec (length p) q (set d1 p f) Q ltac:(lia)) as (d2 & E & Nd2 & H1 & H2 & H3).
    { intros k U Hk x Ux. apply has_set. right. apply has_set in Hk.
      assert (Ak : around k p) by now apply Ar.
      destruct Ak as (r & Er & (c & Ic & Nc) & Us & Nk).
      assert (Nkp : k <> p).
      { intros ->. rewrite <- (app_nil_r p) in Er at 1. apply app_inv_head in Er. now subst r. }
      destruct Hk as [?|Hk]; [easy|].
      apply (upto_around k x) in Ux; [|rewrite Er in Np; now apply normal_prefix in Np|easy|easy].
      destruct Ux as [->|Ux]; [easy|]. now apply (Dt k). }
    exists d2. split; [exact E|].
    assert (Hp : get d2 p = Some f).
    { rewrite H1 by (apply has_set; now left). now rewrite get_set, zeqb_list_refl. }
    assert (Hkeep : forall x, x <> p -> has d1 x -> get d2 x = get d1 x).
    { intros x Nx Hx. rewrite H1 by (apply has_set; now right). rewrite get_set.
      apply zeqb_list_false in Nx. now rewrite Nx. }
    assert (Hnew : forall x, has d2 x -> x = p \/ has d1 x \/ upto q x).
    { intros x (v & Hv). destruct (zeqb_list x p) eqn:Ex; [left; now apply zeqb_list_true|].
      apply zeqb_list_false in Ex. right. destruct (get d1 x) as [w|] eqn:G; [left; now exists w|]. right.
      assert (Nx : ~ has (set d1 p f) x).
      { rewrite has_set. intros [?|(w & Hw)]; [easy|congruence]. }
      destruct (get d2 x) as [w|] eqn:G2; [|discriminate Hv].
      (* by the third clause, [x] is up to [q] *)
      assert (Dec : upto q x \/ ~ upto q x).
      { unfold upto. clear. destruct (list_eq_dec Z.eq_dec (firstn (length x) q) x) as [E|E].
        - destruct (list_eq_dec Z.eq_dec x [47%Z]) as [E1|E1].
          + right. intros (r & _ & _ & N). easy.
          + destruct x as [|c x] using rev_ind.
            * right. intros (r & _ & (s & Q) & _). now destruct s.
            * clear IHx. destruct (Z.eq_dec c 47) as [->|Nc].
              -- left. exists (skipn (length (x ++ [47%Z])) q). split; [rewrite <- E at 1; now rewrite firstn_skipn|].
                 split; [now exists x|easy].
              -- right. intros (r & _ & (s & Q) & _). apply app_inj_tail in Q. destruct Q as (_ & ->). easy.
        - right. intros (r & Q & _). apply E. rewrite Q. now rewrite firstn_app, firstn_all, Nat.sub_diag, app_nil_r. }
      destruct Dec as [U|U]; [easy|]. rewrite (H3 x Nx U) in G2. discriminate G2. }
    split; [apply Nd2; now apply set_NoDup|]. split; [|split].
    + intros k x Hk A. destruct (Hnew k Hk) as [->|[Hk'|U]].
      * apply Ar in A. destruct (get (set d1 p f) x) as [v|] eqn:G.
        -- exists v. rewrite H1; [easy|now exists v].
        -- exists None. apply H2; [|exact A]. intros (v & Hv). congruence.
      * pose proof (Dt k x Hk' A) as (v & Hv). destruct (zeqb_list x p) eqn:Ex.
        -- apply zeqb_list_true in Ex. subst x. now exists f.
        -- apply zeqb_list_false in Ex. exists v. rewrite (Hkeep x Ex); [easy|now exists v].
      * assert (A' : upto q x).
        { apply (upto_trans q k); [exact U|]. destruct A as (r & Er & _ & U'). exists r. split; [exact Er|exact U']. }
        destruct (get (set d1 p f) x) as [v|] eqn:G.
        -- exists v. rewrite H1; [easy|now exists v].
        -- exists None. apply H2; [|exact A']. intros (v & Hv). congruence.
    + intros k Hk. destruct (Hnew k Hk) as [->|[Hk'|U]]; [exact Np|now apply An|].
      apply Ar in U. destruct U as (r & Er & _). rewrite Er in Np. now apply normal_prefix in Np.
    + intros x. destruct (zeqb_list x p) eqn:Ex.
      * apply zeqb_list_true in Ex. subst x. split.
        -- intros g I _. apply in_app_or in I. destruct I as [I|[[= ->]|[]]]; [|exact Hp]. exfalso.
           rewrite map_app in N. cbn [map fst] in N. apply NoDup_remove_2 in N. apply N. rewrite app_nil_r.
           apply (in_map fst) in I. exact I.
        -- intros Ns. exfalso. apply (Ns f); [apply in_or_app; right; now left|exact Sp].
      * apply zeqb_list_false in Ex. destruct (M x) as (M1 & M2). split.
        -- intros g I Sx. apply in_app_or in I. destruct I as [I|[[= -> ->]|[]]]; [|easy].
           pose proof (M1 g I Sx) as G. rewrite (Hkeep x Ex); [easy|now exists g].
        -- intros Ns. destruct M2 as (M2 & M3 & M4).
           { intros g I. apply (Ns g). apply in_or_app. now left. }
           split; [|split].
           ++ intros g G. rewrite (Hkeep x Ex); [now apply M2|]. exists g. now apply M2.
           ++ intros G (k & g & I & Sk & A). destruct (get d1 x) as [v|] eqn:G1.
              ** rewrite (Hkeep x Ex) by (now exists v). rewrite G1.
                 (* it was added before *)
                 destruct v as [v|]; [|easy]. exfalso.
                 apply in_app_or in I. destruct I as [I|[[= <- <-]|[]]].
                 --- pose proof (M3 G (ex_intro _ k (ex_intro _ g (conj I (conj Sk A))))) as X. discriminate X.
                 --- enough (Y : Some (Some v) = None) by discriminate Y. apply M4; [exact G|]. intros q0 f0 I0 S0 A0.
                     pose proof (M3 G (ex_intro _ q0 (ex_intro _ f0 (conj I0 (conj S0 A0))))) as X. discriminate X.
              ** apply in_app_or in I. destruct I as [I|[[= <- <-]|[]]].
                 --- pose proof (M3 G (ex_intro _ k (ex_intro _ g (conj I (conj Sk A))))) as X. discriminate X.
                 --- apply H2; [|now apply Ar]. rewrite has_set. intros [?|(v & Hv)]; [easy|congruence].
           ++ intros G Na. assert (G1 : get d1 x = None).
              { apply M4; [exact G|]. intros k g I. apply (Na k g). apply in_or_app. now left. }
              apply H3.
              ** rewrite has_set. intros [?|(v & Hv)]; [easy|congruence].
              ** intros U. apply Ar in U. apply (Na p f); [apply in_or_app; right; now left|exact Sp|exact U].
  - assert (Sp : ~ sel p) by (intros H; apply Sel in H; discriminate H). clear Sel Es.
    exists d1. split; [easy|]. split; [exact Nd|]. split; [exact Dt|]. split; [exact An|].
    intros x. destruct (M x) as (M1 & M2). split.
    + intros g I Sx. apply in_app_or in I. destruct I as [I|[[= -> ->]|[]]]; [now apply M1|easy].
    + intros Ns. destruct M2 as (M2 & M3 & M4).
      { intros g I. apply (Ns g). apply in_or_app. now left. }
      split; [exact M2|]. split.
      * intros G (k & g & I & Sk & A). apply M3; [exact G|]. apply in_app_or in I.
        destruct I as [I|[[= <- <-]|[]]]; [now exists k, g|easy].
      * intros G Na. apply M4; [exact G|]. intros k g I. apply (Na k g). apply in_or_app. now left.
Qed.

Lemma merge_spec matcher sections (d src : files) :
  let sel q := match sections with None => True | Some s => selects matcher s q end in
  NoDup (map fst d) -> dirs_there d -> all_normal d ->
  NoDup (map fst src) -> (forall p f, In (p, f) src -> normal p) ->
  exists d', merge_cart64 matcher d src sections = Ok d' /\ merged sel src d d'.
Proof.
  intros sel Nd Dt An Ns Nn. unfold merge_cart64.
  pose proof (sorted_perm src) as P.
  assert (Ns' : NoDup (map fst (sorted src))) by (eapply Permutation_NoDup; [apply Permutation_map, P|exact Ns]).
  assert (Nn' : forall p f, In (p, f) (sorted src) -> normal p).
  { intros p f I. apply (Nn p f). now apply (Permutation_in _ (Permutation_sym P)). }
  assert (G : exists d', fold_left (merge_one matcher sections) (sorted src) (Ok d) = Ok d' /\ merged sel (sorted src) d d').
  { revert Ns' Nn'. generalize (sorted src) as l. intros l. induction l as [|(p, f) l IH] using rev_ind; intros N1 N2.
    - exists d. split; [easy|]. split; [exact Nd|]. split; [exact Dt|]. split; [exact An|]. intros p. split; [easy|].
      intros _. split; [easy|]. split; [|easy]. intros _ (q & f & [] & _).
    - rewrite fold_left_app. cbn [fold_left]. destruct IH as (d1 & E1 & M1).
      + rewrite map_app in N1. clear - N1. induction (map fst l) as [|x m IH]; [constructor|]. cbn [app] in N1.
        inversion N1; subst. constructor; [|now apply IH]. intros I. apply H1. apply in_or_app. now left.
      + intros q g I. apply (N2 q g). apply in_or_app. now left.
      + rewrite E1. apply (merge_one_spec matcher sections l d d1 p f); try easy.
        apply (N2 p f). apply in_or_app. right. now left. }
  destruct G as (d' & E & (M1 & M2 & M3 & M4)). exists d'. split; [exact E|].
  split; [exact M1|]. split; [exact M2|]. split; [exact M3|]. intros p. destruct (M4 p) as (A & B).
  assert (In1 : forall x, In x src -> In x (sorted src)) by (intros; now apply (Permutation_in _ P)).
  assert (In2 : forall x, In x (sorted src) -> In x src) by (intros; now apply (Permutation_in _ (Permutation_sym P))).
  split.
  - intros f I. apply A. now apply In1.
  - intros H. destruct B as (B1 & B2 & B3); [intros f I; exact (H f (In2 _ I))|].
    split; [exact B1|]. split.
    + intros G0 (q & f & I & R). apply B2; [exact G0|]. exists q, f. split; [now apply In1|exact R].
    + intros G0 H0. apply B3; [exact G0|]. intros q f I. apply (H0 q f). now apply In2.
Qed.
End Merge.
