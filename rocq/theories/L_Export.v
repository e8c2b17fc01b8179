(** Edits of sets of carts. *)
From Coq Require Import String List.
From Verif Require Import M_Base L_Util M_Text M_Expr M_Export S_Export.
Import ListNotations.
Open Scope Z_scope.

Lemma dget_none {A} (d : dict A) k : ~ In k (map fst d) -> dget d k = None.
Proof.
  induction d as [|(k', v) d IH]; intros N; [reflexivity|]. cbn [dget]. destruct (zeqb_list k k') eqn:E.
  - apply zeqb_list_true in E. subst. elim N. now left.
  - apply IH. intros I. apply N. now right.
Qed.
Lemma dget_split {A} (d : dict A) k v : dget d k = Some v -> exists x y, d = x ++ (k, v) :: y /\ ~ In k (map fst x).
Proof.
  induction d as [|(k', v') d IH]; cbn [dget]; [discriminate|]. destruct (zeqb_list k k') eqn:E.
  - apply zeqb_list_true in E. intros [= ->]. subst. exists [], d. split; [reflexivity|intros []].
  - intros Ev. destruct (IH Ev) as (x & y & -> & N). exists ((k', v') :: x), y. split; [reflexivity|]. intros [F|I]; [|auto].
    cbn in F. subst. now rewrite zeqb_list_refl in E.
Qed.
Lemma dget_in {A} (d : dict A) k : In k (map fst d) -> exists v, dget d k = Some v.
Proof.
  intros I. destruct (dget d k) eqn:E; [eauto|]. exfalso. induction d as [|(k', v) d IH]; [easy|]. cbn [dget] in E.
  destruct (zeqb_list k k') eqn:Ek; [discriminate|]. destruct I as [F|I]; [|auto]. cbn in F. subst. now rewrite zeqb_list_refl in Ek.
Qed.
Lemma dset_new {A} (d : dict A) k v : ~ In k (map fst d) -> dset d k v = d ++ [(k, v)].
Proof.
  induction d as [|(k', v') d IH]; intros N; [reflexivity|]. cbn [dset]. destruct (zeqb_list k k') eqn:E.
  - apply zeqb_list_true in E. subst. elim N. now left.
  - cbn. rewrite IH; [reflexivity|]. intros I. apply N. now right.
Qed.

(** What [write_cart] does: nothing, when there is nothing to do, or one call. *)
Inductive call {St R} (im : impl St R) (st : St) (carts : dict R) : cart_op -> res St -> Prop :=
| call_append n c : ~ In n (map fst carts) -> call im st carts (OInsert n None c) (insert_impl im st None n c)
| call_insert n t c x r y : carts = x ++ (t, r) :: y -> ~ In n (map fst carts) ->
    call im st carts (OInsert n (Some t) c) (insert_impl im st (Some r) n c)
| call_replace name c x n r y : carts = x ++ (n, r) :: y -> match name with Some m => n = m | None => x = [] end ->
    call im st carts (OReplace name c) (replace_impl im st r c)
| call_delete name x n r y : carts = x ++ (n, r) :: y -> match name with Some m => n = m | None => x = [] end ->
    call im st carts (ODelete name) (delete_impl im st r)
| call_rename name m x n r y : carts = x ++ (n, r) :: y -> match name with Some m => n = m | None => x = [] end -> ~ In m (map fst carts) ->
    call im st carts (ORename name m) (rename_impl im st r m).

Lemma found {R} (carts : dict R) name :
  (exists e, (nm <- named carts name ;; find_cart carts nm)%res = Err e /\ forall b n c x y, map fst b = map fst carts -> b = x ++ (n, c) :: y -> ~ is_named b name n) \/
  (exists x n r y, (nm <- named carts name ;; find_cart carts nm)%res = Ok r /\ carts = x ++ (n, r) :: y /\ match name with Some m => n = m | None => x = [] end).
Proof.
  destruct name as [m|]; cbn [named bind].
  - unfold find_cart. destruct (dget carts m) as [r|] eqn:E.
    + right. destruct (dget_split _ _ _ E) as (x & y & -> & _). exists x, m, r, y. auto.
    + left. eexists. split; [reflexivity|]. intros b n c x y Em -> ->. destruct (dget_in carts m) as (v & Ev); [|congruence].
      rewrite <- Em, map_app. apply in_or_app. right. now left.
  - destruct carts as [|(k, r) carts]; cbn [default_cart bind].
    + left. eexists. split; [reflexivity|]. intros b n c x y Em ->. destruct x; discriminate.
    + right. exists [], k, r, carts. split; [|auto]. unfold find_cart. cbn [dget]. now rewrite zeqb_list_refl.
Qed.

Lemma write_cases {St R} (im : impl St R) st carts op : get_carts_impl im st = Ok carts ->
  ((exists e, write_cart im st op = Err e) /\ forall b b', map fst b = map fst carts -> ~ edit b op b') \/
  (exists r, call im st carts op r /\ write_cart im st op = r).
Proof.
  intros G. unfold write_cart. rewrite G. cbn [bind]. destruct op as [n t c|name c|name|name m].
  - unfold contains_cart. destruct (dget carts n) as [v|] eqn:En.
    { left. split; [eauto|]. intros b b' Em E. destruct (dget_split _ _ _ En) as (x & y & -> & _).
      assert (In n (map fst b)) as I by (rewrite Em, map_app; apply in_or_app; right; now left).
      inversion E; subst; auto. }
    assert (~ In n (map fst carts)) as Nn by (intros I; destruct (dget_in _ _ I); congruence).
    destruct t as [t|]; cbn [bind].
    + unfold find_cart. destruct (dget carts t) as [r|] eqn:Et; cbn [bind].
      * right. destruct (dget_split _ _ _ Et) as (x & y & Ex & _). eexists. split; [eapply call_insert; eauto|reflexivity].
      * left. split; [eauto|]. intros b b' Em E. inversion E; subst. destruct (dget_in carts t) as (v & Ev); [|congruence].
        rewrite <- Em, map_app. apply in_or_app. right. now left.
    + right. eexists. split; [now apply call_append|reflexivity].
  - destruct (found carts name) as [(e & Ee & Q)|(x & n & r & y & Er & Ex & Q)].
    + left. split.
      * destruct (named carts name) as [nm|]; cbn [bind] in *; [|eauto]. rewrite Ee. cbn. eauto.
      * intros b b' Em E. inversion E; subst. eapply Q; [exact Em|reflexivity|assumption].
    + right. eexists. split; [eapply call_replace; eauto|]. destruct (named carts name) as [nm|]; cbn [bind] in *; [|discriminate]. now rewrite Er.
  - destruct (found carts name) as [(e & Ee & Q)|(x & n & r & y & Er & Ex & Q)].
    + left. split.
      * destruct (named carts name) as [nm|]; cbn [bind] in *; [|eauto]. rewrite Ee. cbn. eauto.
      * intros b b' Em E. inversion E; subst. eapply Q; [exact Em|reflexivity|assumption].
    + right. eexists. split; [eapply call_delete; eauto|]. destruct (named carts name) as [nm|]; cbn [bind] in *; [|discriminate]. now rewrite Er.
  - destruct (found carts name) as [(e & Ee & Q)|(x & n & r & y & Er & Ex & Q)].
    + left. split.
      * destruct (named carts name) as [nm|]; cbn [bind] in *; [|eauto]. rewrite Ee. cbn. eauto.
      * intros b b' Em E. inversion E; subst. eapply Q; [exact Em|reflexivity|assumption].
    + destruct (named carts name) as [nm|]; cbn [bind] in *; [|discriminate]. rewrite Er. cbn [bind].
      unfold contains_cart. destruct (dget carts m) as [v|] eqn:Ec.
      * left. split; [eauto|]. intros b b' Em E. destruct (dget_split _ _ _ Ec) as (x' & y' & Ex' & _).
        assert (In m (map fst b)) as I by (rewrite Em, Ex', map_app; apply in_or_app; right; now left).
        inversion E; subst; auto.
      * right. eexists. split; [eapply call_rename; eauto|reflexivity]. intros I. destruct (dget_in _ _ I); congruence.
Qed.

(** matching the carts with what they hold *)
Lemma split_as {R} (carts : dict R) (b : bundle) x n r y : map fst b = map fst carts -> carts = x ++ (n, r) :: y ->
  exists x' c y', b = x' ++ (n, c) :: y' /\ length x' = length x /\ length y' = length y /\ map fst x' = map fst x.
Proof.
  intros E ->. revert b E. induction x as [|p x IH]; intros b E; destruct b as [|(m, c) b]; try discriminate; cbn in E; injection E as E1 E2.
  - subst. exists [], c, b. repeat split. apply (f_equal (@length _)) in E2. now rewrite !map_length in E2.
  - destruct (IH b E2) as (x' & c' & y' & -> & L1 & L2 & M). exists ((m, c) :: x'), c', y'. subst. cbn. repeat split; auto; congruence.
Qed.
Lemma named_as (x : bundle) name n c y : match name with Some m => n = m | None => x = [] end -> is_named (x ++ (n, c) :: y) name n.
Proof. destruct name; [auto|]. intros ->. cbn. eauto. Qed.

(** * Fixed-size slices *)
Lemma skipn_add {A} x : forall y (l : list A), skipn (x + y) l = skipn y (skipn x l).
Proof. induction x as [|x IH]; intros y l; [reflexivity|]. destruct l; cbn [Nat.add skipn]; [now rewrite skipn_nil|apply IH]. Qed.
Lemma concat_len {A} (s : nat) (l : list (list A)) : Forall (fun x => length x = s) l -> length (concat l) = (s * length l)%nat.
Proof. induction 1 as [|x l E _ IH]; cbn; [lia|]. rewrite app_length, IH, E. nia. Qed.
Lemma slice_at {A} (s : nat) (x : list (list A)) c y : Forall (fun x => length x = s) x -> length c = s ->
  firstn s (skipn (s * length x) (concat (x ++ c :: y))) = c.
Proof.
  intros F L. rewrite concat_app. cbn [concat]. rewrite <- (concat_len s x F).
  rewrite skipn_app, skipn_all, Nat.sub_diag. cbn [app skipn]. rewrite firstn_app, <- L, firstn_all, Nat.sub_diag, firstn_O. apply app_nil_r.
Qed.
Lemma slices {A} (s : nat) : forall n (data : list A), length data = (s * n)%nat ->
  data = concat (map (fun i => firstn s (skipn (s * i) data)) (seq 0 n)).
Proof.
  induction n as [|n IH]; intros data L.
  - rewrite Nat.mul_0_r in L. destruct data; [reflexivity|discriminate].
  - cbn [seq map concat]. rewrite Nat.mul_0_r. cbn [skipn]. rewrite <- seq_shift, map_map.
    rewrite <- (firstn_skipn s data) at 1. f_equal. rewrite (IH (skipn s data)) at 1 by (rewrite skipn_length; nia).
    f_equal. apply map_ext. intros i. f_equal. replace (s * S i)%nat with (s + s * i)%nat by lia. symmetry. apply skipn_add.
Qed.
