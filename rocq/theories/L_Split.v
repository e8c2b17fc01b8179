(** Splitting strings by templates. *)
From Coq Require Import List Arith.
From Verif Require Import M_Base L_Util M_Token L_Str M_Split S_Split.
Import ListNotations.
Open Scope Z_scope.

(** * Induction *)
Section TyInd.
Context (Q : ty -> Prop) (H1 : forall k, Q (TPlain k)) (H2 : forall sep types plural, Forall Q types -> Q (TSplit sep types plural)).
Fixpoint ty_induct (t : ty) : Q t :=
  match t with
  | TPlain k => H1 k
  | TSplit sep types plural => H2 sep types plural ((fix go l : Forall Q l := match l with [] => Forall_nil _ | t :: l => Forall_cons _ (ty_induct t) (go l) end) types)
  end.
End TyInd.
Section TreeInd.
Context (Q : tree -> Prop) (H1 : forall k s, Q (Leaf k s)) (H2 : forall sep l, Forall Q l -> Q (Node sep l)).
Fixpoint tree_induct (t : tree) : Q t :=
  match t with
  | Leaf k s => H1 k s
  | Node sep l => H2 sep l ((fix go l : Forall Q l := match l with [] => Forall_nil _ | t :: l => Forall_cons _ (tree_induct t) (go l) end) l)
  end.
End TreeInd.
Section PartInd.
Context (Q : part -> Prop) (H1 : forall s, Q (PText s)) (H2 : forall sep l types, Forall Q l -> Q (PData sep l types)).
Fixpoint part_induct (t : part) : Q t :=
  match t with
  | PText s => H1 s
  | PData sep l types => H2 sep l types ((fix go l : Forall Q l := match l with [] => Forall_nil _ | t :: l => Forall_cons _ (part_induct t) (go l) end) l)
  end.
End PartInd.

(** * Splitting at separators *)
Lemma prefix_true p s : is_prefix p s = true -> s = p ++ skipn (length p) s.
Proof. unfold is_prefix. intros E. apply zeqb_list_true in E. rewrite E at 1. now rewrite firstn_skipn. Qed.
Lemma prefix_app p s : is_prefix p (p ++ s) = true.
Proof. unfold is_prefix. rewrite firstn_app, Nat.sub_diag, firstn_all, app_nil_r. apply zeqb_list_refl. Qed.
Lemma find_sub_some p : forall s a b, find_sub p s = Some (a, b) -> s = a ++ p ++ b /\ forall x y, s = x ++ p ++ y -> (length a <= length x)%nat.
Proof.
  induction s as [|c s IH]; intros a b E; cbn [find_sub] in E.
  - destruct (is_prefix p []) eqn:Ep; [|discriminate E]. injection E as <- <-. apply prefix_true in Ep. split; [exact Ep|cbn; lia].
  - destruct (is_prefix p (c :: s)) eqn:Ep.
    + injection E as <- <-. apply prefix_true in Ep. split; [exact Ep|cbn; lia].
    + destruct (find_sub p s) as [(a', b')|]; [|discriminate E]. injection E as <- <-. destruct (IH _ _ eq_refl) as (-> & F). split; [reflexivity|].
      intros x y Q. destruct x as [|d x]; [exfalso; cbn [app] in Q; rewrite Q, prefix_app in Ep; discriminate|].
      injection Q as -> Q. cbn. specialize (F _ _ Q). lia.
Qed.
Lemma split_ok sep : sep <> [] -> forall fuel s, (length s < fuel)%nat -> exists ss, split_loop fuel sep s = Ok ss /\ pieces sep ss /\ between sep ss = s.
Proof.
  intros N. induction fuel as [|fuel IH]; intros s L; [lia|]. cbn [split_loop]. destruct (find_sub sep s) as [(a, r)|] eqn:E.
  - destruct (find_sub_some _ _ _ _ E) as (-> & F). destruct (IH r) as (ss & -> & P & B).
    { rewrite !app_length in L. destruct sep; [easy|]. cbn in L. lia. }
    cbn [bind]. exists (a :: ss). split; [reflexivity|]. split.
    + constructor; [|exact P]. intros p q Q. specialize (F p (q ++ r)). apply (f_equal (@length Z)) in Q as Q'. rewrite !app_length in Q'.
      destruct q; [easy|]. cbn in Q'. assert (length a <= length p)%nat; [|lia]. apply F. rewrite app_assoc, Q, <- !app_assoc. reflexivity.
    + cbn [between]. destruct ss; [inversion P|]. now rewrite B.
  - exists [s]. split; [reflexivity|]. split; [|cbn; apply app_nil_r]. constructor. now apply find_sub_none_iff.
Qed.
Lemma py_split_ok sep s : sep <> [] -> exists ss, py_split sep s = Ok ss /\ pieces sep ss /\ between sep ss = s.
Proof. intros N. unfold py_split. destruct sep; [easy|]. apply split_ok; [easy|lia]. Qed.
Lemma app_cut {A} (x y x' y' : list A) : x ++ y = x' ++ y' -> (length x <= length x')%nat -> exists w, x' = x ++ w /\ y = w ++ y'.
Proof.
  revert x'. induction x as [|c x IH]; intros x' E L; [now exists x'|]. destruct x' as [|c' x']; [cbn in L; lia|].
  injection E as <- E. cbn in L. destruct (IH x' E) as (w & -> & ->); [lia|]. now exists w.
Qed.
Lemma first_piece (sep x B x' B' : list Z) : (forall p q, x' ++ sep = p ++ sep ++ q -> q = []) -> x ++ sep ++ B = x' ++ sep ++ B' -> (length x <= length x')%nat -> x = x'.
Proof.
  intros F E L. destruct (app_cut _ _ _ _ E L) as (w & -> & E'). destruct (app_cut sep B (w ++ sep) B') as (v & Ev & _).
  - rewrite <- app_assoc. exact E'.
  - rewrite app_length. lia.
  - rewrite <- app_assoc, Ev in F. specialize (F x v eq_refl). subst v. rewrite app_nil_r in Ev. apply (f_equal (@length Z)) in Ev. rewrite app_length in Ev.
    destruct w; [symmetry; apply app_nil_r|cbn in Ev; lia].
Qed.
Lemma between_cons sep x y l : between sep (x :: y :: l) = x ++ sep ++ between sep (y :: l).
Proof. reflexivity. Qed.
Lemma pieces_ne sep l : pieces sep l -> exists x r, l = x :: r.
Proof. destruct 1; eauto. Qed.
Lemma pieces_unique sep l : sep <> [] -> pieces sep l -> forall l', pieces sep l' -> between sep l = between sep l' -> l = l'.
Proof.
  intros N. induction 1 as [x H|x l H P IH]; intros l' P' E.
  - destruct P' as [x' H'|x' l' H' P']; [cbn in E; rewrite !app_nil_r in E; now subst|].
    destruct (pieces_ne _ _ P') as (y & r & ->). rewrite between_cons in E. cbn in E. rewrite app_nil_r in E. now apply H in E.
  - destruct (pieces_ne _ _ P) as (y & r & ->). rewrite between_cons in E. destruct P' as [x' H'|x' l' H' P'].
    + cbn in E. rewrite app_nil_r in E. symmetry in E. now apply H' in E.
    + destruct (pieces_ne _ _ P') as (y' & r' & ->). rewrite between_cons in E.
      assert (x = x') as <-. { destruct (le_ge_dec (length x) (length x')) as [L|L]; [eapply first_piece; eauto|]. symmetry. eapply first_piece; [exact H|symmetry; exact E|exact L]. }
      apply app_inv_head in E. apply app_inv_head in E. f_equal. now apply IH.
Qed.
Lemma join_between sep l : join sep l = between sep l.
Proof. induction l as [|x [|y l] IH]; [reflexivity|cbn; now rewrite app_nil_r|]. rewrite between_cons, <- IH. reflexivity. Qed.

(** * Types of the parts *)
Lemma repeat_partial_nth {A} (m : list A) : forall count k j, (k < length m)%nat -> (j < count)%nat ->
  nth_error (repeat_partial m count k) j = nth_error m ((k + j) mod length m).
Proof.
  induction count as [|count IH]; intros k j Lk Lj; [lia|]. cbn [repeat_partial]. destruct (nth_error m k) as [x|] eqn:E; [|apply nth_error_None in E; lia].
  destruct j as [|j].
  - cbn [nth_error]. rewrite Nat.add_0_r, Nat.mod_small by lia. easy.
  - cbn [nth_error]. destruct (Nat.eqb_spec (S k) (length m)) as [Em|Nm].
    + rewrite IH by lia. replace (k + S j)%nat with (length m + j)%nat by lia. cbn [Nat.add]. rewrite (Nat.add_comm (length m)).
      replace (j + length m)%nat with (j + 1 * length m)%nat by lia. rewrite Nat.mod_add by lia. reflexivity.
    + rewrite IH by lia. f_equal. f_equal. lia.
Qed.
Lemma repeat_partial_len {A} (m : list A) : forall count k, (k < length m)%nat -> length (repeat_partial m count k) = count.
Proof.
  induction count as [|count IH]; intros k Lk; [reflexivity|]. cbn [repeat_partial]. destruct (nth_error m k) as [x|] eqn:E; [|apply nth_error_None in E; lia].
  cbn [length]. f_equal. apply IH. destruct (Nat.eqb_spec (S k) (length m)); lia.
Qed.
Lemma repeat_partial_map {A B} (f : A -> B) (m : list A) : forall count k, map f (repeat_partial m count k) = repeat_partial (map f m) count k.
Proof.
  induction count as [|count IH]; intros k; [reflexivity|]. cbn [repeat_partial]. rewrite nth_error_map. destruct (nth_error m k); [|reflexivity]. cbn. now rewrite IH, map_length.
Qed.
Lemma map_rep {A B} (f : A -> B) x n : map f (repeat x n) = repeat (f x) n.
Proof. induction n as [|n IH]; [reflexivity|]. cbn. now rewrite IH. Qed.
Lemma types_map {A B} (f : A -> B) none n types plural : get_types_of_len (f none) n (map f types) plural = map f (get_types_of_len none n types plural).
Proof.
  unfold get_types_of_len. rewrite map_length. destruct (n =? length types)%nat; [reflexivity|].
  assert (E : match plural with
              | None => if (length types <? n)%nat then map f types ++ repeat (f none) (n - length types) else map f types
              | Some (b, e) => firstn b (map f types) ++ repeat_partial (firstn (e - b) (skipn b (map f types))) (Z.to_nat (Z.of_nat n - zlen (map f types) + Z.of_nat e - Z.of_nat b)) 0 ++ skipn e (map f types)
              end = map f match plural with
              | None => if (length types <? n)%nat then types ++ repeat none (n - length types) else types
              | Some (b, e) => firstn b types ++ repeat_partial (firstn (e - b) (skipn b types)) (Z.to_nat (Z.of_nat n - zlen types + Z.of_nat e - Z.of_nat b)) 0 ++ skipn e types
              end).
  { destruct plural as [(b, e)|].
    - rewrite !map_app, repeat_partial_map, !firstn_map, !skipn_map, !firstn_map. unfold zlen. now rewrite map_length.
    - destruct (length types <? n)%nat; [|reflexivity]. now rewrite map_app, map_rep. }
  cbv zeta. rewrite E, map_length. destruct (n <? _)%nat; [now rewrite firstn_map|reflexivity].
Qed.
Definition plural_ok {A} (types : list A) (plural : option (nat * nat)) : Prop :=
  match plural with Some (b, e) => (b < e <= length types)%nat | None => True end.
Lemma types_len {A} (none : A) n types plural : plural_ok types plural -> length (get_types_of_len none n types plural) = n.
Proof.
  intros P. unfold get_types_of_len. destruct (Nat.eqb_spec n (length types)) as [|Nn]; [easy|]. cbv zeta. destruct plural as [(b, e)|]; cbn in P.
  - set (l := firstn b types ++ _). assert (length l = Nat.max n (b + (length types - e)))%nat as El.
    { unfold l. rewrite !app_length, repeat_partial_len, firstn_length, skipn_length by (rewrite firstn_length, skipn_length; lia). unfold zlen. lia. }
    destruct (Nat.ltb_spec n (length l)); [rewrite firstn_length; lia|lia].
  - destruct (Nat.ltb_spec (length types) n).
    + rewrite app_length, repeat_length. replace (n <? _)%nat with false by lia. rewrite app_length, repeat_length. lia.
    + replace (n <? length types)%nat with true by lia. rewrite firstn_length. lia.
Qed.
Lemma nth_firstn {A} (l : list A) n i : (i < n)%nat -> nth_error (firstn n l) i = nth_error l i.
Proof. revert l i. induction n as [|n IH]; intros l i L; [lia|]. destruct l, i; try reflexivity. cbn. apply IH. lia. Qed.
Lemma nth_skipn {A} (l : list A) n i : nth_error (skipn n l) i = nth_error l (n + i).
Proof. revert l. induction n as [|n IH]; intros l; [reflexivity|]. destruct l; [now destruct i|]. cbn. apply IH. Qed.
Lemma types_nth n types plural i t : plural_ok types plural ->
  (assigned types plural n i t <-> nth_error (get_types_of_len (TPlain None) n types plural) i = Some t).
Proof.
  intros P. pose proof (types_len (TPlain None) n types plural P) as Ln. unfold assigned. destruct (Nat.lt_ge_cases i n) as [Li|Li].
  2:{ assert (nth_error (get_types_of_len (TPlain None) n types plural) i = None) as -> by (apply nth_error_None; lia). split; [lia|discriminate]. }
  enough (match plural with
          | None => nth_error types i = Some t \/ ((length types <= i)%nat /\ t = TPlain None)
          | Some (b, e) => let after := (length types - e)%nat in
              if (i <? b)%nat then nth_error types i = Some t
              else if (b + after <=? n)%nat then
                if (i <? n - after)%nat then nth_error types (b + (i - b) mod (e - b)) = Some t
                else nth_error types (e + (i - (n - after))) = Some t
              else nth_error types (e + (i - b)) = Some t
          end <-> nth_error (get_types_of_len (TPlain None) n types plural) i = Some t) by tauto.
  clear Ln. unfold get_types_of_len. destruct plural as [(b, e)|]; cbn in P; cbv zeta.
  - destruct (Nat.eqb_spec n (length types)) as [En|Nn].
    + destruct (Nat.ltb_spec i b); [easy|]. replace (b + (length types - e) <=? n)%nat with true by lia. destruct (Nat.ltb_spec i (n - (length types - e))).
      * rewrite Nat.mod_small by lia. now replace (b + (i - b))%nat with i by lia.
      * now replace (e + (i - (n - (length types - e))))%nat with i by lia.
    + set (m := firstn (e - b) (skipn b types)). assert (Lm : length m = (e - b)%nat) by (unfold m; rewrite firstn_length, skipn_length; lia).
      set (c := Z.to_nat (Z.of_nat n - zlen types + Z.of_nat e - Z.of_nat b)). assert (Lc : length (repeat_partial m c 0) = c) by (apply repeat_partial_len; lia).
      set (l := firstn b types ++ repeat_partial m c 0 ++ skipn e types).
      assert (nth_error (if (n <? length l)%nat then firstn n l else l) i = nth_error l i) as -> by (destruct (n <? length l)%nat; [now apply nth_firstn|reflexivity]).
      assert (Lb : length (firstn b types) = b) by (rewrite firstn_length; lia). unfold l, zlen in *.
      destruct (Nat.ltb_spec i b); [rewrite nth_error_app1 by lia; now rewrite nth_firstn by lia|]. rewrite nth_error_app2 by lia. rewrite Lb.
      destruct (Nat.leb_spec (b + (length types - e)) n) as [Hn|Hn].
      * destruct (Nat.ltb_spec i (n - (length types - e))).
        -- rewrite nth_error_app1 by lia. rewrite repeat_partial_nth by lia. rewrite Lm. cbn [Nat.add]. unfold m.
           rewrite nth_firstn by (apply Nat.mod_upper_bound; lia). now rewrite nth_skipn.
        -- rewrite nth_error_app2 by lia. rewrite Lc, nth_skipn. replace (i - b - c)%nat with (i - (n - (length types - e)))%nat by lia. easy.
      * rewrite nth_error_app2 by lia. rewrite nth_skipn. replace (i - b - length (repeat_partial m c 0))%nat with (i - b)%nat by lia. easy.
  - destruct (Nat.eqb_spec n (length types)) as [En|Nn]; [split; [|now left]; intros [E|(L & _)]; [exact E|lia]|].
    destruct (Nat.ltb_spec (length types) n) as [L|L].
    + rewrite app_length, repeat_length. replace (n <? _)%nat with false by lia.
      destruct (Nat.lt_ge_cases i (length types)) as [L1|L1].
      * rewrite nth_error_app1 by exact L1. split; [|now left]. intros [E|(Q & _)]; [exact E|lia].
      * rewrite nth_error_app2, nth_error_repeat by lia. rewrite (proj2 (nth_error_None types i)) by exact L1.
        split; [intros [Q|(_ & ->)]; easy|]. intros Q. injection Q as <-. now right.
    + replace (n <? length types)%nat with true by lia. rewrite nth_firstn by exact Li. split; [|now left]. intros [E|(Q & _)]; [exact E|lia].
Qed.
