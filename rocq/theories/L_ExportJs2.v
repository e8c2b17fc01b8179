(** Edits of js exports. *)
From Coq Require Import String List.
From Verif Require Import M_Base L_Util S_Fold M_Fold L_Fold M_Num M_Text S_Text L_Text M_Expr M_Export S_Export L_Export L_ExportJs.
Import ListNotations.
Open Scope Z_scope.

Lemma enumerate_ok names : forall i d, NoDup (map fst d ++ names) -> enumerate i names d = d ++ combine names (seq i (length names)).
Proof.
  induction names as [|n names IH]; intros i d N; cbn [enumerate length seq combine]; [now rewrite app_nil_r|].
  rewrite dset_new; [|intros I; apply NoDup_remove_2 in N; apply N; apply in_or_app; now left].
  rewrite IH; [now rewrite <- app_assoc|]. rewrite map_app, <- app_assoc. exact N.
Qed.
Lemma combine_fst (names : list (list Z)) i : map fst (combine names (seq i (length names))) = names.
Proof. revert i. induction names as [|n names IH]; intros i; [reflexivity|]. cbn. now rewrite IH. Qed.
Lemma combine_at (names : list (list Z)) : forall i x n r y, combine names (seq i (length names)) = x ++ (n, r) :: y -> r = (i + length x)%nat.
Proof.
  induction names as [|m names IH]; intros i x n r y E; cbn in E; [destruct x; discriminate|].
  destruct x as [|p x]; injection E as E1 E2; [subst; cbn; lia|]. destruct p. apply IH in E2. cbn. lia.
Qed.

Section JsExport.
Context (int10 : list Z -> option Z) (cart_size : nat) (H10 : decimal_reader int10).
Local Notation im := (js_impl int10 cart_size).

(** the same, in terms of what is read *)
Definition good (a b z : list Z) (bn : bundle) (text : list Z) : Prop :=
  (exists g h, text = a ++ g ++ b ++ h ++ z /\ js_file a g b h z) /\
  NoDup (map fst bn) /\ Forall js_name (map fst bn) /\
  js_parse int10 cart_size text = Ok (map fst bn, concat (map snd bn)) /\
  Forall (fun c => length c = cart_size) (map snd bn) /\ bytes_ok (concat (map snd bn)).

Lemma carts_of text names data : js_parse int10 cart_size text = Ok (names, data) -> NoDup names ->
  get_carts_impl im text = Ok (combine names (seq 0 (length names))).
Proof. intros E N. cbn. unfold js_get_carts. rewrite E. cbn [bind]. now rewrite enumerate_ok. Qed.
Lemma dget_combine names x n y : forall i, NoDup names -> names = x ++ n :: y -> dget (combine names (seq i (length names))) n = Some (i + length x)%nat.
Proof.
  revert names. induction x as [|m x IH]; intros names i N ->; cbn.
  - now rewrite zeqb_list_refl, Nat.add_0_r.
  - inversion_clear N as [|? ? Nm N']. destruct (zeqb_list n m) eqn:E.
    + apply zeqb_list_true in E. subst. elim Nm. apply in_or_app. right. now left.
    + rewrite (IH _ (S i) N' eq_refl). f_equal. lia.
Qed.
Lemma read_of text names data x n y : js_parse int10 cart_size text = Ok (names, data) -> NoDup names -> names = x ++ n :: y ->
  read_cart im text (Some n) = Ok (firstn cart_size (skipn (cart_size * length x) data)).
Proof.
  intros E N En. unfold read_cart. rewrite (carts_of _ _ _ E N). cbn [bind named]. unfold find_cart.
  rewrite (dget_combine names x n y 0 N En). cbn [bind]. cbn [read_impl js_impl]. unfold js_read. rewrite E. reflexivity.
Qed.

Lemma export_good a b z bn text : js_export int10 cart_size a b z bn text -> good a b z bn text.
Proof.
  intros ((g & h & Et & J) & N & F & En & Ls & Rd).
  assert (exists data, js_parse int10 cart_size text = Ok (map fst bn, data)) as (data & Ep).
  { unfold list_carts in Ls. cbn in Ls. unfold js_get_carts, js_parse in Ls |- *. rewrite En in *. cbn [bind] in *.
    destruct (js_data int10 cart_size (length (map fst bn)) text); [eexists; reflexivity|discriminate]. }
  assert (length data = (cart_size * length bn)%nat /\ bytes_ok data) as (Ld & Bd).
  { pose proof Ep as Q. rewrite Et, (js_parse_file int10 cart_size _ _ _ _ _ J) in Q.
    destruct (parse_data int10 cart_size (length (parse_names g)) h) eqn:Ed; [|discriminate]. cbn [bind] in Q. apply Ok_inj in Q.
    injection Q as E1 ->. rewrite E1, map_length in Ed. now apply parse_data_len in Ed. }
  assert (map snd bn = map (fun i => firstn cart_size (skipn (cart_size * i) data)) (seq 0 (length bn))) as Es.
  { assert (forall x y, bn = x ++ y -> map snd y = map (fun i => firstn cart_size (skipn (cart_size * i) data)) (seq (length x) (length y))) as H.
    { intros x y. revert x. induction y as [|(n, c) y IH]; intros x Ex; [reflexivity|]. cbn [map length seq snd]. f_equal.
      - rewrite Forall_forall in Rd. specialize (Rd (n, c)). cbn beta iota in Rd. rewrite Ex in Rd.
        specialize (Rd ltac:(apply in_or_app; right; now left)).
        rewrite (read_of text (map fst bn) data (map fst x) n (map fst y) Ep N) in Rd by (now rewrite Ex, map_app). rewrite map_length in Rd. apply Ok_inj in Rd. now symmetry.
      - rewrite (IH (x ++ [(n, c)])) by (now rewrite <- app_assoc). rewrite app_length. cbn [length]. now rewrite Nat.add_1_r. }
    exact (H [] bn eq_refl). }
  pose proof (slices cart_size _ _ Ld) as Sl. rewrite <- Es in Sl.
  repeat split; [eauto|exact N|exact F|now rewrite <- Sl| |now rewrite <- Sl].
  rewrite Es. apply Forall_forall. intros c I. apply in_map_iff in I as (i & <- & I). apply in_seq in I.
  rewrite firstn_length, skipn_length, Ld. nia.
Qed.
Lemma good_export a b z bn text : good a b z bn text -> js_export int10 cart_size a b z bn text.
Proof.
  intros (Ht & N & F & Ep & Fl & B). repeat split; auto.
  - unfold js_parse in Ep. destruct (js_names text) as [names|]; [|discriminate]. cbn [bind] in Ep.
    destruct (js_data int10 cart_size (length names) text); [|discriminate]. cbn [bind] in Ep. apply Ok_inj in Ep. now injection Ep as ->.
  - unfold list_carts. rewrite (carts_of _ _ _ Ep N). cbn [bind]. now rewrite combine_fst.
  - apply Forall_forall. intros (n, c) I. apply in_split in I as (x & y & ->).
    rewrite (read_of _ _ _ (map fst x) n (map fst y) Ep N) by now rewrite map_app. f_equal. rewrite map_length, <- (map_length snd x), map_app. cbn [map snd].
    rewrite map_app in Fl. apply Forall_app in Fl as (F1 & F2). inversion_clear F2. now apply slice_at.
Qed.

(** writing new names and carts *)
Lemma finish_good a b z bn text bn' : good a b z bn text -> NoDup (map fst bn') -> Forall js_name (map fst bn') ->
  Forall (fun c => length c = cart_size) (map snd bn') -> bytes_ok (concat (map snd bn')) ->
  exists text', js_finish text (map fst bn') (concat (map snd bn')) = Ok text' /\ good a b z bn' text'.
Proof.
  intros ((g & h & -> & J) & _) N F Fl B. destruct (js_finish_ok a g b h z _ _ J F B) as (E & J').
  eexists. split; [exact E|]. split; [eauto|]. split; [exact N|]. split; [exact F|]. split; [|now split].
  rewrite (js_parse_file int10 cart_size _ _ _ _ _ J'), parse_names_text by exact F.
  rewrite (parse_data_text int10 cart_size H10); [reflexivity|exact B|]. rewrite (concat_len cart_size) by exact Fl. now rewrite !map_length.
Qed.

Lemma replace_concat x (c : list (list Z)) (d : list (list Z)) y : Forall (fun c => length c = cart_size) (x ++ c ++ y) ->
  replace_between (concat (x ++ c ++ y)) (cart_size * length x) (cart_size * (length x + length c)) (concat d) = concat (x ++ d ++ y).
Proof.
  intros F. apply Forall_app in F as (F1 & F2). apply Forall_app in F2 as (F2 & F3). unfold replace_between.
  rewrite !concat_app. rewrite Nat.mul_add_distr_l, <- (concat_len cart_size x F1), <- (concat_len cart_size c F2).
  rewrite firstn_app, firstn_all, Nat.sub_diag, firstn_O, app_nil_r. f_equal. f_equal.
  rewrite <- app_length, app_assoc, skipn_app, skipn_all, Nat.sub_diag. reflexivity.
Qed.
Lemma insert_split {A} (x y : list A) v i : i = length x -> list_insert (x ++ y) i v = x ++ v :: y.
Proof. intros ->. unfold list_insert. now rewrite firstn_app, firstn_all, Nat.sub_diag, firstn_O, app_nil_r, skipn_app, skipn_all, Nat.sub_diag. Qed.
Lemma delete_split {A} (x y : list A) v i : i = length x -> list_delete (x ++ v :: y) i = x ++ y.
Proof.
  intros ->. unfold list_delete. rewrite firstn_app, firstn_all, Nat.sub_diag, firstn_O, app_nil_r. f_equal.
  change (v :: y) with ([v] ++ y). rewrite app_assoc. replace (S (length x)) with (length (x ++ [v])) by (rewrite app_length; cbn; lia).
  now rewrite skipn_app, skipn_all, Nat.sub_diag.
Qed.
Lemma upd_split {A} (x y : list A) v w i : i = length x -> list_upd (x ++ v :: y) i w = x ++ w :: y.
Proof. intros ->. induction x as [|u x IH]; [reflexivity|]. cbn. now rewrite IH. Qed.

Lemma NoDup_swap {A} (x y : list A) v w : NoDup (x ++ v :: y) -> ~ In w (x ++ v :: y) -> NoDup (x ++ w :: y).
Proof.
  intros N I. apply NoDup_remove in N as (N & _). apply (NoDup_Add (Add_app w x y)). split; [exact N|]. intros J. apply I.
  apply in_app_or in J as [J|J]; apply in_or_app; [now left|right; now right].
Qed.

Theorem js_step a b z bn text op : good a b z bn text -> js_op cart_size op ->
  (exists bn' text', edit bn op bn' /\ write_cart im text op = Ok text' /\ good a b z bn' text') \/
  ((exists e, write_cart im text op = Err e) /\ forall bn', ~ edit bn op bn').
Proof.
  intros G (On & Oc). pose proof G as (Ht & N & F & Ep & Fl & B). pose proof (carts_of _ _ _ Ep N) as Eg.
  set (carts := combine (map fst bn) (seq 0 (length (map fst bn)))) in *.
  assert (map fst bn = map fst carts) as Em by (symmetry; apply combine_fst).
  destruct (write_cases im text carts op Eg) as [(Er & Q)|(r & C & ->)].
  { right. split; [exact Er|]. intros bn'. apply Q. exact Em. }
  left. revert On Oc. inversion C as [n c Nn|n t c x i y Ec Nn|name c x n i y Ec Q|name x n i y Ec Q|name m x n i y Ec Q Nn]; subst op; intros On Oc; cbn in On, Oc;
    try rewrite <- Em in Nn; clear C.
  - pose proof (On _ eq_refl) as Jn. pose proof (Oc _ eq_refl) as (Lc & Bc). exists (bn ++ [(n, c)]).
    destruct (finish_good a b z bn text (bn ++ [(n, c)]) G) as (text' & Ef & G').
    { rewrite map_app. cbn. apply (NoDup_Add (a := n) (l := map fst bn)); [|now split]. rewrite <- (app_nil_r (map fst bn)) at 1. apply Add_app. }
    { rewrite map_app. apply Forall_app. split; [exact F|now constructor]. }
    { rewrite map_app. apply Forall_app. split; [exact Fl|now constructor]. }
    { rewrite map_app, concat_app. apply Forall_app. split; [exact B|]. cbn. now rewrite app_nil_r. }
    exists text'. split; [now constructor|]. split; [|exact G']. rewrite <- Ef. cbn [insert_impl js_impl]. unfold js_insert. rewrite Ep. cbn [bind].
    f_equal.
    + rewrite <- (app_nil_r (map fst bn)) at 1. rewrite insert_split by reflexivity. now rewrite map_app.
    + pose proof (replace_concat (map snd bn) [] [c] [] ltac:(now rewrite !app_nil_r)) as R. cbn [concat app length] in R.
      rewrite !app_nil_r, Nat.add_0_r in R. rewrite !map_length in *. rewrite R, map_app. reflexivity.
  - destruct (split_as carts bn x t i y Em Ec) as (x' & ct & y' & -> & Lx & _). pose proof (combine_at _ _ _ _ _ _ Ec) as Ei. cbn [Nat.add] in Ei.
    pose proof (On _ eq_refl) as Jn. pose proof (Oc _ eq_refl) as (Lc & Bc). exists (x' ++ (n, c) :: (t, ct) :: y').
    assert (forall A (f : list Z * list Z -> A), map f (x' ++ (n, c) :: (t, ct) :: y') = map f x' ++ f (n, c) :: map f ((t, ct) :: y')) as Mm by (intros; now rewrite map_app).
    destruct (finish_good a b z _ text (x' ++ (n, c) :: (t, ct) :: y') G) as (text' & Ef & G').
    { rewrite Mm. apply (NoDup_Add (Add_app n _ _)). cbn [fst]. rewrite <- map_app. now split. }
    { rewrite Mm. rewrite map_app in F. apply Forall_app in F as (F1 & F2). apply Forall_app. split; [exact F1|now constructor]. }
    { rewrite Mm. rewrite map_app in Fl. apply Forall_app in Fl as (F1 & F2). apply Forall_app. split; [exact F1|now constructor]. }
    { rewrite Mm, concat_app. cbn [concat snd]. rewrite map_app, concat_app in B. apply Forall_app in B as (B1 & B2).
      apply Forall_app. split; [exact B1|]. apply Forall_app. now split. }
    exists text'. split; [now constructor|]. split; [|exact G']. rewrite <- Ef. cbn [insert_impl js_impl]. unfold js_insert. rewrite Ep. cbn [bind].
    f_equal.
    + rewrite Mm, map_app. apply insert_split. rewrite map_length. lia.
    + rewrite Mm, map_app. cbn [fst snd].
      pose proof (replace_concat (map snd x') [] [c] (map snd ((t, ct) :: y')) ltac:(rewrite map_app in Fl; exact Fl)) as R.
      cbn [concat app length] in R. rewrite Nat.add_0_r, app_nil_r, map_length in R. replace i with (length x') by lia. exact R.
  - destruct (split_as carts bn x n i y Em Ec) as (x' & old & y' & -> & Lx & _). pose proof (combine_at _ _ _ _ _ _ Ec) as Ei. cbn [Nat.add] in Ei.
    pose proof (Oc _ eq_refl) as (Lc & Bc). exists (x' ++ (n, c) :: y').
    assert (map fst (x' ++ (n, c) :: y') = map fst (x' ++ (n, old) :: y')) as Mf by now rewrite !map_app.
    assert (map snd (x' ++ (n, c) :: y') = map snd x' ++ c :: map snd y') as Ms by now rewrite !map_app.
    rewrite map_app in Fl. apply Forall_app in Fl as (F1 & F2). inversion_clear F2 as [|? ? F3 F4].
    destruct (finish_good a b z _ text (x' ++ (n, c) :: y') G) as (text' & Ef & G').
    { now rewrite Mf. } { now rewrite Mf. }
    { rewrite Ms. apply Forall_app. split; [exact F1|now constructor]. }
    { rewrite Ms, concat_app. cbn [concat]. rewrite map_app, concat_app in B. apply Forall_app in B as (B1 & B2). cbn in B2. apply Forall_app in B2 as (_ & B2).
      apply Forall_app. split; [exact B1|]. apply Forall_app. now split. }
    exists text'. split; [|split; [|exact G']].
    { constructor. apply named_as. destruct name; [exact Q|]. subst x. now destruct x'. }
    rewrite <- Ef. cbn [replace_impl js_impl]. unfold js_replace. rewrite Ep. cbn [bind]. f_equal; [now rewrite Mf|].
    rewrite Ms, map_app. cbn [map snd].
    pose proof (replace_concat (map snd x') [old] [c] (map snd y') ltac:(apply Forall_app; split; [exact F1|now constructor])) as R.
    cbn [concat app length] in R. rewrite app_nil_r, map_length, Nat.add_1_r in R. replace i with (length x') by lia. exact R.
  - destruct (split_as carts bn x n i y Em Ec) as (x' & old & y' & -> & Lx & _). pose proof (combine_at _ _ _ _ _ _ Ec) as Ei. cbn [Nat.add] in Ei.
    exists (x' ++ y'). rewrite map_app in N, F, Fl. cbn [map fst snd] in N, F, Fl.
    apply Forall_app in Fl as (F1 & F2). inversion_clear F2 as [|? ? F3 F4]. apply Forall_app in F as (F5 & F6). inversion_clear F6 as [|? ? F7 F8].
    destruct (finish_good a b z _ text (x' ++ y') G) as (text' & Ef & G').
    { rewrite map_app. now apply NoDup_remove_1 in N. }
    { rewrite map_app. apply Forall_app. now split. }
    { rewrite map_app. apply Forall_app. now split. }
    { rewrite map_app, concat_app in B |- *. apply Forall_app in B as (B1 & B2). cbn in B2. apply Forall_app in B2 as (_ & B2). apply Forall_app. now split. }
    exists text'. split; [|split; [|exact G']].
    { eapply edit_delete. apply named_as. destruct name; [exact Q|]. subst x. now destruct x'. }
    rewrite <- Ef. cbn [delete_impl js_impl]. unfold js_delete. rewrite Ep. cbn [bind]. rewrite !map_app. cbn [map fst snd]. f_equal.
    + apply delete_split. rewrite map_length. lia.
    + pose proof (replace_concat (map snd x') [old] [] (map snd y') ltac:(apply Forall_app; split; [exact F1|now constructor])) as R.
      cbn [concat app length] in R. rewrite map_length, Nat.add_1_r in R. replace i with (length x') by lia. exact R.
  - destruct (split_as carts bn x n i y Em Ec) as (x' & c & y' & -> & Lx & _). pose proof (combine_at _ _ _ _ _ _ Ec) as Ei. cbn [Nat.add] in Ei.
    pose proof (On _ eq_refl) as Jn. exists (x' ++ (m, c) :: y').
    assert (map snd (x' ++ (m, c) :: y') = map snd (x' ++ (n, c) :: y')) as Ms by now rewrite !map_app.
    rewrite map_app in N, F, Nn. cbn [map fst] in N, F, Nn. apply Forall_app in F as (F5 & F6). inversion_clear F6 as [|? ? F7 F8].
    destruct (finish_good a b z _ text (x' ++ (m, c) :: y') G) as (text' & Ef & G').
    { rewrite map_app. cbn [map fst]. eapply NoDup_swap; eauto. }
    { rewrite map_app. apply Forall_app. split; [exact F5|now constructor]. }
    { now rewrite Ms. } { now rewrite Ms. }
    exists text'. split; [|split; [|exact G']].
    { constructor; [apply named_as; destruct name; [exact Q|]; subst x; now destruct x'|]. unfold has. rewrite map_app. exact Nn. }
    rewrite <- Ef. cbn [rename_impl js_impl]. unfold js_rename. rewrite Ep. cbn [bind]. rewrite Ms. f_equal. rewrite !map_app. cbn [map fst].
    apply upd_split. rewrite map_length. lia.
Qed.
End JsExport.
