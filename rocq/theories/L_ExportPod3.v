(** Edits of pod exports. *)
From Coq Require Import String List.
From Verif Require Import M_Base L_Util M_Num M_Text M_Lz4 M_Pxu M_Zbytes P_Zbytes M_Expr M_P64 M_Cart64 M_Export S_Export L_Export L_ExportPod L_ExportPod2.
Import ListNotations.
Open Scope Z_scope.

(** the carts with their places *)
Fixpoint refs (i : nat) (es : list entry) : dict (nat * list Z) :=
  match es with
  | [] => []
  | e :: es => map (fun '(n, b) => (n, (i, b))) (cart_of (item_of e)) ++ refs (S i) es
  end.
Lemma cart_of_cases it : cart_of it = [] \/ exists n b, it = (Some n, CFile b) /\ n <> [] /\ cart_of it = [(n, b)].
Proof. destruct it as ([[|x n]|], [b|? ? ? ?|?]); cbn; auto. right. exists (x :: n), b. repeat split. discriminate. Qed.
Lemma cart_of_some n b : n <> [] -> cart_of (Some n, CFile b) = [(n, b)].
Proof. now destruct n. Qed.
Lemma carts_app x y : S_Export.carts (x ++ y) = S_Export.carts x ++ S_Export.carts y.
Proof. apply flat_map_app. Qed.
Lemma others_app x y : others (x ++ y) = others x ++ others y.
Proof. apply filter_app. Qed.

Lemma refs_fst es : forall i, map fst (refs i es) = map fst (S_Export.carts (map item_of es)).
Proof.
  induction es as [|e es IH]; intros i; [reflexivity|]. cbn [refs map]. change (S_Export.carts (item_of e :: map item_of es)) with (cart_of (item_of e) ++ S_Export.carts (map item_of es)).
  rewrite !map_app, IH, map_map. f_equal. apply map_ext. now intros (n, b).
Qed.
Lemma pod_carts_ok es : forall i d, NoDup (map fst d ++ map fst (S_Export.carts (map item_of es))) -> pod_carts i es d = d ++ refs i es.
Proof.
  induction es as [|e es IH]; intros i d N; cbn [pod_carts refs]; [now rewrite app_nil_r|]. cbn [map] in N.
  change (S_Export.carts (item_of e :: map item_of es)) with (cart_of (item_of e) ++ S_Export.carts (map item_of es)) in N. rewrite map_app in N.
  unfold item_of in N at 1. unfold item_of at 1. destruct (e_name e) as [[|x n]|], (e_content e) as [b|? ? ? ?|?]; cbn [cart_of map app] in *; try (apply IH; exact N).
  cbn [fst] in N. rewrite dset_new; [|intros I; apply NoDup_remove_2 in N; apply N; apply in_or_app; now left].
  rewrite IH; [now rewrite <- app_assoc|]. rewrite map_app, <- app_assoc. exact N.
Qed.
Lemma refs_split es : forall i x n j b y, refs i es = x ++ (n, (j, b)) :: y ->
  exists ex e ey, es = ex ++ e :: ey /\ j = (i + length ex)%nat /\ item_of e = (Some n, CFile b) /\ n <> [] /\
    map fst x = map fst (S_Export.carts (map item_of ex)) /\ length x = length (S_Export.carts (map item_of ex)).
Proof.
  induction es as [|e es IH]; intros i x n j b y E; cbn [refs] in E; [destruct x; discriminate|].
  destruct (cart_of_cases (item_of e)) as [C|(m & c & Ei & Nm & C)]; rewrite C in E; cbn [map app] in E.
  - destruct (IH _ _ _ _ _ _ E) as (ex & e' & ey & -> & -> & I & Nn & Mx & Lx). exists (e :: ex), e', ey. cbn [map length].
    change (S_Export.carts (item_of e :: map item_of ex)) with (cart_of (item_of e) ++ S_Export.carts (map item_of ex)). rewrite C. cbn [app].
    repeat split; auto. lia.
  - destruct x as [|p x].
    + injection E as E1 E2 E3 E4. subst. exists [], e, es. cbn. repeat split; auto.
    + injection E as Ep E. destruct (IH _ _ _ _ _ _ E) as (ex & e' & ey & -> & -> & I & Nn & Mx & Lx). exists (e :: ex), e', ey. cbn [map length].
      change (S_Export.carts (item_of e :: map item_of ex)) with (cart_of (item_of e) ++ S_Export.carts (map item_of ex)). rewrite C. cbn [app map length].
      subst p. cbn [fst]. repeat split; auto; try congruence. lia.
Qed.

(** a name that was read fits *)
Lemma zstr_name utf8 size d n r : r_zstr utf8 size d = Ok (n, r) -> bytes_ok d -> utf8 n = true /\ bytes_ok n /\ ~ In 0 n /\ (length n <= size)%nat.
Proof.
  intros E B. unfold r_zstr, read_zbytes in E. rewrite Nat.mul_1_r in E. apply bind_ok in E as ((s, d') & E & E'). apply bind_ok in E as ((f, d'') & E & E'').
  apply r_bytes_inv in E as (-> & L). change (1 <? 1)%nat with false in E''. cbn [andb] in E''. apply bind_ok in E'' as (v & Ec & E''). apply Ok_inj in E''. injection E'' as -> ->.
  destruct (utf8 s) eqn:Us; [|discriminate]. apply Ok_inj in E'. injection E' as -> ->. split; [exact Us|].
  apply Forall_app in B as (B & _). cbn [cut_loop] in Ec. change (zeros 1) with [0] in Ec. cbn [skipn] in Ec.
  pose proof (find_from_spec [0] f 0) as Q. destruct (find_from [0] f 0) as [j|].
  - destruct Q as (_ & Lj & _ & Q). rewrite Nat.mod_1_r in Ec. cbn [Nat.eqb] in Ec. apply Ok_inj in Ec. subst n. split; [now apply Forall_firstn|].
    split; [|rewrite firstn_length; lia]. intros I. apply (In_nth _ _ 1) in I as (k & Hk & Ek). rewrite firstn_length in Hk. apply (Q k); [lia|].
    rewrite nth_firstn in Ek by lia. clear -Ek Hk. revert k Hk Ek. induction f as [|x f IH]; intros k Hk Ek; [destruct k; discriminate|].
    destruct k as [|k]; [cbn in Ek; now subst|]. cbn [skipn]. apply (IH k); [cbn in Hk; lia|exact Ek].
  - apply Ok_inj in Ec. subst n. split; [exact B|]. split; [|lia]. intros I. apply in_split in I as (x & y & ->). apply (Q (length x)); [rewrite app_length; lia|].
    now rewrite skipn_exact.
Qed.

Lemma read_name utf8 d h n b r : read_entry utf8 d = Ok (h, Some n, CFile b, r) -> bytes_ok d -> utf8 n = true /\ bytes_ok n /\ ~ In 0 n /\ (length n <= 64)%nat.
Proof.
  intros E B. unfold read_entry in E. apply bind_ok in E as ((hd, d1) & E1 & E). apply r_bytes_inv in E1 as (-> & _). apply Forall_app in B as (_ & B).
  destruct (zeqb_list hd k_file_header || zeqb_list hd k_cmpr_file_header).
  - apply bind_ok in E as ((z, d2) & E2 & E). apply local_len4 in E2 as (c2 & -> & _). apply Forall_app in B as (_ & B). apply bind_ok in E as (t & C & E).
    apply bind_ok in E as ((size, d3) & E3 & E). apply local_len4 in E3 as (c3 & -> & _). apply Forall_app in B as (_ & B).
    apply bind_ok in E as ((nm, d4) & E4 & E). apply bind_ok in E as ((b0, d5) & E5 & E). apply Ok_inj in E. injection E as _ -> _ _. now apply zstr_name in E4.
  - exfalso. destruct (zeqb_list hd k_bmp_header || zeqb_list hd k_cmpr_bmp_header).
    + do 5 (apply bind_ok in E as ((? & ?) & _ & E)). apply bind_ok in E as (? & _ & E). apply bind_ok in E as ((? & ?) & _ & E). apply bind_ok in E as (? & _ & E).
      apply bind_ok in E as ((? & ?) & _ & E). apply bind_ok in E as (ct & F & E). apply Ok_inj in E. discriminate.
    + destruct (zeqb_list hd k_pal_header); [|discriminate]. apply bind_ok in E as ((? & ?) & _ & E). apply bind_ok in E as (? & _ & E).
      apply bind_ok in E as ((? & ?) & _ & E). apply Ok_inj in E. discriminate.
Qed.
Lemma replace_ok utf8 p x e0 y n c : sound utf8 p -> p_entries p = x ++ e0 :: y -> e_name e0 = Some n -> fits utf8 (Some n, CFile c) -> u32_ok (zlen (p_entries p)) ->
  exists p', replace_content p (length x) (CFile c) = Ok p'.
Proof.
  intros So Ep En F U. unfold replace_content. rewrite Ep, nth_error_app2, Nat.sub_diag by lia. cbn [nth_error].
  assert (exists p', (p0 <- delete_content p (length x) ;; insert_content p0 (length x) (e_name e0) (CFile c) false)%res = Ok p') as Again.
  { destruct (delete_ok utf8 p (length x) So) as (p1 & E1); [rewrite Ep, app_length; cbn; lia|exact U|]. rewrite E1. cbn [bind].
    destruct (delete_built utf8 _ _ _ _ _ _ So Ep eq_refl E1) as (S1 & y1 & Ep1 & (_ & I1 & _)). rewrite En.
    apply (insert_ok utf8); [exact S1|exact F| |discriminate]. apply (f_equal (@length _)) in I1. rewrite !map_length in I1.
    rewrite Ep1. rewrite Ep in U. unfold u32_ok, zlen in *. rewrite app_length in *. cbn [length] in U. lia. }
  destruct (e_content e0); [|exact Again|exact Again]. destruct (_ && _); [eauto|exact Again].
Qed.

Section PodExport.
Context (utf8 : list Z -> bool) (cart_size : nat) (Hs : Z.of_nat cart_size < 4294967296).
Local Notation im := pod_impl.
Local Notation export := (pod_export utf8 cart_size).

Lemma pod_carts_of bn rest p : export bn rest p -> get_carts_impl im p = Ok (refs 0 (p_entries p)) /\ map fst bn = map fst (refs 0 (p_entries p)).
Proof.
  intros (_ & <- & _ & N & _). split; [|now rewrite refs_fst]. cbn. unfold pod_get_carts. now rewrite pod_carts_ok.
Qed.
Lemma pod_shows bn rest p : export bn rest p -> shows im p bn.
Proof.
  intros H. destruct (pod_carts_of _ _ _ H) as (G & Em). destruct H as (_ & Ec & _ & N & _). split.
  - unfold list_carts. rewrite G. cbn [bind]. now rewrite Em.
  - apply Forall_forall. intros (n, c) I. unfold read_cart. rewrite G. cbn [bind named]. unfold find_cart.
    destruct (dget (refs 0 (p_entries p)) n) as [(j, b)|] eqn:E.
    + change (Ok b = Ok c). f_equal. destruct (dget_split _ _ _ E) as (x & y & Er & _). destruct (refs_split _ _ _ _ _ _ _ Er) as (ex & e & ey & Ee & _ & Ie & Nn & Mx & Lx).
      assert (In (n, b) bn) as I'. { rewrite <- Ec, Ee, map_app, carts_app. apply in_or_app. right. cbn [map]. rewrite Ie. cbn [S_Export.carts flat_map]. rewrite cart_of_some by exact Nn. now left. }
      clear -I I' N. induction bn as [|(m, d) bn IH]; [easy|]. cbn in N. inversion_clear N as [|? ? N1 N2].
      destruct I as [I|I], I' as [I'|I']; [congruence| | |auto].
      * injection I as -> ->. elim N1. now apply (in_map fst) in I'.
      * injection I' as -> ->. elim N1. now apply (in_map fst) in I.
    + destruct (dget_in (refs 0 (p_entries p)) n) as (v & Ev); [|congruence]. rewrite <- Em. now apply (in_map fst) in I.
Qed.

Lemma cart_item n c : length c = cart_size -> bytes_ok c -> utf8 n = true -> bytes_ok n -> ~ In 0 n -> (length n <= 64)%nat -> fits utf8 (Some n, CFile c).
Proof. intros L B. cbn. repeat split; auto; unfold zlen; lia. Qed.
Lemma items_split p ex e ey n b : p_entries p = ex ++ e :: ey -> item_of e = (Some n, CFile b) -> n <> [] ->
  S_Export.carts (map item_of (p_entries p)) = S_Export.carts (map item_of ex) ++ (n, b) :: S_Export.carts (map item_of ey) /\
  others (map item_of (p_entries p)) = others (map item_of ex) ++ others (map item_of ey).
Proof.
  intros -> I N. rewrite map_app, carts_app, others_app. cbn [map]. rewrite I. cbn [S_Export.carts flat_map others filter]. rewrite cart_of_some by exact N. now split.
Qed.

Theorem pod_step bn rest p op : export bn rest p -> pod_op utf8 cart_size op -> u32_ok (zlen (p_entries p) + 1) ->
  (exists bn' p', edit bn op bn' /\ write_cart im p op = Ok p' /\ export bn' rest p' /\ (length (p_entries p') <= S (length (p_entries p)))%nat) \/
  ((exists e, write_cart im p op = Err e) /\ forall bn', ~ edit bn op bn').
Proof.
  intros H (On & Oc) U. destruct (pod_carts_of _ _ _ H) as (G & Em). pose proof H as (So & Ec & Eo & N & Fl).
  destruct (write_cases im p _ op G) as [(Er & Q)|(r & C & ->)].
  { right. split; [exact Er|]. intros bn'. apply Q. exact Em. }
  left. assert (exists st, st = p) as (st & Est) by eauto. rewrite <- Est in C at 1.
  assert (Hcut : forall x n j b y, refs 0 (p_entries p) = x ++ (n, (j, b)) :: y -> exists ex e ey, p_entries p = ex ++ e :: ey /\ j = length ex /\
    item_of e = (Some n, CFile b) /\ n <> [] /\ length x = length (S_Export.carts (map item_of ex)) /\
    bn = S_Export.carts (map item_of ex) ++ (n, b) :: S_Export.carts (map item_of ey) /\ rest = others (map item_of ex) ++ others (map item_of ey)).
  { intros x n j b y E. destruct (refs_split _ _ _ _ _ _ _ E) as (ex & e & ey & Ee & -> & Ie & Nn & Mx & Lx).
    destruct (items_split p ex e ey n b Ee Ie Nn) as (A1 & A2). exists ex, e, ey. rewrite <- Ec, <- Eo, A1, A2. repeat split; auto. }
  revert On Oc. inversion C as [n c Nn|n t c x (i, bt) y Ex Nn|name c x n (i, b) y Ex Q|name x n (i, b) y Ex Q|name m x n (i, b) y Ex Q Nn]; subst op; intros On Oc; cbn in On, Oc; subst st;
    try rewrite <- Em in Nn; clear C.
  - destruct (On _ eq_refl) as (Ne & Un & Bn & N0 & Ln). destruct (Oc _ eq_refl) as (Lc & Bc). pose proof (cart_item n c Lc Bc Un Bn N0 Ln) as F.
    cbn [insert_impl pod_impl]. unfold pod_insert.
    destruct (insert_ok utf8 p (length (p_entries p)) (Some n) (CFile c) false So F U ltac:(discriminate)) as (p' & E).
    destruct (insert_built utf8 p (p_entries p) [] _ _ _ _ p' So (eq_sym (app_nil_r _)) eq_refl F I E) as (So' & e & x' & y' & Ep & Ie & (I1 & I2 & _)).
    destruct y'; [|discriminate]. destruct (items_split p' x' e [] n c Ep Ie Ne) as (A1 & A2). rewrite I1, Ec in A1. rewrite I1, Eo in A2. cbn in A1, A2. rewrite app_nil_r in A2.
    exists (bn ++ [(n, c)]), p'. split; [now constructor|]. split; [exact E|]. split.
    + split; [exact So'|]. split; [exact A1|]. split; [exact A2|]. split.
      * rewrite map_app. cbn. apply (NoDup_Add (a := n) (l := map fst bn)); [|now split]. rewrite <- (app_nil_r (map fst bn)) at 1. apply Add_app.
      * apply Forall_app. split; [exact Fl|now constructor].
    + apply (f_equal (@length _)) in I1. rewrite !map_length in I1. rewrite Ep, app_length. cbn. lia.
  - destruct (On _ eq_refl) as (Ne & Un & Bn & N0 & Ln). destruct (Oc _ eq_refl) as (Lc & Bc). pose proof (cart_item n c Lc Bc Un Bn N0 Ln) as F.
    cbn [insert_impl pod_impl]. unfold pod_insert. destruct (Hcut _ _ _ _ _ Ex) as (ex & et & ey & Ee & -> & Iet & Nt & Lx & Eb & Er).
    destruct (insert_ok utf8 p (length ex) (Some n) (CFile c) false So F U ltac:(discriminate)) as (p' & E).
    destruct (insert_built utf8 p ex (et :: ey) _ _ _ _ p' So Ee eq_refl F I E) as (So' & e & x' & y' & Ep & Ie & (I1 & I2 & _)).
    destruct (items_split p' x' e y' n c Ep Ie Ne) as (A1 & A2). rewrite I1, I2 in A1, A2. cbn [map] in A1, A2. rewrite Iet in A1, A2.
    cbn [S_Export.carts flat_map others filter] in A1, A2. rewrite cart_of_some in A1, A2 by exact Nt. cbn [app] in A1.
    eexists. exists p'. split; [rewrite Eb; apply edit_insert with (n := n) (c := c); now rewrite <- Eb|]. split; [exact E|]. split.
    + split; [exact So'|]. split; [exact A1|]. split; [now rewrite Er|]. rewrite Eb in N, Fl, Nn. rewrite map_app in N, Nn |- *. split.
      * cbn [map fst] in *. apply (NoDup_Add (Add_app n _ _)). now split.
      * apply Forall_app in Fl as (F1 & F2). apply Forall_app. split; [exact F1|now constructor].
    + apply (f_equal (@length _)) in I1, I2. rewrite !map_length in *. rewrite Ep, Ee, !app_length. cbn [length] in *. lia.
  - destruct (Oc _ eq_refl) as (Lc & Bc). cbn [replace_impl pod_impl]. unfold pod_replace. destruct (Hcut _ _ _ _ _ Ex) as (ex & e0 & ey & Ee & -> & Ie0 & Ne & Lx & Eb & Er).
    assert (length b = cart_size) as Lb by (rewrite Eb in Fl; apply Forall_app in Fl as (_ & Fl); now inversion_clear Fl).
    rewrite Lc, Lb, Nat.eqb_refl. cbn [negb].
    assert (exists n0, e_name e0 = Some n0 /\ n0 = n) as (n0 & En0 & ->) by (injection Ie0 as -> _; eauto).
    assert (e_content e0 = CFile b) as Ec0 by now injection Ie0.
    assert (fits utf8 (Some n, CFile c)) as F.
    { destruct (cut_at utf8 p ex e0 ey So Ee) as (hd & jk & cx & c0 & cy & b1 & B & Lcx & Sp & Bc0 & Eb1 & Ed & Lp).
      pose proof (Sp []) as R. rewrite Ec0, En0, app_nil_r in R. destruct (read_name utf8 c0 _ n b [] R Bc0) as (Q1 & Q2 & Q3 & Q4). now apply cart_item. }
    destruct (replace_ok utf8 p ex e0 ey n c So Ee En0 F ltac:(unfold u32_ok, zlen in *; lia)) as (p' & E).
    destruct (replace_built utf8 p ex e0 ey _ (CFile c) p' So Ee eq_refl ltac:(now rewrite En0) I E) as (So' & e & x' & y' & Ep & Ie & (I1 & I2 & _)).
    rewrite En0 in Ie. destruct (items_split p' x' e y' n c Ep Ie Ne) as (A1 & A2). rewrite I1, I2 in A1, A2.
    eexists. exists p'. split.
    { rewrite Eb. apply edit_replace with (c := c). apply named_as. destruct name; [exact Q|]. subst x. cbn in Lx. destruct (S_Export.carts (map item_of ex)); [reflexivity|discriminate]. }
    split; [exact E|]. split.
    + split; [exact So'|]. split; [exact A1|]. split; [now rewrite Er|]. rewrite Eb in N, Fl. rewrite map_app in N |- *. split; [exact N|].
      apply Forall_app in Fl as (F1 & F2). inversion_clear F2. apply Forall_app. split; [exact F1|now constructor].
    + apply (f_equal (@length _)) in I1, I2. rewrite !map_length in *. rewrite Ep, Ee, !app_length. cbn [length] in *. lia.
  - cbn [delete_impl pod_impl]. unfold pod_delete. cbn [fst]. destruct (Hcut _ _ _ _ _ Ex) as (ex & e0 & ey & Ee & -> & Ie0 & Ne & Lx & Eb & Er).
    destruct (delete_ok utf8 p (length ex) So ltac:(rewrite Ee, app_length; cbn; lia) ltac:(unfold u32_ok, zlen in *; lia)) as (p' & E).
    destruct (delete_built utf8 p ex e0 ey _ p' So Ee eq_refl E) as (So' & y' & Ep & (_ & I2 & _)).
    assert (A1 : S_Export.carts (map item_of (p_entries p')) = S_Export.carts (map item_of ex) ++ S_Export.carts (map item_of ey)) by (rewrite Ep, map_app, carts_app; now rewrite I2).
    assert (A2 : others (map item_of (p_entries p')) = rest) by (rewrite Ep, map_app, others_app, I2; now rewrite Er).
    eexists. exists p'. split.
    { rewrite Eb. eapply edit_delete. apply named_as. destruct name; [exact Q|]. subst x. cbn in Lx. destruct (S_Export.carts (map item_of ex)); [reflexivity|discriminate]. }
    split; [exact E|]. split.
    + split; [exact So'|]. split; [exact A1|]. split; [exact A2|]. rewrite Eb in N, Fl. rewrite map_app in N |- *. cbn [map fst] in N. split; [now apply NoDup_remove_1 in N|].
      apply Forall_app in Fl as (F1 & F2). inversion_clear F2. apply Forall_app. now split.
    + apply (f_equal (@length _)) in I2. rewrite !map_length in *. rewrite Ep, Ee, !app_length. cbn [length] in *. lia.
  - destruct (On _ eq_refl) as (Nm & Um & Bm & M0 & Lm). cbn [rename_impl pod_impl]. unfold pod_rename. cbn [fst]. destruct (Hcut _ _ _ _ _ Ex) as (ex & e0 & ey & Ee & -> & Ie0 & Ne & Lx & Eb & Er).
    assert (e_content e0 = CFile b) as Ec0 by now injection Ie0.
    assert (exists p', rename_content p (length ex) m = Ok p') as (p' & E).
    { unfold rename_content. rewrite Ee, nth_error_app2, Nat.sub_diag by lia. cbn [nth_error]. rewrite Ec0. destruct (name_written utf8 m 64 Lm) as (nb & ->). cbn. eauto. }
    destruct (rename_built utf8 p ex e0 ey b _ m p' So Ee eq_refl Ec0 Um Bm M0 E) as (So' & e & Ep & Ie & _).
    destruct (items_split p' ex e ey m b Ep Ie Nm) as (A1 & A2).
    eexists. exists p'. split.
    { rewrite Eb. apply edit_rename with (m := m); [|now rewrite <- Eb]. apply named_as. destruct name; [exact Q|]. subst x. cbn in Lx. destruct (S_Export.carts (map item_of ex)); [reflexivity|discriminate]. }
    split; [exact E|]. split.
    + split; [exact So'|]. split; [exact A1|]. split; [now rewrite Er|]. rewrite Eb in N, Fl, Nn. rewrite map_app in N, Nn |- *. cbn [map fst] in *. split.
      * apply NoDup_remove in N as (N & _). apply (NoDup_Add (Add_app m _ _)). split; [exact N|]. intros J. apply Nn.
        apply in_app_or in J as [J|J]; apply in_or_app; [now left|right; now right].
      * apply Forall_app in Fl as (F1 & F2). inversion_clear F2. apply Forall_app. split; [exact F1|now constructor].
    + rewrite Ep, Ee, !app_length. cbn [length]. lia.
Qed.
End PodExport.
