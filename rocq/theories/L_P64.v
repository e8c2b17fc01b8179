(** Lemmas on Picotron text carts. *)
From Coq Require Import Permutation Sorted.
From Verif Require Import M_Base L_Util M_Fold S_Fold L_Fold M_Text S_Text L_Pre M_Url S_Url L_Url M_Files M_Pxu M_Cart64 L_Cart64 M_P64 S_P64.
Open Scope Z_scope.

Lemma p64_starts p s : starts_with p s = true <-> exists t, s = p ++ t.
Proof. apply starts_with_spec. Qed.
Lemma p64_starts_not p s : (forall t, s <> p ++ t) -> starts_with p s = false.
Proof. intros N. destruct (starts_with p s) eqn:E; [|easy]. apply p64_starts in E as (t & E). now destruct (N t). Qed.

(* ------------------------------------------------------------------ *)
(** * Lines *)
Lemma splitlines_app x : forall cur y, ~ In 13 x -> splitlines cur (x ++ 10 :: y) = split_all 10 cur x ++ splitlines [] y.
Proof.
  induction x as [|c x IH]; intros cur y N; cbn [app splitlines split_all].
  - reflexivity.
  - destruct (Z.eqb_spec c 10); [rewrite IH by firstorder; reflexivity|].
    destruct (Z.eqb_spec c 13) as [->|]; [now destruct N; left|]. apply IH. firstorder.
Qed.

Lemma first_line d : (exists a b, d = a ++ 10 :: b /\ ~ In 10 a) \/ ~ In 10 d.
Proof.
  induction d as [|c d IH]; [now right|]. destruct (Z.eq_dec c 10) as [->|N]; [left; now exists [], d|].
  destruct IH as [(a & b & -> & Na)|Nd].
  - left. exists (c :: a), b. split; [easy|]. intros [->|I]; easy.
  - right. intros [->|I]; easy.
Qed.
Lemma lines_rec (P : list Z -> Prop) : (forall d, ~ In 10 d -> P d) -> (forall a b, ~ In 10 a -> P b -> P (a ++ 10 :: b)) -> forall d, P d.
Proof.
  intros H0 H1 d. remember (length d) as n eqn:E. revert d E. induction n as [n IH] using lt_wf_ind. intros d ->.
  destruct (first_line d) as [(a & b & -> & Na)|Nd]; [|now apply H0]. apply H1; [easy|]. apply (IH (length b)); [|easy].
  rewrite app_length. cbn. lia.
Qed.
Lemma notin_forall (ch : Z) a : ~ In ch a -> Forall (fun c => c <> ch) a.
Proof. intros N. apply Forall_forall. intros x I ->. easy. Qed.
Lemma split_one a : ~ In 10 a -> split_all 10 [] a = [a].
Proof. intros N. now rewrite split_all_none by now apply notin_forall. Qed.
Lemma split_cons a b : ~ In 10 a -> split_all 10 [] (a ++ 10 :: b) = a :: split_all 10 [] b.
Proof. intros N. now rewrite split_all_app by now apply notin_forall. Qed.
Lemma split_ne d : split_all 10 [] d <> [].
Proof. induction d using lines_rec; [now rewrite split_one|now rewrite split_cons]. Qed.
Lemma nl_join_cons l ls : ls <> [] -> nl_join (l :: ls) = l ++ 10 :: nl_join ls.
Proof. now destruct ls. Qed.
Lemma join_split d : nl_join (split_all 10 [] d) = d.
Proof.
  induction d as [d N|a b N IH] using lines_rec; [now rewrite split_one|]. rewrite split_cons by easy.
  rewrite nl_join_cons by apply split_ne. now rewrite IH.
Qed.

(** all lines, each ended by a newline *)
Lemma join_all ls : ls <> [] -> nl_join ls ++ [10] = concat (map (fun l => l ++ [10]) ls).
Proof.
  induction ls as [|l ls IH]; [easy|]. intros _. destruct ls as [|k ls]; [cbn; now rewrite app_nil_r|].
  rewrite nl_join_cons by easy. rewrite <- app_assoc. cbn [app]. rewrite IH by easy. cbn [map concat]. now rewrite <- !app_assoc.
Qed.
Lemma splitlines_all ls : Forall (fun l => ~ In 13 l) ls ->
  splitlines [] (concat (map (fun l => l ++ [10]) ls)) = concat (map (split_all 10 []) ls).
Proof.
  induction 1 as [|l ls N F IH]; [easy|]. cbn [map concat]. rewrite <- app_assoc. cbn [app]. now rewrite splitlines_app, IH.
Qed.

(* ------------------------------------------------------------------ *)
(** * Contents *)
Lemma at_line_spec d : forall start, file_at_line start d = true <->
  (start = true /\ exists b, d = [58;58;32] ++ b) \/ exists a b, d = a ++ [10] ++ [58;58;32] ++ b.
Proof.
  induction d as [|c d IH]; intros start.
  - cbn. rewrite andb_false_r. split; [easy|]. intros [(_ & b & E)|(a & b & E)]; [easy|]. now destruct a.
  - cbn [file_at_line]. rewrite orb_true_iff, andb_true_iff, IH. unfold k_p64_file_prefix at 1. rewrite p64_starts. split.
    + intros [H|[(E & b & ->)|(a & b & ->)]]; [now left| |].
      * apply Z.eqb_eq in E. subst. right. now exists [], b.
      * right. now exists (c :: a), b.
    + intros [H|(a & b & E)]; [now left|]. right. destruct a as [|x a].
      * injection E as -> ->. left. split; [easy|]. now exists b.
      * injection E as -> ->. right. now exists a, b.
Qed.
Lemma at_line_file d : file_at_line true d = true <-> file_line d.
Proof.
  rewrite at_line_spec. unfold file_line. split.
  - intros [(_ & b & ->)|(a & b & ->)]; [now exists [], b|now exists (10 :: a), b].
  - intros (a & b & E). destruct a as [|x a]; injection E as E; [left; split; [easy|now exists b]|]. subst. right. now exists a, b.
Qed.
Lemma bad_coded avoid d : bytes_ok d -> (bad_p64 avoid d = true <-> coded avoid d).
Proof.
  intros B. unfold bad_p64, coded. rewrite orb_true_iff, at_line_file, existsb_exists.
  assert (K : forall c, In c d -> ((if avoid then Z.eqb 0 else max_bad_char) c = true <-> coded_char avoid c)).
  { intros c I. unfold bytes_ok in B. rewrite Forall_forall in B. specialize (B c I). destruct avoid; unfold coded_char, max_bad_char.
    - rewrite Z.eqb_eq. lia.
    - lia. }
  split; (intros [(c & I & E)|H]; [left; exists c; split; [easy|]; now apply K|now right]).
Qed.
Lemma pieces_plain d : ~ file_line d -> Forall (fun l => starts_with k_p64_file_prefix l = false) (split_all 10 [] d).
Proof.
  intros N. assert (E : file_at_line true d = false) by (destruct (file_at_line true d) eqn:E; [now apply at_line_file in E|easy]).
  clear N. induction d as [d N|a b N IH] using lines_rec.
  - rewrite split_one by easy. constructor; [|constructor]. destruct (starts_with _ d) eqn:S; [|easy].
    apply p64_starts in S as (t & ->). exfalso. assert (file_at_line true (k_p64_file_prefix ++ t) = true); [|congruence].
    apply at_line_spec. left. split; [easy|]. now exists t.
  - rewrite split_cons by easy. constructor.
    + destruct (starts_with _ a) eqn:S; [|easy]. apply p64_starts in S as (t & ->). exfalso.
      rewrite <- app_assoc in E. assert (file_at_line true (k_p64_file_prefix ++ t ++ 10 :: b) = true); [|congruence].
      apply at_line_spec. left. split; [easy|]. now exists (t ++ 10 :: b).
    + apply IH. destruct (file_at_line true b) eqn:S; [|easy]. apply at_line_spec in S. exfalso.
      assert (file_at_line true (a ++ 10 :: b) = true); [|congruence]. apply at_line_spec. right.
      destruct S as [(_ & u & ->)|(u & v & ->)]; [now exists a, u|]. exists (a ++ 10 :: u), v. rewrite <- (app_assoc a). reflexivity.
Qed.

Lemma chunks_all n fuel : forall s, (0 < n)%nat -> (length s <= fuel)%nat ->
  concat (chunks fuel n s) = s.
Proof.
  induction fuel as [|fuel IH]; intros s N L; (destruct s as [|c s]; [easy|]); [cbn in L; lia|].
  cbn [chunks concat]. rewrite IH; [apply firstn_skipn|easy|]. rewrite skipn_length. cbn [length] in *. lia.
Qed.
Lemma join_filter (f : Z -> bool) ls : f 10 = false -> filter f (nl_join ls) = filter f (concat ls).
Proof.
  intros E. induction ls as [|l ls IH]; [easy|]. destruct ls as [|k ls]; [cbn; now rewrite app_nil_r|].
  rewrite nl_join_cons by easy. rewrite filter_app. cbn [filter]. rewrite E, IH. cbn [concat]. now rewrite (filter_app f l).
Qed.
Lemma filter_all {A} (f : A -> bool) l : Forall (fun x => f x = true) l -> filter f l = l.
Proof. induction 1 as [|x l E _ IH]; [easy|]. cbn. now rewrite E, IH. Qed.

Lemma b64_forall (P : Z -> Prop) d : (forall v, 0 <= v < 64 -> P (b64c v)) -> P 61 -> bytes_ok d -> Forall P (b64_encode d).
Proof.
  intros H Q. remember (length d) as n eqn:E. assert (L : (length d <= n)%nat) by lia. clear E. revert d L.
  induction n; intros [|a [|b [|c t]]] Hn B; cbn [length] in Hn; try lia; try (apply Forall_nil);
    pose proof (Forall_inv B) as Ha; cbn beta in Ha; apply Forall_inv_tail in B; cbn [b64_encode].
  - repeat apply Forall_cons; try apply Forall_nil; auto; apply H; lia.
  - pose proof (Forall_inv B) as Hb; cbn beta in Hb.
    repeat apply Forall_cons; try apply Forall_nil; auto; apply H; lia.
  - pose proof (Forall_inv B) as Hb; cbn beta in Hb. apply Forall_inv_tail in B.
    pose proof (Forall_inv B) as Hc; cbn beta in Hc. apply Forall_inv_tail in B.
    repeat apply Forall_cons; try (apply H; lia). apply IHn; [lia|assumption].
Qed.
Definition b64_line (c : Z) : Prop := c <> 10 /\ c <> 13 /\ c <> 58.
Lemma b64_lines_all : forallb (fun v => negb (b64c v =? 10) && negb (b64c v =? 13) && negb (b64c v =? 58)) (zrange 64) = true.
Proof. vm_compute. reflexivity. Qed.
Lemma b64_line_ok d : bytes_ok d -> Forall b64_line (b64_encode d).
Proof.
  apply b64_forall; [|unfold b64_line; lia]. intros v H. pose proof (range_sweep 64 _ b64_lines_all v ltac:(lia)) as K.
  cbn beta in K. unfold b64_line. lia.
Qed.
Lemma b64_loose_ok d s : bytes_ok d -> filter (fun c => is_ok (b64_val c) || (c =? 61)) s = b64_encode d -> b64_loose s = Ok d.
Proof. intros B E. unfold b64_loose. rewrite E. now apply b64_roundtrip. Qed.
Lemma b64_filter d : bytes_ok d -> filter (fun c => is_ok (b64_val c) || (c =? 61)) (b64_encode d) = b64_encode d.
Proof.
  intros B. apply filter_all. revert B. apply b64_forall; [|easy]. intros v H. destruct (b64_one v H) as (_ & -> & _). reflexivity.
Qed.

(* ------------------------------------------------------------------ *)
(** * Reading back *)
Section Read.
Context (int10 : list Z -> option Z) (H10 : decimal_reader int10).

Lemma p64_lines_app raw a : forall st b, p64_lines int10 raw st (a ++ b) = (st <- p64_lines int10 raw st a ;; p64_lines int10 raw st b).
Proof.
  induction a as [|l a IH]; intros st b; [easy|]. cbn [app p64_lines]. destruct (p64_line int10 raw st l) as [st'|e]; [|easy].
  cbn [bind]. apply IH.
Qed.
Lemma p64_body p v fs ls : forall acc, Forall (fun l => starts_with k_p64_file_prefix l = false) ls ->
  p64_lines int10 false (mkp64 (Some p) acc v fs) ls = Ok (mkp64 (Some p) (acc ++ ls) v fs).
Proof.
  induction ls as [|l ls IH]; intros acc F; [cbn; now rewrite app_nil_r|]. inversion_clear F as [|? ? Hl Hls]. cbn [p64_lines].
  unfold p64_line. rewrite Hl. cbn [andb p_fspath p_lines p_version p_files bind]. rewrite IH by easy. now rewrite <- app_assoc.
Qed.

Lemma lstrip_id s : (exists c t, s = c :: t /\ ~ white c) -> b_lstrip s = s.
Proof. intros (c & t & -> & N). cbn. unfold b_isspace. unfold white in N. destruct (_ || _) eqn:E; [lia|easy]. Qed.
Lemma strip_id p : line_path p -> b_strip p = p.
Proof.
  intros (A & (c & t & -> & N) & _). unfold b_strip. rewrite (lstrip_id (t ++ [c]) A), lstrip_id; [apply rev_involutive|].
  rewrite rev_unit. now exists c, (rev t).
Qed.

Lemma p64_path st fs p : p64_flush st = Ok fs -> line_path p ->
  p64_line int10 false st (k_p64_file_prefix ++ p) = Ok (mkp64 (Some p) [] (p_version st) fs).
Proof.
  intros Ef Hp. unfold p64_line. replace (starts_with _ _) with true by (symmetry; apply p64_starts; now exists p).
  cbn [andb negb]. rewrite Ef. cbn [bind]. change (skipn 3 _) with p. rewrite strip_id by easy.
  destruct (zeqb_list p k_p64_end_file) eqn:E; [|easy]. apply zeqb_list_true in E. destruct Hp as (_ & _ & _ & _ & N). easy.
Qed.

Lemma file_lines_ok avoid f st fs : text_file avoid f -> p64_flush st = Ok fs ->
  Forall (fun l => ~ In 13 l) (p64_file_lines avoid f) /\
  exists st', p64_lines int10 false st (concat (map (split_all 10 []) (p64_file_lines avoid f))) = Ok st' /\
    p64_flush st' = Ok (set fs (fst f) (snd f)) /\ p_version st' = p_version st.
Proof.
  destruct f as (p, file). intros (Hp & Hf) Ef. unfold p64_file_lines. cbn [map concat fst snd].
  assert (N10 : ~ In 10 (k_p64_file_prefix ++ p)).
  { destruct Hp as (_ & _ & N & _). cbn. intros [|[|[|]]]; easy. }
  assert (N13 : ~ In 13 (k_p64_file_prefix ++ p)).
  { destruct Hp as (_ & _ & _ & N & _). cbn. intros [|[|[|]]]; easy. }
  assert (Pn : p <> []) by (destruct Hp as ((c & t & -> & _) & _); easy).
  rewrite (split_one _ N10). destruct file as [data|].
  - destruct Hf as (Nd & B & C).
    assert (Ed : ends_with [47] p = false).
    { destruct (ends_with [47] p) eqn:E; [|easy]. apply ends_with_spec in E as (q & ->). now destruct (Nd q). }
    assert (G : forall ls data', Forall (fun l => starts_with k_p64_file_prefix l = false) ls -> data' = nl_join ls ->
      (if starts_with k_p64_b64_prefix data' then b64_loose (skipn 4 data') else Ok data') = Ok data ->
      exists st', p64_lines int10 false st (((k_p64_file_prefix ++ p) :: []) ++ ls) = Ok st' /\
        p64_flush st' = Ok (set fs p (Some data)) /\ p_version st' = p_version st).
    { intros ls data' F -> E. cbn [app p64_lines]. rewrite (p64_path st fs p Ef Hp). cbn [bind]. rewrite p64_body by easy.
      eexists. split; [reflexivity|]. cbn [app]. split; [|easy]. unfold p64_flush. cbn [p_fspath p_lines p_files].
      destruct p as [|c p]; [easy|]. rewrite Ed. cbn zeta. rewrite E. reflexivity. }
    destruct (bad_p64 avoid data) eqn:Bad.
    + (* base64 *)
      set (s := k_p64_b64_prefix ++ b64_encode data).
      assert (Fs : Forall b64_line s).
      { unfold s. apply Forall_app. split; [|now apply b64_line_ok]. repeat (constructor; [unfold b64_line; lia|]). constructor. }
      pose proof (chunks_all 76 (length s) s ltac:(lia) ltac:(lia)) as Cs. set (cs := chunks (length s) 76 s) in *.
      assert (Fc : Forall (Forall b64_line) cs).
      { apply Forall_forall. intros x Ix. apply Forall_forall. intros c Ic. rewrite Forall_forall in Fs. apply Fs. rewrite <- Cs.
        apply in_concat. now exists x. }
      assert (Sc : concat (map (split_all 10 []) cs) = cs).
      { clear -Fc. induction Fc as [|x cs F _ IH]; [easy|]. cbn [map concat]. rewrite IH, split_one; [easy|].
        intros I. rewrite Forall_forall in F. destruct (F _ I). lia. }
      split.
      { constructor; [easy|]. eapply Forall_impl; [|exact Fc]. cbn. intros x F I. rewrite Forall_forall in F. destruct (F _ I). lia. }
      rewrite Sc. assert (C0 : exists c cs', cs = (k_p64_b64_prefix ++ c) :: cs').
      { unfold cs, s. destruct (length (k_p64_b64_prefix ++ b64_encode data)) eqn:El; [cbn in El; lia|].
        unfold k_p64_b64_prefix. cbn [app chunks]. exists (firstn 72 (b64_encode data)). eexists. reflexivity. }
      destruct C0 as (c & cs' & Ec). apply (G cs (nl_join cs)).
      * eapply Forall_impl; [|exact Fc]. cbn beta. intros x F. apply p64_starts_not. intros t ->. inversion F as [|? ? Q _]. destruct Q. lia.
      * easy.
      * assert (J : exists r, nl_join cs = k_p64_b64_prefix ++ r).
        { rewrite Ec. destruct cs' as [|k cs']; [now exists c|]. rewrite nl_join_cons by easy. rewrite <- app_assoc. eexists. reflexivity. }
        destruct J as (r & J). rewrite J. replace (starts_with _ _) with true by (symmetry; apply p64_starts; now exists r).
        change (skipn 4 _) with r. apply b64_loose_ok; [easy|].
        set (g := fun c0 => _). pose proof (join_filter g cs eq_refl) as Jf. rewrite Cs, J in Jf. unfold s in Jf.
        rewrite !filter_app in Jf. apply app_inv_head in Jf. rewrite Jf. unfold g. now apply b64_filter.
    + (* as it is *)
      assert (Nc : ~ coded avoid data) by (intros Q; apply bad_coded in Q; [congruence|easy]).
      destruct C as [C|(Nr & Nb)]; [easy|]. split; [constructor; [easy|constructor; [easy|constructor]]|].
      cbn [map concat]. rewrite app_nil_r. apply (G (split_all 10 [] data) data).
      * apply pieces_plain. intros Q. apply Nc. now right.
      * now rewrite join_split.
      * now rewrite p64_starts_not.
  - destruct Hf as (q & Eq). split; [now constructor|]. cbn [map concat app p64_lines]. rewrite (p64_path st fs p Ef Hp).
    cbn [bind]. eexists. split; [reflexivity|]. split; [|easy]. unfold p64_flush. cbn [p_fspath p_files]. destruct p; [easy|].
    replace (ends_with _ _) with true by (symmetry; apply ends_with_spec; now exists q). reflexivity.
Qed.

Lemma files_lines_ok avoid files : forall st fs, Forall (text_file avoid) files -> NoDup (map fst fs ++ map fst files) ->
  p64_flush st = Ok fs ->
  Forall (fun l => ~ In 13 l) (concat (map (p64_file_lines avoid) files)) /\
  exists st', p64_lines int10 false st (concat (map (split_all 10 []) (concat (map (p64_file_lines avoid) files)))) = Ok st' /\
    p64_flush st' = Ok (fs ++ files) /\ p_version st' = p_version st.
Proof.
  induction files as [|f files IH]; intros st fs F Nd Ef.
  - split; [constructor|]. exists st. cbn. now rewrite app_nil_r.
  - inversion_clear F as [|? ? Hf Hfs]. destruct (file_lines_ok avoid f st fs Hf Ef) as (A & st' & E & Ef' & Ev).
    assert (Nf : ~ In (fst f) (map fst fs)).
    { cbn [map] in Nd. apply NoDup_remove_2 in Nd. intros I. apply Nd. apply in_or_app. now left. }
    rewrite set_new in Ef' by easy. rewrite <- surjective_pairing in Ef'.
    destruct (IH st' (fs ++ [f]) Hfs) as (B & st2 & E2 & Ef2 & Ev2); [|easy|].
    { rewrite map_app. rewrite <- app_assoc. exact Nd. }
    cbn [map concat]. split; [apply Forall_app; easy|]. exists st2. rewrite map_app, concat_app, p64_lines_app, E. cbn [bind].
    split; [exact E2|]. split; [rewrite Ef2, <- app_assoc; reflexivity|congruence].
Qed.

Lemma b_split_word w : forall cur, w <> [] \/ cur <> [] -> Forall (fun c => b_isspace c = false) w -> b_split cur w = [rev cur ++ w].
Proof.
  induction w as [|c w IH]; intros cur N F; cbn [b_split].
  - destruct cur; [now destruct N|]. now rewrite app_nil_r.
  - inversion_clear F as [|? ? Hc Hw]. rewrite Hc, IH by (auto; right; easy). cbn [rev]. now rewrite <- app_assoc.
Qed.

Theorem p64_roundtrip avoid cart version : text_files avoid (c64_files cart) -> 0 <= c64_version cart ->
  read_cart64_from_source int10 version false (write_cart64_to_source avoid cart) =
    Ok (mkcart64 (c64_version cart) (sorted_by preview_leb (c64_files cart))).
Proof.
  destruct cart as (v, files). cbn [c64_files c64_version]. intros (Nd & F) Hv. unfold write_cart64_to_source. cbn [c64_files c64_version].
  pose proof (sorted_by_perm preview_leb files) as P. set (fs := sorted_by preview_leb files) in *.
  apply (Permutation_Forall P) in F. assert (Nd' : NoDup (map fst fs)) by (refine (Permutation_NoDup _ Nd); now apply Permutation_map).
  rewrite join_all by easy. unfold read_cart64_from_source. cbn [orb].
  destruct (Z.ltb_spec v 0); [lia|]. pose proof (dec_str_ok v Hv) as D.
  destruct (files_lines_ok avoid fs (mkp64 None [k_p64_prefix ++ p64_url; []] v []) [] F Nd' eq_refl) as (A & st & E & Ef & Ev).
  destruct D as (Dn & Dc & D2). pose proof (H10 _ _ (conj Dn (conj Dc D2))) as Ei.
  set (vline := p64_version ++ dec_str v).
  assert (V10 : ~ In 10 vline /\ ~ In 13 vline).
  { rewrite Forall_forall in Dc. unfold vline. split; intros I; apply in_app_or in I as [I|I]; try (apply Dc in I; lia); cbn in I; lia. }
  assert (Sd : Forall (fun c => b_isspace c = false) (dec_str v)).
  { eapply Forall_impl; [|exact Dc]. cbn. intros c Hc. unfold b_isspace. lia. }
  rewrite splitlines_all.
  2:{ constructor; [cbn; lia|]. constructor; [apply V10|]. constructor; [easy|]. apply Forall_app. split; [exact A|].
      constructor; [cbn; lia|constructor]. }
  cbn [app map concat]. rewrite (split_one (k_p64_prefix ++ p64_url)) by (cbn; lia). rewrite (split_one vline) by apply V10.
  rewrite (split_one []) by easy. rewrite (map_app (split_all 10 [])), (concat_app (map (split_all 10 []) _)). cbn [map concat]. rewrite (split_one (k_p64_file_prefix ++ k_p64_end_file)) by (cbn; lia).
  rewrite app_nil_r. replace (starts_with k_p64_prefix _) with true.
  2:{ symmetry. apply p64_starts. rewrite <- !app_assoc. eexists. reflexivity. }
  cbn [negb andb]. cbn [app p64_lines].
  replace (p64_line int10 false (mkp64 None [] version []) (k_p64_prefix ++ p64_url)) with (Ok (mkp64 None [k_p64_prefix ++ p64_url] version [])) by reflexivity.
  cbn [bind].
  replace (p64_line int10 false (mkp64 None [k_p64_prefix ++ p64_url] version []) vline) with (Ok (mkp64 None [k_p64_prefix ++ p64_url] v [])).
  2:{ unfold p64_line. replace (starts_with k_p64_file_prefix vline) with false by reflexivity. cbn [andb p_fspath].
      replace (starts_with p64_version vline) with true by reflexivity. cbn iota.
      assert (Bs : b_split [] vline = [[118;101;114;115;105;111;110]; dec_str v]).
      { unfold vline, p64_version. cbn [app b_split b_isspace Z.leb Z.eqb Z.compare Pos.compare Pos.compare_cont Pos.eqb andb orb rev].
        rewrite b_split_word; auto. }
      rewrite Bs, Ei. reflexivity. }
  cbn [bind].
  replace (p64_line int10 false (mkp64 None [k_p64_prefix ++ p64_url] v []) []) with (Ok (mkp64 None [k_p64_prefix ++ p64_url; []] v [])) by reflexivity.
  cbn [bind]. rewrite p64_lines_app, E. cbn [bind p64_lines app]. cbn [app] in Ef.
  assert (El : p64_line int10 false st (k_p64_file_prefix ++ k_p64_end_file) = Ok (mkp64 None [] (p_version st) fs)).
  { unfold p64_line. replace (starts_with _ _) with true by reflexivity. cbn [andb negb]. rewrite Ef. reflexivity. }
  rewrite El. cbn [bind p_fspath p_version p_files]. now rewrite Ev.
Qed.
End Read.

(* ------------------------------------------------------------------ *)
(** * The order *)
Lemma split_last_app a b : ~ In 47 b -> split_last_slash (a ++ 47 :: b) = (a, b).
Proof.
  intros N. unfold split_last_slash, before_last_slash. rewrite rev_app_distr. cbn [rev]. rewrite <- app_assoc. cbn [app].
  assert (Nr : ~ In 47 (rev b)) by now rewrite <- in_rev.
  assert (K : forall r z, ~ In 47 r -> drop_to_slash (r ++ 47 :: z) = z /\ upto_slash (r ++ 47 :: z) = r).
  { clear. induction r as [|c r IH]; intros z N; cbn [app drop_to_slash upto_slash]; [easy|].
    destruct (Z.eqb_spec c 47) as [->|]; [now destruct N; left|]. destruct (IH z) as (-> & ->); [firstorder|easy]. }
  destruct (K (rev b) (rev a) Nr) as (-> & ->). now rewrite !rev_involutive.
Qed.
Lemma last_slash p : ~ In 47 p \/ exists a b, p = a ++ 47 :: b /\ ~ In 47 b.
Proof.
  induction p as [|c p IH] using rev_ind; [now left|]. destruct (Z.eq_dec c 47) as [->|N]; [right; now exists p, []|].
  destruct IH as [Np|(a & b & -> & Nb)].
  - left. rewrite in_app_iff. cbn. intuition.
  - right. exists a, (b ++ [c]). split; [now rewrite <- app_assoc|]. rewrite in_app_iff. cbn. intuition.
Qed.
Lemma preview_trans {A} (x y z : list Z * A) : preview_leb x y = true -> preview_leb y z = true -> preview_leb x z = true.
Proof.
  unfold preview_leb. destruct (preview_key (fst x)) as ((d, o), f), (preview_key (fst y)) as ((d', o'), f'), (preview_key (fst z)) as ((d2, o2), f2).
  intros E1 E2. refine (str_lex_trans _ _ _ _ _ _ E1 E2 _). clear. intros E1 E2.
  apply orb_true_iff in E1, E2. apply orb_true_iff. rewrite !andb_true_iff in *.
  destruct E1 as [E1|(E1 & L1)], E2 as [E2|(E2 & L2)]; try (left; lia). right. split; [lia|]. now apply (str_leb_trans f f').
Qed.
Lemma preview_total {A} (x y : list Z * A) : preview_leb x y = false -> preview_leb y x = true.
Proof.
  unfold preview_leb. destruct (preview_key (fst x)) as ((d, o), f), (preview_key (fst y)) as ((d', o'), f').
  intros E. refine (str_lex_total _ _ _ _ E _). clear. intros E. apply orb_false_iff in E as (E1 & E2).
  apply orb_true_iff. destruct (Z.eqb_spec o o') as [->|]; [|left; lia]. right. rewrite Z.eqb_refl. now apply str_leb_total.
Qed.
Lemma sorted_parents_first avoid fs : Forall (text_file avoid) fs -> parents_first (sorted_by preview_leb fs).
Proof.
  intros F d p file Id Ip Np. pose proof (sorted_by_perm preview_leb fs) as P.
  apply (sorted_by_before preview_leb preview_total preview_trans).
  - now apply (Permutation_in _ (Permutation_sym P)).
  - now apply (Permutation_in _ (Permutation_sym P)).
  - apply (Permutation_in _ (Permutation_sym P)) in Id. rewrite Forall_forall in F. destruct (F _ Id) as (_ & q & ->).
    clear - Np. unfold preview_leb. cbn [fst]. rewrite <- app_assoc. cbn [app].
    assert (Kd : preview_key (q ++ [47]) = (q, -3, [])) by (unfold preview_key; now rewrite split_last_dir).
    rewrite Kd. unfold preview_key. destruct (last_slash p) as [N|(a & b & -> & N)].
    + rewrite split_last_app by easy. unfold str_lex. rewrite zeqb_list_refl. destruct (zeqb_list p []) eqn:E; [apply zeqb_list_true in E; easy|].
      repeat match goal with |- context [if ?b then _ else _] => destruct b; [reflexivity|] end. reflexivity.
    + change (q ++ 47 :: a ++ 47 :: b) with (q ++ (47 :: a) ++ 47 :: b). rewrite app_assoc, split_last_app by easy. unfold str_lex.
      destruct (zeqb_list (q ++ 47 :: a) q) eqn:E.
      { apply zeqb_list_true in E. rewrite <- (app_nil_r q) in E at 2. apply app_inv_head in E. discriminate E. }
      destruct (str_leb _ q) eqn:E2; [|easy]. apply str_leb_prefix in E2. discriminate E2.
Qed.
