(** The arrays of a js export and what is written into them. *)
From Coq Require Import String List.
From Verif Require Import M_Base L_Util S_Fold M_Fold L_Fold M_Num M_Text S_Text L_Text M_Expr M_Export S_Export.
Import ListNotations.
Open Scope Z_scope.
Notation strip := M_Text.strip.

(** * Finding an array *)

Lemma starts_with_app p s : starts_with p (p ++ s) = true.
Proof. unfold starts_with. rewrite firstn_app, Nat.sub_diag, firstn_all, firstn_O, app_nil_r. apply zeqb_list_refl. Qed.
Lemma lit_app p s : lit p (p ++ s) = Some (p, s).
Proof. unfold lit. rewrite starts_with_app. now rewrite skipn_app, Nat.sub_diag, skipn_all. Qed.
Lemma lit_some p s a b : lit p s = Some (a, b) -> a = p /\ s = p ++ b.
Proof.
  unfold lit, starts_with. destruct (zeqb_list p (firstn (length p) s)) eqn:E; [|discriminate]. intros [= <- <-].
  apply zeqb_list_true in E. split; [reflexivity|]. rewrite E at 1. symmetry. apply firstn_skipn.
Qed.
Lemma skip_spaces_split s : s = fst (skip_spaces s) ++ snd (skip_spaces s) /\ blank (fst (skip_spaces s)).
Proof.
  induction s as [|c s (IH & B)]; [now split; [|constructor]|]. cbn [skip_spaces].
  destruct (py_isspace c) eqn:E; [|now split; [|constructor]]. destruct (skip_spaces s) as (a, b). cbn [fst snd] in *.
  split; [cbn; congruence|now constructor].
Qed.
(** what follows is not whitespace *)
Definition black (s : list Z) : Prop := match s with c :: _ => py_isspace c = false | [] => False end.
Lemma skip_spaces_app w s : blank w -> black s -> skip_spaces (w ++ s) = (w, s).
Proof.
  intros B K. induction B as [|c w E _ IH]; cbn [app skip_spaces].
  - destruct s as [|c s]; [destruct K|]. cbn in K. cbn [skip_spaces]. now rewrite K.
  - now rewrite E, IH.
Qed.

Section Key.
Context (key : list Z) (Kb : black key) (Ks : ~ In 91 key /\ ~ In 93 key).
Lemma head_complete h r : opening key h -> js_head key (h ++ r) = Some (h, r).
Proof.
  intros (s1 & s2 & s3 & -> & N & B1 & B2 & B3). unfold js_head. rewrite <- !app_assoc, lit_app.
  rewrite skip_spaces_app; [|exact B1|destruct key; [destruct Kb|exact Kb]].
  destruct s1 as [|c s1]; [easy|]. rewrite lit_app, skip_spaces_app by easy.
  rewrite lit_app, skip_spaces_app by easy. now rewrite lit_app.
Qed.
Lemma head_sound s h r : js_head key s = Some (h, r) -> s = h ++ r /\ opening key h.
Proof.
  unfold js_head. destruct (lit _ s) as [(v, t1)|] eqn:E1; [|easy]. apply lit_some in E1 as (-> & ->).
  pose proof (skip_spaces_split t1) as (S1 & B1). destruct (skip_spaces t1) as (s1, t2). cbn [fst snd] in *.
  destruct s1 as [|c s1]; [easy|]. destruct (lit key t2) as [(k, t3)|] eqn:E2; [|easy]. apply lit_some in E2 as (-> & ->).
  pose proof (skip_spaces_split t3) as (S2 & B2). destruct (skip_spaces t3) as (s2, t4). cbn [fst snd] in *.
  destruct (lit _ t4) as [(e, t5)|] eqn:E3; [|easy]. apply lit_some in E3 as (-> & ->).
  pose proof (skip_spaces_split t5) as (S3 & B3). destruct (skip_spaces t5) as (s3, t6). cbn [fst snd] in *.
  destruct (lit _ t6) as [(b, t7)|] eqn:E4; [|easy]. apply lit_some in E4 as (-> & ->). intros [= <- <-].
  split; [|exists (c :: s1), s2, s3; now repeat split]. subst. cbn. repeat (rewrite <- app_assoc; cbn). reflexivity.
Qed.

Lemma blank_not c s : blank s -> py_isspace c = false -> ~ In c s.
Proof. intros B E I. rewrite (proj1 (Forall_forall _ _) B _ I) in E. discriminate. Qed.
(** An opening ends at its only square bracket. *)
Lemma opening_shape h : opening key h -> exists t, h = 118 :: t ++ [91] /\ ~ In 91 t /\ ~ In 93 t.
Proof.
  intros (s1 & s2 & s3 & -> & _ & B1 & B2 & B3). exists ([97; 114] ++ s1 ++ key ++ s2 ++ [61] ++ s3).
  split; [cbn; now rewrite <- !app_assoc|]. destruct Ks as (K1 & K2).
  assert (forall c, In c ([97; 114] ++ s1 ++ key ++ s2 ++ [61] ++ s3) -> (c <> 97 -> c <> 114 -> c <> 61 -> py_isspace c = false -> In c key)) as H.
  { intros c I N1 N2 N3 E. rewrite !in_app_iff in I. cbn in I. destruct I as [I|[I|[I|[I|[I|I]]]]]; try lia; try easy;
      now apply blank_not with (c := c) in I. }
  split; intros I; [apply K1|apply K2]; now apply H.
Qed.

Lemma upto_none s : upto_bracket s = None -> ~ In 93 s.
Proof.
  induction s as [|c s IH]; intros E; [easy|]. cbn [upto_bracket] in E. destruct (Z.eqb_spec c 93) as [|N]; [discriminate|].
  destruct (upto_bracket s) as [(a, b)|]; [discriminate|]. intros [|I]; [lia|]. now apply IH.
Qed.
Lemma upto_in s g z : upto_bracket s = Some (g, z) -> In 93 s.
Proof.
  revert g. induction s as [|c s IH]; intros g E; [discriminate|]. cbn [upto_bracket] in E.
  destruct (Z.eqb_spec c 93); [now left|]. destruct (upto_bracket s) as [(a, b)|]; [|discriminate]. injection E as _ ->. right. now eapply IH.
Qed.
Lemma upto_app g z : ~ In 93 g -> upto_bracket (g ++ 93 :: z) = Some (g, 93 :: z).
Proof.
  induction g as [|c g IH]; intros N; [reflexivity|]. cbn [app upto_bracket]. destruct (Z.eqb_spec c 93) as [->|]; [elim N; now left|].
  rewrite IH; [reflexivity|]. intros I. apply N. now right.
Qed.
Lemma find_complete a g z : array key a g z -> js_find key (a ++ g ++ z) = Some (a, g, z).
Proof.
  intros ((p & h & -> & O & First) & Ng & z' & ->). rewrite <- app_assoc.
  assert (forall p' p1, p = p1 ++ p' -> js_find key (p' ++ h ++ g ++ 93 :: z') = Some (p' ++ h, g, 93 :: z')) as H.
  - induction p' as [|c p' IH]; intros p1 E.
    + cbn [app]. destruct (h ++ g ++ 93 :: z') as [|x t] eqn:Et.
      { destruct h; [|discriminate]. destruct O as (? & ? & ? & O & _). discriminate. }
      cbn [js_find]. rewrite <- Et. rewrite (head_complete _ _ O). now rewrite upto_app.
    + cbn [app js_find]. destruct (js_head key (c :: p' ++ h ++ g ++ 93 :: z')) as [(h', r)|] eqn:Eh.
      * apply head_sound in Eh as (Eh & O'). destruct (upto_bracket r) as [(g', z2)|] eqn:Er.
        { exfalso. assert (In 93 r) as I.
          { now apply upto_in in Er. }
          assert ((length p <= length p1)%nat) as L.
          { apply (First p1 h' r); [|exact O'|exact I]. rewrite E, <- !app_assoc. f_equal. exact Eh. }
          rewrite E, app_length in L. cbn in L. lia. }
        rewrite (IH (p1 ++ [c])); [reflexivity|now rewrite <- app_assoc].
      * rewrite (IH (p1 ++ [c])); [reflexivity|now rewrite <- app_assoc].
  - exact (H p [] eq_refl).
Qed.

Lemma upto_sound s : forall g z, upto_bracket s = Some (g, z) -> s = g ++ z /\ ~ In 93 g /\ exists z', z = 93 :: z'.
Proof.
  induction s as [|c s IH]; intros g z E; [discriminate|]. cbn [upto_bracket] in E. destruct (Z.eqb_spec c 93) as [->|N].
  - injection E as <- <-. split; [reflexivity|]. split; [easy|eauto].
  - destruct (upto_bracket s) as [(a, b)|] eqn:Eu; [|discriminate]. injection E as <- <-. destruct (IH a b eq_refl) as (-> & N2 & Hz).
    split; [reflexivity|]. split; [|exact Hz]. intros [|I]; [lia|auto].
Qed.
Lemma find_sound s : forall a g z, js_find key s = Some (a, g, z) -> s = a ++ g ++ z /\ array key a g z.
Proof.
  assert (forall s a g z h r, js_head key s = Some (h, r) -> upto_bracket r = Some (g, z) -> a = h -> s = a ++ g ++ z /\ array key a g z) as H0.
  { intros s0 a g z h r Eh Eu ->. apply head_sound in Eh as (-> & O). apply upto_sound in Eu as (-> & Ng & Hz). split; [reflexivity|].
    split; [|now split]. exists [], h. split; [reflexivity|]. split; [exact O|]. cbn. lia. }
  induction s as [|c s IH]; intros a g z E; cbn [js_find] in E.
  - destruct (js_head key []) as [(h, r)|] eqn:Eh; [|discriminate]. destruct (upto_bracket r) as [(g', z')|] eqn:Eu; [|discriminate].
    injection E as <- <- <-. eapply H0; eauto.
  - destruct (match js_head key (c :: s) with Some (h, r) => match upto_bracket r with Some (g, z) => Some (h, g, z) | None => None end | None => None end) as [((h, g'), z')|] eqn:Em.
    + injection E as <- <- <-. destruct (js_head key (c :: s)) as [(h', r)|] eqn:Eh; [|discriminate].
      destruct (upto_bracket r) as [(g2, z2)|] eqn:Eu; [|discriminate]. injection Em as <- <- <-. eapply H0; eauto.
    + destruct (js_find key s) as [((a', g'), z')|]; [|discriminate]. injection E as <- <- <-. destruct (IH _ _ _ eq_refl) as (-> & (p & h & -> & O & First) & Ng & Hz).
      split; [reflexivity|]. split; [|now split]. exists (c :: p), h. split; [reflexivity|]. split; [exact O|].
      intros p' h' q E O' I. destruct p' as [|c' p'].
      * exfalso. cbn [app] in E, Em. rewrite E in Em. rewrite (head_complete h' q O') in Em. destruct (upto_bracket q) as [(g2, z2)|] eqn:Eu; [discriminate|].
        now apply upto_none in Eu.
      * injection E as _ E. cbn. apply le_n_S. eapply First; [|exact O'|exact I]. rewrite <- app_assoc in *. exact E.
Qed.

(** [p ++ s = q ++ t] with [p] no longer than [q] *)
Lemma app_prefix {A} (p s q t : list A) : p ++ s = q ++ t -> (length p <= length q)%nat -> exists w, q = p ++ w /\ s = w ++ t.
Proof.
  revert q. induction p as [|c p IH]; intros q E L; [now exists q|]. destruct q as [|d q]; [cbn in L; lia|].
  injection E as -> E. cbn in L. destruct (IH q E) as (w & -> & ->); [lia|]. now exists w.
Qed.
(** The end of an opening is in front of any text put behind its bracket. *)
Lemma before_bracket p h p' h' r q : opening key h -> opening key h' -> (p ++ h) ++ r = p' ++ h' ++ q -> (length p' < length p)%nat ->
  exists w, p ++ h = p' ++ h' ++ w.
Proof.
  intros O O' E L. destruct (le_lt_dec (length (p' ++ h')) (length (p ++ h))) as [Le|Lt].
  - rewrite app_assoc in E. destruct (app_prefix (p' ++ h') q (p ++ h) r (eq_sym E) Le) as (w & -> & _). exists w. now rewrite app_assoc.
  - exfalso. rewrite app_assoc in E. destruct (app_prefix (p ++ h) r (p' ++ h') q E) as (w & Ew & _); [lia|].
    destruct w as [|x w _] using rev_ind; [rewrite app_nil_r in Ew; rewrite Ew in Lt; lia|].
    destruct (opening_shape h O) as (t & Eh & _). destruct (opening_shape h' O') as (t' & Eh' & N' & _). subst h h'.
    assert (Ew2 : (p' ++ 118 :: t') ++ [91] = ((p ++ 118 :: t) ++ 91 :: w) ++ [x]).
    { revert Ew. rewrite <- !app_assoc. cbn [app]. rewrite <- !app_assoc. easy. }
    apply app_inj_tail in Ew2 as (Ew2 & _).
    destruct (app_prefix p' (118 :: t') (p ++ 118 :: t) (91 :: w)) as (u & Eu & Eu').
    { exact Ew2. }
    { rewrite app_length. lia. }
    destruct u as [|y u]; [rewrite Eu' in *|].
    + injection Eu' as E1. discriminate.
    + injection Eu' as _ E1. apply N'. rewrite E1, in_app_iff. right. now left.
Qed.

(** Other text may be put into the array and behind it. *)
Lemma array_fill a g z g' z' : array key a g z -> ~ In 93 g' -> (exists t, z' = 93 :: t) -> array key a g' z'.
Proof.
  intros ((p & h & -> & O & First) & Ng & z0 & ->) Ng' Hz'. split; [|now split]. exists p, h. split; [reflexivity|]. split; [exact O|].
  intros p' h' q E O' I. destruct (le_lt_dec (length p) (length p')) as [|L]; [easy|]. exfalso.
  destruct (before_bracket _ _ _ _ _ _ O O' E L) as (w & Ew).
  assert ((length p <= length p')%nat); [|lia]. apply (First p' h' (w ++ g ++ 93 :: z0)); [|exact O'|].
  - rewrite Ew, <- !app_assoc. reflexivity.
  - rewrite !in_app_iff. right. right. now left.
Qed.

(** Text without brackets may be put in front, where something between brackets was. *)
Lemma array_move a0 g b h z g' : array key (a0 ++ g ++ 93 :: b) h z -> ~ In 91 g' -> ~ In 93 g' ->
  array key (a0 ++ g' ++ 93 :: b) h z.
Proof.
  intros ((p & o & Ea & O & First) & Nh & Hz) N1 N2. split; [|now split].
  destruct (opening_shape o O) as (t & Eo & T1 & T2).
  (* the opening is behind the bracket *)
  assert (exists p1, p = a0 ++ g ++ 93 :: p1 /\ b = p1 ++ o) as (p1 & Ep & Eb).
  { destruct (le_lt_dec (length p) (length (a0 ++ g))) as [Le|Lt].
    - exfalso. assert (Ea' : p ++ o = (a0 ++ g) ++ 93 :: b) by (rewrite <- Ea; now rewrite <- app_assoc).
      destruct (app_prefix _ _ _ _ Ea' Le) as (w & _ & E). assert (In 93 o) as I by (rewrite E, in_app_iff; right; now left).
      rewrite Eo in I. cbn [In] in I. rewrite in_app_iff in I. cbn in I. destruct I as [I|[I|[I|[]]]]; try lia. easy.
    - assert (Ea' : (a0 ++ g ++ [93]) ++ b = p ++ o) by (rewrite <- Ea, <- !app_assoc; reflexivity).
      destruct (app_prefix _ _ _ _ Ea') as (w & -> & ->); [rewrite !app_length in *; cbn; lia|]. exists w.
      split; [|reflexivity]. now rewrite <- !app_assoc. }
  exists (a0 ++ g' ++ 93 :: p1), o. split; [subst b; now rewrite <- !app_assoc|]. split; [exact O|].
  intros p' o' q E O' I. destruct (le_lt_dec (length (a0 ++ g' ++ 93 :: p1)) (length p')) as [|L]; [easy|]. exfalso.
  destruct (opening_shape o' O') as (t' & Eo' & T1' & T2').
  destruct (le_lt_dec (length p') (length (a0 ++ g'))) as [Le|Lt].
  - (* within [a0] *)
    assert (E' : p' ++ (o' ++ q) = (a0 ++ g') ++ 93 :: b ++ h ++ z) by (rewrite <- E; now rewrite <- !app_assoc).
    destruct (app_prefix _ _ _ _ E' Le) as (w & Ew & Eq).
    destruct (le_lt_dec (length o') (length w)) as [Lo|Lo].
    + destruct (app_prefix o' q w _ Eq Lo) as (w2 & -> & _).
      assert (exists w3, a0 = p' ++ o' ++ w3) as (w3 & Ew3).
      { destruct (le_lt_dec (length (p' ++ o')) (length a0)) as [L2|L2].
        - rewrite app_assoc in Ew. destruct (app_prefix _ _ _ _ (eq_sym Ew) L2) as (w3 & -> & _). exists w3. now rewrite app_assoc.
        - exfalso. rewrite app_assoc in Ew. destruct (app_prefix _ _ _ _ Ew) as (w3 & E3 & Eg); [lia|].
          destruct w3 as [|y w3 _] using rev_ind; [rewrite app_nil_r in E3; rewrite E3 in L2; lia|].
          rewrite Eo', app_comm_cons, !app_assoc in E3. apply app_inj_tail in E3 as (_ & <-). apply N1. rewrite Eg, !in_app_iff. left. right. now left. }
      assert ((length p <= length p')%nat) as L3.
      { apply (First p' o' (w3 ++ g ++ 93 :: b ++ h ++ z)); [|exact O'|rewrite !in_app_iff; right; right; now left].
        rewrite Ew3, <- !app_assoc. reflexivity. }
      rewrite Ep, Ew3, !app_length in L3. cbn [length] in L3. lia.
    + destruct (app_prefix w _ o' q (eq_sym Eq)) as (w2 & E2 & E3); [lia|]. destruct w2 as [|y w2]; [rewrite E2, app_nil_r in Lo; lia|].
      injection E3 as <- _. assert (In 93 o') as I2 by (rewrite E2, in_app_iff; right; now left).
      rewrite Eo' in I2. cbn [In] in I2. rewrite in_app_iff in I2. cbn in I2. destruct I2 as [I2|[I2|[I2|[]]]]; try lia. easy.
  - assert (E' : (a0 ++ g' ++ [93]) ++ b ++ h ++ z = p' ++ o' ++ q) by (rewrite <- E; now rewrite <- !app_assoc).
    destruct (app_prefix _ _ _ _ E') as (w & -> & Eq); [rewrite !app_length in *; cbn; lia|].
    assert ((length p <= length (a0 ++ g ++ 93%Z :: w))%nat) as L3.
    { apply (First _ o' q); [|exact O'|exact I]. rewrite <- !app_assoc. cbn [app]. now rewrite Eq. }
    rewrite Ep in L3. rewrite !app_length in *. cbn in *. lia.
Qed.
End Key.

(** * The arrays as written *)

Lemma split_last cur p : ~ In 44 p -> split_comma cur p = [rev cur ++ p].
Proof.
  revert cur. induction p as [|c p IH]; intros cur N; cbn [split_comma]; [now rewrite app_nil_r|].
  destruct (Z.eqb_spec c 44) as [->|_]; [elim N; now left|]. rewrite IH by (intros I; apply N; now right). cbn [rev]. now rewrite <- app_assoc.
Qed.
Lemma split_next cur p s : ~ In 44 p -> split_comma cur (p ++ 44 :: s) = (rev cur ++ p) :: split_comma [] s.
Proof.
  revert cur. induction p as [|c p IH]; intros cur N; cbn [app split_comma]; [now rewrite app_nil_r|].
  destruct (Z.eqb_spec c 44) as [->|_]; [elim N; now left|]. rewrite IH by (intros I; apply N; now right). cbn [rev]. now rewrite <- app_assoc.
Qed.

Lemma lstrip_blank w s : blank w -> lstrip (w ++ s) = lstrip s.
Proof. induction 1 as [|c w E _ IH]; [reflexivity|]. cbn [app lstrip]. now rewrite E. Qed.
Lemma strip_blank w s : blank w -> strip (w ++ s) = strip s.
Proof. intros B. unfold M_Text.strip. now rewrite lstrip_blank. Qed.
Lemma strip_nil s : strip s = [] -> blank s.
Proof.
  unfold M_Text.strip, rstrip. intros E. apply (f_equal (@rev Z)) in E. rewrite rev_involutive in E. cbn in E.
  assert (forall s, lstrip s = [] -> blank s) as H.
  { clear. induction s as [|c s IH]; intros E; [constructor|]. cbn [lstrip] in E. destruct (py_isspace c) eqn:Ec; [|discriminate]. constructor; [exact Ec|exact (IH E)]. }
  apply H in E. assert (blank (lstrip s)) as B by (apply Forall_rev in E; now rewrite rev_involutive in E).
  induction s as [|c s IH]; [constructor|]. cbn [lstrip] in *. destruct (py_isspace c) eqn:Ec; [constructor; [exact Ec|exact (IH E B)]|].
  pose proof (Forall_inv B) as Q. cbn in Q. congruence.
Qed.
Lemma blank_strip s : blank s -> strip s = [].
Proof. intros B. rewrite <- (app_nil_r s), strip_blank by exact B. reflexivity. Qed.

(** ** Names *)
Lemma names_split n names : Forall js_name (n :: names) ->
  split_comma [] (names_text (n :: names)) = (96 :: n ++ [96]) :: map (fun m => 32 :: 96 :: m ++ [96]) names.
Proof.
  assert (forall cur n names, Forall js_name (n :: names) ->
    split_comma cur (names_text (n :: names)) = (rev cur ++ 96 :: n ++ [96]) :: map (fun m => 32 :: 96 :: m ++ [96]) names) as H.
  2: { intros F. now rewrite H. }
  intros cur m l F. revert cur m F. induction l as [|k l IH]; intros cur m F; inversion_clear F as [|? ? (C & _) Fl].
  - apply split_last. cbn [map join_with app]. intros [|I]; [lia|]. rewrite in_app_iff in I. cbn in I. destruct I as [|[|[]]]; [auto|lia].
  - change (names_text (m :: k :: l)) with ((96 :: m ++ [96]) ++ 44 :: 32 :: names_text (k :: l)). rewrite split_next.
    + f_equal. cbn [split_comma]. change (32 =? 44) with false. cbn iota. now rewrite IH.
    + cbn. intros [|I]; [lia|]. rewrite in_app_iff in I. cbn in I. destruct I as [|[|[]]]; [auto|lia].
Qed.
Lemma unquote_strip n : unquote (strip (96 :: n ++ [96])) = n.
Proof. rewrite strip_ends by reflexivity. unfold unquote. cbn [tl]. apply removelast_last. Qed.
Lemma names_text_in c names : In c (names_text names) -> c = 96 \/ c = 44 \/ c = 32 \/ exists n, In n names /\ In c n.
Proof.
  unfold names_text. induction names as [|n [|m names] IH]; cbn [map join_with]; [easy| |].
  - cbn. rewrite in_app_iff. cbn. intros [|[|[|[]]]]; auto. right. right. right. exists n. auto.
  - rewrite !in_app_iff. intros [[|I]|[[|[|[]]]|I]]; auto.
    + rewrite in_app_iff in I. cbn in I. destruct I as [|[|[]]]; auto. right. right. right. exists n. split; [now left|easy].
    + apply IH in I as [|[|[|(k & ? & ?)]]]; auto. right. right. right. exists k. split; [now right|easy].
Qed.
Lemma names_not names c : Forall js_name names -> c = 91 \/ c = 93 -> ~ In c (names_text names).
Proof.
  intros F C I. apply names_text_in in I as [|[|[|(n & I & Ic)]]]; try lia.
  destruct (proj1 (Forall_forall _ _) F _ I) as (_ & N1 & N2). destruct C as [-> | ->]; auto.
Qed.
(** reading the array of names *)
Definition parse_names (g : list Z) : list (list Z) :=
  match strip g with [] => [] | _ => map (fun p => unquote (strip p)) (split_comma [] g) end.
Lemma parse_names_text names : Forall js_name names -> parse_names (names_text names) = names.
Proof.
  intros F. destruct names as [|n names]; [reflexivity|]. unfold parse_names.
  destruct (strip (names_text (n :: names))) eqn:E.
  { apply strip_nil in E. exfalso. unfold names_text in E. destruct names; cbn [map join_with app] in E; inversion_clear E; discriminate. }
  rewrite names_split by exact F. cbn [map]. rewrite unquote_strip. f_equal. rewrite map_map. clear. induction names as [|m l IH]; [reflexivity|].
  cbn [map]. f_equal; [|exact IH]. change (32 :: 96 :: m ++ [96]) with ([32] ++ 96 :: m ++ [96]). rewrite strip_blank; [apply unquote_strip|repeat constructor].
Qed.

(** ** Bytes *)
Lemma dec_chars b : 0 <= b -> Forall (fun c => 48 <= c <= 57) (dec_str b) /\ dec_str b <> [].
Proof. intros H. destruct (dec_str_ok b H) as (N & F & _). now split. Qed.
Lemma dec_no_comma b : 0 <= b -> ~ In 44 (dec_str b).
Proof. intros H I. destruct (dec_chars b H) as (F & _). pose proof (proj1 (Forall_forall _ _) F _ I) as Q. cbn in Q. lia. Qed.
Lemma dec_strip w b : blank w -> 0 <= b -> strip (w ++ dec_str b) = dec_str b.
Proof.
  intros B H. rewrite strip_blank by exact B. apply strip_none. destruct (dec_chars b H) as (F & _). eapply Forall_impl; [|exact F].
  cbn beta. intros c Hc. unfold py_isspace. lia.
Qed.
Definition piece (p : list Z) (b : Z) : Prop := strip p = dec_str b.
Lemma line_last b bs : forall cur, blank (rev cur) -> Forall (fun b => 0 <= b < 256) (b :: bs) ->
  Forall2 piece (split_comma cur (join_with [44] (map dec_str (b :: bs)))) (b :: bs).
Proof.
  revert b. induction bs as [|c bs IH]; intros b cur B F; inversion_clear F as [|? ? Hb Fb].
  - cbn [map join_with]. rewrite split_last by (apply dec_no_comma; lia). constructor; [|constructor]. apply dec_strip; [exact B|lia].
  - change (join_with [44] (map dec_str (b :: c :: bs))) with (dec_str b ++ 44 :: join_with [44] (map dec_str (c :: bs))).
    rewrite split_next by (apply dec_no_comma; lia). constructor; [apply dec_strip; [exact B|lia]|]. apply IH; [constructor|exact Fb].
Qed.
Lemma line_next b bs s : forall cur, blank (rev cur) -> Forall (fun b => 0 <= b < 256) (b :: bs) ->
  exists ps, split_comma cur (join_with [44] (map dec_str (b :: bs)) ++ 44 :: s) = ps ++ split_comma [] s /\ Forall2 piece ps (b :: bs).
Proof.
  revert b. induction bs as [|c bs IH]; intros b cur B F; inversion_clear F as [|? ? Hb Fb].
  - cbn [map join_with]. rewrite split_next by (apply dec_no_comma; lia). eexists [_]. split; [reflexivity|].
    constructor; [|constructor]. apply dec_strip; [exact B|lia].
  - change (join_with [44] (map dec_str (b :: c :: bs))) with (dec_str b ++ 44 :: join_with [44] (map dec_str (c :: bs))).
    rewrite <- app_assoc. cbn [app]. rewrite split_next by (apply dec_no_comma; lia).
    destruct (IH c [] (Forall_nil _) Fb) as (ps & -> & Fp). exists ((rev cur ++ dec_str b) :: ps). split; [reflexivity|].
    constructor; [apply dec_strip; [exact B|lia]|exact Fp].
Qed.
Lemma lines_split fuel : forall data cur, data <> [] -> (length data <= fuel)%nat -> bytes_ok data -> blank (rev cur) ->
  Forall2 piece (split_comma cur (join_with [44; 10] (chunk_lines fuel data))) data.
Proof.
  induction fuel as [|fuel IH]; intros data cur N L Bd B; [destruct data; [easy|cbn in L; lia]|].
  destruct data as [|b data]; [easy|]. clear N.
  assert (E : chunk_lines (S fuel) (b :: data) = join_with [44] (map dec_str (firstn 256 (b :: data))) :: chunk_lines fuel (skipn 256 (b :: data))) by reflexivity.
  rewrite E. pose proof (firstn_skipn 256 (b :: data)) as Sp. remember (skipn 256 (b :: data)) as rest eqn:Hr. clear Hr.
  change (firstn 256 (b :: data)) with (b :: firstn 255 data) in *. set (bs := firstn 255 data) in *. clearbody bs. clear E.
  assert (bytes_ok (b :: bs) /\ bytes_ok rest) as (B1 & B2) by (apply Forall_app; now rewrite Sp).
  destruct rest as [|c rest].
  - rewrite <- Sp, app_nil_r. destruct fuel; cbn [chunk_lines join_with]; now apply line_last.
  - destruct fuel as [|fuel'] eqn:Ef.
    { exfalso. rewrite <- Sp in L. rewrite app_length in L. cbn in L. lia. }
    assert (exists x l, chunk_lines (S fuel') (c :: rest) = x :: l) as (x & l & El) by (cbn [chunk_lines]; eexists; eexists; reflexivity).
    rewrite El. change (join_with [44; 10] (join_with [44] (map dec_str (b :: bs)) :: x :: l))
      with (join_with [44] (map dec_str (b :: bs)) ++ 44 :: 10 :: join_with [44; 10] (x :: l)). rewrite <- El.
    destruct (line_next b bs (10 :: join_with [44; 10] (chunk_lines (S fuel') (c :: rest))) cur B B1) as (ps & -> & Fp).
    rewrite <- Sp. apply Forall2_app; [exact Fp|]. cbn [split_comma]. change (10 =? 44) with false. cbn iota. apply IH; [easy| |exact B2|repeat constructor].
    rewrite <- Sp in L. rewrite app_length in L. cbn [length] in *. lia.
Qed.
Lemma data_split data : data <> [] -> bytes_ok data -> Forall2 piece (split_comma [] (data_text data)) data.
Proof.
  intros N B. unfold data_text. cbn [split_comma]. change (10 =? 44) with false. cbn iota. apply lines_split; [exact N|lia|exact B|repeat constructor].
Qed.
Lemma join_in sep l c : In c (join_with sep l) -> In c sep \/ exists x, In x l /\ In c x.
Proof.
  induction l as [|x [|y l] IH]; cbn [join_with]; [easy| |].
  - intros I. right. exists x. split; [now left|exact I].
  - rewrite !in_app_iff. intros [I|[I|I]]; [|now left|].
    + right. exists x. split; [now left|exact I].
    + destruct (IH I) as [|(z & Iz & Ic)]; [now left|]. right. exists z. split; [now right|exact Ic].
Qed.
Lemma data_text_no data : bytes_ok data -> ~ In 93 (data_text data).
Proof.
  intros B. unfold data_text. intros [|I]; [lia|]. apply join_in in I as [I|(x & Ix & Ic)]; [cbn in I; lia|].
  revert B Ix. generalize (length data) as fuel. intros fuel. revert data. induction fuel as [|fuel IH]; intros data B Ix; [destruct data; easy|].
  destruct data as [|b data]; [easy|].
  change (chunk_lines (S fuel) (b :: data)) with (join_with [44] (map dec_str (firstn 256 (b :: data))) :: chunk_lines fuel (skipn 256 (b :: data))) in Ix.
  destruct Ix as [<-|Ix].
  - apply join_in in Ic as [I|(y & Iy & Ic)]; [cbn in I; lia|]. apply in_map_iff in Iy as (v & <- & Iv).
    assert (0 <= v) as Hv by (pose proof (proj1 (Forall_forall _ _) (Forall_firstn _ 256 _ B) _ Iv) as Q; cbn in Q; lia).
    pose proof (proj1 (Forall_forall _ _) (proj1 (dec_chars v Hv)) _ Ic) as Q. cbn in Q. lia.
  - eapply IH; [|exact Ix]. now apply Forall_skipn.
Qed.

Section Js.
Context (int10 : list Z -> option Z) (cart_size : nat) (H10 : decimal_reader int10).
Lemma set_bytes_ok pieces data : Forall2 piece pieces data -> bytes_ok data -> forall i old, length old = (i + length data)%nat ->
  set_bytes int10 i old pieces = Ok (firstn i old ++ data).
Proof.
  induction 1 as [|p b pieces data P _ IH]; intros B i old L.
  - cbn in L. cbn [set_bytes]. rewrite Nat.add_0_r in L. now rewrite <- L, firstn_all, app_nil_r.
  - inversion_clear B as [|? ? Hb Bd]. cbn [set_bytes]. rewrite P. unfold int_. rewrite (H10 _ _ (dec_str_ok b (proj1 Hb))). cbn [bind].
    replace (is_byte b) with true by (unfold is_byte; lia). cbn [negb]. cbn [length] in L.
    replace (i <? length old)%nat with true by lia. rewrite IH; [|exact Bd|rewrite list_upd_length; lia]. f_equal.
    rewrite list_upd_split by lia.
    assert (length (firstn i old) = i) as Li by (rewrite firstn_length; lia).
    rewrite firstn_app, Li. replace (S i - i)%nat with 1%nat by lia. rewrite firstn_all2 by lia. cbn [firstn]. now rewrite <- app_assoc.
Qed.
Lemma set_bytes_len pieces : forall i old new, set_bytes int10 i old pieces = Ok new -> bytes_ok old -> length new = length old /\ bytes_ok new.
Proof.
  induction pieces as [|p pieces IH]; intros i old new E B; cbn [set_bytes] in E; [apply Ok_inj in E; now subst|].
  destruct (int_ int10 (strip p)) as [v|] eqn:Ev; [|discriminate]. cbn [bind] in E. destruct (is_byte v) eqn:Eb; [|discriminate]. cbn [negb] in E.
  destruct (i <? length old)%nat; [|discriminate]. apply IH in E as (-> & B').
  - now rewrite list_upd_length.
  - apply list_upd_bytes; [exact B|]. unfold is_byte in Eb. lia.
Qed.

Definition parse_data (n : nat) (h : list Z) : res (list Z) :=
  match strip h with [] => Ok (repeat 0 (cart_size * n)) | _ => set_bytes int10 0 (repeat 0 (cart_size * n)) (split_comma [] h) end.
Lemma parse_data_text n data : bytes_ok data -> length data = (cart_size * n)%nat -> parse_data n (data_text data) = Ok data.
Proof.
  intros B L. unfold parse_data. destruct data as [|b data].
  - cbn in L. rewrite <- L. reflexivity.
  - destruct (strip (data_text (b :: data))) eqn:E.
    + apply strip_nil in E. exfalso. pose proof (data_split (b :: data) ltac:(easy) B) as F. revert E F. generalize (data_text (b :: data)) as t. intros t E F.
      inversion F as [|p ? ps ? P _ Es]. subst.
      assert (blank p) as Bp.
      { clear -E Es. assert (forall s cur p ps, split_comma cur s = p :: ps -> blank s -> blank cur -> blank p) as H.
        { clear. induction s as [|c s IH]; intros cur p ps Es B C; cbn [split_comma] in Es.
          - injection Es as <- <-. now apply Forall_rev.
          - inversion_clear B as [|? ? Hc Bs]. destruct (c =? 44); [injection Es as <- _; now apply Forall_rev|].
            eapply IH; [exact Es|exact Bs|now constructor]. }
        eapply H; [symmetry; exact Es|exact E|constructor]. }
      unfold piece in P. rewrite (blank_strip p Bp) in P. inversion_clear B as [|? ? Hb _]. destruct (dec_chars b (proj1 Hb)) as (_ & N). now rewrite <- P in N.
    + rewrite (set_bytes_ok _ (b :: data)); [now rewrite firstn_O|apply data_split; easy|exact B|].
      rewrite repeat_length. now rewrite L.
Qed.
Lemma parse_data_len n h data : parse_data n h = Ok data -> length data = (cart_size * n)%nat /\ bytes_ok data.
Proof.
  assert (bytes_ok (repeat 0 (cart_size * n))) as B by (apply Forall_forall; intros x I; apply repeat_spec in I; lia).
  unfold parse_data. destruct (strip h).
  - intros E. apply Ok_inj in E. subst. now rewrite repeat_length.
  - intros E. apply set_bytes_len in E as (-> & B'); [|exact B]. now rewrite repeat_length.
Qed.

Lemma key_names : black cartname_key /\ ~ In 91 cartname_key /\ ~ In 93 cartname_key.
Proof. split; [reflexivity|]. cbn. split; intuition lia. Qed.
Lemma key_data : black cartdat_key /\ ~ In 91 cartdat_key /\ ~ In 93 cartdat_key.
Proof. split; [reflexivity|]. cbn. split; intuition lia. Qed.

Lemma js_slots a g b h z : js_file a g b h z ->
  js_slot cartname_key (a ++ g ++ b ++ h ++ z) = Ok (a, g, b ++ h ++ z) /\
  js_slot cartdat_key (a ++ g ++ b ++ h ++ z) = Ok (a ++ g ++ b, h, z).
Proof.
  intros (_ & A1 & A2). unfold js_slot. split.
  - rewrite (find_complete cartname_key (proj1 key_names) (proj2 key_names) _ _ _ A1). reflexivity.
  - replace (a ++ g ++ b ++ h ++ z) with ((a ++ g ++ b) ++ h ++ z) by now rewrite <- !app_assoc.
    rewrite (find_complete cartdat_key (proj1 key_data) (proj2 key_data) _ _ _ A2). reflexivity.
Qed.
Lemma js_parse_file a g b h z : js_file a g b h z ->
  js_parse int10 cart_size (a ++ g ++ b ++ h ++ z) =
  (data <- parse_data (length (parse_names g)) h ;; Ok (parse_names g, data))%res.
Proof.
  intros J. destruct (js_slots _ _ _ _ _ J) as (S1 & S2). unfold js_parse, js_names, js_data. rewrite S1. cbn [bind]. rewrite S2. reflexivity.
Qed.

(** Putting names and bytes without brackets into the arrays. *)
Lemma js_fill a g b h z g' h' : js_file a g b h z -> ~ In 91 g' -> ~ In 93 g' -> ~ In 93 h' -> js_file a g' b h' z.
Proof.
  intros (Nb & A1 & A2) N1 N2 N3. destruct b as [|c b]; [easy|].
  assert (c = 93) as -> by (destruct A1 as (_ & _ & z' & E); injection E as E _; exact E).
  split; [easy|]. split.
  - apply (array_fill cartname_key (proj2 key_names) a g _ g' _ A1 N2). exists (b ++ h' ++ z). reflexivity.
  - destruct A2 as (X & Y & z' & ->). assert (array cartdat_key (a ++ g ++ 93 :: b) h (93 :: z')) as A2 by (split; [exact X|]; split; [exact Y|eauto]).
    apply (array_fill cartdat_key (proj2 key_data) _ h (93 :: z') h' (93 :: z')); [|exact N3|eauto].
    apply (array_move cartdat_key (proj2 key_data) a g b h (93 :: z') g' A2 N1 N2).
Qed.
Lemma js_finish_ok a g b h z names data : js_file a g b h z -> Forall js_name names -> bytes_ok data ->
  js_finish (a ++ g ++ b ++ h ++ z) names data = Ok (a ++ names_text names ++ b ++ data_text data ++ z) /\
  js_file a (names_text names) b (data_text data) z.
Proof.
  intros J F B. pose proof (names_not names 91 F (or_introl eq_refl)) as N1. pose proof (names_not names 93 F (or_intror eq_refl)) as N2.
  split; [|apply (js_fill a g b h z); auto using data_text_no].
  unfold js_finish. destruct (js_slots _ _ _ _ _ J) as (-> & _). cbn [bind].
  assert (J' : js_file a (names_text names) b h z).
  { apply (js_fill a g b h z); auto. now destruct J as (_ & _ & _ & N & _). }
  destruct (js_slots _ _ _ _ _ J') as (_ & ->). cbn [bind]. now rewrite <- !app_assoc.
Qed.
End Js.
