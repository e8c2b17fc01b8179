(** The parser [get_lz77] yields items that spell out its input. *)
From Coq Require Import Sorted.
From Verif Require Import M_Base M_Lz77 S_Lz L_BitIO L_Compress.
Ltac Zify.zify_post_hook ::= Z.div_mod_to_equations.
Open Scope Z_scope.

(** *** Slices *)
Lemma zlen_slice {A} (l : list A) a b : 0 <= a -> zlen (slice l a b) = Z.max 0 (Z.min (b - a) (zlen l - a)).
Proof. intros Ha. unfold zlen, slice. rewrite firstn_length, skipn_length. lia. Qed.

Lemma nth_error_firstn {A} n : forall (l : list A) k, (k < n)%nat -> nth_error (firstn n l) k = nth_error l k.
Proof.
  induction n as [|n IH]; intros l k H; [lia|].
  destruct l as [|x l]; [reflexivity|]. destruct k as [|k]; [reflexivity|]. cbn. apply IH. lia.
Qed.
Lemma nth_error_skipn {A} n : forall (l : list A) k, nth_error (skipn n l) k = nth_error l (n + k).
Proof.
  induction n as [|n IH]; intros l k; [reflexivity|].
  destruct l as [|x l]; [now destruct k|]. cbn. apply IH.
Qed.

Lemma znth_slice {A} (l : list A) a b k : 0 <= a -> 0 <= k < b - a -> znth (slice l a b) k = znth l (a + k).
Proof.
  intros Ha Hk. unfold znth, slice. destruct (Z.ltb_spec k 0); [lia|].
  destruct (Z.ltb_spec (a + k) 0); [lia|].
  rewrite nth_error_firstn by lia. rewrite nth_error_skipn. f_equal. lia.
Qed.

Lemma slice_all {A} (l : list A) : slice l 0 (zlen l) = l.
Proof. unfold slice, zlen. cbn. rewrite firstn_all2; [reflexivity|lia]. Qed.

Lemma skipn_skipn' {A} x : forall y (l : list A), skipn x (skipn y l) = skipn (y + x) l.
Proof.
  induction y as [|y IH]; intros l; [reflexivity|].
  destruct l as [|a l]; [cbn; now rewrite !skipn_nil|]. cbn. apply IH.
Qed.

Lemma slice_app {A} (l : list A) a b c : 0 <= a <= b -> b <= c -> slice l a b ++ slice l b c = slice l a c.
Proof.
  intros H1 H2. unfold slice.
  replace (Z.to_nat b) with (Z.to_nat a + Z.to_nat (b - a))%nat by lia.
  replace (Z.to_nat (c - a)) with (Z.to_nat (b - a) + Z.to_nat (c - b))%nat by lia.
  set (m := skipn (Z.to_nat a) l). set (n := Z.to_nat (b - a)). set (p := Z.to_nat (c - b)).
  assert (G : forall n p (m : list A), firstn n m ++ firstn p (skipn n m) = firstn (n + p) m).
  { clear. induction n as [|n IH]; intros p m; [reflexivity|].
    destruct m as [|x m]; [cbn; now rewrite firstn_nil|]. cbn. now rewrite IH. }
  rewrite <- G. do 2 f_equal. subst m. rewrite skipn_skipn'. reflexivity.
Qed.

Lemma znth_lt {A} (l : list A) k x : znth l k = Some x -> 0 <= k < zlen l.
Proof.
  unfold znth, zlen. destruct (Z.ltb_spec k 0); [discriminate|]. intros E.
  assert (nth_error l (Z.to_nat k) <> None) by congruence. apply nth_error_Some in H0. lia.
Qed.

Section Proofs.
Variable code : list Z.
Variables (min_c : Z) (max_c max_o : option Z) (no_repeat : bool).
Hypothesis Hmin : 1 <= min_c.
Hypothesis Hmax : forall m, max_c = Some m -> 1 <= m.

Notation len := (zlen code).

(** Equal windows at [j < i] of width [c >= 1] lie inside the code. *)
Lemma slices_match i j c : 0 <= j < i -> i <= len -> 1 <= c ->
  slice code j (j + c) = slice code i (i + c) ->
  i + c <= len /\ forall k, 0 <= k < c -> znth code (i + k) = znth code (j + k).
Proof.
  intros Hj Hi Hc H. assert (L : zlen (slice code j (j + c)) = zlen (slice code i (i + c))) by now rewrite H.
  rewrite !zlen_slice in L by lia.
  assert (i + c <= len) by lia. split; [assumption|].
  intros k Hk. rewrite <- (znth_slice code i (i + c) k), <- (znth_slice code j (j + c) k) by lia. now rewrite H.
Qed.

Definition matches_at (i j c : Z) : Prop :=
  i + c <= len /\ forall k, 0 <= k < c -> znth code (i + k) = znth code (j + k).

Lemma matches_at_le i j c c' : 0 <= c' <= c -> matches_at i j c -> matches_at i j c'.
Proof. intros H [H1 H2]. split; [lia|]. intros k Hk. apply H2. lia. Qed.

Lemma common_prefix_spec a b k : 0 <= k < Z.of_nat (common_prefix a b) ->
  znth a k = znth b k /\ k < zlen a.
Proof.
  revert b k; induction a as [|x a IH]; intros b k H; [cbn in H; lia|].
  destruct b as [|y b]; [cbn in H; lia|]. cbn in H.
  destruct (Z.eqb_spec x y) as [->|N]; [|cbn in H; lia].
  destruct (Z.eq_dec k 0) as [->|Nk].
  - split; [reflexivity|]. rewrite zlen_cons. pose proof (zlen_nonneg a). lia.
  - destruct (IH b (k - 1)) as [H1 H2]; [lia|].
    unfold znth in *. destruct (Z.ltb_spec k 0); [lia|]. destruct (Z.ltb_spec (k - 1) 0); [lia|].
    replace (Z.to_nat k) with (S (Z.to_nat (k - 1))) by lia. split; [exact H1|rewrite zlen_cons; lia].
Qed.

Lemma zlen_skipn {A} (l : list A) n : zlen (skipn n l) = Z.max 0 (zlen l - Z.of_nat n).
Proof. unfold zlen. rewrite skipn_length. lia. Qed.

Lemma znth_skipn {A} (l : list A) n k : 0 <= k -> znth (skipn n l) k = znth l (Z.of_nat n + k).
Proof.
  intros H. unfold znth. destruct (Z.ltb_spec k 0); [lia|]. destruct (Z.ltb_spec (Z.of_nat n + k) 0); [lia|].
  rewrite nth_error_skipn. f_equal. lia.
Qed.

Lemma get_match_length_spec i j start : 0 <= j < i -> 0 <= start -> matches_at i j start ->
  start <= get_match_length code i j start /\ matches_at i j (get_match_length code i j start).
Proof.
  intros Hj Hs [H1 H2]. unfold get_match_length.
  set (a := skipn (Z.to_nat (i + start)) code). set (b := skipn (Z.to_nat (j + start)) code).
  pose proof (common_prefix_spec a b) as HC. set (n := common_prefix a b) in *.
  split; [lia|]. split.
  - destruct (Z.eq_dec (Z.of_nat n) 0) as [E|E]; [lia|].
    destruct (HC (Z.of_nat n - 1)) as [_ HL]; [lia|]. subst a. rewrite zlen_skipn in HL. lia.
  - intros k Hk. destruct (Z.lt_ge_cases k start) as [L|G]; [apply H2; lia|].
    destruct (HC (k - start)) as [HE _]; [lia|]. subst a b.
    rewrite !znth_skipn in HE by lia.
    replace (Z.of_nat (Z.to_nat (i + start)) + (k - start)) with (i + k) in HE by lia.
    replace (Z.of_nat (Z.to_nat (j + start)) + (k - start)) with (j + k) in HE by lia. exact HE.
Qed.

(** A usable match: inside the code, equal, and within all limits. *)
Definition match_ok (i j c : Z) (mo : option Z) : Prop :=
  0 <= j < i /\ 1 <= c /\ matches_at i j c /\
  (forall m, mo = Some m -> i - j <= m) /\ (forall m, max_c = Some m -> c <= m) /\
  (no_repeat = true -> c <= i - j) /\
  (no_repeat = false -> (forall m, max_c = Some m -> min_c <= m) -> min_c <= c).

Lemma too_far_false mo i j : too_far mo i j = false -> forall m, mo = Some m -> i - j <= m.
Proof. intros H m ->. cbn in H. lia. Qed.

Lemma opt_min_spec c m : opt_min c m <= c /\ (forall x, m = Some x -> opt_min c m <= x) /\
  (1 <= c -> (forall x, m = Some x -> 1 <= x) -> 1 <= opt_min c m) /\
  (forall y, y <= c -> (forall x, m = Some x -> y <= x) -> y <= opt_min c m).
Proof.
  destruct m as [m|]; cbn; repeat split; intros; try congruence; try lia.
  - injection H as <-. lia.
  - specialize (H0 m eq_refl). lia.
  - specialize (H0 m eq_refl). lia.
Qed.

Lemma fm_list_ok i mc mo ms bc bj : i <= len -> min_c <= mc ->
  Forall (fun j => 0 <= j < i /\ slice code j (j + mc) = slice code i (i + mc)) ms ->
  (bc = 0 \/ match_ok i bj bc mo) ->
  let '(c, j) := fm_list code max_c no_repeat i mc mo ms bc bj in c = 0 \/ match_ok i j c mo.
Proof.
  intros Hi Hmc. revert bc bj; induction ms as [|j ms IH]; intros bc bj HF Hb; cbn [fm_list]; [exact Hb|].
  inversion HF as [|? ? [Hj Hsl] HF']; subst.
  destruct (zeqb_list (slice code i (i + bc)) (slice code j (j + bc))) eqn:E; [|now apply IH].
  apply zeqb_list_true in E.
  set (start := if 0 <? bc then bc else mc).
  assert (Hst : 1 <= start /\ matches_at i j start).
  { subst start. destruct (Z.ltb_spec 0 bc).
    - split; [lia|]. apply slices_match; auto; lia.
    - split; [lia|]. apply slices_match; auto; lia. }
  destruct Hst as [Hs1 Hs2].
  destruct (get_match_length_spec i j start Hj ltac:(lia) Hs2) as [G1 G2].
  set (g := get_match_length code i j start) in *.
  destruct (opt_min_spec g max_c) as (O1 & O2 & O3 & O4). set (c1 := opt_min g max_c) in *.
  set (c2 := if no_repeat then Z.min c1 (i - j) else c1).
  destruct (too_far mo i j) eqn:Ef; [exact Hb|].
  specialize (O3 ltac:(lia) Hmax).
  assert (Hc2 : 1 <= c2 <= c1) by (subst c2; destruct no_repeat; lia).
  destruct (((bc <? c2) && (mc <=? c2)) || ((c2 =? bc) && (bj <? j))) eqn:Ec.
  - apply IH; [exact HF'|]. right. unfold match_ok.
    split; [exact Hj|]. split; [lia|]. split; [eapply matches_at_le; [|exact G2]; lia|].
    split; [now apply too_far_false|]. split; [intros m Hm; specialize (O2 m Hm); lia|].
    split; [intros Hn; subst c2; rewrite Hn; lia|].
    intros Hn Hm. destruct Hb as [->|Hb].
    + destruct (Z.eqb_spec c2 0); lia.
    + destruct Hb as (_ & _ & _ & _ & _ & _ & Hb). specialize (Hb Hn Hm). lia.
  - now apply IH.
Qed.

(** *** The dictionary invariant *)
Inductive mt_ok (i : Z) : Z -> list Z -> mtree -> Prop :=
  | mok_l : forall c key l,
      Forall (fun j => 0 <= j < i /\ slice code j (j + c) = key) l -> mt_ok i c key (ML l)
  | mok_s : forall c key d bj,
      (bj = -1 \/ (0 <= bj < i /\ slice code bj (bj + c) = key)) ->
      md_ok i (c + 1) d -> mt_ok i c key (MS d bj)
with md_ok (i : Z) : Z -> mdict -> Prop :=
  | mdk_nil : forall c, md_ok i c []
  | mdk_cons : forall c k t d, mt_ok i c k t -> md_ok i c d -> md_ok i c ((k, t) :: d).

Scheme mt_ok_mut := Induction for mt_ok Sort Prop
with md_ok_mut := Induction for md_ok Sort Prop.

Lemma mt_ok_mono i i' : i <= i' ->
  forall c key t, mt_ok i c key t -> mt_ok i' c key t.
Proof.
  clear Hmin Hmax. intros H. apply (mt_ok_mut i (fun c key t _ => mt_ok i' c key t) (fun c d _ => md_ok i' c d)).
  - intros c key l HF. constructor. eapply Forall_impl; [|exact HF]. cbn. intros a [? ?]. split; [lia|auto].
  - intros c key d bj Hb _ IH. constructor; [|exact IH]. destruct Hb as [->|[? ?]]; [auto|right; split; [lia|auto]].
  - constructor.
  - intros. now constructor.
Qed.

Lemma md_ok_mono i i' c d : i <= i' -> md_ok i c d -> md_ok i' c d.
Proof.
  intros H. induction 1; constructor; auto. eapply mt_ok_mono; eauto.
Qed.

Lemma dict_look_ok {R} (P : R -> Prop) i c (rec : mtree -> R * mtree) dflt new key d :
  md_ok i c d -> P dflt -> mt_ok i c key new ->
  (forall t, In (key, t) d -> mt_ok i c key t -> P (fst (rec t)) /\ mt_ok i c key (snd (rec t))) ->
  P (fst (dict_look rec dflt new key d)) /\ md_ok i c (snd (dict_look rec dflt new key d)).
Proof.
  intros Hd HP Hn Hr. induction d as [|[k t] d IH]; cbn [dict_look].
  - split; [exact HP|]. constructor; [exact Hn|constructor].
  - inversion Hd as [|? ? ? ? Ht Hd']; subst.
    destruct (zeqb_list k key) eqn:E.
    + apply zeqb_list_true in E. subst k.
      destruct (Hr t (or_introl eq_refl) Ht) as [H1 H2]. destruct (rec t) as [r t']. cbn in *.
      split; [exact H1|]. now constructor.
    + assert (IH' := IH Hd' (fun t' Hin => Hr t' (or_intror Hin))).
      destruct (dict_look rec dflt new key d) as [r d'].
      cbn in *. destruct IH' as [I1 I2]. split; [exact I1|]. constructor; assumption.
Qed.

(** [find_match] only returns usable matches and keeps the dictionary valid. *)
Lemma fm_tree_ok i mo : i <= len -> 0 <= i ->
  forall c key t, mt_ok i c key t -> min_c <= c -> key = slice code i (i + c) ->
  (let '(bc, bj) := fst (fm_tree code max_c no_repeat i c mo t) in bc = 0 \/ match_ok i bj bc mo)
  /\ mt_ok i c key (snd (fm_tree code max_c no_repeat i c mo t)).
Proof.
  intros Hi H0.
  apply (mt_ok_mut i
    (fun c key t _ => min_c <= c -> key = slice code i (i + c) ->
      (let '(bc, bj) := fst (fm_tree code max_c no_repeat i c mo t) in bc = 0 \/ match_ok i bj bc mo)
      /\ mt_ok i c key (snd (fm_tree code max_c no_repeat i c mo t)))
    (fun c d _ => min_c <= c -> forall t, In (slice code i (i + c), t) d ->
      (let '(bc, bj) := fst (fm_tree code max_c no_repeat i c mo t) in bc = 0 \/ match_ok i bj bc mo)
      /\ mt_ok i c (slice code i (i + c)) (snd (fm_tree code max_c no_repeat i c mo t)))).
  - intros c key l HF Hc ->. cbn [fm_tree fst snd]. split; [|now constructor].
    apply fm_list_ok; auto. apply Forall_rev. exact HF.
  - intros c key d bj Hb Hd IH Hc ->. cbn [fm_tree].
    pose proof (dict_look_ok (fun p : Z * Z => let '(bc, bj) := p in bc = 0 \/ match_ok i bj bc mo)
      i (c + 1) (fun t => fm_tree code max_c no_repeat i (c + 1) mo t) (0, -1) (ML [])
      (slice code i (i + (c + 1))) d Hd (or_introl eq_refl)
      ltac:(constructor; constructor)
      (fun t Hin _ => IH ltac:(lia) t Hin)) as HL.
    destruct (dict_look _ (0, -1) (ML []) _ d) as [[bc bj'] d'] eqn:E. cbn [fst snd] in HL.
    destruct HL as [HL1 HL2].
    assert (Hms : mt_ok i c (slice code i (i + c)) (MS d' bj)) by (constructor; assumption).
    destruct (Z.eqb_spec bc 0) as [Ebc|Nbc]; [|cbn [fst snd]; auto].
    destruct (Z.leb_spec 0 bj) as [Hbj|Hbj]; [|cbn [fst snd]; auto].
    destruct (too_far mo i bj) eqn:Ef; cbn [fst snd]; [auto|].
    split; [|exact Hms]. right.
    destruct Hb as [->|[Hb1 Hb2]]; [lia|].
    destruct (slices_match i bj c Hb1 Hi ltac:(lia) Hb2) as [M1 M2].
    destruct (opt_min_spec c max_c) as (O1 & O2 & O3 & O4). specialize (O3 ltac:(lia) Hmax).
    set (c1 := opt_min c max_c) in *. set (c2 := if no_repeat then Z.min c1 (i - bj) else c1).
    assert (Hc2 : 1 <= c2 <= c1) by (subst c2; destruct no_repeat; lia).
    unfold match_ok. split; [lia|]. split; [lia|].
    split; [apply (matches_at_le i bj c); [lia|split; assumption]|].
    split; [now apply too_far_false|]. split; [intros m Hm; specialize (O2 m Hm); lia|].
    split; [intros Hn; subst c2; rewrite Hn; lia|].
    intros Hn Hm. subst c2. rewrite Hn. apply O4; [lia|exact Hm].
  - intros c Hc t [].
  - intros c k t d Ht IHt Hd IHd Hc t' [Hin|Hin].
    + injection Hin as -> ->. now apply IHt.
    + now apply IHd.
Qed.

Lemma md_ok_In i c k t d : md_ok i c d -> In (k, t) d -> mt_ok i c k t.
Proof. induction 1; [intros []|]. intros [Hin|Hin]; [congruence|auto]. Qed.

Lemma fm_dict_ok i mo d : 0 <= i <= len -> md_ok i min_c d ->
  let '((c, j), d') := fm_dict code min_c max_c no_repeat i mo d in
  (c = 0 \/ match_ok i j c mo) /\ md_ok i min_c d'.
Proof.
  intros Hi Hd. unfold fm_dict.
  pose proof (dict_look_ok (fun p : Z * Z => let '(bc, bj) := p in bc = 0 \/ match_ok i bj bc mo)
    i min_c (fm_tree code max_c no_repeat i min_c mo) (0, -1) (ML []) (slice code i (i + min_c)) d Hd
    (or_introl eq_refl) ltac:(constructor; constructor)
    (fun t _ Ht => fm_tree_ok i mo (proj2 Hi) (proj1 Hi) _ _ t Ht ltac:(lia) eq_refl)) as HL.
  destruct (dict_look _ _ _ _ d) as [[c j] d']. exact HL.
Qed.

(** *** Insertion *)
Lemma dict_append_ok i c j d : md_ok i c d -> 0 <= j < i ->
  md_ok i c (dict_append (slice code j (j + c)) j d).
Proof.
  intros Hd Hj. induction Hd as [c|c k t d Ht Hd IH]; cbn [dict_append].
  - constructor; [|constructor]. constructor. constructor; [auto|constructor].
  - destruct (zeqb_list k (slice code j (j + c))) eqn:E.
    + apply zeqb_list_true in E. subst k. constructor; [|exact Hd].
      inversion Ht; subst; [|assumption]. constructor. apply Forall_app. split; [assumption|].
      constructor; [auto|constructor].
    + constructor; assumption.
Qed.

Lemma conv_loop_ok i min_i c key ms d bj :
  Forall (fun j => 0 <= j < i /\ slice code j (j + c) = key) ms ->
  md_ok i (c + 1) d -> (bj = -1 \/ (0 <= bj < i /\ slice code bj (bj + c) = key)) ->
  let '(d', bj') := conv_loop code max_o min_i (c + 1) ms d bj in
  md_ok i (c + 1) d' /\ (bj' = -1 \/ (0 <= bj' < i /\ slice code bj' (bj' + c) = key)).
Proof.
  revert d bj; induction ms as [|j ms IH]; intros d bj HF Hd Hb; cbn [conv_loop]; [auto|].
  inversion HF as [|? ? [Hj Hk] HF']; subst.
  destruct (too_far max_o min_i j); [now apply IH|].
  apply IH; auto. now apply dict_append_ok.
Qed.

Lemma ins_leaf_ok i i0 j c dl l key : 0 <= j < i -> key = slice code j (j + c) ->
  Forall (fun j => 0 <= j < i /\ slice code j (j + c) = key) l ->
  mt_ok i c key (ins_leaf code min_c max_o i0 j c dl l).
Proof.
  intros Hj -> HF. unfold ins_leaf.
  assert (HF' : Forall (fun j0 => 0 <= j0 < i /\ slice code j0 (j0 + c) = slice code j (j + c)) (l ++ [j])).
  { apply Forall_app. split; [exact HF|]. constructor; [auto|constructor]. }
  destruct (_ && _ && _); [|now constructor].
  unfold convert_matches.
  pose proof (conv_loop_ok i i0 c _ (l ++ [j]) [] (-1) HF' (mdk_nil _ _) (or_introl eq_refl)) as H.
  destruct (conv_loop _ _ _ _ _ _ _) as [d bj]. destruct H. now constructor.
Qed.

Lemma ins_tree_ok i i0 j : 0 <= j < i ->
  forall c key t, mt_ok i c key t -> forall dl, key = slice code j (j + c) ->
  mt_ok i c key (ins_tree code min_c max_o i0 j c dl t).
Proof.
  intros Hj.
  apply (mt_ok_mut i
    (fun c key t _ => forall dl, key = slice code j (j + c) -> mt_ok i c key (ins_tree code min_c max_o i0 j c dl t))
    (fun c d _ => forall t dl, In (slice code j (j + c), t) d ->
       mt_ok i c (slice code j (j + c)) (ins_tree code min_c max_o i0 j c dl t))).
  - intros c key l HF dl Hk. cbn [ins_tree]. apply ins_leaf_ok; auto.
  - intros c key d bj Hb Hd IH dl ->. cbn [ins_tree]. constructor; [auto|].
    apply (dict_look_ok (fun _ : unit => True)); auto.
    + apply ins_leaf_ok; auto.
    + intros t Hin _. split; [exact I|]. cbn [snd]. apply IH. exact Hin.
  - intros c t dl [].
  - intros c k t d Ht IHt Hd IHd t' dl [Hin|Hin].
    + injection Hin as -> ->. now apply IHt.
    + now apply IHd.
Qed.

Lemma ins_dict_ok i i0 j d : 0 <= j < i -> md_ok i min_c d -> md_ok i min_c (ins_dict code min_c max_o i0 j d).
Proof.
  intros Hj Hd. unfold ins_dict. apply (dict_look_ok (fun _ : unit => True)); auto.
  - apply ins_leaf_ok; auto.
  - intros t _ Ht. split; [exact I|]. apply ins_tree_ok; auto.
Qed.

Lemma ins_range_ok n i i0 j d : 0 <= j -> j + Z.of_nat n <= i -> md_ok i min_c d ->
  md_ok i min_c (ins_range code min_c max_o n i0 j d).
Proof.
  revert j d; induction n as [|n IH]; intros j d Hj Hn Hd; cbn [ins_range]; [exact Hd|].
  apply IH; [lia|lia|]. apply ins_dict_ok; [lia|exact Hd].
Qed.

(** *** Chains of items *)
(** [good_item a it b]: [it], yielded at position [a], covers the code up to [b]. *)
Definition good_item (a : Z) (it : item) (b : Z) : Prop :=
  match it with
  | Lit c => znth code a = Some c /\ b = a + 1
  | Mat o c => match_ok a (a - o) c max_o /\ b = a + c
  | Blk s => a <= b <= len /\ a < len /\ s = slice code a b
  end.

Inductive chain : Z -> list (Z * item) -> Z -> Prop :=
  | ch_nil : forall a, chain a [] a
  | ch_cons : forall a it m its b, good_item a it m -> chain m its b -> chain a ((a, it) :: its) b.

Lemma chain_app a x m y b : chain a x m -> chain m y b -> chain a (x ++ y) b.
Proof. induction 1; intros H2; cbn; [exact H2|]. econstructor; eauto. Qed.

Lemma chain_snoc a x m it b : chain a x m -> good_item m it b -> chain a (x ++ [(m, it)]) b.
Proof. intros. eapply chain_app; [eassumption|]. econstructor; [eassumption|constructor]. Qed.

(** *** Advances *)
Variable C : Type.
Variable min_cost : Z -> Z.
Notation adv := (adv C).
Variable Cok : option C -> Prop.
Hypothesis Cok_None : Cok None.

Definition adv_ok (base i : Z) (a : adv) : Prop :=
  chain base (rev (a_path C a)) (a_next C a) /\ i < a_next C a <= len /\ Cok (a_ctxt C a).

Fixpoint sorted_advs (lo : Z) (l : list adv) : Prop :=
  match l with [] => True | a :: l => lo < a_next C a /\ sorted_advs (a_next C a) l end.

Lemma sorted_weaken lo lo' l : lo' <= lo -> sorted_advs lo l -> sorted_advs lo' l.
Proof. destruct l; cbn; [auto|]. intros ? []. split; [lia|auto]. Qed.

Lemma adv_scan_some_idx cost next_i advs idx p : forall q,
  adv_scan C min_cost cost next_i advs idx (Some p) = Some q -> q = Some p.
Proof.
  revert idx; induction advs as [|a advs IH]; intros idx q H; cbn in H.
  - congruence.
  - destruct (_ <=? _); [discriminate|]. eapply IH; eassumption.
Qed.

(** The insertion point found by the scan is the sorted place. *)
Lemma adv_scan_spec cost next_i : forall advs lo idx, sorted_advs lo advs -> lo < next_i ->
  match adv_scan C min_cost cost next_i advs idx None with
  | None => advs <> []
  | Some None => Forall (fun a => a_next C a < next_i) advs
  | Some (Some (k, true)) => exists l1 a l2, advs = l1 ++ a :: l2 /\ k = (idx + length l1)%nat
        /\ a_next C a = next_i
  | Some (Some (k, false)) => exists l1 l2, advs = l1 ++ l2 /\ k = (idx + length l1)%nat
        /\ Forall (fun a => a_next C a < next_i) l1 /\ sorted_advs next_i l2
  end.
Proof.
  induction advs as [|a advs IH]; intros lo idx Hs Hlo; cbn [adv_scan]; [constructor|].
  cbn in Hs. destruct Hs as [Hs1 Hs2].
  destruct (Z.eqb_spec next_i (a_next C a)) as [E|N].
  - destruct (_ <=? _); [discriminate|].
    destruct (adv_scan _ _ _ _ advs _ _) as [q|] eqn:Eq; [|discriminate].
    apply adv_scan_some_idx in Eq. subst q. exists [], a, advs. cbn. repeat split; auto; lia.
  - destruct (Z.ltb_spec next_i (a_next C a)) as [L|G].
    + destruct (_ <=? _); [discriminate|].
      destruct (adv_scan _ _ _ _ advs _ _) as [q|] eqn:Eq; [|discriminate].
      apply adv_scan_some_idx in Eq. subst q. exists [], (a :: advs). cbn. repeat split; auto; lia.
    + specialize (IH (a_next C a) (S idx) Hs2 ltac:(lia)).
      destruct (adv_scan _ _ _ _ advs _ _) as [[[k b]|]|] eqn:Eq.
      * destruct b.
        -- destruct IH as (l1 & a1 & l2 & -> & -> & Ha). exists (a :: l1), a1, l2. cbn. repeat split; auto; lia.
        -- destruct IH as (l1 & l2 & -> & -> & HF & HS). exists (a :: l1), l2. cbn.
           repeat split; auto; try lia. constructor; [lia|exact HF].
      * constructor; [lia|exact IH].
      * discriminate.
Qed.

Lemma sorted_app lo l1 l2 : sorted_advs lo (l1 ++ l2) <->
  sorted_advs lo l1 /\ sorted_advs (last (map (a_next C) l1) lo) l2.
Proof.
  revert lo; induction l1 as [|a l1 IH]; intros lo; cbn [app sorted_advs map].
  - cbn. tauto.
  - rewrite IH. destruct l1 as [|a1 l1]; [cbn; tauto|]. cbn [map].
    change (last (a_next C a :: a_next C a1 :: map (a_next C) l1) lo)
      with (last (a_next C a1 :: map (a_next C) l1) lo).
    assert (Hl : forall d d', last (a_next C a1 :: map (a_next C) l1) d = last (a_next C a1 :: map (a_next C) l1) d').
    { intros d d'. clear. revert a1. induction l1 as [|x l1 IH]; intros a1; cbn; [reflexivity|]. apply IH. }
    rewrite (Hl (a_next C a) lo). tauto.
Qed.

Lemma last_lt lo l1 n : lo < n -> Forall (fun a => a_next C a < n) l1 -> last (map (a_next C) l1) lo < n.
Proof.
  intros H HF. revert lo H; induction HF as [|a l1 Ha HF IH]; intros lo H; [exact H|].
  cbn [map]. destruct l1 as [|b l1]; [exact Ha|]. apply (IH lo H).
Qed.

Lemma list_upd_forall (l1 l2 : list adv) a na :
  list_upd (l1 ++ a :: l2) (length l1) na = l1 ++ na :: l2.
Proof. apply list_upd_mid. Qed.

(** Adding an advance keeps the queue sorted and valid, and non-empty. *)
Lemma add_advance_ok base i cur cost ctxt c it advs :
  (match cur with None => base = i | Some a => chain base (rev (a_path C a)) i end) ->
  good_item i it (i + c) -> 1 <= c -> i + c <= len -> Cok ctxt ->
  sorted_advs i advs -> Forall (adv_ok base i) advs ->
  let advs' := add_advance C min_cost i cur cost ctxt c it advs in
  sorted_advs i advs' /\ Forall (adv_ok base i) advs' /\ advs' <> [].
Proof.
  intros Hcur Hit Hc Hlen Hctx Hs HF. cbn zeta. unfold add_advance.
  pose proof (adv_scan_spec cost (i + c) advs i 0 Hs ltac:(lia)) as HS.
  set (na := mkadv _ _ _ _ _).
  assert (Hna : adv_ok base i na).
  { subst na. unfold adv_ok. cbn [a_path a_next a_ctxt rev]. split; [|split; [lia|exact Hctx]].
    destruct cur as [a|].
    - eapply chain_snoc; eassumption.
    - subst base. cbn. econstructor; [eassumption|constructor]. }
  destruct (adv_scan _ _ _ _ advs _ _) as [[[k b]|]|].
  - destruct b.
    + destruct HS as (l1 & a & l2 & -> & -> & Ha). cbn [Nat.add].
      rewrite list_upd_mid. apply sorted_app in Hs as [Hs1 Hs2]. cbn [sorted_advs] in Hs2.
      apply Forall_app in HF as [F1 F2]. inversion F2; subst.
      split; [|split].
      * apply sorted_app. split; [exact Hs1|]. cbn [sorted_advs]. subst na. cbn [a_next]. rewrite <- Ha. exact Hs2.
      * apply Forall_app. split; [assumption|]. now constructor.
      * now destruct l1.
    + destruct HS as (l1 & l2 & -> & -> & F1 & S2). cbn [Nat.add].
      rewrite firstn_app, Nat.sub_diag, firstn_all, firstn_O, app_nil_r.
      rewrite skipn_app, Nat.sub_diag, skipn_all. cbn [skipn app].
      apply sorted_app in Hs as [Hs1 Hs2]. apply Forall_app in HF as [G1 G2].
      split; [|split].
      * apply sorted_app. split; [exact Hs1|]. cbn [sorted_advs]. subst na. cbn [a_next].
        split; [|exact S2]. apply last_lt; [lia|exact F1].
      * apply Forall_app. split; [assumption|]. now constructor.
      * now destruct l1.
  - split; [|split].
    + apply sorted_app. split; [exact Hs|]. cbn [sorted_advs]. subst na. cbn [a_next].
      split; [|exact I]. apply last_lt; [lia|exact HS].
    + apply Forall_app. split; [exact HF|]. now constructor.
    + now destruct advs.
  - auto.
Qed.

Definition cur_ok (base i : Z) (cur : option adv) : Prop :=
  match cur with
  | None => base = i
  | Some a => chain base (rev (a_path C a)) i /\ Cok (a_ctxt C a)
  end.
Definition advs_ok (base i : Z) (advs : list adv) : Prop :=
  sorted_advs i advs /\ Forall (adv_ok base i) advs.

Variable m : list (Z * item) -> option C -> item -> res (Z * option C).
Variable get_cheaper_c : option (Z -> Z).

Definition ctxt_of (cur : option adv) : option C := match cur with Some a => a_ctxt C a | None => None end.

Lemma cur_ok_ctxt base i cur : cur_ok base i cur -> Cok (ctxt_of cur).
Proof. destruct cur; cbn; [tauto|auto]. Qed.

(** [measure] keeps the contexts usable ([Mpres]) and does not fail ([Mtot]). *)
Definition Mpres (out : list (Z * item)) : Prop :=
  forall ctxt it a b cost ctxt', Cok ctxt -> good_item a it b ->
    m out ctxt it = Ok (cost, ctxt') -> Cok ctxt'.
Definition Mtot (out : list (Z * item)) : Prop :=
  forall ctxt it a b, Cok ctxt -> good_item a it b -> (forall s, it <> Blk s) ->
    exists cost ctxt', m out ctxt it = Ok (cost, ctxt').

Lemma match_good i j c : match_ok i j c max_o -> good_item i (Mat (i - j) c) (i + c).
Proof. intros H. cbn. replace (i - (i - j)) with j by lia. auto. Qed.

Lemma add_lz77_ok out base i cur j c advs : Mpres out ->
  cur_ok base i cur -> match_ok i j c max_o -> advs_ok base i advs ->
  forall advs', add_lz77_advance C min_cost m out i cur j c advs = Ok advs' ->
  advs_ok base i advs' /\ advs' <> [].
Proof.
  intros HM Hc Hm [Ha1 Ha2] advs' E. unfold add_lz77_advance in E.
  destruct (m out _ (Mat (i - j) c)) as [[cost ctxt]|] eqn:Em; [|discriminate]. cbn in E. injection E as <-.
  assert (HC : Cok ctxt).
  { eapply HM; [|apply match_good; exact Hm|exact Em]. eapply cur_ok_ctxt; eassumption. }
  destruct Hm as (M1 & M2 & [M3 M3'] & M4).
  match goal with |- advs_ok _ _ (add_advance _ _ _ _ ?co _ _ _ _) /\ _ =>
    destruct (add_advance_ok base i cur co ctxt c (Mat (i - j) c) advs) as (R1 & R2 & R3) end; try assumption.
  - destruct cur; cbn in Hc; [apply Hc|exact Hc].
  - apply match_good. unfold match_ok, matches_at. tauto.
  - split; [split|]; eassumption.
Qed.

Lemma cheaper_ok i j c c' mo : match_ok i j c mo -> c' < c -> min_c <= c' -> match_ok i j c' mo.
Proof.
  intros (H1 & H2 & H3 & H4 & H5 & H6 & H7) L1 L2. unfold match_ok.
  split; [lia|]. split; [lia|]. split; [eapply matches_at_le; [|exact H3]; lia|].
  split; [auto|]. split; [intros x Hx; specialize (H5 x Hx); lia|].
  split; [intros Hn; specialize (H6 Hn); lia|]. auto.
Qed.

Lemma add_match_ok out base i cur j c advs : Mpres out ->
  cur_ok base i cur -> match_ok i j c max_o -> advs_ok base i advs ->
  forall advs', add_match_and_cheaper min_c C min_cost get_cheaper_c m out i cur j c advs = Ok advs' ->
  advs_ok base i advs' /\ advs' <> [].
Proof.
  intros HM Hc Hm Ha advs' E. unfold add_match_and_cheaper in E.
  destruct (add_lz77_advance _ _ _ _ _ _ _ c advs) as [a1|] eqn:E1; [|discriminate].
  cbn [bind] in E. pose proof (add_lz77_ok _ _ _ _ _ _ _ HM Hc Hm Ha _ E1) as [A1 N1].
  destruct get_cheaper_c as [f|]; [|injection E as <-; auto].
  destruct ((f c <? c) && (min_c <=? f c)) eqn:Ec; [|injection E as <-; auto].
  refine (add_lz77_ok _ _ _ _ _ _ _ HM Hc _ A1 _ E). eapply cheaper_ok; [eassumption|lia|lia].
Qed.

Lemma match_ok_step i j c step best_j best_c : match_ok i best_j best_c max_o ->
  step < i - best_j -> match_ok i j c (Some step) -> match_ok i j c max_o.
Proof.
  intros (_ & _ & _ & B & _) L (H1 & H2 & H3 & H4 & H5). unfold match_ok.
  split; [auto|]. split; [auto|]. split; [auto|]. split; [|auto].
  intros x Hx. specialize (B x Hx). specialize (H4 step eq_refl). lia.
Qed.

Lemma o_steps_ok out base i cur best_j best_c steps : forall d advs, Mpres out -> 0 <= i <= len ->
  cur_ok base i cur -> match_ok i best_j best_c max_o -> advs_ok base i advs -> advs <> [] -> md_ok i min_c d ->
  forall advs' d', o_steps_loop code min_c max_c no_repeat C min_cost get_cheaper_c m out i cur best_j steps d advs
                   = Ok (advs', d') ->
  advs_ok base i advs' /\ advs' <> [] /\ md_ok i min_c d'.
Proof.
  induction steps as [|step steps IH]; intros d advs HM Hi Hc Hb Ha Hn Hd advs' d' E; cbn [o_steps_loop] in E.
  - injection E as <- <-. auto.
  - destruct (Z.leb_spec (i - best_j) step); [injection E as <- <-; auto|].
    pose proof (fm_dict_ok i (Some step) d Hi Hd) as HF.
    destruct (fm_dict _ _ _ _ i (Some step) d) as [[c j] d1]. destruct HF as [HF1 HF2].
    destruct (Z.ltb_spec 0 c).
    + destruct (add_match_and_cheaper _ _ _ _ _ _ _ _ _ _ _) as [a1|] eqn:E1; [|discriminate]. cbn [bind] in E.
      destruct HF1 as [->|HF1]; [lia|].
      destruct (add_match_ok _ _ _ _ _ _ _ HM Hc
                  (match_ok_step _ _ _ _ _ _ Hb H HF1) Ha _ E1) as [A1 N1].
      eapply IH; eassumption.
    + eapply IH; eassumption.
Qed.

(** Success of the same functions when [measure] never fails. *)
Lemma add_lz77_tot out base i cur j c advs : Mtot out -> cur_ok base i cur -> match_ok i j c max_o ->
  exists advs', add_lz77_advance C min_cost m out i cur j c advs = Ok advs'.
Proof.
  intros HM Hc Hm. unfold add_lz77_advance.
  destruct (HM (ctxt_of cur) (Mat (i - j) c) i (i + c)) as (cost & ctxt & E).
  - eapply cur_ok_ctxt; eassumption.
  - apply match_good; assumption.
  - discriminate.
  - unfold ctxt_of in E. rewrite E. cbn. eauto.
Qed.

Lemma add_match_tot out base i cur j c advs : Mtot out -> cur_ok base i cur -> match_ok i j c max_o ->
  exists advs', add_match_and_cheaper min_c C min_cost get_cheaper_c m out i cur j c advs = Ok advs'.
Proof.
  intros HM Hc Hm. unfold add_match_and_cheaper.
  destruct (add_lz77_tot out base i cur j c advs HM Hc Hm) as [a1 E1]. rewrite E1. cbn [bind].
  destruct get_cheaper_c as [f|]; [|eauto].
  destruct ((f c <? c) && (min_c <=? f c)) eqn:Ec; [|eauto].
  eapply add_lz77_tot; try eassumption. eapply cheaper_ok; [eassumption|lia|lia].
Qed.

Lemma o_steps_tot out base i cur best_j best_c steps : forall d advs, Mtot out -> 0 <= i <= len ->
  cur_ok base i cur -> match_ok i best_j best_c max_o -> md_ok i min_c d ->
  exists r, o_steps_loop code min_c max_c no_repeat C min_cost get_cheaper_c m out i cur best_j steps d advs = Ok r.
Proof.
  induction steps as [|step steps IH]; intros d advs HM Hi Hc Hb Hd; cbn [o_steps_loop]; [eauto|].
  destruct (Z.leb_spec (i - best_j) step); [eauto|].
  pose proof (fm_dict_ok i (Some step) d Hi Hd) as HF.
  destruct (fm_dict _ _ _ _ i (Some step) d) as [[c j] d1]. destruct HF as [HF1 HF2].
  destruct (Z.ltb_spec 0 c); [|now apply IH].
  destruct HF1 as [->|HF1]; [lia|].
  destruct (add_match_tot out base i cur j c advs HM Hc (match_ok_step _ _ _ _ _ _ Hb H HF1)) as [a1 E1].
  rewrite E1. cbn [bind]. now apply IH.
Qed.
End Proofs.

Section Loop.
Variable code : list Z.
Variables (min_c : Z) (max_c max_o : option Z) (no_repeat : bool).
Hypothesis Hmin : 1 <= min_c.
Hypothesis Hmax : forall m, max_c = Some m -> 1 <= m.
Variable C : Type.
Variable measure : option (list (Z * item) -> option C -> item -> res (Z * option C)).
Variable min_cost : Z -> Z.
Variable get_cheaper_c : option (Z -> Z).
Variable o_steps : list Z.
Variable fast_c : option Z.
Variable Cok : option C -> Prop.
Hypothesis Cok_None : Cok None.

Notation len := (zlen code).
Notation lst := (lst C).
Notation chain := (chain code min_c max_c max_o no_repeat).
Notation adv_ok := (adv_ok code min_c max_c max_o no_repeat C Cok).
Notation advs_ok := (advs_ok code min_c max_c max_o no_repeat C Cok).
Notation cur_ok := (cur_ok code min_c max_c max_o no_repeat C Cok).
Notation step := (lz_step code min_c max_c max_o no_repeat C measure min_cost get_cheaper_c o_steps fast_c).
Notation choose := (lz_choose code min_c max_c max_o no_repeat C measure min_cost get_cheaper_c o_steps).
Notation loop := (lz_loop code min_c max_c max_o no_repeat C measure min_cost get_cheaper_c o_steps fast_c).

Hypothesis HMpres : forall m out base, measure = Some m -> chain 0 out base ->
  Mpres code min_c max_c max_o no_repeat C Cok m out.

(** *** Items always continue from the position the parser is at *)
Definition rooted (base : Z) (path : list (Z * item)) : Prop :=
  exists it rest, rev path = (base, it) :: rest.

Definition weak (base : Z) (s : lst) : Prop :=
  match s_cur C s with
  | None => base = s_i C s /\ s_advs C s = []
  | Some a => rooted base (a_path C a) /\ Forall (fun a => rooted base (a_path C a)) (s_advs C s)
              /\ measure <> None
  end.

Lemma Forall_upd {A} (P : A -> Prop) l k x : Forall P l -> P x -> Forall P (list_upd l k x).
Proof. intros H Hx; revert k; induction H; intros [|k]; cbn; auto. Qed.

Lemma add_advance_rooted base i cur cost ctxt c it advs :
  (match cur with None => base = i | Some a => rooted base (a_path C a) end) ->
  Forall (fun a => rooted base (a_path C a)) advs ->
  Forall (fun a => rooted base (a_path C a)) (add_advance C min_cost i cur cost ctxt c it advs).
Proof.
  intros Hc HF. unfold add_advance.
  destruct (adv_scan _ _ _ _ advs _ _) as [ins|]; [|exact HF].
  assert (Hn : forall nx co ct, rooted base (a_path C (mkadv C nx co ct ((i, it) ::
     match cur with Some a => a_path C a | None => [] end)))).
  { intros. cbn. destruct cur as [a|].
    - destruct Hc as (it0 & rest & E). exists it0, (rest ++ [(i, it)]). cbn. now rewrite E.
    - subst. exists it, []. reflexivity. }
  destruct ins as [[k [|]]|].
  - apply Forall_upd; auto.
  - apply Forall_app. split; [|constructor; [auto|]].
    + apply Forall_forall. intros x Hx. rewrite Forall_forall in HF. apply HF.
      rewrite <- (firstn_skipn k advs). apply in_or_app. auto.
    + apply Forall_forall. intros x Hx. rewrite Forall_forall in HF. apply HF.
      rewrite <- (firstn_skipn k advs). apply in_or_app. auto.
  - apply Forall_app. auto.
Qed.

Lemma add_lz77_rooted base m out i cur j c advs advs' :
  (match cur with None => base = i | Some a => rooted base (a_path C a) end) ->
  Forall (fun a => rooted base (a_path C a)) advs ->
  add_lz77_advance C min_cost m out i cur j c advs = Ok advs' ->
  Forall (fun a => rooted base (a_path C a)) advs'.
Proof.
  intros Hc HF E. unfold add_lz77_advance in E.
  destruct (m out _ _) as [[cost ctxt]|]; [|discriminate]. cbn in E. injection E as <-.
  now apply add_advance_rooted.
Qed.

Lemma add_match_rooted base m out i cur j c advs advs' :
  (match cur with None => base = i | Some a => rooted base (a_path C a) end) ->
  Forall (fun a => rooted base (a_path C a)) advs ->
  add_match_and_cheaper min_c C min_cost get_cheaper_c m out i cur j c advs = Ok advs' ->
  Forall (fun a => rooted base (a_path C a)) advs'.
Proof.
  intros Hc HF E. unfold add_match_and_cheaper in E.
  destruct (add_lz77_advance _ _ _ _ _ _ _ c advs) as [a1|] eqn:E1; [|discriminate]. cbn [bind] in E.
  pose proof (add_lz77_rooted _ _ _ _ _ _ _ _ _ Hc HF E1) as F1.
  destruct get_cheaper_c as [f|]; [|injection E as <-; auto].
  destruct (_ && _); [|injection E as <-; auto].
  exact (add_lz77_rooted _ _ _ _ _ _ _ _ _ Hc F1 E).
Qed.

Lemma o_steps_rooted base m out i cur bj steps : forall d advs advs' d',
  (match cur with None => base = i | Some a => rooted base (a_path C a) end) ->
  Forall (fun a => rooted base (a_path C a)) advs ->
  o_steps_loop code min_c max_c no_repeat C min_cost get_cheaper_c m out i cur bj steps d advs = Ok (advs', d') ->
  Forall (fun a => rooted base (a_path C a)) advs'.
Proof.
  induction steps as [|st steps IH]; intros d advs advs' d' Hc HF E; cbn [o_steps_loop] in E.
  - injection E as <- <-. auto.
  - destruct (_ <=? _); [injection E as <- <-; auto|].
    destruct (fm_dict _ _ _ _ _ _ _) as [[c j] d1]. destruct (0 <? c); [|eapply IH; eassumption].
    destruct (add_match_and_cheaper _ _ _ _ _ _ _ _ _ _ _) as [a1|] eqn:E1; [|discriminate]. cbn [bind] in E.
    eapply IH; [exact Hc| |exact E]. eapply add_match_rooted; eassumption.
Qed.

(** What the dictionary update keeps. *)
Lemma step_choose s s' : step s = Ok s' -> exists s1 bc, choose s = Ok (s1, bc) /\
  s_i C s' = s_i C s1 /\ s_prev C s' = s_i C s1 /\ s_advs C s' = s_advs C s1 /\ s_cur C s' = s_cur C s1 /\
  s_next C s' = s_next C s1 /\ s_idxs C s' = s_idxs C s1 /\ s_out C s' = s_out C s1 /\
  (s_d C s' = s_d C s1 \/
   s_d C s' = ins_range code min_c max_o (Z.to_nat (s_i C s1 - s_prev C s1)) (s_i C s1) (s_prev C s1) (s_d C s1)).
Proof.
  unfold lz_step. destruct (choose s) as [[s1 bc]|]; [|discriminate]. cbn [bind]. intros E. injection E as <-.
  exists s1, bc. cbn. repeat (split; [reflexivity|]). destruct fast_c as [f|]; [destruct (bc <? f)|]; auto.
Qed.

Lemma choose_weak base s s1 bc : weak base s -> choose s = Ok (s1, bc) ->
  exists base' ext, weak base' s1 /\ s_out C s1 = s_out C s ++ ext /\
    (ext = [] -> base' = base /\ s_cur C s1 <> None) /\ (ext <> [] -> exists it rest, ext = (base, it) :: rest).
Proof.
  intros Hw E. unfold lz_choose in E.
  destruct (s_next C s <=? s_i C s).
  - destruct (pop_idx code (s_idxs C s)) as [e idxs]. destruct (pop_idx code idxs) as [nx idxs'].
    injection E as <- <-. exists e, (cur_items C (s_cur C s) ++ [(s_i C s, Blk (slice code (s_i C s) e))]).
    unfold weak in *. cbn [s_cur s_i s_advs s_out].
    split.
    { split; [reflexivity|]. destruct (s_cur C s); [reflexivity|]. apply Hw. }
    split; [now rewrite app_assoc|]. split.
    { intros Hn. destruct (cur_items C (s_cur C s)); discriminate. }
    intros _. destruct (s_cur C s) as [a|]; cbn [cur_items].
    + destruct Hw as ((it & rest & Er) & _). rewrite Er. cbn. eauto.
    + destruct Hw as [-> _]. cbn. eauto.
  - destruct measure as [m|] eqn:EM.
    + destruct (code_at code (s_i C s)) as [ch|]; [|discriminate]. cbn [bind] in E.
      destruct (m (s_out C s) _ (Lit ch)) as [[cc cx]|]; [|discriminate]. cbn [bind] in E.
      assert (Hcur : match s_cur C s with None => base = s_i C s | Some a => rooted base (a_path C a) end).
      { unfold weak in Hw. destruct (s_cur C s); apply Hw. }
      assert (Hadv : Forall (fun a => rooted base (a_path C a)) (s_advs C s)).
      { unfold weak in Hw. destruct (s_cur C s); [apply Hw|]. destruct Hw as [_ ->]. constructor. }
      pose proof (add_advance_rooted base (s_i C s) (s_cur C s)
        (match s_cur C s with Some a => a_cost C a | None => 0 end + cc) cx 1 (Lit ch) _ Hcur Hadv) as Ha1.
      destruct (fm_dict _ _ _ _ _ _ (s_d C s)) as [[c j] d].
      match type of E with bind ?x _ = _ => destruct x as [[advs d']|] eqn:E1; [|discriminate] end.
      cbn [bind] in E.
      assert (Ha2 : Forall (fun a => rooted base (a_path C a)) advs).
      { destruct (0 <? c); [|now injection E1 as <- <-].
        destruct (add_match_and_cheaper _ _ _ _ _ _ _ _ _ _ _) as [a1|] eqn:E2; [|discriminate].
        cbn [bind] in E1. eapply o_steps_rooted; [exact Hcur| |exact E1].
        eapply add_match_rooted; [exact Hcur|exact Ha1|exact E2]. }
      destruct advs as [|a advs]; [discriminate|]. inversion Ha2 as [|? ? Hr Ha3]; subst.
      destruct advs as [|a2 advs]; injection E as <- <-.
      * exists (a_next C a), (rev (a_path C a)). unfold weak. cbn [s_cur s_i s_advs s_out].
        destruct Hr as (it & rest & Er). rewrite Er. split; [auto|]. split; [reflexivity|].
        split; [discriminate|eauto].
      * exists base, []. unfold weak. cbn [s_cur s_i s_advs s_out]. rewrite EM, app_nil_r.
        split; [|split; [reflexivity|split; [split; [reflexivity|discriminate]|congruence]]].
        split; [exact Hr|]. split; [exact Ha3|discriminate].
    + assert (Hn : s_cur C s = None).
      { unfold weak in Hw. destruct (s_cur C s); [|reflexivity]. rewrite EM in Hw. exfalso. apply Hw. reflexivity. }
      unfold weak in Hw. rewrite Hn in Hw. destruct Hw as [-> Hnil].
      assert (G : forall i' d it, exists base' ext,
        weak base' (mkst C i' (s_prev C s) (s_advs C s) (s_cur C s) d (s_next C s) (s_idxs C s)
                         (s_out C s ++ [(s_i C s, it)])) /\
        s_out C s ++ [(s_i C s, it)] = s_out C s ++ ext /\
        (ext = [] -> base' = s_i C s /\ s_cur C s <> None) /\
        (ext <> [] -> exists it rest, ext = (s_i C s, it) :: rest)).
      { intros i' d it. exists i', [(s_i C s, it)]. unfold weak. cbn. rewrite Hn. repeat split; auto; try discriminate.
        intros _. eauto. }
      destruct (code_at code (s_i C s)) as [ch|]; [|discriminate]. cbn [bind] in E.
      destruct (fm_dict _ _ _ _ _ _ (s_d C s)) as [[c j] d].
      destruct (0 <? c); [destruct (fm_dict _ _ _ _ _ _ d) as [[c2 j2] d2]; destruct (c <? c2)|];
        injection E as <- <-; apply G.
Qed.

(** The items still to be yielded start where the parser stands. *)
Lemma loop_weak fuel : forall base s its, weak base s -> loop fuel s = Ok its ->
  exists ext, its = s_out C s ++ ext /\ (ext = [] -> s_cur C s = None /\ len <= s_i C s) /\
    (ext <> [] -> exists it rest, ext = (base, it) :: rest).
Proof.
  induction fuel as [|fuel IH]; intros base s its Hw E; cbn [lz_loop] in E;
    (destruct (Z.ltb_spec (s_i C s) len) as [L|G];
      [|destruct (s_cur C s) eqn:Ec; [discriminate|]; injection E as <-;
        exists []; rewrite app_nil_r; repeat split; auto; congruence]).
  - discriminate.
  - destruct (step s) as [s'|] eqn:Es; [|discriminate]. cbn [bind] in E.
    apply step_choose in Es as (s1 & bc & Ec & H1 & H2 & H3 & H4 & H5 & H6 & H7 & _).
    destruct (choose_weak _ _ _ _ Hw Ec) as (base' & ext & Hw' & Ho & He1 & He2).
    assert (Hw2 : weak base' s') by (unfold weak in *; rewrite H1, H3, H4; exact Hw').
    destruct (IH _ _ _ Hw2 E) as (ext2 & -> & X1 & X2).
    exists (ext ++ ext2). rewrite H7, Ho, app_assoc. split; [reflexivity|].
    destruct ext as [|p ext].
    + destruct (He1 eq_refl) as [-> Hc]. cbn [app]. split; [|exact X2].
      intros ->. destruct (X1 eq_refl) as [Hn _]. rewrite H4 in Hn. congruence.
    + split; [discriminate|]. intros _. destruct (He2 ltac:(discriminate)) as (it & rest & ->). cbn. eauto.
Qed.

(** *** The strong invariant *)
Definition strong (base : Z) (s : lst) : Prop :=
  0 <= s_i C s <= len /\ chain 0 (s_out C s) base /\ cur_ok base (s_i C s) (s_cur C s) /\
  advs_ok base (s_i C s) (s_advs C s) /\
  (s_cur C s = None <-> s_advs C s = []) /\ (measure = None -> s_cur C s = None) /\
  md_ok code (s_i C s) min_c (s_d C s).

Lemma advs_pop base i a advs : advs_ok base i (a :: advs) ->
  adv_ok base i a /\ advs_ok base (a_next C a) advs.
Proof.
  intros [H1 H2]. cbn [sorted_advs] in H1. inversion H2 as [|? ? H3 H4]; subst.
  split; [exact H3|]. split; [apply H1|].
  destruct H1 as [_ H1]. clear H2 H3.
  assert (G : forall lo, sorted_advs C lo advs -> Forall (fun b => lo < a_next C b) advs).
  { clear. induction advs as [|b advs IH]; intros lo H; [constructor|]. destruct H as [H1 H2].
    constructor; [exact H1|]. eapply Forall_impl; [|apply (IH _ H2)]. cbn. intros x Hx. lia. }
  specialize (G _ H1). rewrite Forall_forall in *. intros x Hx. specialize (H4 x Hx). specialize (G x Hx).
  unfold L_Lz77.adv_ok in *. cbn in G. repeat split; try apply H4. lia.
Qed.

(** The result of one round: either a proper continuation, or a literal block
    that ends before the position where it starts. *)
Lemma choose_strong base s s1 bc : strong base s -> s_i C s < len -> choose s = Ok (s1, bc) ->
  (exists base', (0 <= s_i C s1 <= len /\ chain 0 (s_out C s1) base' /\
    cur_ok base' (s_i C s1) (s_cur C s1) /\ advs_ok base' (s_i C s1) (s_advs C s1) /\
    (s_cur C s1 = None <-> s_advs C s1 = []) /\ (measure = None -> s_cur C s1 = None) /\
    md_ok code (s_i C s1) min_c (s_d C s1)) /\ s_i C s <= s_i C s1 /\
    s_prev C s1 = s_prev C s /\ (s_i C s < s_next C s -> s_i C s < s_i C s1 /\
       s_next C s1 = s_next C s /\ s_idxs C s1 = s_idxs C s)) \/
  (exists pre b, s_out C s1 = pre ++ [(s_i C s, Blk b)] /\ s_cur C s1 = None /\ s_advs C s1 = [] /\
     s_i C s1 < s_i C s /\ s_next C s <= s_i C s) \/
  (len <= s_i C s1 /\ s_cur C s1 = None /\ chain 0 (s_out C s1) len /\ s_next C s <= s_i C s).
Proof.
  intros (Hi & Hch & Hcur & Hadv & Hiff & HmN & Hd) Hlt E. unfold lz_choose in E.
  destruct (Z.leb_spec (s_next C s) (s_i C s)) as [Lb|Lb].
  - destruct (pop_idx code (s_idxs C s)) as [e idxs] eqn:P1.
    destruct (pop_idx code idxs) as [nx idxs'] eqn:P2.
    injection E as <- <-. cbn [s_i s_out s_cur s_advs s_d s_next s_idxs s_prev].
    assert (Hadv0 : match s_cur C s with Some _ => [] | None => s_advs C s end = []).
    { destruct (s_cur C s); [reflexivity|]. now apply Hiff. }
    assert (Hch' : chain 0 (s_out C s ++ cur_items C (s_cur C s)) (s_i C s)).
    { destruct (s_cur C s) as [a|]; cbn [cur_items cur_ok] in *.
      - eapply chain_app; [exact Hch|]. apply Hcur.
      - rewrite app_nil_r. now subst. }
    destruct (Z.lt_ge_cases e (s_i C s)) as [Lt|Ge].
    + right. left. exists (s_out C s ++ cur_items C (s_cur C s)), (slice code (s_i C s) e). auto.
    + destruct (Z.lt_ge_cases len e) as [Ov|Ov].
      { right. right. split; [lia|]. split; [reflexivity|]. split; [|lia].
        eapply chain_snoc; [exact Hch'|]. cbn. repeat split; try lia.
        unfold slice. rewrite !firstn_all2; [reflexivity| |]; rewrite skipn_length; unfold zlen in *; lia. }
      left. exists e. split; [|split; [lia|split; [reflexivity|lia]]].
      split; [lia|]. split.
      { eapply chain_snoc; [exact Hch'|]. cbn; repeat split; try lia; reflexivity. }
      split; [reflexivity|]. rewrite Hadv0. split; [split; constructor|].
      split; [tauto|]. split; [reflexivity|]. eapply md_ok_mono; [|exact Hd]; lia.
  - left. destruct measure as [m|] eqn:EM.
    + destruct (code_at code (s_i C s)) as [ch|] eqn:Ech; [|discriminate]. cbn [bind] in E.
      assert (Hch1 : znth code (s_i C s) = Some ch).
      { unfold code_at in Ech. destruct (znth code (s_i C s)); congruence. }
      pose proof (HMpres m _ _ eq_refl Hch) as HM.
      destruct (m (s_out C s) _ (Lit ch)) as [[cc cx]|] eqn:Em; [|discriminate]. cbn [bind] in E.
      assert (HCx : Cok cx).
      { refine (HM _ (Lit ch) (s_i C s) (s_i C s + 1) _ _ _ _ Em); [|cbn; auto].
        exact (cur_ok_ctxt code min_c max_c max_o no_repeat C min_cost Cok Cok_None _ _ (s_cur C s) Hcur). }
      assert (Ha1 : let advs := add_advance C min_cost (s_i C s) (s_cur C s)
          (match s_cur C s with Some a => a_cost C a | None => 0 end + cc) cx 1 (Lit ch) (s_advs C s) in
          advs_ok base (s_i C s) advs /\ advs <> []).
      { cbn zeta. destruct Hadv as [Hadv1 Hadv2].
        edestruct (add_advance_ok code min_c max_c max_o no_repeat Hmax C min_cost Cok base (s_i C s) (s_cur C s)
          (match s_cur C s with Some a => a_cost C a | None => 0 end + cc) cx 1 (Lit ch) (s_advs C s))
          as (R1 & R2 & R3); try assumption; try lia.
        - destruct (s_cur C s); cbn in Hcur; [apply Hcur|exact Hcur].
        - cbn. auto.
        - split; [split; assumption|assumption]. }
      cbn zeta in Ha1. destruct Ha1 as [Ha1 Hn1].
      pose proof (fm_dict_ok code min_c max_c no_repeat Hmin Hmax (s_i C s) max_o (s_d C s)
        ltac:(lia) Hd) as HF.
      destruct (fm_dict _ _ _ _ _ _ (s_d C s)) as [[c j] d]. destruct HF as [HF1 HF2].
      match type of E with bind ?x _ = _ => destruct x as [[advs d']|] eqn:E1; [|discriminate] end.
      cbn [bind] in E.
      assert (Ha2 : advs_ok base (s_i C s) advs /\ advs <> [] /\ md_ok code (s_i C s) min_c d').
      { destruct (Z.ltb_spec 0 c); [|injection E1 as <- <-; auto].
        destruct HF1 as [->|HF1]; [lia|].
        destruct (add_match_and_cheaper _ _ _ _ _ _ _ _ _ _ _) as [a1|] eqn:E2; [|discriminate].
        cbn [bind] in E1.
        destruct (add_match_ok code min_c max_c max_o no_repeat Hmin Hmax C min_cost Cok Cok_None m get_cheaper_c
          _ base _ _ _ _ _ HM Hcur HF1 Ha1 _ E2) as [A1 N1].
        eapply (o_steps_ok code min_c max_c max_o no_repeat Hmin Hmax C min_cost Cok Cok_None m get_cheaper_c);
          try eassumption; lia. }
      destruct Ha2 as (Ha2 & Hn2 & Hd2).
      destruct advs as [|a advs]; [congruence|].
      apply advs_pop in Ha2 as [(Hp1 & Hp2 & Hp3) Ha3].
      destruct advs as [|a2 advs]; injection E as <- <-; cbn [s_i s_out s_cur s_advs s_d s_next s_idxs s_prev].
      * exists (a_next C a). split; [|split; [lia|split; [reflexivity|intros _; split; [lia|auto]]]].
        split; [lia|]. split; [eapply chain_app; [exact Hch|exact Hp1]|].
        split; [reflexivity|]. split; [split; constructor|]. split; [tauto|]. split; [reflexivity|].
        eapply md_ok_mono; [|exact Hd2]; lia.
      * exists base. split; [|split; [lia|split; [reflexivity|intros _; split; [lia|auto]]]].
        split; [lia|]. split; [exact Hch|]. split; [cbn; auto|]. split; [exact Ha3|].
        split; [split; discriminate|]. split; [discriminate|].
        eapply md_ok_mono; [|exact Hd2]; lia.
    + assert (Hn : s_cur C s = None) by auto.
      assert (Hnil : s_advs C s = []) by now apply Hiff.
      rewrite Hn in *. cbn in Hcur. subst base.
      assert (G : forall i' d it, s_i C s < i' <= len -> md_ok code i' min_c d ->
        good_item code min_c max_c max_o no_repeat (s_i C s) it i' ->
        exists base', let s1 := mkst C i' (s_prev C s) (s_advs C s) None d (s_next C s) (s_idxs C s)
                         (s_out C s ++ [(s_i C s, it)]) in
        (0 <= s_i C s1 <= len /\ chain 0 (s_out C s1) base' /\
          cur_ok base' (s_i C s1) (s_cur C s1) /\ advs_ok base' (s_i C s1) (s_advs C s1) /\
          (s_cur C s1 = None <-> s_advs C s1 = []) /\ ((None : option (list (Z * item) -> option C -> item -> res (Z * option C))) = None -> s_cur C s1 = None) /\
          md_ok code (s_i C s1) min_c (s_d C s1)) /\ s_i C s <= s_i C s1 /\
          s_prev C s1 = s_prev C s /\ (s_i C s < s_next C s -> s_i C s < s_i C s1 /\
             s_next C s1 = s_next C s /\ s_idxs C s1 = s_idxs C s)).
      { intros i' d it Hi' Hd' Hg. exists i'. cbn [s_i s_out s_cur s_advs s_d s_next s_idxs s_prev].
        split; [|split; [lia|split; [reflexivity|intros _; split; [lia|auto]]]].
        split; [lia|]. split; [eapply chain_snoc; eassumption|]. split; [reflexivity|].
        rewrite Hnil. split; [split; constructor|]. split; [tauto|]. split; [reflexivity|]. auto. }
      destruct (code_at code (s_i C s)) as [ch|] eqn:Ech; [|discriminate]. cbn [bind] in E.
      assert (Hch1 : znth code (s_i C s) = Some ch).
      { unfold code_at in Ech. destruct (znth code (s_i C s)); congruence. }
      pose proof (fm_dict_ok code min_c max_c no_repeat Hmin Hmax (s_i C s) max_o (s_d C s)
        ltac:(lia) Hd) as HF.
      destruct (fm_dict _ _ _ _ (s_i C s) _ (s_d C s)) as [[c j] d]. destruct HF as [HF1 HF2].
      destruct (Z.ltb_spec 0 c).
      * pose proof (fm_dict_ok code min_c max_c no_repeat Hmin Hmax (s_i C s + 1) max_o d
          ltac:(lia) ltac:(eapply md_ok_mono; [|exact HF2]; lia)) as HG.
        destruct (fm_dict _ _ _ _ _ _ d) as [[c2 j2] d2]. destruct HG as [_ HG].
        destruct HF1 as [->|HF1]; [lia|].
        destruct (c <? c2); injection E as <- <-.
        -- apply (G (s_i C s + 1)); [lia|exact HG|cbn; auto].
        -- destruct HF1 as (M1 & M2 & [M3 M3'] & M4).
           apply (G (s_i C s + c)); [lia|eapply md_ok_mono; [|exact HG]; lia|].
           apply match_good; try assumption. unfold match_ok, matches_at. tauto.
      * injection E as <- <-.
        apply (G (s_i C s + 1)); [lia|eapply md_ok_mono; [|exact HF2]; lia|cbn; auto].
Qed.

Lemma step_strong base s s' : strong base s -> s_prev C s = s_i C s -> s_i C s < len -> step s = Ok s' ->
  (exists base', strong base' s' /\ s_prev C s' = s_i C s' /\ s_i C s <= s_i C s' /\
     (s_i C s < s_next C s -> s_i C s < s_i C s' /\ s_next C s' = s_next C s /\ s_idxs C s' = s_idxs C s)) \/
  (exists pre b, s_out C s' = pre ++ [(s_i C s, Blk b)] /\ weak (s_i C s') s' /\ s_i C s' < s_i C s /\ s_next C s <= s_i C s) \/
  (len <= s_i C s' /\ s_cur C s' = None /\ chain 0 (s_out C s') len /\ s_next C s <= s_i C s).
Proof.
  intros Hs Hp Hlt Es. apply step_choose in Es as (s1 & bc & Ec & H1 & H2 & H3 & H4 & H5 & H6 & H7 & H8).
  destruct (choose_strong _ _ _ _ Hs Hlt Ec) as [(base' & Hst & Hmono & Hpv & Hadv)|[(pre & b & O & Cn & An & Hlt2 & Hnx2)|(Ov & Cn & Ho & Hnx2)]].
  - left. exists base'. rewrite H1, H2, H5, H6. split; [|auto].
    unfold strong. rewrite H1, H3, H4, H7.
    destruct Hst as (A1 & A2 & A3 & A4 & A5 & A6 & A7).
    repeat (split; [assumption|]).
    destruct H8 as [->| ->]; [exact A7|].
    destruct Hs as (Hi & _).
    apply (ins_range_ok code min_c max_c max_o Hmax); auto; rewrite Hpv, Hp; lia.
  - right. left. exists pre, b. rewrite H1, H7. split; [exact O|]. split; [|auto].
    unfold weak. rewrite H3, H4, Cn. auto.
  - right. right. rewrite H1, H4, H7. auto.
Qed.

Lemma sorted_mid (l1 l2 : list (Z * item)) x y :
  Sorted Z.le (map fst (l1 ++ x :: y :: l2)) -> fst x <= fst y.
Proof.
  rewrite map_app. cbn [map]. induction (map fst l1) as [|z l IH]; cbn [app]; intros H.
  - inversion H as [|? ? _ H2]; subst. inversion H2; assumption.
  - inversion H; auto.
Qed.

(** A successful run whose positions never go back has yielded a chain covering the code. *)
Lemma loop_strong fuel : forall base s its, strong base s -> s_prev C s = s_i C s ->
  loop fuel s = Ok its -> Sorted Z.le (map fst its) -> chain 0 its len.
Proof.
  induction fuel as [|fuel IH]; intros base s its Hs Hp E HS; cbn [lz_loop] in E;
    (destruct (Z.ltb_spec (s_i C s) len) as [L|G];
      [|destruct (s_cur C s) eqn:Ec; [discriminate|]; injection E as <-;
        destruct Hs as (Hi & Hch & Hcur & _); rewrite Ec in Hcur; cbn in Hcur; subst base;
        replace len with (s_i C s) by lia; exact Hch]).
  - discriminate.
  - destruct (step s) as [s'|] eqn:Es; [|discriminate]. cbn [bind] in E.
    destruct (step_strong _ _ _ Hs Hp L Es) as [(base' & Hst & Hpv & _)|[(pre & b & O & W & Lt & Lnx)|(Ov & Cn & Ho & Lnx)]].
    + eapply IH; eassumption.
    + exfalso. destruct (loop_weak _ _ _ _ W E) as (ext & -> & X1 & X2).
      rewrite O, <- app_assoc in HS. cbn [app] in HS.
      destruct ext as [|p ext]; [destruct (X1 eq_refl); lia|].
      destruct (X2 ltac:(discriminate)) as (it & rest & Hx). rewrite Hx in HS.
      apply sorted_mid in HS. cbn in HS. lia.
    + destruct fuel; cbn [lz_loop] in E; (destruct (Z.ltb_spec (s_i C s') len); [lia|]);
        rewrite Cn in E; injection E as <-; exact Ho.
Qed.

Lemma init_strong next idxs : strong 0 (mkst C 0 0 [] None [] next idxs []).
Proof.
  unfold strong. cbn. pose proof (zlen_nonneg code).
  repeat split; auto; try constructor; try lia.
Qed.

Lemma get_lz77_chain idxs its :
  get_lz77 code min_c max_c max_o no_repeat C measure min_cost get_cheaper_c o_steps fast_c idxs = Ok its ->
  Sorted Z.le (map fst its) -> chain 0 its len.
Proof.
  intros E HS. unfold get_lz77 in E. destruct (pop_idx code idxs) as [nx idxs'].
  exact (loop_strong _ _ _ _ (init_strong nx idxs') eq_refl E HS).
Qed.

(** *** Success without literal blocks *)
Hypothesis HMtot : forall m out base, measure = Some m -> chain 0 out base ->
  Mtot code min_c max_c max_o no_repeat C Cok m out.

Lemma choose_total base s : strong base s -> s_i C s < len -> s_i C s < s_next C s ->
  exists r, choose s = Ok r.
Proof.
  intros (Hi & Hch & Hcur & Hadv & Hiff & HmN & Hd) Hlt Hnx. unfold lz_choose.
  destruct (Z.leb_spec (s_next C s) (s_i C s)) as [Lb|Lb]; [lia|].
  assert (Hc : exists ch, code_at code (s_i C s) = Ok ch /\ znth code (s_i C s) = Some ch).
  { unfold code_at. destruct (znth_some code (s_i C s) ltac:(lia)) as [x ->]. eauto. }
  destruct Hc as (ch & -> & Hch1). cbn [bind].
  destruct measure as [m|] eqn:EM.
  - pose proof (HMpres m _ _ eq_refl Hch) as HM. pose proof (HMtot m _ _ eq_refl Hch) as HT.
    destruct (HT (ctxt_of C (s_cur C s)) (Lit ch) (s_i C s) (s_i C s + 1)) as (cc & cx & Em).
    + eapply cur_ok_ctxt; eassumption.
    + cbn. auto.
    + discriminate.
    + unfold ctxt_of in Em. rewrite Em. cbn [bind].
      assert (HCx : Cok cx).
      { refine (HM _ (Lit ch) (s_i C s) (s_i C s + 1) _ _ _ _ Em); [|cbn; auto].
        exact (cur_ok_ctxt code min_c max_c max_o no_repeat C min_cost Cok Cok_None _ _ (s_cur C s) Hcur). }
      assert (Ha1 : let advs := add_advance C min_cost (s_i C s) (s_cur C s)
          (match s_cur C s with Some a => a_cost C a | None => 0 end + cc) cx 1 (Lit ch) (s_advs C s) in
          advs_ok base (s_i C s) advs /\ advs <> []).
      { cbn zeta. destruct Hadv as [Hadv1 Hadv2].
        edestruct (add_advance_ok code min_c max_c max_o no_repeat Hmax C min_cost Cok base (s_i C s) (s_cur C s)
          (match s_cur C s with Some a => a_cost C a | None => 0 end + cc) cx 1 (Lit ch) (s_advs C s))
          as (R1 & R2 & R3); try assumption; try lia.
        - destruct (s_cur C s); cbn in Hcur; [apply Hcur|exact Hcur].
        - cbn. auto.
        - split; [split; assumption|assumption]. }
      cbn zeta in Ha1. destruct Ha1 as [Ha1 Hn1].
      pose proof (fm_dict_ok code min_c max_c no_repeat Hmin Hmax (s_i C s) max_o (s_d C s)
        ltac:(lia) Hd) as HF.
      destruct (fm_dict _ _ _ _ _ _ (s_d C s)) as [[c j] d]. destruct HF as [HF1 HF2].
      match goal with |- exists r, bind ?x _ = _ =>
        assert (HX : exists advs d', x = Ok (advs, d') /\ advs <> []) end.
      { destruct (Z.ltb_spec 0 c); [|eauto].
        destruct HF1 as [->|HF1]; [lia|].
        match goal with |- context [add_match_and_cheaper _ _ _ _ _ _ _ _ _ _ ?l] =>
          destruct (add_match_tot code min_c max_c max_o no_repeat Hmin Hmax C min_cost Cok Cok_None m get_cheaper_c
            (s_out C s) base (s_i C s) (s_cur C s) j c l HT Hcur HF1) as [a1 E2] end.
        rewrite E2. cbn [bind].
        destruct (add_match_ok code min_c max_c max_o no_repeat Hmin Hmax C min_cost Cok Cok_None m get_cheaper_c
          _ base _ _ _ _ _ HM Hcur HF1 Ha1 _ E2) as [A1 N1].
        destruct (o_steps_tot code min_c max_c max_o no_repeat Hmin Hmax C min_cost Cok Cok_None m get_cheaper_c
          (s_out C s) base (s_i C s) (s_cur C s) j c o_steps d a1 HT ltac:(lia) Hcur HF1 HF2) as [[advs d'] E3].
        rewrite E3. exists advs, d'. split; [reflexivity|].
        eapply (o_steps_ok code min_c max_c max_o no_repeat Hmin Hmax C min_cost Cok Cok_None m get_cheaper_c);
          try eassumption; lia. }
      destruct HX as (advs & d' & -> & Hn2). cbn [bind].
      destruct advs as [|a advs]; [congruence|]. destruct advs; eauto.
  - destruct (fm_dict _ _ _ _ _ _ (s_d C s)) as [[c j] d].
    destruct (0 <? c); [destruct (fm_dict _ _ _ _ _ _ d) as [[c2 j2] d2]; destruct (c <? c2)|]; eauto.
Qed.

Lemma chain_pos a its b : chain a its b -> a <= b /\ Sorted Z.le (map fst its) /\
  HdRel Z.le a (map fst its).
Proof.
  induction 1 as [a|a it m its b Hg Hc (IH1 & IH2 & IH3)]; [repeat constructor; lia|].
  assert (a <= m).
  { destruct it; cbn in Hg; [lia| |lia]. destruct Hg as [(_ & ? & _) ->]. lia. }
  split; [lia|]. cbn [map fst]. split; [|constructor; lia].
  constructor; [exact IH2|]. destruct its as [|[q it2] its]; [constructor|].
  cbn in *. inversion IH3; subst. constructor. lia.
Qed.

Lemma loop_total fuel : forall base s, strong base s -> s_prev C s = s_i C s -> s_next C s = len ->
  (Z.to_nat (len - s_i C s) <= fuel)%nat -> exists its, loop fuel s = Ok its /\ chain 0 its len.
Proof.
  induction fuel as [|fuel IH]; intros base s Hs Hp Hn Hf; cbn [lz_loop];
    (destruct (Z.ltb_spec (s_i C s) len) as [L|G];
    [|destruct Hs as (Hi & Hch & Hcur & [Hadv1 Hadv2] & Hiff & _);
      destruct (s_cur C s) eqn:Ec;
      [destruct (s_advs C s) as [|a0 l0] eqn:Ea; [destruct Hiff as [_ Hiff]; specialize (Hiff eq_refl); discriminate|];
       inversion Hadv2 as [|? ? (_ & Hx & _) _]; lia
      |cbn in Hcur; subst base; exists (s_out C s); split; [reflexivity|];
       replace len with (s_i C s) by lia; exact Hch]]).
  - lia.
  - destruct (choose_total _ _ Hs L ltac:(lia)) as [[s1 bc] Ec].
    assert (Est : exists s', step s = Ok s') by (unfold lz_step; rewrite Ec; cbn; eauto).
    destruct Est as [s' Est]. rewrite Est. cbn [bind].
    destruct (step_strong _ _ _ Hs Hp L Est) as [(base' & Hst & Hpv & Hle & Hadv)|[(pre & b & O & W & Lt & Lnx)|(Ov & Cn & Ho & Lnx)]].
    + destruct (Hadv ltac:(lia)) as (A1 & A2 & A3).
      apply (IH base'); auto; [congruence|lia].
    + lia.
    + lia.
Qed.

Lemma get_lz77_total :
  exists its, get_lz77 code min_c max_c max_o no_repeat C measure min_cost get_cheaper_c o_steps fast_c [] = Ok its
    /\ chain 0 its len.
Proof.
  unfold get_lz77. cbn [pop_idx].
  eapply loop_total; [apply init_strong|reflexivity|reflexivity|]. cbn [s_i]. unfold zlen. cbn. lia.
Qed.
End Loop.
