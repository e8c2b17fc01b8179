(** Proofs about the pxa stream. *)
From Verif Require Import M_Base M_BitIO M_Lz77 M_Compress S_Bits S_Lz L_BitIO.
From Coq Require Import Permutation.
Ltac Zify.zify_post_hook ::= Z.div_mod_to_equations.
Open Scope Z_scope.
Ltac fin := repeat match goal with |- _ /\ _ => split end; auto 14.

(** *** Lists *)
Lemma list_upd_length {A} (l : list A) i v : length (list_upd l i v) = length l.
Proof. revert i; induction l as [|x l IH]; intros [|i]; cbn; auto. Qed.

Lemma list_upd_app2 {A} (l1 l2 : list A) i v :
  list_upd (l1 ++ l2) (length l1 + i) v = l1 ++ list_upd l2 i v.
Proof. induction l1 as [|x l1 IH]; cbn; [reflexivity | now rewrite IH]. Qed.

Lemma list_upd_mid {A} (l1 l2 : list A) x v :
  list_upd (l1 ++ x :: l2) (length l1) v = l1 ++ v :: l2.
Proof. replace (length l1) with (length l1 + 0)%nat by lia. now rewrite list_upd_app2. Qed.

Lemma zeqb_list_true a b : zeqb_list a b = true <-> a = b.
Proof.
  revert b; induction a as [|x a IH]; intros [|y b]; cbn; split; intros H; try congruence; try discriminate.
  - apply andb_true_iff in H as [H1 H2]. apply Z.eqb_eq in H1. apply IH in H2. congruence.
  - injection H as -> ->. rewrite Z.eqb_refl. apply IH. reflexivity.
Qed.

Lemma zeqb_list_refl a : zeqb_list a a = true.
Proof. now apply zeqb_list_true. Qed.

Lemma zlen_app {A} (a b : list A) : zlen (a ++ b) = zlen a + zlen b.
Proof. unfold zlen. rewrite app_length. lia. Qed.
Lemma zlen_cons {A} (x : A) l : zlen (x :: l) = 1 + zlen l.
Proof. unfold zlen. cbn [length]. lia. Qed.
Lemma zlen_nonneg {A} (l : list A) : 0 <= zlen l.
Proof. unfold zlen. lia. Qed.

(** *** Move to front *)
(** Closed form: characters before [idx] move one place right. *)
Lemma mtf_shift_spec l1 x l2 :
  exists y, mtf_shift (length l1) (l1 ++ x :: l2) = y :: l1 ++ l2 /\ (l1 = [] -> y = x).
Proof.
  revert x l2; induction l1 as [|z l1 IH] using rev_ind; intros x l2.
  - exists x. cbn. auto.
  - rewrite app_length. cbn [length]. rewrite Nat.add_1_r. cbn [mtf_shift].
    rewrite <- app_assoc. cbn [app].
    rewrite (app_nth2 l1) by lia. rewrite Nat.sub_diag. cbn [nth].
    replace (S (length l1)) with (length l1 + 1)%nat by lia.
    rewrite list_upd_app2. cbn [list_upd].
    destruct (IH z (z :: l2)) as (y & Hy & _). exists y. rewrite Hy. rewrite <- app_assoc. cbn [app].
    split; [reflexivity|]. intros H. now destruct l1.
Qed.

Lemma update_mtf_spec l1 x l2 ch :
  update_mtf (l1 ++ x :: l2) (length l1) ch = ch :: l1 ++ l2.
Proof.
  unfold update_mtf. destruct (mtf_shift_spec l1 x l2) as (y & Hy & _). rewrite Hy. reflexivity.
Qed.

Lemma index_of_split ch l i : index_of ch l = Some i ->
  exists l1 l2, l = l1 ++ ch :: l2 /\ length l1 = i.
Proof.
  revert i; induction l as [|x l IH]; intros i H; cbn in H; [discriminate|].
  destruct (Z.eqb_spec x ch) as [->|N].
  - injection H as <-. exists [], l. auto.
  - destruct (index_of ch l) as [k|] eqn:E; cbn in H; [|discriminate]. injection H as <-.
    destruct (IH k eq_refl) as (l1 & l2 & -> & <-). exists (x :: l1), l2. auto.
Qed.

Lemma index_of_In ch l : In ch l -> exists i, index_of ch l = Some i.
Proof.
  induction l as [|x l IH]; intros H; [destruct H|]. cbn.
  destruct (Z.eqb_spec x ch) as [->|N]; [eauto|].
  destruct H as [H|H]; [congruence|]. destruct (IH H) as [i ->]. cbn. eauto.
Qed.

Definition mtf_ok (m : list Z) : Prop := Permutation m mtf_init.

Lemma mtf_init_In b : In b mtf_init <-> 0 <= b < 256.
Proof.
  unfold mtf_init. rewrite in_map_iff. split.
  - intros (k & <- & Hk). apply in_seq in Hk. lia.
  - intros H. exists (Z.to_nat b). split; [lia|]. apply in_seq. lia.
Qed.

Lemma mtf_ok_In m b : mtf_ok m -> 0 <= b < 256 -> In b m.
Proof. intros P H. eapply Permutation_in; [symmetry; exact P|]. now apply mtf_init_In. Qed.

Lemma mtf_ok_length m : mtf_ok m -> length m = 256%nat.
Proof. intros P. rewrite (Permutation_length P). reflexivity. Qed.

Lemma mtf_ok_update m i ch : mtf_ok m -> index_of ch m = Some i -> mtf_ok (update_mtf m i ch).
Proof.
  intros P H. apply index_of_split in H as (l1 & l2 & -> & <-).
  rewrite update_mtf_spec. unfold mtf_ok in *. rewrite <- P. apply Permutation_middle.
Qed.

(** *** Literal code words *)
Fixpoint ones (n : nat) : list bool := match n with O => [] | S n => true :: ones n end.
Lemma ones_length n : length (ones n) = n.
Proof. induction n; cbn; auto. Qed.
Lemma ones_snoc n : ones n ++ [true] = true :: ones n.
Proof. induction n as [|n IH]; [reflexivity|]. cbn. now rewrite IH. Qed.

Lemma put_mtf_idx_spec k v n w :
  bw_wf w -> 0 <= v -> (Z.to_nat v <= k)%nat -> (4 <= n)%nat ->
  exists e v',
    let w' := put_mtf_idx k v n w in
    bw_abs w' = bw_abs w ++ ones e ++ false :: bits_of (n + e) v'
    /\ bw_wf w' /\ (bw_n w' < 8)%nat
    /\ 0 <= v' < 2 ^ Z.of_nat (n + e) /\ v = v' + 2 ^ Z.of_nat n * (2 ^ Z.of_nat e - 1).
Proof.
  revert v n w; induction k as [|k IH]; intros v n w Hw Hv Hk Hn; cbn [put_mtf_idx].
  - exists 0%nat, v. cbn zeta. assert (v = 0) by lia. subst v.
    destruct (bw_bit_abs false w Hw) as (H1 & H2 & H3).
    destruct (bw_bits_abs n 0 _ H2) as (H4 & H5 & H6); [lia|].
    rewrite H4, H1, <- app_assoc. cbn [app ones]. rewrite Nat.add_0_r.
    repeat split; auto; try apply H5; lia.
  - rewrite Z.shiftl_1_l. destruct (Z.leb_spec (2 ^ Z.of_nat n) v) as [Hle|Hgt].
    + destruct (bw_bit_abs true w Hw) as (H1 & H2 & H3).
      assert (1 < 2 ^ Z.of_nat n) by (apply Z.pow_gt_1; lia).
      destruct (IH (v - 2 ^ Z.of_nat n) (S n) (bw_bit true w) H2) as (e & v' & H4 & H5 & H6 & H7 & H8);
        [lia|lia|lia|].
      exists (S e), v'. cbn zeta in *. rewrite H4, H1, <- app_assoc. cbn [app ones].
      replace (n + S e)%nat with (S n + e)%nat by lia.
      repeat split; auto; try apply H5; try apply H7.
      rewrite !Nat2Z.inj_succ, !Z.pow_succ_r in * by lia. nia.
    + exists 0%nat, v. cbn zeta.
      destruct (bw_bit_abs false w Hw) as (H1 & H2 & H3).
      destruct (bw_bits_abs n v _ H2) as (H4 & H5 & H6); [lia|].
      rewrite H4, H1, <- app_assoc. cbn [app ones]. rewrite Nat.add_0_r.
      repeat split; auto; try apply H5; lia.
Qed.

Definition reads_to {A} (m : res (A * br)) (a : A) (tail : list bool) (n8 : nat) : Prop :=
  exists r', m = Ok (a, r') /\ br_wf r' /\ br_abs r' = tail /\ ((n8 < 8)%nat -> (br_n r' < 8)%nat).

Lemma read_extra_spec e fuel x r tail :
  br_wf r -> br_abs r = ones e ++ false :: tail -> (e < fuel)%nat ->
  reads_to (read_extra fuel x r) (x + e)%nat tail (br_n r).
Proof.
  revert fuel x r; induction e as [|e IH]; intros fuel x r Hw Ha Hf;
    (destruct fuel as [|fuel]; [lia|]); cbn [read_extra].
  - cbn in Ha. destruct (br_bit_read false r tail Hw Ha) as (r' & -> & H2 & H3 & H4).
    cbn [bind]. exists r'. rewrite Nat.add_0_r. auto.
  - cbn in Ha. destruct (br_bit_read true r _ Hw Ha) as (r' & -> & H2 & H3 & H4).
    cbn [bind]. destruct (IH fuel (S x) r' H2 H3) as (r2 & Hr & Hw2 & Ha2 & H8); [lia|].
    exists r2. replace (x + S e)%nat with (S x + e)%nat by lia. auto 10.
Qed.

(** *** Counts *)
Lemma put_count_spec k v w :
  bw_wf w -> 0 <= v -> (Z.to_nat v <= k)%nat ->
  exists bits, let w' := put_count k v w in
    bw_abs w' = bw_abs w ++ bits /\ bw_wf w' /\ (bw_n w' < 8)%nat /\
    (forall fuel c r tail, br_wf r -> br_abs r = bits ++ tail -> (length bits <= fuel)%nat ->
       reads_to (read_count fuel c r) (c + v) tail (br_n r)).
Proof.
  assert (Hend : forall v w, bw_wf w -> 0 <= v < 7 ->
    let w' := bw_bits 3 v w in
    bw_abs w' = bw_abs w ++ bits_of 3 v /\ bw_wf w' /\ (bw_n w' < 8)%nat /\
    (forall fuel c r tail, br_wf r -> br_abs r = bits_of 3 v ++ tail -> (length (bits_of 3 v) <= fuel)%nat ->
       reads_to (read_count fuel c r) (c + v) tail (br_n r))).
  { intros v0 w0 Hw0 Hv0. cbn zeta.
    destruct (bw_bits_abs 3 v0 w0 Hw0) as (H1 & H2 & H3); [lia|].
    repeat split; auto; try apply H2.
    intros fuel c r tail Hr Ha Hf. rewrite bits_of_length in Hf.
    destruct fuel as [|fuel]; [lia|]. cbn [read_count].
    destruct (br_bits_read 3 v0 r tail Hr ltac:(lia) Ha) as (r' & -> & Hw' & Ha' & H8).
    cbn [bind]. destruct (Z.eqb_spec v0 7); [lia|]. exists r'. auto. }
  revert v w; induction k as [|k IH]; intros v w Hw Hv Hk; cbn [put_count].
  - exists (bits_of 3 v). apply Hend; auto; lia.
  - destruct (Z.leb_spec 7 v) as [H7|H7].
    + destruct (bw_bits_abs 3 7 w Hw) as (H1 & H2 & H3); [lia|].
      destruct (IH (v - 7) (bw_bits 3 7 w) H2) as (bits & H4 & H5 & H6 & HR); [lia|lia|].
      exists (bits_of 3 7 ++ bits). cbn zeta in *. rewrite H4, H1, <- app_assoc.
      repeat split; auto; try apply H5.
      intros fuel c r tail Hr Ha Hf. rewrite app_length, bits_of_length in Hf.
      destruct fuel as [|fuel]; [lia|]. cbn [read_count].
      rewrite <- app_assoc in Ha.
      destruct (br_bits_read 3 7 r _ Hr ltac:(lia) Ha) as (r' & -> & Hw' & Ha' & H8).
      cbn [bind]. rewrite Z.eqb_refl.
      destruct (HR fuel (c + 7) r' tail Hw' Ha' ltac:(lia)) as (r2 & Hr2 & Hw2 & Ha2 & H82).
      exists r2. replace (c + v) with (c + 7 + (v - 7)) by lia. auto 10.
    + exists (bits_of 3 v). apply Hend; auto; lia.
Qed.

(** *** Offsets *)
Lemma offset_bits_spec v : 0 <= v < 32768 ->
  offset_bits_of v = Ok (if v <? 32 then 5 else if v <? 1024 then 10 else 15).
Proof.
  intros Hv. unfold offset_bits_of, count_significant_bits.
  destruct (Z.ltb_spec v 0); [lia|]. cbn [bind]. f_equal.
  destruct (Z.eqb_spec v 0) as [->|N]; [reflexivity|].
  assert (Hl : forall n, 0 <= n -> v < 2 ^ n -> Z.log2 v < n) by (intros; apply Z.log2_lt_pow2; lia).
  assert (Hg : forall n, 0 <= n -> 2 ^ n <= v -> n <= Z.log2 v) by (intros; apply Z.log2_le_pow2; lia).
  pose proof (Z.log2_nonneg v).
  set (b := Z.log2 v + 1) in *. unfold round_up.
  destruct (Z.ltb_spec v 32) as [H5|H5].
  - specialize (Hl 5 ltac:(lia) ltac:(lia)).
    destruct (Z.eqb_spec (b mod 5) 0); lia.
  - pose proof (Hg 5 ltac:(lia) ltac:(lia)).
    destruct (Z.ltb_spec v 1024) as [H10|H10].
    + specialize (Hl 10 ltac:(lia) ltac:(lia)). destruct (Z.eqb_spec (b mod 5) 0); lia.
    + pose proof (Hl 15 ltac:(lia) ltac:(lia)). pose proof (Hg 10 ltac:(lia) ltac:(lia)).
      destruct (Z.eqb_spec (b mod 5) 0); lia.
Qed.

(** *** Copies *)
Lemma znth_app_l {A} (a b : list A) k : 0 <= k < zlen a -> znth (a ++ b) k = znth a k.
Proof.
  intros H. unfold znth, zlen in *. destruct (Z.ltb_spec k 0); [lia|].
  apply nth_error_app1. lia.
Qed.
Lemma znth_app_r {A} (a b : list A) k : zlen a <= k -> znth (a ++ b) k = znth b (k - zlen a).
Proof.
  intros H. unfold znth, zlen in *. destruct (Z.ltb_spec k 0); [lia|].
  destruct (Z.ltb_spec (k - Z.of_nat (length a)) 0); [lia|].
  rewrite nth_error_app2 by lia. f_equal. lia.
Qed.
Lemma znth_some {A} (l : list A) k : 0 <= k < zlen l -> exists x, znth l k = Some x.
Proof.
  intros H. unfold znth, zlen in *. destruct (Z.ltb_spec k 0); [lia|].
  destruct (nth_error l (Z.to_nat k)) eqn:E; [eauto|]. apply nth_error_None in E. lia.
Qed.
Lemma znth_none {A} (l : list A) k : zlen l <= k -> znth l k = None.
Proof.
  intros H. unfold znth, zlen in *. destruct (Z.ltb_spec k 0); [reflexivity|].
  apply nth_error_None. lia.
Qed.
Lemma znth_ext {A} (a b : list A) : (forall k, 0 <= k -> znth a k = znth b k) -> a = b.
Proof.
  revert b; induction a as [|x a IH]; intros [|y b] H.
  - reflexivity.
  - specialize (H 0 ltac:(lia)). discriminate.
  - specialize (H 0 ltac:(lia)). discriminate.
  - pose proof (H 0 ltac:(lia)) as H0. cbn in H0. injection H0 as ->. f_equal. apply IH.
    intros k Hk. specialize (H (k + 1) ltac:(lia)). unfold znth in *.
    destruct (Z.ltb_spec (k + 1) 0); [lia|]. destruct (Z.ltb_spec k 0); [lia|].
    replace (Z.to_nat (k + 1)) with (S (Z.to_nat k)) in H by lia. exact H.
Qed.

(** [copy_back] produces exactly the specified copy. *)
Lemma copy_back_spec n o out : 1 <= o <= zlen out ->
  exists out', copy_back n o out = Ok out' /\ copied out out' o (Z.of_nat n).
Proof.
  revert out; induction n as [|n IH]; intros out Ho; cbn [copy_back].
  - exists out. split; [reflexivity|]. exists []. rewrite app_nil_r. repeat split. intros k Hk. lia.
  - unfold neg_index. destruct (Z.eqb_spec o 0); [lia|].
    destruct (znth_some out (zlen out - o)) as [c Hc]; [lia|]. rewrite Hc. cbn [bind].
    destruct (IH (out ++ [c])) as (out' & -> & ext & He & Hl & Hk).
    { rewrite zlen_app. unfold zlen at 2. cbn. lia. }
    exists out'. split; [reflexivity|]. exists (c :: ext).
    rewrite He, <- app_assoc. cbn [app]. repeat split.
    + rewrite zlen_cons. lia.
    + intros k Hkn. rewrite He, <- app_assoc in Hk. cbn [app] in Hk.
      destruct (Z.eq_dec k 0) as [->|Nk].
      * rewrite Z.add_0_r. rewrite znth_app_r by lia. rewrite Z.sub_diag. cbn.
        rewrite znth_app_l by lia. symmetry. exact Hc.
      * specialize (Hk (k - 1) ltac:(lia)).
        replace (zlen (out ++ [c]) + (k - 1)) with (zlen out + k) in Hk
          by (rewrite zlen_app; unfold zlen; cbn; lia).
        exact Hk.
Qed.

Lemma copied_unique out a b o n : 1 <= o <= zlen out -> copied out a o n -> copied out b o n -> a = b.
Proof.
  intros Ho (ea & -> & La & Ha) (eb & -> & Lb & Hb). f_equal.
  assert (H : forall m k, 0 <= k -> k < Z.of_nat m -> k < n -> znth ea k = znth eb k).
  { induction m as [|m IH]; intros k Hk0 Hkm Hkn; [lia|].
    specialize (Ha k ltac:(lia)). specialize (Hb k ltac:(lia)).
    rewrite (znth_app_r out _ (zlen out + k)) in Ha by lia.
    rewrite (znth_app_r out _ (zlen out + k)) in Hb by lia.
    replace (zlen out + k - zlen out) with k in Ha, Hb by lia.
    rewrite Ha, Hb.
    destruct (Z.lt_ge_cases (zlen out + k - o) (zlen out)) as [L|G].
    - rewrite !znth_app_l by lia. reflexivity.
    - rewrite !znth_app_r by lia. apply IH; lia. }
  apply znth_ext. intros k Hk. destruct (Z.lt_ge_cases k n) as [L|G].
  - apply (H (S (Z.to_nat k))); lia.
  - rewrite !znth_none by lia. reflexivity.
Qed.

(** *** Blocks *)
Lemma fold_bits8_spec s w : Forall (fun c => 0 <= c < 256) s -> bw_wf w -> (bw_n w < 8)%nat ->
  let w' := fold_left (fun w ch => bw_bits 8 ch w) s w in
  bw_abs w' = bw_abs w ++ bits_of_bytes s /\ bw_wf w' /\ (bw_n w' < 8)%nat.
Proof.
  revert w; induction s as [|c s IH]; intros w Hs Hw Hn; cbn zeta.
  - cbn. rewrite app_nil_r. auto.
  - inversion Hs as [|? ? Hc Hs']; subst. cbn [fold_left].
    destruct (bw_bits_abs 8 c w Hw) as (H1 & H2 & H3); [cbn; lia|].
    destruct (IH _ Hs' H2 H3) as (H4 & H5 & H6). rewrite H4, H1, bits_of_bytes_cons, app_assoc. auto.
Qed.

Lemma read_block_spec s fuel out r tail :
  Forall (fun c => 0 < c < 256) s -> br_wf r ->
  br_abs r = bits_of_bytes s ++ bits_of 8 0 ++ tail -> (length s < fuel)%nat ->
  reads_to (read_block fuel out r) (out ++ s) tail (br_n r).
Proof.
  revert fuel out r; induction s as [|c s IH]; intros fuel out r Hs Hw Ha Hf;
    (destruct fuel as [|fuel]; [cbn in Hf; lia|]); cbn [read_block].
  - destruct (br_bits_read 8 0 r tail Hw ltac:(cbn; lia) Ha) as (r' & -> & H2 & H3 & H4).
    cbn [bind]. rewrite app_nil_r. exists r'. auto.
  - inversion Hs as [|? ? Hc Hs']; subst. rewrite bits_of_bytes_cons, <- app_assoc in Ha.
    destruct (br_bits_read 8 c r _ Hw ltac:(cbn; lia) Ha) as (r' & -> & H2 & H3 & H4).
    cbn [bind]. destruct (Z.eqb_spec c 0); [lia|]. cbn in Hf.
    destruct (IH fuel (out ++ [c]) r' Hs' H2 H3) as (r2 & Hr & Hw2 & Ha2 & H8); [lia|].
    rewrite <- app_assoc in Hr. exists r2. auto 10.
Qed.

(** *** One item *)
(** What it means for [bits] to encode [it] when the decoder has produced [out]. *)
Definition decodes_as (bits : list bool) (mtf out mtf' out' : list Z) : Prop :=
  forall fuel r tail, br_wf r -> br_abs r = bits ++ tail -> (length bits <= fuel)%nat ->
  exists r', decode_one fuel mtf out r = Ok (mtf', out', r')
    /\ br_wf r' /\ br_abs r' = tail /\ ((br_n r < 8)%nat -> (br_n r' < 8)%nat).

Definition item_step (out : list Z) (it : item) (out' : list Z) : Prop := spells out [it] out'.

Lemma write_literal_spec ch w mtf out : bw_wf w -> (bw_n w < 8)%nat -> mtf_ok mtf -> 0 <= ch < 256 ->
  exists w' mtf' bits, write_literal ch (w, mtf) = Ok (w', mtf')
    /\ bw_abs w' = bw_abs w ++ bits /\ bw_wf w' /\ (bw_n w' < 8)%nat /\ mtf_ok mtf'
    /\ (0 < length bits)%nat /\ decodes_as bits mtf out mtf' (out ++ [ch]).
Proof.
  intros Hw Hn Hm Hc. unfold write_literal, mtf_index.
  destruct (index_of_In ch mtf (mtf_ok_In _ _ Hm Hc)) as [i Hi]. rewrite Hi. cbn [bind].
  destruct (bw_bit_abs true w Hw) as (H1 & H2 & H3).
  destruct (put_mtf_idx_spec i (Z.of_nat i) 4 (bw_bit true w) H2) as (e & v' & H4 & H5 & H6 & H7 & H8);
    [lia|lia|lia|].
  cbn zeta in *. eexists _, _, (true :: ones e ++ false :: bits_of (4 + e) v').
  split; [reflexivity|]. rewrite H4, H1, <- app_assoc. cbn [app].
  split; [reflexivity|]. split; [exact H5|]. split; [exact H6|].
  split; [now apply mtf_ok_update|]. split; [cbn; lia|].
  intros fuel r tail Hr Ha Hf. cbn [app] in Ha. rewrite <- app_assoc in Ha. cbn [app] in Ha.
  unfold decode_one.
  destruct (br_bit_read true r _ Hr Ha) as (r1 & -> & Hw1 & Ha1 & Hn1). cbn [bind].
  cbn [length] in Hf. rewrite app_length, ones_length in Hf. cbn [length] in Hf.
  destruct (read_extra_spec e fuel 0 r1 _ Hw1 Ha1) as (r2 & -> & Hw2 & Ha2 & Hn2); [lia|].
  cbn [bind Nat.add].
  destruct (br_bits_read (4 + e) v' r2 tail Hw2) as (r3 & Hr3 & Hw3 & Ha3 & Hn3); [exact H7|exact Ha2|].
  change (S (S (S (S e)))) with (4 + e)%nat. rewrite Hr3. cbn [bind].
  assert (Hidx : v' + make_mask 4 (Z.of_nat e) = Z.of_nat i).
  { unfold make_mask. rewrite Z.shiftl_1_l, Z.shiftl_mul_pow2 by lia.
    rewrite H8. change (Z.of_nat 4) with 4. ring. }
  rewrite Hidx. apply index_of_split in Hi as (l1 & l2 & -> & Hl).
  unfold znth. destruct (Z.ltb_spec (Z.of_nat i) 0); [lia|]. rewrite Nat2Z.id.
  rewrite nth_error_app2 by lia. rewrite Hl, Nat.sub_diag. cbn [nth_error].
  exists r3. fin.
Qed.

Lemma write_item_spec it w mtf out out' :
  bw_wf w -> (bw_n w < 8)%nat -> mtf_ok mtf -> pxa_item it -> item_step out it out' ->
  exists w' mtf' bits, write_item it (w, mtf) = Ok (w', mtf')
    /\ bw_abs w' = bw_abs w ++ bits /\ bw_wf w' /\ (bw_n w' < 8)%nat /\ mtf_ok mtf'
    /\ (0 < length bits)%nat /\ decodes_as bits mtf out mtf' out'.
Proof.
  intros Hw Hn Hm Hp Hs. destruct it as [c|o n|s].
  - (* literal *)
    inversion Hs as [| ? ? ? ? Hs' | |]; subst. inversion Hs'; subst.
    cbn [write_item]. now apply write_literal_spec.
  - (* match *)
    inversion Hs as [| | | ? ? ? mid ? ? Ho Hn1 Hcp Hs']; subst. inversion Hs'; subst.
    destruct Hp as [Hp1 Hp2]. cbn [write_item fst snd]. unfold write_match.
    rewrite offset_bits_spec by lia. cbn [bind].
    destruct (bw_bit_abs false w Hw) as (A1 & A2 & A3).
    set (ob := if o - 1 <? 32 then 5 else if o - 1 <? 1024 then 10 else 15).
    assert (Hob : (ob = 5 /\ o - 1 < 32) \/ (ob = 10 /\ 32 <= o - 1 < 1024) \/ (ob = 15 /\ 1024 <= o - 1 < 32768)).
    { subst ob. destruct (Z.ltb_spec (o - 1) 32); [lia|]. destruct (Z.ltb_spec (o - 1) 1024); lia. }
    assert (Hassert : assert_ ((ob =? 5) || (ob =? 10) || (ob =? 15)) = Ok tt).
    { destruct Hob as [[-> _]|[[-> _]|[-> _]]]; reflexivity. }
    rewrite Hassert. cbn [bind].
    set (pre := if ob <? 15 then [true; ob <? 10] else [false]).
    set (w2 := if ob <? 15 then bw_bit (ob <? 10) (bw_bit (ob <? 15) (bw_bit false w))
               else bw_bit (ob <? 15) (bw_bit false w)).
    assert (HW2 : bw_abs w2 = (bw_abs w ++ [false]) ++ pre /\ bw_wf w2 /\ (bw_n w2 < 8)%nat).
    { destruct (bw_bit_abs (ob <? 15) _ A2) as (B1 & B2 & B3).
      subst w2 pre. destruct (ob <? 15).
      - destruct (bw_bit_abs (ob <? 10) _ B2) as (C1 & C2 & C3).
        rewrite C1, B1, A1, <- !app_assoc. auto.
      - rewrite B1, A1. auto. }
    destruct HW2 as (D1 & D2 & D3).
    destruct (bw_bits_abs (Z.to_nat ob) (o - 1) w2 D2) as (E1 & E2 & E3).
    { rewrite Z2Nat.id by lia. destruct Hob as [[-> ?]|[[-> ?]|[-> ?]]]; lia. }
    destruct (put_count_spec (Z.to_nat (n - 3)) (n - 3) _ E2) as (cb & F1 & F2 & F3 & F4); [lia|lia|].
    cbn zeta in *.
    eexists _, mtf, (false :: pre ++ bits_of (Z.to_nat ob) (o - 1) ++ cb).
    split; [reflexivity|]. split.
    { rewrite F1, E1, D1, <- !app_assoc. reflexivity. }
    split; [exact F2|]. split; [exact F3|]. split; [exact Hm|]. split; [cbn; lia|].
    intros fuel r tail Hr Ha Hf. cbn [app] in Ha. rewrite <- !app_assoc in Ha.
    unfold decode_one.
    destruct (br_bit_read false r _ Hr Ha) as (r1 & -> & Hw1 & Ha1 & Hn1'). cbn [bind].
    cbn [length] in Hf. rewrite !app_length in Hf.
    assert (Hstep : exists r2, (forall B (k : nat -> br -> res B),
      ('(b, r0) <- br_bit r1;;
       ' (offlen, r3) <- (if b : bool then '(b0, r3) <- br_bit r0;; Ok (if b0 : bool then 5%nat else 10%nat, r3)
                       else Ok (15%nat, r0));; k offlen r3) = k (Z.to_nat ob) r2)
      /\ br_wf r2 /\ br_abs r2 = bits_of (Z.to_nat ob) (o - 1) ++ cb ++ tail
      /\ ((br_n r1 < 8)%nat -> (br_n r2 < 8)%nat)).
    { destruct Hob as [[Eo ?]|[[Eo ?]|[Eo ?]]]; subst pre; rewrite Eo in Ha1; cbn [Z.ltb Z.compare Pos.compare Pos.compare_cont app] in Ha1.
      - destruct (br_bit_read true r1 _ Hw1 Ha1) as (r2 & R2 & Hw2 & Ha2 & Hn2).
        destruct (br_bit_read true r2 _ Hw2 Ha2) as (r3 & R3 & Hw3 & Ha3 & Hn3).
        exists r3. rewrite Eo. fin.
        intros B k. rewrite R2. cbn [bind]. rewrite R3. reflexivity.
      - destruct (br_bit_read true r1 _ Hw1 Ha1) as (r2 & R2 & Hw2 & Ha2 & Hn2).
        destruct (br_bit_read false r2 _ Hw2 Ha2) as (r3 & R3 & Hw3 & Ha3 & Hn3).
        exists r3. rewrite Eo. fin.
        intros B k. rewrite R2. cbn [bind]. rewrite R3. reflexivity.
      - destruct (br_bit_read false r1 _ Hw1 Ha1) as (r2 & R2 & Hw2 & Ha2 & Hn2).
        exists r2. rewrite Eo. fin.
        intros B k. rewrite R2. reflexivity. }
    destruct Hstep as (r2 & R2 & Hw2 & Ha2 & Hn2). rewrite R2.
    destruct (br_bits_read (Z.to_nat ob) (o - 1) r2 (cb ++ tail) Hw2) as (r3 & R3 & Hw3 & Ha3 & Hn3).
    { rewrite Z2Nat.id by lia. destruct Hob as [[-> ?]|[[-> ?]|[-> ?]]]; lia. }
    { exact Ha2. }
    rewrite R3. cbn [bind].
    assert (Hnb : (o - 1 + 1 =? 1) && negb (Z.to_nat ob =? 5)%nat = false).
    { destruct Hob as [[-> ?]|[[-> ?]|[-> ?]]]; cbn [Z.to_nat Pos.to_nat Pos.iter_op Nat.add Nat.eqb negb];
        [apply andb_false_r | |]; destruct (Z.eqb_spec (o - 1 + 1) 1); auto; lia. }
    rewrite Hnb.
    destruct (F4 fuel 3 r3 tail Hw3 Ha3 ltac:(lia)) as (r4 & -> & Hw4 & Ha4 & Hn4). cbn [bind].
    replace (o - 1 + 1) with o by lia. replace (3 + (n - 3)) with n by lia.
    destruct (copy_back_spec (Z.to_nat n) o out Ho) as (x & -> & Hx). cbn [bind].
    rewrite Z2Nat.id in Hx by lia. rewrite (copied_unique _ _ _ _ _ Ho Hx Hcp).
    exists r4. fin.
  - (* block *)
    inversion Hs as [| | ? ? ? ? Hs' |]; subst. inversion Hs'; subst. clear Hs Hs'.
    assert (Hblk : Forall (fun c => 0 < c < 256) s ->
      exists w' mtf' bits, Ok (write_litblock s w, mtf) = Ok (w', mtf') /\
      bw_abs w' = bw_abs w ++ bits /\ bw_wf w' /\ (bw_n w' < 8)%nat /\ mtf_ok mtf'
      /\ (0 < length bits)%nat /\ decodes_as bits mtf out mtf' (out ++ s)).
    { intros Hs. unfold write_litblock.
      destruct (bw_bit_abs false w Hw) as (A1 & A2 & A3).
      destruct (bw_bit_abs true _ A2) as (B1 & B2 & B3).
      destruct (bw_bit_abs false _ B2) as (C1 & C2 & C3).
      destruct (bw_bits_abs 10 0 _ C2) as (D1 & D2 & D3); [lia|].
      destruct (fold_bits8_spec s _ ltac:(eapply Forall_impl; [|exact Hs]; cbn; lia) D2 D3) as (E1 & E2 & E3).
      destruct (bw_bits_abs 8 0 _ E2) as (F1 & F2 & F3); [lia|].
      eexists _, mtf, (false :: true :: false :: bits_of 10 0 ++ bits_of_bytes s ++ bits_of 8 0).
      split; [reflexivity|]. split.
      { rewrite F1, E1, D1, C1, B1, A1, <- !app_assoc. reflexivity. }
      split; [exact F2|]. split; [exact F3|]. split; [exact Hm|]. split; [cbn; lia|].
      intros fuel r tail Hr Ha Hf. cbn [app] in Ha. rewrite <- !app_assoc in Ha.
      unfold decode_one.
      destruct (br_bit_read false r _ Hr Ha) as (r1 & -> & Hw1 & Ha1 & Hn1). cbn [bind].
      destruct (br_bit_read true r1 _ Hw1 Ha1) as (r2 & -> & Hw2 & Ha2 & Hn2). cbn [bind].
      destruct (br_bit_read false r2 _ Hw2 Ha2) as (r3 & -> & Hw3 & Ha3 & Hn3). cbn [bind].
      destruct (br_bits_read 10 0 r3 _ Hw3 ltac:(lia) Ha3) as (r4 & -> & Hw4 & Ha4 & Hn4). cbn [bind].
      cbn [Z.add Z.eqb Pos.eqb Nat.eqb negb andb assert_ bind].
      cbn [length] in Hf. rewrite !app_length, !bits_of_length, bits_of_bytes_length in Hf.
      destruct (read_block_spec s fuel out r4 tail Hs Hw4 Ha4) as (r5 & -> & Hw5 & Ha5 & Hn5); [lia|].
      cbn [bind]. exists r5. fin. }
    destruct s as [|c [|c2 s]].
    + cbn [write_item fst snd]. apply Hblk. constructor.
    + cbn [write_item]. now apply write_literal_spec.
    + cbn [write_item fst snd]. apply Hblk. exact Hp.
Qed.

(** *** Whole streams *)
Lemma spells_cons out it its out' : spells out (it :: its) out' <->
  exists mid, item_step out it mid /\ spells mid its out'.
Proof.
  unfold item_step. split.
  - intros H. inversion H; subst; eexists; (split; [|eassumption]); econstructor; eauto; constructor.
  - intros (mid & H1 & H2).
    inversion H1 as [| ? ? ? ? Hx | ? ? ? ? Hx | ? ? ? ? ? ? ? ? ? Hx]; subst; inversion Hx; subst; econstructor; eauto.
Qed.

Lemma item_step_len out it out' : item_step out it out' ->
  zlen out <= zlen out' /\ (it <> Blk [] -> zlen out < zlen out').
Proof.
  intros H. inversion H as [| ? ? ? ? Hx | ? ? ? ? Hx | ? ? ? mid ? ? ? ? Hcp Hx]; subst; inversion Hx; subst.
  - rewrite zlen_app. unfold zlen. cbn. lia.
  - rewrite zlen_app. split; [pose proof (zlen_nonneg s); lia|].
    destruct s as [|x s]; [congruence|]. rewrite zlen_cons. pose proof (zlen_nonneg s). lia.
  - destruct Hcp as (ext & -> & Hl & _). rewrite zlen_app. lia.
Qed.

Lemma spells_len out its out' : spells out its out' ->
  zlen out <= zlen out' /\ (its <> [] -> ends_with_text its -> zlen out < zlen out').
Proof.
  revert out; induction its as [|it its IH]; intros out H.
  - inversion H; subst. split; [lia|congruence].
  - apply spells_cons in H as (mid & H1 & H2). apply item_step_len in H1 as [L1 L2].
    destruct (IH _ H2) as [M1 M2]. split; [lia|]. intros _ He.
    destruct its as [|it2 its].
    + unfold ends_with_text in He. cbn in He. specialize (L2 He). lia.
    + specialize (M2 ltac:(congruence)). unfold ends_with_text in *.
      cbn [last] in *. specialize (M2 He). lia.
Qed.

Lemma write_items_spec its w mtf out code :
  bw_wf w -> (bw_n w < 8)%nat -> mtf_ok mtf -> Forall pxa_item its -> spells out its code ->
  (its = [] \/ ends_with_text its) ->
  exists w' mtf' bits, write_items its (w, mtf) = Ok (w', mtf')
    /\ bw_abs w' = bw_abs w ++ bits /\ bw_wf w' /\ (bw_n w' < 8)%nat
    /\ (forall fuel ifuel r tail, br_wf r -> br_abs r = bits ++ tail ->
        (length bits <= fuel)%nat -> (length bits <= ifuel)%nat -> (br_n r < 8)%nat ->
        exists r', decode_loop fuel ifuel (zlen code) mtf out r = Ok (code, r')
          /\ br_wf r' /\ br_abs r' = tail /\ (br_n r' < 8)%nat).
Proof.
  revert w mtf out; induction its as [|it its IH]; intros w mtf out Hw Hn Hm Hp Hs He.
  - inversion Hs; subst. exists w, mtf, []. rewrite app_nil_r. repeat split; auto; try apply Hw.
    intros fuel ifuel r tail Hr Ha Hf Hif Hn8. cbn [app] in Ha.
    exists r. destruct fuel; cbn [decode_loop]; rewrite Z.ltb_irrefl; auto.
  - pose proof (spells_len _ _ _ Hs) as [_ Hlen].
    assert (Hlt : zlen out < zlen code).
    { apply Hlen; [congruence|]. destruct He as [He|He]; [congruence|exact He]. }
    apply spells_cons in Hs as (mid & H1 & H2). inversion Hp as [|? ? Hp1 Hp2]; subst.
    destruct (write_item_spec it w mtf out mid Hw Hn Hm Hp1 H1)
      as (w1 & m1 & b1 & E1 & A1 & W1 & N1 & M1 & L1 & D1).
    destruct (IH w1 m1 mid W1 N1 M1 Hp2 H2) as (w2 & m2 & b2 & E2 & A2 & W2 & N2 & D2).
    { destruct its as [|it2 its]; [auto|]. right. destruct He as [He|He]; [congruence|exact He]. }
    exists w2, m2, (b1 ++ b2). cbn [write_items]. rewrite E1. cbn [bind].
    split; [exact E2|]. split; [rewrite A2, A1, app_assoc; reflexivity|].
    split; [exact W2|]. split; [exact N2|].
    intros fuel ifuel r tail Hr Ha Hf Hif Hn8. rewrite app_length in Hf, Hif.
    destruct fuel as [|fuel]; [lia|]. cbn [decode_loop].
    destruct (Z.ltb_spec (zlen out) (zlen code)); [|lia].
    rewrite <- app_assoc in Ha.
    destruct (D1 ifuel r (b2 ++ tail) Hr Ha ltac:(lia)) as (r1 & -> & Wr1 & Ar1 & Nr1). cbn [bind].
    apply D2; auto; lia.
Qed.

Lemma app_eq_len {A} (a b c d : list A) : a ++ b = c ++ d -> length a = length c -> a = c /\ b = d.
Proof.
  revert c; induction a as [|x a IH]; intros [|y c] H L; cbn in *; try discriminate; auto.
  injection H as -> H. injection L as L. destruct (IH _ H L) as [-> ->]. auto.
Qed.

Lemma bits_of_bytes_inj a b : bytes_ok a -> bytes_ok b -> bits_of_bytes a = bits_of_bytes b -> a = b.
Proof.
  revert b; induction a as [|x a IH]; intros [|y b] Ha Hb H; auto;
    try (apply (f_equal (@length bool)) in H; rewrite !bits_of_bytes_length in H; cbn [length] in H; lia).
  inversion Ha; inversion Hb; subst. rewrite !bits_of_bytes_cons in H.
  apply app_eq_len in H as [H8 Ht]; [|now rewrite !bits_of_length].
  f_equal; [apply (bits_of_inj 8); auto; cbn; lia | auto].
Qed.

(** The stream theorem: any valid item sequence is decoded to the text it spells,
    and the decoder stops exactly at the end of the written bytes. *)
Lemma pxa_stream its code tail : Forall pxa_item its -> spells [] its code ->
  its = [] \/ ends_with_text its -> bytes_ok tail ->
  exists w mtf', write_items its (bw_init, mtf_init) = Ok (w, mtf') /\ bytes_ok (bw_flush w) /\
  forall fuel ifuel, (8 * length (bw_flush w) <= fuel)%nat -> (8 * length (bw_flush w) <= ifuel)%nat ->
  exists r, decode_loop fuel ifuel (zlen code) mtf_init [] (br_init (bw_flush w ++ tail)) = Ok (code, r)
            /\ br_rest r = tail.
Proof.
  intros Hp Hs He Ht.
  destruct (write_items_spec its bw_init mtf_init [] code bw_init_wf ltac:(cbn; lia)
              (Permutation_refl _) Hp Hs He) as (w & m & bits & E & A & W & N & D).
  exists w, m. split; [exact E|].
  destruct (bw_flush_abs w W N) as (pad & P1 & P2 & P3 & P4).
  split; [exact P4|]. intros fuel ifuel Hf Hif.
  rewrite bw_init_abs in A. cbn [app] in A.
  assert (Hlen : (length bits <= 8 * length (bw_flush w))%nat).
  { rewrite <- bits_of_bytes_length, P1, app_length, A. lia. }
  destruct (D fuel ifuel (br_init (bw_flush w ++ tail)) (pad ++ bits_of_bytes tail))
    as (r & Hr & Wr & Ar & Nr).
  - apply br_init_wf. apply Forall_app. auto.
  - rewrite br_init_abs, bits_of_bytes_app, P1, A, <- app_assoc. reflexivity.
  - lia.
  - lia.
  - cbn; lia.
  - exists r. split; [exact Hr|].
    assert (Hl : length (br_abs r) = length (pad ++ bits_of_bytes tail)) by now rewrite Ar.
    unfold br_abs in Hl. rewrite !app_length, bits_of_length, !bits_of_bytes_length in Hl.
    assert (Hn : br_n r = length pad) by lia.
    unfold br_abs in Ar.
    apply (f_equal (skipn (br_n r))) in Ar.
    rewrite !skipn_app, bits_of_length, Nat.sub_diag in Ar. cbn [skipn] in Ar.
    rewrite skipn_all2 in Ar by (rewrite bits_of_length; lia).
    rewrite skipn_all2 in Ar by lia. replace (br_n r - length pad)%nat with 0%nat in Ar by lia.
    cbn [skipn app] in Ar. apply bits_of_bytes_inj; auto. apply Wr.
Qed.
