(** Refinement of the bit writer/reader to plain bit lists. *)
From Verif Require Import M_Base M_BitIO S_Bits.
Ltac Zify.zify_post_hook ::= Z.div_mod_to_equations.
Open Scope Z_scope.

Lemma bits_of_length n v : length (bits_of n v) = n.
Proof. revert v; induction n as [|n IH]; intros v; cbn; [reflexivity | now rewrite IH]. Qed.

Lemma bits_of_app n m v : bits_of (n + m) v = bits_of n v ++ bits_of m (v / 2 ^ Z.of_nat n).
Proof.
  revert v; induction n as [|n IH]; intros v.
  - cbn. now rewrite Z.div_1_r.
  - cbn [Nat.add bits_of app]. rewrite IH. do 3 f_equal.
    rewrite Nat2Z.inj_succ, Z.pow_succ_r by lia.
    rewrite Z.div_div by lia. reflexivity.
Qed.

Lemma odd_add_mul2 a b : Z.odd (a + 2 * b) = Z.odd a.
Proof. rewrite Z.odd_add, Z.odd_mul. cbn. now destruct (Z.odd a). Qed.

(** The low [n] bits only depend on the value mod 2^n. *)
Lemma bits_of_add n a b : bits_of n (a + b * 2 ^ Z.of_nat n) = bits_of n a.
Proof.
  revert a; induction n as [|n IH]; intros a; [reflexivity|].
  cbn [bits_of]. rewrite Nat2Z.inj_succ, Z.pow_succ_r by lia.
  replace (b * (2 * 2 ^ Z.of_nat n)) with (2 * (b * 2 ^ Z.of_nat n)) by ring.
  rewrite odd_add_mul2. f_equal.
  rewrite (Z.mul_comm 2), Z.div_add by lia. apply IH.
Qed.

Lemma bits_of_mod n a : bits_of n (a mod 2 ^ Z.of_nat n) = bits_of n a.
Proof.
  rewrite <- (bits_of_add n (a mod _) (a / 2 ^ Z.of_nat n)).
  f_equal. assert (2 ^ Z.of_nat n > 0) by lia.
  rewrite (Z.div_mod a (2 ^ Z.of_nat n)) at 3 by lia. ring.
Qed.

Lemma bits_of_inj n a b :
  0 <= a < 2 ^ Z.of_nat n -> 0 <= b < 2 ^ Z.of_nat n -> bits_of n a = bits_of n b -> a = b.
Proof.
  revert a b; induction n as [|n IH]; intros a b Ha Hb H.
  - cbn in *. lia.
  - rewrite Nat2Z.inj_succ, Z.pow_succ_r in Ha, Hb by lia.
    cbn [bits_of] in H. injection H as Ho Hd.
    apply IH in Hd; [|lia|lia].
    rewrite (Zdiv2_odd_eqn a), (Zdiv2_odd_eqn b), !Z.div2_div, Hd, Ho. reflexivity.
Qed.

(** [Z.lor] of disjoint fields is addition. *)
Lemma lor_shiftl_add a v k : 0 <= k -> 0 <= a < 2 ^ k -> 0 <= v ->
  Z.lor a (Z.shiftl v k) = a + v * 2 ^ k.
Proof.
  intros Hk Ha Hv.
  assert (H0 : Z.land a (Z.shiftl v k) = 0).
  { rewrite Z.shiftl_mul_pow2 by lia. apply Z.bits_inj'; intros n Hn.
    rewrite Z.land_spec, Z.bits_0.
    destruct (Z.lt_ge_cases n k).
    - rewrite (Z.mul_pow2_bits_low v k n) by lia. apply andb_false_r.
    - rewrite <- (Z.mod_small a (2 ^ k)) by lia. rewrite Z.mod_pow2_bits_high by lia. reflexivity. }
  rewrite <- Z.lxor_lor by exact H0. rewrite <- Z.add_nocarry_lxor by exact H0.
  rewrite Z.shiftl_mul_pow2 by lia. reflexivity.
Qed.

Lemma land_ones_mod a n : 0 <= n -> Z.land a (Z.shiftl 1 n - 1) = a mod 2 ^ n.
Proof.
  intros Hn. rewrite Z.shiftl_1_l.
  rewrite <- Z.land_ones by lia. f_equal. rewrite Z.ones_equiv. lia.
Qed.

Lemma land_ff a : Z.land a 0xff = a mod 256.
Proof. exact (Z.land_ones a 8 ltac:(lia)). Qed.

(** *** Writer *)
Definition bw_abs (w : bw) : list bool := bits_of_bytes (bw_out w) ++ bits_of (bw_n w) (bw_acc w).
Definition bw_wf (w : bw) : Prop :=
  bytes_ok (bw_out w) /\ 0 <= bw_acc w < 2 ^ Z.of_nat (bw_n w).

Lemma bits_of_bytes_app a b : bits_of_bytes (a ++ b) = bits_of_bytes a ++ bits_of_bytes b.
Proof. unfold bits_of_bytes. now rewrite map_app, concat_app. Qed.

Lemma bits_of_bytes_length l : length (bits_of_bytes l) = (8 * length l)%nat.
Proof.
  induction l as [|x l IH]; [reflexivity|].
  unfold bits_of_bytes in *. cbn [map concat]. rewrite app_length, IH, bits_of_length. cbn [length]. lia.
Qed.

Lemma bits_of_bytes_cons x l : bits_of_bytes (x :: l) = bits_of 8 x ++ bits_of_bytes l.
Proof. reflexivity. Qed.

Lemma bits_of_mod8 x : bits_of 8 (x mod 256) = bits_of 8 x.
Proof. exact (bits_of_mod 8 x). Qed.

Lemma bw_remove_abs w : bw_wf w -> (8 <= bw_n w)%nat ->
  bw_abs (bw_remove w) = bw_abs w /\ bw_wf (bw_remove w) /\ bw_n (bw_remove w) = (bw_n w - 8)%nat.
Proof.
  intros [Hb Ha] Hn. unfold bw_abs, bw_wf, bw_remove; cbn [bw_out bw_acc bw_n].
  rewrite land_ff, bits_of_bytes_app, <- app_assoc.
  rewrite Z.shiftr_div_pow2 by lia. split; [|split; [split|]].
  - f_equal. replace (bw_n w) with (8 + (bw_n w - 8))%nat at 2 by lia.
    rewrite bits_of_app. rewrite bits_of_bytes_cons. cbn [bits_of_bytes map concat].
    rewrite app_nil_r, bits_of_mod8. reflexivity.
  - apply Forall_app; split; [assumption|]. constructor; [|constructor]. lia.
  - replace (2 ^ Z.of_nat (bw_n w)) with (2 ^ 8 * 2 ^ Z.of_nat (bw_n w - 8)) in Ha
      by (rewrite <- Z.pow_add_r by lia; f_equal; lia).
    split; [apply Z.div_pos; lia | apply Z.div_lt_upper_bound; lia].
  - reflexivity.
Qed.

Lemma bw_drain_abs k w : bw_wf w -> (bw_n w <= k)%nat ->
  bw_abs (bw_drain k w) = bw_abs w /\ bw_wf (bw_drain k w) /\ (bw_n (bw_drain k w) < 8)%nat.
Proof.
  revert w; induction k as [|k IH]; intros w Hw Hk; cbn [bw_drain].
  - repeat split; try assumption; try apply Hw. lia.
  - destruct (Nat.leb_spec 8 (bw_n w)) as [H8|H8].
    + destruct (bw_remove_abs w Hw H8) as (Ha & Hw' & Hn).
      destruct (IH (bw_remove w) Hw') as (Ha' & Hw'' & Hn'); [lia|].
      rewrite Ha', Ha. auto.
    + auto.
Qed.

Lemma bw_bits_abs n v w : bw_wf w -> 0 <= v < 2 ^ Z.of_nat n ->
  bw_abs (bw_bits n v w) = bw_abs w ++ bits_of n v /\ bw_wf (bw_bits n v w)
  /\ (bw_n (bw_bits n v w) < 8)%nat.
Proof.
  intros [Hb Ha] Hv. unfold bw_bits.
  set (w' := mkbw _ _ _).
  assert (Hlor : bw_acc w' = bw_acc w + v * 2 ^ Z.of_nat (bw_n w))
    by (apply lor_shiftl_add; lia).
  assert (Hw' : bw_wf w').
  { split; [exact Hb|]. rewrite Hlor. subst w'; cbn [bw_n].
    rewrite Nat2Z.inj_add, Z.pow_add_r by lia. nia. }
  destruct (bw_drain_abs (bw_n w') w' Hw' (le_n _)) as (H1 & H2 & H3).
  rewrite H1. split; [|auto].
  unfold bw_abs. rewrite Hlor. subst w'; cbn [bw_n bw_out].
  rewrite bits_of_app, bits_of_add, <- app_assoc. do 3 f_equal.
  rewrite Z.div_add by lia. rewrite Z.div_small by lia. reflexivity.
Qed.

Lemma bw_bit_abs b w : bw_wf w ->
  bw_abs (bw_bit b w) = bw_abs w ++ [b] /\ bw_wf (bw_bit b w) /\ (bw_n (bw_bit b w) < 8)%nat.
Proof.
  intros Hw. unfold bw_bit.
  destruct (bw_bits_abs 1 (if b then 1 else 0) w Hw) as (H1 & H2 & H3); [destruct b; lia|].
  rewrite H1. split; [destruct b; reflexivity | auto].
Qed.

Lemma bw_init_wf : bw_wf bw_init.
Proof. split; [constructor | cbn; lia]. Qed.

Lemma bw_init_abs : bw_abs bw_init = [].
Proof. reflexivity. Qed.

(** Flushing pads the last byte with zero bits. *)
Lemma bw_flush_abs w : bw_wf w -> (bw_n w < 8)%nat ->
  exists pad, bits_of_bytes (bw_flush w) = bw_abs w ++ pad /\ (length pad < 8)%nat
    /\ Forall (eq false) pad /\ bytes_ok (bw_flush w).
Proof.
  intros [Hb Ha] Hn. unfold bw_flush, bw_abs.
  destruct (Nat.eqb_spec (bw_n w) 0) as [E|E].
  - exists []. rewrite E. cbn [bits_of]. rewrite !app_nil_r. repeat split; auto; cbn; lia.
  - exists (bits_of (8 - bw_n w) 0). rewrite bits_of_length.
    assert (Hz : forall n, Forall (eq false) (bits_of n 0)).
    { induction n as [|n IH]; [constructor|]. cbn [bits_of]. constructor; [reflexivity|exact IH]. }
    repeat split; [|lia|apply Hz|].
    + rewrite bits_of_bytes_app, <- app_assoc. f_equal.
      rewrite bits_of_bytes_cons. cbn [bits_of_bytes map concat]. rewrite app_nil_r, land_ff, bits_of_mod8.
      replace 8%nat with (bw_n w + (8 - bw_n w))%nat at 1 by lia.
      rewrite bits_of_app. rewrite Z.div_small by lia. reflexivity.
    + apply Forall_app; split; [assumption|]. constructor; [|constructor]. rewrite land_ff. lia.
Qed.

(** *** Reader *)
Definition br_abs (r : br) : list bool := bits_of (br_n r) (br_acc r) ++ bits_of_bytes (br_rest r).
Definition br_wf (r : br) : Prop :=
  bytes_ok (br_rest r) /\ 0 <= br_acc r < 2 ^ Z.of_nat (br_n r).

Lemma br_init_abs d : br_abs (br_init d) = bits_of_bytes d.
Proof. reflexivity. Qed.

Lemma br_init_wf d : bytes_ok d -> br_wf (br_init d).
Proof. intros H; split; [exact H | cbn; lia]. Qed.

Lemma br_fill_spec k n r : br_wf r -> (n <= 8 * k + br_n r)%nat ->
  match br_fill k n r with
  | Ok r' => br_wf r' /\ br_abs r' = br_abs r /\ (n <= br_n r')%nat
             /\ (br_n r' < n + 8 \/ r' = r)%nat /\ (length (br_abs r) >= n)%nat
  | Err e => e = EStruct /\ (length (br_abs r) < n)%nat
  end.
Proof.
  revert r; induction k as [|k IH]; intros r Hw Hk; cbn [br_fill];
    (destruct (Nat.ltb_spec (br_n r) n) as [Hlt|Hge]; [|]).
  - lia.
  - repeat split; try apply Hw; auto. unfold br_abs; rewrite app_length, bits_of_length. lia.
  - destruct (br_rest r) as [|b rest] eqn:Er.
    + split; [reflexivity|]. unfold br_abs. rewrite Er. cbn. rewrite app_nil_r, bits_of_length. lia.
    + set (r1 := mkbr rest _ _). destruct Hw as [Hb Ha]. rewrite Er in Hb.
      inversion Hb as [|? ? Hb1 Hb2]; subst.
      assert (Hl : br_acc r1 = br_acc r + b * 2 ^ Z.of_nat (br_n r))
        by (apply lor_shiftl_add; lia).
      assert (Hw1 : br_wf r1).
      { split; [exact Hb2|]. rewrite Hl. subst r1; cbn [br_n].
        rewrite Nat2Z.inj_add, Z.pow_add_r by lia. change (2 ^ Z.of_nat 8) with 256. nia. }
      assert (Habs : br_abs r1 = br_abs r).
      { unfold br_abs. rewrite Hl, Er. subst r1; cbn [br_n br_rest].
        rewrite bits_of_app, bits_of_add, <- app_assoc, bits_of_bytes_cons. do 3 f_equal.
        rewrite Z.div_add by lia. rewrite Z.div_small by lia. reflexivity. }
      specialize (IH r1 Hw1). subst r1; cbn [br_n] in IH.
      specialize (IH ltac:(lia)). rewrite Habs in IH.
      destruct (br_fill k n _) as [r'|e]; [|exact IH].
      destruct IH as (H1 & H2 & H3 & H4 & H5). repeat split; try assumption; try apply H1.
      left. destruct H4 as [H4|H4]; [exact H4|]. subst r'; cbn [br_n]. lia.
  - repeat split; try apply Hw; auto. unfold br_abs; rewrite app_length, bits_of_length. lia.
Qed.

(** Reading [n] bits: succeeds exactly when [n] bits are left, and returns the
    value they denote. *)
Lemma br_bits_spec n r : br_wf r ->
  match br_bits n r with
  | Ok (v, r') => br_wf r' /\ 0 <= v < 2 ^ Z.of_nat n /\ br_abs r = bits_of n v ++ br_abs r'
                  /\ ((br_n r < 8)%nat -> (br_n r' < 8)%nat)
  | Err e => e = EStruct /\ (length (br_abs r) < n)%nat
  end.
Proof.
  intros Hw. unfold br_bits.
  pose proof (br_fill_spec n n r Hw ltac:(lia)) as HF.
  destruct (br_fill n n r) as [r'|e]; cbn [bind]; [|exact HF].
  destruct HF as ([Hb Ha] & Habs & Hn & Hlt & Hlen).
  rewrite land_ones_mod, Z.shiftr_div_pow2 by lia.
  assert (Hp : 0 < 2 ^ Z.of_nat n) by lia.
  assert (Hsplit : 2 ^ Z.of_nat (br_n r') = 2 ^ Z.of_nat n * 2 ^ Z.of_nat (br_n r' - n))
    by (rewrite <- Z.pow_add_r by lia; f_equal; lia).
  split; [split|split; [|split]]; cbn [br_rest br_acc br_n].
  - exact Hb.
  - rewrite Hsplit in Ha. split; [apply Z.div_pos; lia | apply Z.div_lt_upper_bound; lia].
  - apply Z.mod_pos_bound; lia.
  - rewrite <- Habs. unfold br_abs; cbn [br_n br_acc br_rest].
    rewrite app_assoc. f_equal. rewrite bits_of_mod.
    replace (br_n r') with (n + (br_n r' - n))%nat at 1 by lia. apply bits_of_app.
  - intros H8. destruct Hlt as [Hlt|Hlt]; [lia|]. subst r'. lia.
Qed.

(** Reading back a field whose bits are at the front of the stream. *)
Lemma br_bits_read n v r tail : br_wf r -> 0 <= v < 2 ^ Z.of_nat n ->
  br_abs r = bits_of n v ++ tail ->
  exists r', br_bits n r = Ok (v, r') /\ br_wf r' /\ br_abs r' = tail
             /\ ((br_n r < 8)%nat -> (br_n r' < 8)%nat).
Proof.
  intros Hw Hv Habs. pose proof (br_bits_spec n r Hw) as HS.
  destruct (br_bits n r) as [[v' r']|e].
  - destruct HS as (Hw' & Hv' & Ha & H8). rewrite Habs in Ha.
    assert (Hl : bits_of n v = bits_of n v' /\ tail = br_abs r').
    { assert (HH : firstn n (bits_of n v ++ tail) = firstn n (bits_of n v' ++ br_abs r')) by now rewrite Ha.
      assert (HH2 : skipn n (bits_of n v ++ tail) = skipn n (bits_of n v' ++ br_abs r')) by now rewrite Ha.
      rewrite !firstn_app, !bits_of_length, Nat.sub_diag in HH. cbn [firstn] in HH.
      rewrite !app_nil_r in HH. rewrite !firstn_all2 in HH by (rewrite bits_of_length; lia).
      rewrite !skipn_app, !bits_of_length, Nat.sub_diag in HH2. cbn [skipn] in HH2.
      rewrite !skipn_all2 in HH2 by (rewrite bits_of_length; lia). cbn [app] in HH2. auto. }
    destruct Hl as [Hl1 Hl2]. apply bits_of_inj in Hl1; [|assumption|assumption].
    subst v' tail. exists r'. auto.
  - destruct HS as [_ HL]. rewrite Habs, app_length, bits_of_length in HL. lia.
Qed.

Lemma br_bit_read b r tail : br_wf r -> br_abs r = b :: tail ->
  exists r', br_bit r = Ok (b, r') /\ br_wf r' /\ br_abs r' = tail
             /\ ((br_n r < 8)%nat -> (br_n r' < 8)%nat).
Proof.
  intros Hw Ha. unfold br_bit.
  destruct (br_bits_read 1 (if b then 1 else 0) r tail Hw) as (r' & H1 & H2 & H3 & H4).
  - destruct b; cbn; lia.
  - rewrite Ha. destruct b; reflexivity.
  - rewrite H1. cbn [bind]. exists r'. repeat split; auto; try apply H2. destruct b; reflexivity.
Qed.
