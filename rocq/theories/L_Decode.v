(** The decoders on arbitrary input; bit field sequences. *)
From Verif Require Import M_Base M_BitIO M_Lz77 M_Compress S_Bits S_Lz L_BitIO L_Compress L_CompressTop.
Ltac Zify.zify_post_hook ::= Z.div_mod_to_equations.
Open Scope Z_scope.

Notation rem r := (length (br_abs r)).

(** A reading step: on success it consumed at least [k] bits; it never runs out of fuel. *)
Definition reads {A} (k : nat) (r : br) (m : res (A * br)) (Q : A -> Prop) : Prop :=
  match m with
  | Ok (a, r') => br_wf r' /\ (rem r' + k <= rem r)%nat /\ Q a
  | Err e => e <> EFuel
  end.

Lemma br_bits_reads n r : br_wf r -> reads n r (br_bits n r) (fun v => 0 <= v < 2 ^ Z.of_nat n).
Proof.
  intros Hw. pose proof (br_bits_spec n r Hw) as H. unfold reads. destruct (br_bits n r) as [[v r']|e].
  - destruct H as (H1 & H2 & H3 & _). rewrite H3, app_length, bits_of_length. repeat split; try lia; apply H1.
  - destruct H as [-> _]. discriminate.
Qed.

Lemma br_bit_reads r : br_wf r -> reads 1 r (br_bit r) (fun _ => True).
Proof.
  intros Hw. unfold br_bit. pose proof (br_bits_reads 1 r Hw) as H. unfold reads in *.
  destruct (br_bits 1 r) as [[v r']|e]; cbn; [|exact H]. repeat split; apply H.
Qed.

Lemma read_extra_reads fuel : forall e r, br_wf r -> (rem r < fuel)%nat ->
  reads 1 r (read_extra fuel e r) (fun _ => True).
Proof.
  induction fuel as [|fuel IH]; intros e r Hw Hf; [lia|]. cbn [read_extra].
  pose proof (br_bit_reads r Hw) as H. unfold reads in H. destruct (br_bit r) as [[b r']|x]; cbn; [|exact H].
  destruct H as (H1 & H2 & _). destruct b.
  - specialize (IH (S e) r' H1 ltac:(lia)). unfold reads in *. destruct (read_extra fuel (S e) r') as [[? ?]|]; auto.
    destruct IH as (? & ? & ?). repeat split; auto; try apply H; lia.
  - cbn. repeat split; auto; apply H1.
Qed.

Lemma read_block_reads fuel : forall out r, br_wf r -> (rem r < fuel)%nat ->
  reads 8 r (read_block fuel out r) (fun out' => exists s, out' = out ++ s /\ Forall (fun c => 0 < c < 256) s).
Proof.
  induction fuel as [|fuel IH]; intros out r Hw Hf; [lia|]. cbn [read_block].
  pose proof (br_bits_reads 8 r Hw) as H. unfold reads in H. destruct (br_bits 8 r) as [[v r']|x]; cbn [bind]; [|exact H].
  destruct H as (H1 & H2 & H3). destruct (Z.eqb_spec v 0).
  - cbn. repeat split; auto; try apply H1. exists []. rewrite app_nil_r. auto.
  - specialize (IH (out ++ [v]) r' H1 ltac:(lia)). unfold reads in *.
    destruct (read_block fuel (out ++ [v]) r') as [[? ?]|]; auto.
    destruct IH as (I1 & I2 & s & -> & I3). repeat split; try apply I1; try lia.
    exists (v :: s). rewrite <- app_assoc. split; [reflexivity|]. constructor; [cbn in H3; lia|exact I3].
Qed.

Lemma read_count_reads fuel : forall c r, br_wf r -> (rem r < fuel)%nat ->
  reads 3 r (read_count fuel c r) (fun c' => c <= c').
Proof.
  induction fuel as [|fuel IH]; intros c r Hw Hf; [lia|]. cbn [read_count].
  pose proof (br_bits_reads 3 r Hw) as H. unfold reads in H. destruct (br_bits 3 r) as [[v r']|x]; cbn [bind]; [|exact H].
  destruct H as (H1 & H2 & H3). destruct (Z.eqb_spec v 7).
  - specialize (IH (c + v) r' H1 ltac:(lia)). unfold reads in *.
    destruct (read_count fuel (c + v) r') as [[? ?]|]; auto.
    destruct IH as (I1 & I2 & I3). repeat split; try apply I1; lia.
  - cbn. repeat split; try apply H1; lia.
Qed.

Lemma neg_index_ok out o : 1 <= o -> forall c, neg_index out o = Ok c -> o <= zlen out.
Proof.
  intros Ho c E. unfold neg_index in E. destruct (Z.eqb_spec o 0); [lia|].
  destruct (znth out (zlen out - o)) eqn:En; [|discriminate].
  unfold znth in En. destruct (Z.ltb_spec (zlen out - o) 0); [discriminate|lia].
Qed.

Lemma copy_back_cases n o out : 1 <= o -> (0 < n)%nat ->
  match copy_back n o out with
  | Ok out' => 1 <= o <= zlen out /\ copied out out' o (Z.of_nat n)
  | Err e => e = EIndex /\ zlen out < o
  end.
Proof.
  intros Ho Hn. destruct (Z.le_gt_cases o (zlen out)) as [L|G].
  - destruct (copy_back_spec n o out ltac:(lia)) as (out' & -> & H). auto.
  - destruct n as [|n]; [lia|]. cbn [copy_back]. destruct (neg_index out o) as [c|e] eqn:E; cbn.
    + apply neg_index_ok in E; lia.
    + unfold neg_index in E. destruct (znth out _); [discriminate|]. injection E as <-. split; [reflexivity|lia].
Qed.

(** One decoding step extends the output by exactly one valid item. *)
Lemma decode_one_reads fuel mtf out r : br_wf r -> (rem r < fuel)%nat -> mtf_ok mtf ->
  reads 1 r (decode_one fuel mtf out r)
    (fun p => mtf_ok (fst p) /\ exists it, pxa_item it /\ spells out [it] (snd p)).
Proof.
  intros Hw Hf Hm. unfold decode_one.
  pose proof (br_bit_reads r Hw) as H1. unfold reads in H1. destruct (br_bit r) as [[b r1]|x]; cbn [bind]; [|exact H1].
  destruct H1 as (W1 & L1 & _). destruct b.
  - pose proof (read_extra_reads fuel 0 r1 W1 ltac:(lia)) as H2. unfold reads in H2.
    destruct (read_extra fuel 0 r1) as [[e r2]|x]; cbn [bind]; [|exact H2]. destruct H2 as (W2 & L2 & _).
    pose proof (br_bits_reads (4 + e) r2 W2) as H3. unfold reads in H3.
    destruct (br_bits (4 + e) r2) as [[v r3]|x]; cbn [bind]; [|exact H3]. destruct H3 as (W3 & L3 & _).
    set (idx := v + _). destruct (znth mtf idx) as [ch|] eqn:Ez; [|cbn; discriminate].
    cbn. split; [exact W3|]. split; [lia|].
    assert (Hz := Ez). unfold znth in Hz. destruct (Z.ltb_spec idx 0); [discriminate|].
    pose proof (nth_error_split _ _ Hz) as (l1 & l2 & El & Ell).
    split.
    + rewrite El, <- Ell, update_mtf_spec. unfold mtf_ok in *. rewrite <- Hm, El. apply Permutation.Permutation_middle.
    + exists (Lit ch). split.
      * cbn. apply mtf_init_In. eapply Permutation.Permutation_in; [exact Hm|]. rewrite El. apply in_or_app. right. now left.
      * constructor. constructor.
  - pose proof (br_bit_reads r1 W1) as H2. unfold reads in H2. destruct (br_bit r1) as [[b2 r2]|x]; cbn [bind]; [|exact H2].
    destruct H2 as (W2 & L2 & _).
    match goal with |- reads _ _ (bind ?m _) _ =>
      assert (HO : reads 0 r2 m (fun n => n = 5%nat \/ n = 10%nat \/ n = 15%nat)) end.
    { destruct b2; [|cbn; repeat split; auto; try apply W2; lia].
      pose proof (br_bit_reads r2 W2) as H3. unfold reads in *. destruct (br_bit r2) as [[b3 r3]|x]; cbn [bind]; [|exact H3].
      destruct H3 as (W3 & L3 & _). split; [exact W3|]. split; [lia|]. destruct b3; auto. }
    match goal with |- reads _ _ (bind ?m _) _ => destruct m as [[ol r3]|x]; cbn [bind]; [|exact HO] end.
    destruct HO as (W3 & L3 & HO).
    pose proof (br_bits_reads ol r3 W3) as H4. unfold reads in H4.
    destruct (br_bits ol r3) as [[v r4]|x]; cbn [bind]; [|exact H4]. destruct H4 as (W4 & L4 & V4).
    assert (Hv : 0 <= v < 32768).
    { destruct HO as [->|[->| ->]]; cbn in V4; lia. }
    destruct ((v + 1 =? 1) && negb (Nat.eqb ol 5)) eqn:Eb.
    + destruct (Nat.eqb ol 10); [|cbn; discriminate]. cbn [assert_ bind].
      pose proof (read_block_reads fuel out r4 W4 ltac:(lia)) as H5. unfold reads in H5.
      destruct (read_block fuel out r4) as [[out' r5]|x]; cbn [bind]; [|exact H5].
      destruct H5 as (W5 & L5 & s & -> & Hs). cbn. split; [exact W5|]. split; [lia|]. split; [exact Hm|].
      exists (Blk s). split; [|constructor; constructor].
      destruct s as [|c [|c2 s]]; cbn; auto. inversion Hs; lia.
    + pose proof (read_count_reads fuel 3 r4 W4 ltac:(lia)) as H5. unfold reads in H5.
      destruct (read_count fuel 3 r4) as [[c r5]|x]; cbn [bind]; [|exact H5]. destruct H5 as (W5 & L5 & Hc).
      pose proof (copy_back_cases (Z.to_nat c) (v + 1) out ltac:(lia) ltac:(lia)) as HC.
      destruct (copy_back (Z.to_nat c) (v + 1) out) as [out'|e]; cbn [bind].
      * destruct HC as [HC1 HC2]. rewrite Z2Nat.id in HC2 by lia. cbn. split; [exact W5|]. split; [lia|].
        split; [exact Hm|]. exists (Mat (v + 1) c). split; [cbn; lia|]. econstructor; [lia|lia|exact HC2|constructor].
      * destruct HC as [-> _]. cbn. discriminate.
Qed.

Lemma spells_app a its b its2 c : spells a its b -> spells b its2 c -> spells a (its ++ its2) c.
Proof. induction 1; intros HX; cbn; [exact HX|constructor; auto|constructor; auto|]. econstructor; eauto. Qed.

Lemma decode_loop_sound fuel : forall ifuel n mtf out r, br_wf r -> (rem r < fuel)%nat -> (rem r < ifuel)%nat -> mtf_ok mtf ->
  match decode_loop fuel ifuel n mtf out r with
  | Ok (code, _) => n <= zlen code /\ exists its, Forall pxa_item its /\ spells out its code
  | Err e => e <> EFuel
  end.
Proof.
  induction fuel as [|fuel IH]; intros ifuel n mtf out r Hw Hf Hif Hm; [lia|]. cbn [decode_loop].
  destruct (Z.ltb_spec (zlen out) n); [|split; [lia|]; exists []; split; constructor].
  pose proof (decode_one_reads ifuel mtf out r Hw Hif Hm) as H1. unfold reads in H1.
  destruct (decode_one ifuel mtf out r) as [[[mtf1 out1] r1]|e]; cbn [bind]; [|exact H1].
  destruct H1 as (W1 & L1 & Hm1 & it & Hi & Hsp). cbn in Hm1, Hsp.
  specialize (IH ifuel n mtf1 out1 r1 W1 ltac:(lia) ltac:(lia) Hm1).
  destruct (decode_loop fuel ifuel n mtf1 out1 r1) as [[code r2]|e]; [|exact IH].
  destruct IH as (I1 & its & I2 & I3). split; [exact I1|]. exists (it :: its).
  split; [now constructor|]. exact (spells_app _ [it] _ _ _ Hsp I3).
Qed.

Lemma pxa_spells_bytes out its code : spells out its code -> Forall pxa_item its -> bytes_ok out -> bytes_ok code.
Proof.
  induction 1 as [out|out c its out' H IH|out s its out' H IH|out o n mid its out' Ho Hn Hc H IH]; intros Hp Hb.
  - exact Hb.
  - inversion Hp; subst. apply IH; [assumption|]. apply Forall_app. split; [exact Hb|]. constructor; [assumption|constructor].
  - inversion Hp as [|? ? Hp1 Hp2]; subst. apply IH; [assumption|]. apply Forall_app. split; [exact Hb|].
    cbn in Hp1. destruct s as [|c [|c2 s]]; [constructor|constructor; [assumption|constructor]|].
    eapply Forall_impl; [|exact Hp1]. cbn. lia.
  - inversion Hp; subst. apply IH; [assumption|].
    destruct (copy_back_spec (Z.to_nat n) o out Ho) as (m2 & E & Hm2). rewrite Z2Nat.id in Hm2 by lia.
    rewrite <- (copied_unique out m2 mid o n Ho Hm2 Hc).
    clear - E Hb Ho. revert out E Hb Ho. induction (Z.to_nat n) as [|k IHk]; intros out E Hb Ho; cbn in E.
    + injection E as <-. exact Hb.
    + unfold neg_index in E at 1. destruct (Z.eqb_spec o 0); [lia|].
      destruct (znth out (zlen out - o)) as [c|] eqn:Ez; [|discriminate]. cbn in E.
      apply (IHk (out ++ [c]) E); [|rewrite zlen_app; pose proof (zlen_nonneg [c]); lia].
      apply Forall_app. split; [exact Hb|]. constructor; [|constructor].
      unfold bytes_ok in Hb. rewrite Forall_forall in Hb. apply Hb. eapply znth_In; eassumption.
Qed.

(** *** Old-format loop on arbitrary bytes *)
Lemma old_decode_no_fuel fuel : forall code d, (length d < fuel)%nat -> old_decode_loop fuel code d <> Err EFuel.
Proof.
  induction fuel as [|fuel IH]; intros code d Hf; [lia|]. cbn [old_decode_loop].
  destruct d as [|x d]; [cbn; discriminate|]. cbn [get_u8 bind]. cbn [length] in Hf.
  destruct (x =? 0).
  - destruct d as [|y d]; [cbn; discriminate|]. cbn [get_u8 bind]. destruct (y =? 0); [discriminate|].
    apply IH. cbn in Hf. lia.
  - destruct (x <=? 59).
    + destruct (znth old_code_table x); [|discriminate]. apply IH. lia.
    + destruct d as [|y d]; [cbn; discriminate|]. cbn [get_u8 bind]. cbn in Hf.
      set (o := _ + Z.land y 15). set (c := _ + 2). destruct (c <=? o); cbn [assert_ bind]; [|discriminate].
      assert (K : forall n o code, copy_back n o code <> Err EFuel).
      { clear. induction n as [|n IH]; intros o code; [discriminate|]. cbn.
        unfold neg_index. destruct (znth code _); cbn; [apply IH|discriminate]. }
      destruct (copy_back (Z.to_nat c) o code) eqn:E; cbn [bind]; [apply IH; lia|].
      specialize (K (Z.to_nat c) o code). rewrite E in K. congruence.
Qed.

(** *** The entry point on arbitrary bytes *)
Lemma firstn4_split l h : zeqb_list (firstn 4 l) h = true -> l = h ++ skipn 4 l.
Proof. intros H. apply zeqb_list_true in H. rewrite <- H. symmetry. apply firstn_skipn. Qed.

Lemma uncompress_no_fuel be mx d : bytes_ok d -> uncompress_code be mx d <> Err EFuel.
Proof.
  intros Hd. unfold uncompress_code.
  assert (Hs : bytes_ok (skipn 4 d)).
  { unfold bytes_ok in *. rewrite <- (firstn_skipn 4 d) in Hd. apply Forall_app in Hd. apply Hd. }
  assert (G : forall d, bytes_ok d -> match get_u16 be d with Ok (_, d') => bytes_ok d' | Err e => e <> EFuel end).
  { intros l Hl. destruct l as [|a [|b l]]; cbn; try discriminate. inversion Hl as [|? ? ? Hl2]; inversion Hl2; subst; assumption. }
  destruct (zeqb_list (firstn 4 d) new_header).
  - pose proof (G _ Hs) as G1. destruct (get_u16 be (skipn 4 d)) as [[n d1]|e]; cbn [bind]; [|congruence].
    pose proof (G _ G1) as G2. destruct (get_u16 be d1) as [[m d2]|e]; cbn [bind]; [|congruence].
    pose proof (decode_loop_sound (bit_fuel d2) (bit_fuel d2) n mtf_init [] (br_init d2) (br_init_wf d2 G2)) as HL.
    rewrite br_init_abs, bits_of_bytes_length in HL.
    specialize (HL ltac:(unfold bit_fuel; lia) ltac:(unfold bit_fuel; lia) (Permutation.Permutation_refl _)).
    destruct (decode_loop _ _ _ _ _ _) as [[code r]|e]; cbn [bind]; [|congruence].
    destruct (_ =? m); cbn; [|discriminate]. destruct (_ =? n); cbn; discriminate.
  - destruct (zeqb_list (firstn 4 d) old_header); [|discriminate].
    pose proof (G _ Hs) as G1. destruct (get_u16 be (skipn 4 d)) as [[n d1]|e]; cbn [bind]; [|congruence].
    pose proof (G _ G1) as G2. destruct (get_u16 be d1) as [[m d2]|e]; cbn [bind]; [|congruence].
    destruct (m =? 0); cbn [assert_ bind]; [|discriminate].
    pose proof (old_decode_no_fuel (S (length d2)) [] d2 ltac:(lia)) as HF.
    destruct (old_decode_loop _ [] d2) as [[code r]|e]; cbn [bind]; [|congruence].
    destruct (_ || _); cbn; discriminate.
Qed.

Lemma uncompress_new_sound be mx d code n rest : bytes_ok d ->
  firstn 4 d = new_header -> get_u16 be (skipn 4 d) = Ok (n, rest) -> uncompress_code be mx d = Ok code ->
  zlen code = n /\ bytes_ok code /\ exists its, Forall pxa_item its /\ spells [] its code.
Proof.
  intros Hd Hh Hn E. unfold uncompress_code in E. rewrite Hh, zeqb_list_refl, Hn in E. cbn [bind] in E.
  assert (Hr : bytes_ok rest).
  { assert (Hs : bytes_ok (skipn 4 d)).
    { unfold bytes_ok in *. rewrite <- (firstn_skipn 4 d) in Hd. apply Forall_app in Hd. apply Hd. }
    destruct (skipn 4 d) as [|a [|b l]]; try discriminate. injection Hn as _ <-.
    inversion Hs as [|? ? ? Hl2]; inversion Hl2; subst; assumption. }
  destruct (get_u16 be rest) as [[m d2]|e] eqn:Em; cbn [bind] in E; [|discriminate].
  assert (G2 : bytes_ok d2).
  { destruct rest as [|a [|b l]]; try discriminate. injection Em as _ <-.
    inversion Hr as [|? ? ? Hl2]; inversion Hl2; subst; assumption. }
  pose proof (decode_loop_sound (bit_fuel d2) (bit_fuel d2) n mtf_init [] (br_init d2) (br_init_wf d2 G2)) as HL.
  rewrite br_init_abs, bits_of_bytes_length in HL.
  specialize (HL ltac:(unfold bit_fuel; lia) ltac:(unfold bit_fuel; lia) (Permutation.Permutation_refl _)).
  destruct (decode_loop _ _ _ _ _ _) as [[code' r]|e]; cbn [bind] in E; [|discriminate].
  destruct (_ =? m); cbn [assert_ bind] in E; [|discriminate].
  destruct (Z.eqb_spec (zlen code') n) as [L|]; cbn [assert_ bind] in E; [|discriminate]. injection E as <-.
  destruct HL as (_ & its & H1 & H2). split; [exact L|]. split; [eapply pxa_spells_bytes; eauto; constructor|eauto].
Qed.

Lemma uncompress_raw be mx d : firstn 4 d <> new_header -> firstn 4 d <> old_header ->
  exists code rest, uncompress_code be mx d = Ok code /\ d = code ++ rest /\ Forall (fun c => c <> 0) code /\
    (zlen code <= Z.max 0 mx) /\ (rest = [] \/ zlen code = Z.max 0 mx \/ exists t, rest = 0 :: t).
Proof.
  intros H1 H2. unfold uncompress_code.
  destruct (zeqb_list (firstn 4 d) new_header) eqn:E1; [apply zeqb_list_true in E1; contradiction|].
  destruct (zeqb_list (firstn 4 d) old_header) eqn:E2; [apply zeqb_list_true in E2; contradiction|].
  unfold zbytes.
  assert (K : forall n l, exists rest, l = take_until0 (firstn n l) ++ rest /\
    Forall (fun c => c <> 0) (take_until0 (firstn n l)) /\ (length (take_until0 (firstn n l)) <= n)%nat /\
    (rest = [] \/ length (take_until0 (firstn n l)) = n \/ exists t, rest = 0 :: t)).
  { clear. induction n as [|n IH]; intros l.
    - exists l. cbn. repeat split; auto.
    - destruct l as [|x l]; [exists []; cbn; repeat split; auto; lia|]. cbn [firstn take_until0].
      destruct (Z.eqb_spec x 0) as [->|N].
      + exists (0 :: l). cbn. repeat split; auto; [lia|]. right. right. eauto.
      + destruct (IH l) as (rest & R1 & R2 & R3 & R4). exists rest. cbn [app length].
        split; [now rewrite <- R1|]. split; [now constructor|]. split; [lia|].
        destruct R4 as [->|[->|R4]]; auto. }
  destruct (K (Z.to_nat mx) d) as (rest & R1 & R2 & R3 & R4).
  exists (take_until0 (firstn (Z.to_nat mx) d)), rest. split; [reflexivity|]. split; [exact R1|].
  split; [exact R2|]. unfold zlen. split; [lia|].
  destruct R4 as [->|[R4|R4]]; auto. right. left. lia.
Qed.

Lemma uncompress_old_len be mx d code n rest : firstn 4 d = old_header ->
  get_u16 be (skipn 4 d) = Ok (n, rest) -> uncompress_code be mx d = Ok code ->
  zlen code = n \/ zlen code = n - 1.
Proof.
  intros Hh Hn E. unfold uncompress_code in E. rewrite Hh in E.
  change (zeqb_list old_header new_header) with false in E. cbn iota in E. rewrite zeqb_list_refl, Hn in E.
  cbn [bind] in E. destruct (get_u16 be rest) as [[m d2]|e]; cbn [bind] in E; [|discriminate].
  destruct (m =? 0); cbn [assert_ bind] in E; [|discriminate].
  destruct (old_decode_loop _ [] d2) as [[code' r]|e]; cbn [bind] in E; [|discriminate].
  destruct ((zlen code' =? n) || (zlen code' =? n - 1)) eqn:Ec; cbn [assert_ bind] in E; [|discriminate].
  injection E as <-. lia.
Qed.

(** *** Sequences of bit fields *)
Definition write_fields (fs : list (nat * Z)) (w : bw) : bw :=
  fold_left (fun w f => bw_bits (fst f) (snd f) w) fs w.
Fixpoint read_fields (ws : list nat) (r : br) : res (list Z * br) :=
  match ws with
  | [] => Ok ([], r)
  | n :: ws => '(v, r) <- br_bits n r ;; '(vs, r) <- read_fields ws r ;; Ok (v :: vs, r)
  end.
Definition field_bits (fs : list (nat * Z)) : list bool := concat (map (fun f => bits_of (fst f) (snd f)) fs).

Lemma write_fields_abs fs : forall w, bw_wf w -> (bw_n w < 8)%nat -> Forall (fun f => 0 <= snd f < 2 ^ Z.of_nat (fst f)) fs ->
  bw_wf (write_fields fs w) /\ (bw_n (write_fields fs w) < 8)%nat /\
  bw_abs (write_fields fs w) = bw_abs w ++ field_bits fs.
Proof.
  induction fs as [|[n v] fs IH]; intros w Hw Hn HF; cbn.
  - rewrite app_nil_r. auto.
  - inversion HF as [|? ? Hv HF']; subst. cbn in Hv.
    destruct (bw_bits_abs n v w Hw Hv) as (A & W & N).
    destruct (IH _ W N HF') as (I1 & I2 & I3). split; [exact I1|]. split; [exact I2|].
    etransitivity; [exact I3|]. rewrite A, <- app_assoc. reflexivity.
Qed.

Lemma read_fields_spec fs : forall r tail, br_wf r -> br_abs r = field_bits fs ++ tail ->
  Forall (fun f => 0 <= snd f < 2 ^ Z.of_nat (fst f)) fs ->
  exists r', read_fields (map fst fs) r = Ok (map snd fs, r') /\ br_wf r' /\ br_abs r' = tail.
Proof.
  induction fs as [|[n v] fs IH]; intros r tail Hw Ha HF; cbn in *.
  - eauto.
  - inversion HF as [|? ? Hv HF']; subst. cbn in Hv. rewrite <- app_assoc in Ha.
    destruct (br_bits_read n v r _ Hw Hv Ha) as (r1 & -> & W1 & A1 & _). cbn [bind].
    destruct (IH r1 tail W1 A1 HF') as (r2 & -> & W2 & A2). cbn. eauto.
Qed.

Lemma field_bits_length fs : length (field_bits fs) = fold_right Nat.add 0%nat (map fst fs).
Proof. induction fs as [|[n v] fs IH]; cbn; [reflexivity|]. rewrite app_length, bits_of_length. unfold field_bits in IH. lia. Qed.

Lemma fields_roundtrip fs tail : Forall (fun f => 0 <= snd f < 2 ^ Z.of_nat (fst f)) fs -> bytes_ok tail ->
  let d := bw_flush (write_fields fs bw_init) in
  bytes_ok d /\ length d = bytes_for_bits (fold_right Nat.add 0%nat (map fst fs)) /\
  exists r, read_fields (map fst fs) (br_init (d ++ tail)) = Ok (map snd fs, r).
Proof.
  intros HF Ht. destruct (write_fields_abs fs bw_init bw_init_wf ltac:(cbn; lia) HF) as (W & N & A).
  rewrite bw_init_abs in A. cbn [app] in A.
  destruct (bw_flush_abs _ W N) as (pad & P1 & P2 & P3 & P4). cbn zeta.
  split; [exact P4|]. split.
  - unfold bytes_for_bits. rewrite <- field_bits_length, <- A.
    apply (f_equal (@length bool)) in P1. rewrite bits_of_bytes_length, app_length in P1. lia.
  - destruct (read_fields_spec fs (br_init (bw_flush (write_fields fs bw_init) ++ tail)) (pad ++ bits_of_bytes tail))
      as (r & E & _); eauto.
    + apply br_init_wf. apply Forall_app. auto.
    + rewrite br_init_abs, bits_of_bytes_app, P1, A, <- app_assoc. reflexivity.
Qed.
