From Verif Require Import M_Base L_Util M_BitIO S_Bits L_BitIO M_Rom M_Cart64 S_Cart64.
Open Scope Z_scope.

(** * Pixels *)
Lemma low_bits r x m : Z.land (Z.lor (Z.land r (Z.lnot m)) (Z.land x m)) m = Z.land x m.
Proof.
  apply Z.bits_inj'. intros n Hn. rewrite !Z.land_spec, Z.lor_spec, !Z.land_spec, Z.lnot_spec by lia.
  destruct (Z.testbit r n), (Z.testbit x n), (Z.testbit m n); reflexivity.
Qed.
Lemma high_bits r x n : 0 <= n -> let m := Z.ones n in Z.lor (Z.land r (Z.lnot m)) (Z.land x m) / 2 ^ n = r / 2 ^ n.
Proof.
  intros Hn. cbn zeta. rewrite <- !Z.shiftr_div_pow2 by lia. apply Z.bits_inj'. intros k Hk.
  rewrite !Z.shiftr_spec, Z.lor_spec, !Z.land_spec, Z.lnot_spec by lia.
  rewrite Z.ones_spec_high by lia. destruct (Z.testbit r (k + n)), (Z.testbit x (k + n)); reflexivity.
Qed.

Lemma px_word_eq r g b a : px_word (r, g, b, a) = r mod 8 + g mod 8 * 8 + b mod 8 * 64 + a mod 4 * 512.
Proof.
  unfold px_word.
  assert (E7 : forall x, Z.land x 7 = x mod 8) by (intros x; exact (Z.land_ones x 3 ltac:(lia))).
  assert (E3 : forall x, Z.land x 3 = x mod 4) by (intros x; exact (Z.land_ones x 2 ltac:(lia))).
  rewrite !E7, E3.
  rewrite (lor_shiftl_add (r mod 8) (g mod 8) 3) by (change (2 ^ 3) with 8; lia).
  rewrite (lor_shiftl_add _ (b mod 8) 6) by (change (2 ^ 6) with 64; change (2 ^ 3) with 8; lia).
  rewrite (lor_shiftl_add _ (a mod 4) 9) by (change (2 ^ 9) with 512; change (2 ^ 6) with 64; change (2 ^ 3) with 8; lia).
  change (2 ^ 9) with 512; change (2 ^ 6) with 64; change (2 ^ 3) with 8; lia.
Qed.
Lemma px_word_range p : 0 <= px_word p < 2 ^ Z.of_nat 11.
Proof. destruct p as (((r, g), b), a). rewrite px_word_eq. change (2 ^ Z.of_nat 11) with 2048. lia. Qed.
Lemma px_word_hide w p : 0 <= w < 2 ^ Z.of_nat 11 -> px_word (px_hide64 w p) = w.
Proof.
  change (2 ^ Z.of_nat 11) with 2048. intros H. destruct p as (((r, g), b), a). unfold px_hide64, px_word.
  rewrite !low_bits. change (px_word (w, Z.shiftr w 3, Z.shiftr w 6, Z.shiftr w 9) = w).
  rewrite px_word_eq, !Z.shiftr_div_pow2 by lia. lia.
Qed.
Lemma px_high w p : let '(r, g, b, a) := p in let '(r', g', b', a') := px_hide64 w p in
  r' / 8 = r / 8 /\ g' / 8 = g / 8 /\ b' / 8 = b / 8 /\ a' / 4 = a / 4.
Proof.
  destruct p as (((r, g), b), a). unfold px_hide64.
  repeat split; [apply (high_bits r w 3)|apply (high_bits g _ 3)|apply (high_bits b _ 3)|apply (high_bits a _ 2)]; lia.
Qed.

(** * Reading bits out of an image *)
Definition words_bits (ps : list px) : list bool := concat (map (fun p => bits_of 11 (px_word p)) ps).
Lemma image64_bits ps : forall w, bw_wf w -> (bw_n w < 8)%nat ->
  let w' := fold_left (fun w p => bw_bits 11 (px_word p) w) ps w in
  bw_wf w' /\ (bw_n w' < 8)%nat /\ bw_abs w' = bw_abs w ++ words_bits ps.
Proof.
  induction ps as [|p ps IH]; intros w Ww Nw; cbn [fold_left]; cbn zeta.
  - split; [easy|]. split; [easy|]. cbn. now rewrite app_nil_r.
  - destruct (bw_bits_abs 11 (px_word p) w Ww (px_word_range p)) as (A & B & C).
    destruct (IH _ B C) as (A' & B' & C'). split; [easy|]. split; [easy|]. rewrite C', A. cbn [words_bits map concat].
    now rewrite <- app_assoc.
Qed.
Lemma words_bits_length ps : length (words_bits ps) = (11 * length ps)%nat.
Proof.
  induction ps as [|p ps IH]; [easy|]. unfold words_bits in *. cbn [map concat]. rewrite app_length, IH, bits_of_length. cbn [length]. lia.
Qed.

Lemma bits_of_bytes_inj a : forall b, bytes_ok a -> bytes_ok b -> bits_of_bytes a = bits_of_bytes b -> a = b.
Proof.
  induction a as [|x a IH]; intros [|y b] Ba Bb E; try easy.
  rewrite !bits_of_bytes_cons in E. inversion Ba; inversion Bb; subst.
  assert (Q : bits_of 8 x = bits_of 8 y /\ bits_of_bytes a = bits_of_bytes b).
  { assert (F : firstn 8 (bits_of 8 x ++ bits_of_bytes a) = firstn 8 (bits_of 8 y ++ bits_of_bytes b)) by now rewrite E.
    assert (G : skipn 8 (bits_of 8 x ++ bits_of_bytes a) = skipn 8 (bits_of 8 y ++ bits_of_bytes b)) by now rewrite E.
    exact (conj F G). }
  destruct Q as (Q & R). f_equal; [apply bits_of_inj in Q; [easy|cbn;lia|cbn;lia]|now apply IH].
Qed.
Lemma bits_zero n : bits_of n 0 = repeat false n.
Proof. induction n as [|n IH]; [easy|]. cbn [bits_of repeat]. f_equal. exact IH. Qed.
Lemma bits_of_zeros k : bits_of_bytes (repeat 0 k) = repeat false (8 * k).
Proof.
  induction k as [|k IH]; [easy|]. cbn [repeat]. rewrite bits_of_bytes_cons, IH, bits_zero, <- repeat_app. f_equal. lia.
Qed.

(** * Writing bits into an image *)
Lemma hide_ok len : forall ps r X k, br_wf r -> (br_n r < 8)%nat -> br_abs r = X ++ repeat false k ->
  X = [] \/ (32 <= k)%nat -> (length X <= 11 * length ps)%nat ->
  exists ps', image64_hide len r ps = Ok ps' /\ length ps' = length ps /\
    words_bits ps' = X ++ repeat false (11 * length ps - length X) /\
    Forall2 looks_same ps ps'.
Proof.
  induction ps as [|p ps IH]; intros r X k Wr Nr A HX HL; cbn [image64_hide].
  - exists []. destruct X; [|cbn in HL; lia]. repeat split. constructor.
  - cbn zeta. assert (Len : length (br_abs r) = (br_n r + 8 * length (br_rest r))%nat).
    { unfold br_abs. rewrite app_length, bits_of_length, bits_of_bytes_length. lia. }
    rewrite A, app_length, repeat_length in Len.
    destruct (Z.ltb_spec (len - zlen (br_rest r)) (len - 2)) as [Hlt|Hge].
    + pose proof (br_bits_spec 11 r Wr) as Sp. destruct (br_bits 11 r) as [(w, r')|e].
      2:{ destruct Sp as (_ & Sp). rewrite A, app_length, repeat_length in Sp. unfold zlen in Hlt. lia. }
      destruct Sp as (Wr' & Rw & E & N8). specialize (N8 Nr). cbn [bind]. rewrite A in E.
      assert (G : exists X' k', br_abs r' = X' ++ repeat false k' /\ (X' = [] \/ (32 <= k')%nat) /\
        (length X' <= 11 * length ps)%nat /\
        bits_of 11 w ++ X' ++ repeat false (11 * length ps - length X') =
        X ++ repeat false (11 * length (p :: ps) - length X)).
      { assert (Q1 : bits_of 11 w = firstn 11 (X ++ repeat false k)) by (rewrite E; now rewrite firstn_app, bits_of_length, firstn_all2, Nat.sub_diag, app_nil_r by (rewrite bits_of_length; lia)).
        assert (Q2 : br_abs r' = skipn 11 (X ++ repeat false k)) by (rewrite E; now rewrite skipn_app, bits_of_length, skipn_all2, Nat.sub_diag by (rewrite bits_of_length; lia)).
        rewrite firstn_app in Q1. rewrite skipn_app in Q2. cbn [length] in HL |- *. destruct (Nat.le_gt_cases 11 (length X)) as [L|L].
        - exists (skipn 11 X), k. replace (11 - length X)%nat with O in Q1, Q2 by lia. rewrite firstn_O in Q1. rewrite skipn_O in Q2.
          rewrite app_nil_r in Q1. rewrite skipn_length.
          split; [exact Q2|]. split; [destruct HX as [->|HX]; [cbn in L; lia|now right]|]. split; [lia|].
          rewrite Q1, app_assoc, firstn_skipn. f_equal. f_equal. lia.
        - exists [], (k - (11 - length X))%nat. rewrite skipn_all2 in Q2 by lia. rewrite firstn_all2 in Q1 by lia.
          cbn [app length].
          assert (Sk : forall j n, skipn j (repeat false n) = repeat false (n - j)).
          { clear. induction j as [|j IH]; intros n; [now rewrite Nat.sub_0_r|]. destruct n; [easy|]. cbn [repeat skipn]. apply IH. }
          assert (Fk : forall j n, (j <= n)%nat -> firstn j (repeat false n) = repeat false j).
          { clear. induction j as [|j IH]; intros n H; [easy|]. destruct n; [lia|]. cbn [repeat firstn]. f_equal. apply IH. lia. }
          split; [rewrite Q2; apply Sk|]. split; [now left|]. split; [lia|].
          rewrite Q1, Fk by (unfold zlen in Hlt; lia). rewrite <- app_assoc, <- repeat_app. do 2 f_equal. lia. }
      destruct G as (X' & k' & A' & HX' & HL' & Eb). destruct (IH r' X' k' Wr' N8 A' HX' HL') as (ps' & -> & L' & B' & H').
      cbn [bind]. eexists. split; [reflexivity|]. split; [cbn; lia|]. split.
      * unfold words_bits in *. cbn [map concat]. rewrite px_word_hide by exact Rw. rewrite B'. exact Eb.
      * constructor; [apply px_high|exact H'].
    + cbn [bind]. assert (X = []) as ->. { destruct HX as [HX|HX]; [easy|]. unfold zlen in Hge. lia. }
      destruct (IH r [] k Wr Nr A (or_introl eq_refl) ltac:(cbn; lia)) as (ps' & -> & L' & B' & H').
      cbn [bind]. eexists. split; [reflexivity|]. split; [cbn; lia|]. split.
      * unfold words_bits in *. cbn [map concat]. rewrite px_word_hide by (cbn; lia). rewrite B', bits_zero. cbn [app length].
        rewrite <- repeat_app. f_equal. lia.
      * constructor; [apply px_high|exact H'].
Qed.

(** * Both *)
Lemma image64_roundtrip rom image : bytes_ok rom -> zlen image mod 8 = 0 -> 8 * zlen rom <= 11 * zlen image ->
  exists image', image64_hide (zlen (rom ++ repeat 0 4)) (br_init (rom ++ repeat 0 4)) image = Ok image' /\
    length image' = length image /\
    Forall2 looks_same image image' /\
    exists k, image64_bytes image' = rom ++ repeat 0 k.
Proof.
  intros Br M L. unfold zlen in M, L. set (len := zlen _).
  assert (Bo : bytes_ok (rom ++ repeat 0 4)) by (apply Forall_app; split; [easy|]; repeat (constructor; [lia|]); constructor).
  destruct (hide_ok len image (br_init (rom ++ repeat 0 4)) (bits_of_bytes rom) 32) as (image' & E & L' & B & H).
  - now apply br_init_wf.
  - cbn. lia.
  - rewrite br_init_abs, bits_of_bytes_app. f_equal.
  - now right.
  - rewrite bits_of_bytes_length. lia.
  - exists image'. split; [exact E|]. split; [easy|]. split; [easy|].
    destruct (image64_bits image' bw_init bw_init_wf ltac:(cbn; lia)) as (W & N & A). unfold image64_bytes.
    set (w := fold_left _ _ _) in *. rewrite bw_init_abs in A. cbn [app] in A.
    assert (Lb : (8 * length (bw_out w) + bw_n w = 11 * length image)%nat).
    { rewrite <- L', <- words_bits_length, <- A. unfold bw_abs. rewrite app_length, bits_of_length, bits_of_bytes_length. lia. }
    assert (bw_n w = 0%nat) as N0 by lia. unfold bw_abs in A. rewrite N0 in A. cbn [bits_of] in A. rewrite app_nil_r in A.
    exists (length (bw_out w) - length rom)%nat.
    apply bits_of_bytes_inj; [apply W|apply Forall_app; split; [easy|]; apply Forall_forall; intros x I; apply repeat_spec in I; lia|].
    rewrite A, B, bits_of_bytes_app, bits_of_zeros, bits_of_bytes_length. do 2 f_equal. lia.
Qed.
