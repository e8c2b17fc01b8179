(** Lemmas on the binary cart formats. *)
From Coq Require Import Sorted.
From Verif Require Import M_Base M_Memory M_Lz77 M_Compress M_Rom S_Lz S_Rom S_Memory
  L_Util L_CompressTop L_OldFormat L_LzTop L_Memory.
Open Scope Z_scope.
Ltac Zify.zify_post_hook ::= Z.div_mod_to_equations.

Local Opaque mem_create_rom.

Lemma skipn_repeat {A} (x : A) k n : skipn k (repeat x n) = repeat x (n - k).
Proof. revert n. induction k; intros [|n]; cbn; auto. Qed.
Lemma firstn_app_exact {A} (a b : list A) n : n = length a -> firstn n (a ++ b) = a.
Proof. intros ->. rewrite firstn_app, Nat.sub_diag, firstn_all. cbn. apply app_nil_r. Qed.
Lemma skipn_app_exact {A} (a b : list A) n : n = length a -> skipn n (a ++ b) = b.
Proof. intros ->. rewrite skipn_app, Nat.sub_diag, skipn_all. reflexivity. Qed.
Lemma zlen_repeat {A} (x : A) n : zlen (repeat x n) = Z.of_nat n.
Proof. unfold zlen. now rewrite repeat_length. Qed.
Lemma bytes_app a b : bytes_ok a -> bytes_ok b -> bytes_ok (a ++ b).
Proof. intros Ha Hb. apply Forall_app. auto. Qed.
Lemma bytes_zeros n : bytes_ok (repeat 0 n).
Proof. apply Forall_forall. intros x H. apply repeat_spec in H. lia. Qed.

Lemma set_block_app a b d : set_block (a ++ b) (zlen a) d = a ++ d ++ skipn (length d) b.
Proof.
  unfold set_block, zlen. rewrite firstn_app_exact by lia. f_equal. f_equal.
  replace (Z.to_nat (Z.of_nat (length a) + Z.of_nat (length d))) with (length a + length d)%nat by lia.
  rewrite skipn_app, skipn_all2 by lia. cbn [app]. f_equal. lia.
Qed.
Lemma set_block_0 b d : set_block b 0 d = d ++ skipn (length d) b.
Proof. exact (set_block_app [] b d). Qed.

Lemma force_dec o (code : list Z) : {k_code_size <= zlen code \/ o_force o = true} + {zlen code < k_code_size /\ o_force o = false}.
Proof.
  destruct (Z_le_dec k_code_size (zlen code)); [left; auto|]. destruct (o_force o); [left; auto|right; split; [lia|auto]].
Qed.

Lemma code_area o code d tail : o_fail o = true -> o_be o = true ->
  Forall (fun x => 0 < x < 256) code -> zlen code < 0x10000 ->
  parse_ordered o code -> old_fits o code -> not_marker o code ->
  compress_code o code = Ok d -> bytes_ok tail ->
  zlen d <= k_code_size /\ bytes_ok d /\
  uncompress_code true k_code_size (d ++ repeat 0 (Z.to_nat (k_code_size - zlen d)) ++ tail) = Ok code.
Proof.
  intros Hf Hb Hc Hl Hp Ho Hm E Ht. destruct o as [force fail fast old be]. cbn [o_fail o_be] in *. subst fail be.
  assert (Hbt : bytes_ok (repeat 0 (Z.to_nat (k_code_size - zlen d)) ++ tail)) by (apply bytes_app; [apply bytes_zeros|assumption]).
  pose proof (nz_bytes _ Hc) as Hcb.
  destruct (force_dec (mkcopts force true fast old true) code) as [F|[F1 F2]].
  - cbn [o_force] in F. destruct old.
    + specialize (Ho eq_refl _ E). cbn [o_old o_fast o_force] in *.
      assert (Z2 : exists t, repeat 0 (Z.to_nat (k_code_size - zlen d)) ++ tail = 0 :: 0 :: t).
      { destruct (Z.to_nat (k_code_size - zlen d)) as [|[|n]] eqn:En; try lia. cbn. eauto. }
      destruct Z2 as [t ->].
      destruct (old_roundtrip true force true fast code k_code_size d t F Hc Hl E) as (A & B & _).
      split; [lia|auto].
    + assert (R : exists d', bytes_ok d' /\ compress_code (mkcopts force true fast false true) code =
          (if true && negb (zlen d' <=? k_code_size) then Err ECheck else Ok d') /\
          (zlen d' < 0x10000 -> forall t, bytes_ok t -> uncompress_code true k_code_size (d' ++ t) = Ok code)).
      { destruct fast.
        - destruct (fast_roundtrip true force true code k_code_size [] F Hcb Hl (Forall_nil _)) as (d' & A & _ & B & D).
          exists d'. split; [assumption|split; [assumption|]]. intros L t Hbt'.
          destruct (fast_roundtrip true force true code k_code_size t F Hcb Hl Hbt') as (d2 & A2 & _ & B2 & D2).
          cbn [andb] in B, B2. rewrite E in B, B2.
          destruct (negb (zlen d' <=? k_code_size)); [discriminate|]. destruct (negb (zlen d2 <=? k_code_size)); [discriminate|].
          apply Ok_inj in B, B2. subst. apply D2. exact L.
        - specialize (Hp eq_refl eq_refl F). cbn [o_fast o_old] in Hp.
          destruct (new_items false code) as [its|e] eqn:Ei.
          2:{ exfalso. unfold compress_code, compress_body in E. cbn [o_old o_fast o_force o_be o_fail] in E.
              replace ((k_code_size <=? zlen code) || force) with true in E by (destruct force; lia).
              rewrite Ei in E. destruct (put_u16 true _); discriminate E. }
          specialize (Hp its eq_refl).
          destruct (default_sorted true force true code its k_code_size [] F Hc Hl (Forall_nil _) Ei Hp) as (d' & A & _ & B & D).
          exists d'. split; [assumption|split; [assumption|]]. intros L t Hbt'.
          destruct (default_sorted true force true code its k_code_size t F Hc Hl Hbt' Ei Hp) as (d2 & A2 & _ & B2 & D2).
          cbn [andb] in B, B2. rewrite E in B, B2.
          destruct (negb (zlen d' <=? k_code_size)); [discriminate|]. destruct (negb (zlen d2 <=? k_code_size)); [discriminate|].
          apply Ok_inj in B, B2. subst. apply D2. exact L. }
      destruct R as (d' & A & B & D). rewrite E in B. cbn [andb] in B.
      destruct (Z.leb_spec (zlen d') k_code_size) as [L|L]; cbn [negb] in B; [|discriminate].
      apply Ok_inj in B. subst d'. split; [assumption|split; [assumption|]].
      apply D; [unfold k_code_size in L; lia|assumption].
  - cbn [o_force] in F2. subst force.
    assert (Hn : Z.to_nat (k_code_size - zlen code) = S (pred (Z.to_nat (k_code_size - zlen code)))) by lia.
    assert (RR : compress_code (mkcopts false true fast old true) code = Ok code /\
      forall t, (exists t', t = 0 :: t') -> ~ starts_with old_header (code ++ t) -> (code = [] -> ~ starts_with new_header t) ->
        uncompress_code true k_code_size (code ++ t) = Ok code).
    { split.
      - destruct (raw_roundtrip true true fast old code k_code_size [] F1 ltac:(lia) Hc) as (X & _); auto.
        + intros [r Hr]. rewrite app_nil_r in Hr. unfold old_header in Hr.
          rewrite Hr in Hc. do 3 apply Forall_inv_tail in Hc. apply Forall_inv in Hc. lia.
        + intros _ [r Hr]. discriminate.
      - intros t Ht' H1 H2. destruct (raw_roundtrip true true fast old code k_code_size t F1 ltac:(lia) Hc H1) as (_ & X & _); auto. }
    destruct RR as [R1 R2]. rewrite R1 in E. apply Ok_inj in E. subst d. split; [lia|split; [assumption|]].
    apply R2.
    + rewrite Hn. cbn. eauto.
    + intros [r Hr]. apply (Hm eq_refl). unfold old_header in Hr.
      destruct code as [|c1 [|c2 [|c3 [|c4 code]]]].
      * rewrite Hn in Hr. discriminate.
      * rewrite Hn in Hr. discriminate.
      * rewrite Hn in Hr. discriminate.
      * cbn [app] in Hr. injection Hr as -> -> -> _. reflexivity.
      * cbn [app] in Hr. injection Hr as -> -> -> -> _. do 3 apply Forall_inv_tail in Hc. apply Forall_inv in Hc. lia.
    + intros -> [r Hr]. change (Z.to_nat (k_code_size - zlen [])) with (S (S (Z.to_nat 0x3cfe))) in Hr. cbn [repeat app] in Hr.
      unfold new_header in Hr. discriminate.
Qed.

(** *** The layout of a written rom *)
Definition trailer (c : cart) : list Z :=
  let '(v0, v1, v2, v3) := c_version c in [c_version_id c; v0; v1; v2; c_platform c; v3].

Lemma put_u8_ok v : 0 <= v < 256 -> put_u8 v = Ok [v].
Proof. intros H. unfold put_u8, is_byte. destruct ((0 <=? v) && (v <? 256)) eqn:E; [reflexivity|lia]. Qed.

Definition code_bytes (keep : bool) (o : copts) (c : cart) : res (list Z) :=
  match keep, c_code_rom c with true, Some cr => Ok cr | _, _ => compress_code o (c_code c) end.

Lemma body_layout rom d n : zlen rom = 0x4300 -> zlen d <= k_code_size ->
  set_block (set_block (repeat 0 (Z.to_nat (k_cart_size + n))) 0 rom) (zlen rom) d =
  rom ++ d ++ repeat 0 (Z.to_nat (k_cart_size + n) - length rom - length d).
Proof.
  intros Hr Hd. rewrite set_block_0, skipn_repeat, set_block_app, skipn_repeat. reflexivity.
Qed.

Lemma write_rom_layout sha tr keep o c d : zlen (c_rom c) = 0x4300 -> code_bytes keep o c = Ok d -> zlen d <= k_code_size ->
  0 <= c_version_id c < 256 -> byte_version (c_version c) -> 0 <= c_platform c < 256 -> (forall x, zlen (sha x) = 20) ->
  let body := c_rom c ++ d ++ repeat 0 (Z.to_nat (k_code_size - zlen d)) in
  zlen body = k_cart_size /\
  write_cart_to_rom sha tr keep o c = Ok (body ++ if tr then trailer c ++ sha body ++ repeat 0 6 else []).
Proof.
  intros Hr E Hd Hi Hv Hp Hs body.
  assert (Hlen : zlen body = k_cart_size).
  { unfold body. rewrite !zlen_app, zlen_repeat, Hr. unfold k_code_size, k_cart_size in *. pose proof (zlen_nonneg d). lia. }
  split; [assumption|].
  unfold write_cart_to_rom. unfold code_bytes in E.
  assert (E' : (match keep, c_code_rom c with true, Some cr => Ok cr | _, _ => compress_code o (c_code c) end) = Ok d) by exact E.
  rewrite E'. cbn [bind]. rewrite body_layout by assumption.
  destruct tr.
  - unfold trailer. destruct (c_version c) as [[[v0 v1] v2] v3]. unfold byte_version in Hv.
    rewrite !put_u8_ok by lia. cbn [bind app].
    assert (B : c_rom c ++ d ++ repeat 0 (Z.to_nat (k_cart_size + k_trailer_size) - length (c_rom c) - length d) =
                body ++ repeat 0 32).
    { unfold body. rewrite <- !app_assoc. do 2 f_equal. rewrite <- repeat_app. f_equal.
      unfold zlen, k_code_size, k_cart_size, k_trailer_size in *. lia. }
    rewrite B. rewrite <- Hlen. rewrite set_block_app. cbn [length]. rewrite skipn_repeat.
    set (t := [c_version_id c; v0; v1; v2; c_platform c; v3]).
    replace (firstn (Z.to_nat (zlen body)) (body ++ t ++ repeat 0 (32 - 6))) with body
      by (symmetry; apply firstn_app_exact; unfold zlen; lia).
    replace (zlen body + zlen t) with (zlen (body ++ t)) by apply zlen_app.
    rewrite (app_assoc body t). rewrite set_block_app.
    specialize (Hs body). unfold zlen in Hs. replace (length (sha body)) with 20%nat by lia.
    rewrite skipn_repeat. rewrite <- app_assoc. reflexivity.
  - f_equal. rewrite app_nil_r. unfold body. do 3 f_equal. unfold zlen, k_cart_size, k_code_size in *. lia.
Qed.

Lemma get_u8_cons v d : get_u8 (v :: d) = Ok (v, d).
Proof. reflexivity. Qed.

(** Reading any buffer laid out like that. *)
Lemma read_rom_layout sha tiny keep (rom area t code : list Z) : zlen rom = 0x4300 -> zlen area = k_code_size ->
  uncompress_code true k_code_size (area ++ t) = Ok code ->
  let buf := rom ++ area ++ t in
  let cr := if (keep : bool) then Some area else None in
  (t = [] -> exists rom0, mem_create_rom = Ok rom0 /\
     read_cart_from_rom sha tiny keep buf = Ok (with_code (with_rom (new_cart rom0) rom) code cr)) /\
  (forall vid v0 v1 v2 pl v3 rest, t = [vid; v0; v1; v2; pl; v3] ++ sha (rom ++ area) ++ rest -> zlen (sha (rom ++ area)) = 20 ->
     read_cart_from_rom sha tiny keep buf = Ok (mkcart vid (v0, v1, v2, v3) pl false false rom code cr None [])).
Proof.
  intros Hr Ha Hu buf cr.
  assert (M : exists m0, mem_create_rom = Ok m0) by (eexists; vm_compute; reflexivity). destruct M as [m0 M].
  assert (L : zlen buf = k_cart_size + zlen t).
  { unfold buf. rewrite !zlen_app, Hr, Ha. unfold k_code_size, k_cart_size. lia. }
  assert (F1 : firstn (Z.to_nat k_rom_size) buf = rom) by (apply firstn_app_exact; unfold zlen, k_rom_size in *; lia).
  assert (F2 : skipn (Z.to_nat k_rom_size) buf = area ++ t) by (apply skipn_app_exact; unfold zlen, k_rom_size in *; lia).
  assert (F3 : skipn (Z.to_nat k_cart_size) buf = t).
  { unfold buf. rewrite app_assoc. apply skipn_app_exact. rewrite app_length. unfold zlen, k_code_size, k_cart_size in *. lia. }
  assert (F4 : firstn (Z.to_nat k_cart_size) buf = rom ++ area).
  { unfold buf. rewrite app_assoc. apply firstn_app_exact. rewrite app_length. unfold zlen, k_code_size, k_cart_size in *. lia. }
  assert (K : read_code_from_rom keep (area ++ t) = Ok (code, cr)).
  { unfold read_code_from_rom. rewrite Hu. cbn [bind]. unfold cr. destruct keep; [|reflexivity].
    rewrite firstn_app_exact by (unfold zlen in Ha; lia). rewrite set_block_0, skipn_repeat.
    replace (Z.to_nat k_code_size - length area)%nat with 0%nat by (unfold zlen in Ha; lia). cbn [repeat]. now rewrite app_nil_r. }
  unfold read_cart_from_rom. rewrite M. cbn [bind]. pose proof (zlen_nonneg t).
  destruct (Z.ltb_spec (zlen buf) k_cart_size); [lia|]. cbn [andb]. rewrite F1, F2, F3, F4, Hr, Z.eqb_refl, K. cbn [bind].
  change (0x4300 =? k_rom_size) with true. cbn [bind]. split.
  - intros ->. exists m0. split; [reflexivity|]. rewrite L, zlen_nil, Z.add_0_r, Z.ltb_irrefl. reflexivity.
  - intros vid v0 v1 v2 pl v3 rest -> Hs. rewrite zlen_app in L.
    pose proof (zlen_nonneg (sha (rom ++ area) ++ rest)).
    destruct (Z.ltb_spec k_cart_size (zlen buf)) as [G|G]; [|unfold zlen in L at 2; cbn [length] in L; lia].
    cbn [app]. repeat (rewrite get_u8_cons; cbn [bind]).
    rewrite firstn_app_exact by (unfold zlen in Hs; lia). rewrite Hs, Z.eqb_refl. cbn [bind].
    rewrite (zeqb_list_refl (sha (rom ++ area))). cbn [negb andb]. rewrite andb_false_r. reflexivity.
Qed.

Lemma cart_area_bytes (c : cart) d : bytes_ok (c_rom c) -> bytes_ok d -> forall n, bytes_ok (c_rom c ++ d ++ repeat 0 n).
Proof. intros. apply bytes_app; [assumption|]. apply bytes_app; [assumption|apply bytes_zeros]. Qed.

Theorem rom_roundtrip sha keep tiny o c buf : digest_fun sha -> cart_ok c ->
  o_fail o = true -> o_be o = true ->
  parse_ordered o (c_code c) -> old_fits o (c_code c) -> not_marker o (c_code c) ->
  write_cart_to_rom sha true false o c = Ok buf ->
  zlen buf = 0x8020 /\ bytes_ok buf /\ exists c', read_cart_from_rom sha tiny keep buf = Ok c' /\ same_cart c' c.
Proof.
  intros Hs (Hr1 & Hr2 & Hc & Hl & Hi & Hv & Hp) Hf Hb P1 P2 P3 E.
  destruct (compress_code o (c_code c)) as [d|e] eqn:Ed.
  2:{ exfalso. unfold write_cart_to_rom in E. destruct (c_code_rom c); rewrite Ed in E; discriminate. }
  assert (CB : code_bytes false o c = Ok d) by exact Ed.
  assert (Hd : zlen d <= k_code_size /\ bytes_ok d).
  { destruct (code_area o (c_code c) d [] Hf Hb Hc Hl P1 P2 P3 Ed (Forall_nil _)) as (A & B & _). auto. }
  destruct Hd as [Hd1 Hd2].
  destruct (write_rom_layout sha true false o c d Hr2 CB Hd1 Hi Hv Hp ltac:(intros; apply Hs)) as [LB W].
  rewrite W in E. apply Ok_inj in E. subst buf.
  set (z := repeat 0 (Z.to_nat (k_code_size - zlen d))) in *.
  set (body := c_rom c ++ d ++ z) in *.
  assert (Bt : bytes_ok (trailer c ++ sha body ++ repeat 0 6)).
  { apply bytes_app; [|apply bytes_app; [apply Hs|apply bytes_zeros]]. unfold trailer, byte_version in *.
    destruct (c_version c) as [[[v0 v1] v2] v3]. bytes_lia. }
  split; [|split].
  - rewrite zlen_app, LB, !zlen_app. destruct (Hs body) as [-> _]. rewrite zlen_repeat.
    unfold trailer. destruct (c_version c) as [[[v0 v1] v2] v3]. reflexivity.
  - apply bytes_app; [|assumption]. unfold body, z. now apply cart_area_bytes.
  - destruct (code_area o (c_code c) d _ Hf Hb Hc Hl P1 P2 P3 Ed Bt) as (_ & _ & U). fold z in U.
    rewrite (app_assoc d z) in U.
    assert (LA : zlen (d ++ z) = k_code_size) by (unfold z; rewrite zlen_app, zlen_repeat; pose proof (zlen_nonneg d); lia).
    destruct (read_rom_layout sha tiny keep (c_rom c) (d ++ z) _ (c_code c) Hr2 LA U) as [_ R].
    assert (Eb : c_rom c ++ d ++ z = body) by reflexivity. rewrite Eb in R.
    unfold trailer in *. destruct (c_version c) as [[[v0 v1] v2] v3] eqn:Ev.
    specialize (R _ _ _ _ _ _ (repeat 0 6) eq_refl (proj1 (Hs body))).
    eexists. split.
    + rewrite <- R. f_equal. unfold body. rewrite <- !app_assoc. reflexivity.
    + unfold same_cart. cbn. rewrite Ev. auto.
Qed.

Theorem rom_roundtrip_plain sha keep tiny o c buf : digest_fun sha -> cart_ok c ->
  o_fail o = true -> o_be o = true ->
  parse_ordered o (c_code c) -> old_fits o (c_code c) -> not_marker o (c_code c) ->
  write_cart_to_rom sha false false o c = Ok buf ->
  zlen buf = 0x8000 /\ exists c', read_cart_from_rom sha tiny keep buf = Ok c' /\ c_rom c' = c_rom c /\ c_code c' = c_code c.
Proof.
  intros Hs (Hr1 & Hr2 & Hc & Hl & Hi & Hv & Hp) Hf Hb P1 P2 P3 E.
  destruct (compress_code o (c_code c)) as [d|e] eqn:Ed.
  2:{ exfalso. unfold write_cart_to_rom in E. destruct (c_code_rom c); rewrite Ed in E; discriminate. }
  assert (CB : code_bytes false o c = Ok d) by exact Ed.
  destruct (code_area o (c_code c) d [] Hf Hb Hc Hl P1 P2 P3 Ed (Forall_nil _)) as (Hd1 & Hd2 & U).
  destruct (write_rom_layout sha false false o c d Hr2 CB Hd1 Hi Hv Hp ltac:(intros; apply Hs)) as [LB W].
  rewrite W in E. apply Ok_inj in E. subst buf. rewrite app_nil_r.
  set (z := repeat 0 (Z.to_nat (k_code_size - zlen d))) in *.
  split; [exact LB|]. rewrite (app_assoc d z) in U.
  assert (LA : zlen (d ++ z) = k_code_size) by (unfold z; rewrite zlen_app, zlen_repeat; pose proof (zlen_nonneg d); lia).
  destruct (read_rom_layout sha tiny keep (c_rom c) (d ++ z) [] (c_code c) Hr2 LA U) as [R _].
  destruct (R eq_refl) as (rom0 & _ & R'). rewrite app_nil_r in R'. eexists. split; [exact R'|]. split; reflexivity.
Qed.

Lemma bind_ok {A B} (m : res A) (f : A -> res B) b : bind m f = Ok b -> exists a, m = Ok a /\ f a = Ok b.
Proof. destruct m; cbn; [eauto|discriminate]. Qed.

Lemma read_rom_code sha tiny keep buf c : k_cart_size <= zlen buf -> read_cart_from_rom sha tiny keep buf = Ok c ->
  exists code cr, read_code_from_rom keep (skipn (Z.to_nat k_rom_size) buf) = Ok (code, cr).
Proof.
  intros L E. unfold read_cart_from_rom in E. apply bind_ok in E. destruct E as (m0 & _ & E).
  destruct (Z.ltb_spec (zlen buf) k_cart_size) as [S|S]; [lia|]. cbn [andb] in E.
  apply bind_ok in E. destruct E as (u & _ & E). apply bind_ok in E. destruct E as ([code cr] & E & _). eauto.
Qed.

(** Keeping the compressed code: what was read is written back byte for byte. *)
Theorem rom_keep sha tiny (buf : list Z) c : zlen buf = 0x8000 -> bytes_ok buf -> (forall x, zlen (sha x) = 20) ->
  read_cart_from_rom sha tiny true buf = Ok c ->
  forall o, write_cart_to_rom sha false true o c = Ok buf.
Proof.
  intros L B Hs E o.
  set (rom := firstn (Z.to_nat k_rom_size) buf). set (area := skipn (Z.to_nat k_rom_size) buf).
  assert (Eb : buf = rom ++ area) by (symmetry; apply firstn_skipn).
  assert (Lr : zlen rom = 0x4300) by (unfold rom, zlen, k_rom_size in *; rewrite firstn_length; lia).
  assert (La : zlen area = k_code_size) by (unfold area, zlen, k_rom_size, k_code_size in *; rewrite skipn_length; lia).
  destruct (uncompress_code true k_code_size area) as [code|e] eqn:U.
  2:{ exfalso. apply (read_rom_code sha tiny true buf c ltac:(rewrite L; discriminate)) in E.
      destruct E as (code & cr & E). unfold area in U. unfold read_code_from_rom in E. rewrite U in E. discriminate E. }
  rewrite <- (app_nil_r area) in U.
  destruct (read_rom_layout sha tiny true rom area [] code Lr La U) as [R _]. destruct (R eq_refl) as (rom0 & _ & R').
  rewrite app_nil_r, <- Eb, E in R'. apply Ok_inj in R'. subst c.
  set (c := with_code (with_rom (new_cart rom0) rom) code (Some area)) in *.
  assert (K1 : zlen area <= k_code_size) by lia.
  assert (K2 : 0 <= c_version_id c < 256) by (cbn; unfold k_default_version; lia).
  assert (K3 : byte_version (c_version c)) by (cbn; lia).
  assert (K4 : 0 <= c_platform c < 256) by (cbn; lia).
  destruct (write_rom_layout sha false true o c area Lr eq_refl K1 K2 K3 K4 Hs) as [_ W].
  rewrite W. unfold c. cbn [c_rom with_code with_rom]. rewrite La, Z.sub_diag. cbn [Z.to_nat repeat]. rewrite !app_nil_r, <- Eb. reflexivity.
Qed.

(** *** Tiny rom *)
Theorem tiny_roundtrip sha keep o c buf : cart_ok c -> o_fail o = true -> o_be o = true -> o_old o = false ->
  parse_ordered (force_copts o) (c_code c) ->
  write_cart_to_tiny_rom false o c = Ok buf ->
  exists c', read_cart_from_rom sha true keep buf = Ok c' /\ c_code c' = c_code c.
Proof.
  intros (_ & _ & Hc & Hl & _) Hf Hb Ho P E. unfold write_cart_to_tiny_rom in E.
  assert (E' : io <- compress_code (force_copts o) (c_code c) ;;
      (if zlen (c_code c) <? zlen io then if forallb is_byte (c_code c) then Ok (c_code c) else Err EValue else Ok io) = Ok buf)
    by (destruct (c_code_rom c); exact E). clear E.
  destruct (compress_code (force_copts o) (c_code c)) as [io|e] eqn:Ed; [|discriminate]. cbn [bind] in E'.
  assert (M : exists m0, mem_create_rom = Ok m0) by (eexists; vm_compute; reflexivity). destruct M as [m0 M].
  assert (R : zlen buf <= k_code_size /\ uncompress_code true k_code_size buf = Ok (c_code c)).
  { assert (P2 : old_fits (force_copts o) (c_code c)).
    { intros K. unfold force_copts in K. cbn in K. congruence. }
    assert (P3 : not_marker (force_copts o) (c_code c)) by (intros K; discriminate).
    destruct (code_area (force_copts o) (c_code c) io [] Hf Hb Hc Hl P P2 P3 Ed (Forall_nil _)) as (A & B & _).
    destruct (Z.ltb_spec (zlen (c_code c)) (zlen io)) as [S|S].
    - assert (Hb' : forallb is_byte (c_code c) = true).
      { apply forallb_forall. intros x Hx. rewrite Forall_forall in Hc. specialize (Hc x Hx). unfold is_byte. lia. }
      rewrite Hb' in E'. apply Ok_inj in E'. subst buf. split; [lia|].
      destruct (raw_roundtrip true true false false (c_code c) k_code_size []) as (_ & X & _); auto; try lia.
      + intros [r Hr]. rewrite app_nil_r in Hr. unfold old_header in Hr.
        rewrite Hr in Hc. do 3 apply Forall_inv_tail in Hc. apply Forall_inv in Hc. lia.
      + intros _ [r Hr]. discriminate.
      + now rewrite app_nil_r in X.
    - apply Ok_inj in E'. subst buf. split; [assumption|].
      destruct o as [force fail fast old be]. cbn [o_fail o_be o_old] in *. subst fail be old. unfold force_copts in *.
      cbn [o_fail o_fast o_old o_be] in *.
      destruct fast.
      + destruct (fast_roundtrip true true true (c_code c) k_code_size [] ltac:(auto) (nz_bytes _ Hc) Hl (Forall_nil _)) as (d' & _ & _ & B' & D').
        rewrite Ed in B'. destruct (true && negb (zlen d' <=? k_code_size)); [discriminate B'|]. apply Ok_inj in B'. subst d'.
        rewrite app_nil_r in D'. apply D'. unfold k_code_size in A. lia.
      + destruct (new_items false (c_code c)) as [its|e] eqn:Ei.
        2:{ exfalso. unfold compress_code, compress_body in Ed. cbn [o_old o_fast o_force o_be o_fail] in Ed.
            rewrite orb_true_r in Ed. rewrite Ei in Ed. destruct (put_u16 true _); cbn [bind] in Ed; discriminate Ed. }
        specialize (P eq_refl eq_refl ltac:(auto) its Ei).
        destruct (default_sorted true true true (c_code c) its k_code_size [] ltac:(auto) Hc Hl (Forall_nil _) Ei P) as (d' & _ & _ & B' & D').
        rewrite Ed in B'. destruct (true && negb (zlen d' <=? k_code_size)); [discriminate B'|]. apply Ok_inj in B'. subst d'.
        rewrite app_nil_r in D'. apply D'. unfold k_code_size in A. lia. }
  destruct R as [R1 R2]. unfold read_cart_from_rom. rewrite M. cbn [bind].
  destruct (Z.ltb_spec (zlen buf) k_cart_size) as [S|S]; [|unfold k_cart_size, k_code_size in *; lia].
  cbn [andb]. unfold read_code_from_rom. rewrite R2. cbn [bind]. eexists. split; [reflexivity|]. reflexivity.
Qed.

(** *** Pixels *)
Definition hide_check (b : Z) : bool := forallb (fun v =>
  (Z.lor (Z.land b (Z.lnot 3)) v =? b / 4 * 4 + v)) (zrange 4).
Lemma hide_arith b v : 0 <= b < 256 -> 0 <= v < 4 -> Z.lor (Z.land b (Z.lnot 3)) v = b / 4 * 4 + v.
Proof.
  intros Hb Hv. assert (S : forallb hide_check all_bytes = true) by (vm_compute; reflexivity).
  pose proof (byte_sweep _ S b Hb) as H. unfold hide_check in H.
  pose proof (range_sweep 4 _ H v ltac:(lia)) as K. cbn beta in K. lia.
Qed.
Lemma land_3 v : Z.land v 3 = v mod 4.
Proof. change 3 with (Z.ones 2). now rewrite Z.land_ones by lia. Qed.
Lemma land_n3 b : Z.land b (Z.lnot 3) = b / 4 * 4.
Proof.
  change 3 with (Z.ones 2). rewrite <- Z.ldiff_land, Z.ldiff_ones_r by lia.
  rewrite Z.shiftr_div_pow2, Z.shiftl_mul_pow2 by lia. reflexivity.
Qed.

Lemma hide_bytes v : 0 <= v < 256 ->
  Z.lor (Z.lor (Z.lor (Z.shiftl (v mod 4) 0) (Z.shiftl ((v / 4) mod 4) 2)) (Z.shiftl ((v / 16) mod 4) 4)) (Z.shiftl ((v / 64) mod 4) 6) = v.
Proof.
  intros H. refine (proj1 (Z.eqb_eq _ _) (byte_sweep (fun v =>
    Z.lor (Z.lor (Z.lor (Z.shiftl (v mod 4) 0) (Z.shiftl ((v / 4) mod 4) 2)) (Z.shiftl ((v / 16) mod 4) 4)) (Z.shiftl ((v / 64) mod 4) 6) =? v) _ v H)).
  vm_compute. reflexivity.
Qed.

Lemma px_roundtrip v p : 0 <= v < 256 -> px_ok p ->
  px_byte (px_hide v p) = v /\ px_close (px_hide v p) p /\ px_ok (px_hide v p).
Proof.
  intros Hv Hp. destruct p as [[[r g] b] a]. unfold px_ok in Hp.
  unfold px_hide. rewrite !land_3. rewrite !Z.shiftr_div_pow2 by lia.
  change (2 ^ 2) with 4. change (2 ^ 4) with 16. change (2 ^ 6) with 64.
  rewrite !hide_arith by lia. unfold px_byte, px_close, px_ok. split; [|split; lia].
  rewrite !land_3. rewrite <- (hide_bytes v Hv) at 5.
  do 4 (f_equal; try lia).
Qed.

Lemma image_roundtrip output : forall pixels, bytes_ok output -> Forall px_ok pixels -> length output = length pixels ->
  exists img, image_hide output pixels = Ok img /\ image_bytes img = output /\ Forall2 px_close img pixels /\ Forall px_ok img.
Proof.
  induction output as [|v output IH]; intros [|p pixels] Hb Hp Hl; try discriminate.
  - exists []. repeat split; constructor.
  - inversion Hb; inversion Hp; subst. destruct (IH pixels) as (img & E & A & B & D); auto.
    destruct (px_roundtrip v p) as (X & Y & W); auto.
    exists (px_hide v p :: img). cbn [image_hide]. rewrite E. cbn [bind image_bytes map].
    split; [reflexivity|]. split; [|split; constructor; auto]. unfold image_bytes in A. now rewrite X, A.
Qed.
