(** Old (":c:\0") code format: round trip and size. *)
From Coq Require Import Sorted.
From Verif Require Import M_Base M_BitIO M_Lz77 M_Compress S_Lz L_BitIO L_Compress L_Lz77 L_CompressTop.
Ltac Zify.zify_post_hook ::= Z.div_mod_to_equations.
Open Scope Z_scope.

Lemma old_inv_spec ch : 0 < old_inv ch -> old_inv ch <= 0x3b /\ znth old_code_table (old_inv ch) = Some ch.
Proof.
  unfold old_inv. destruct (index_of ch old_code_table) as [i|] eqn:E; [|lia]. intros H.
  apply index_of_split in E as (l1 & l2 & E1 & E2).
  assert (Hl : (i < length old_code_table)%nat) by (rewrite E1, app_length; cbn; lia).
  cbn in Hl. split; [lia|]. unfold znth. destruct (Z.ltb_spec (Z.of_nat i) 0); [lia|].
  rewrite Nat2Z.id, E1, nth_error_app2 by lia. replace (i - length l1)%nat with 0%nat by lia. reflexivity.
Qed.

Lemma land_f a : Z.land a 0xf = a mod 16.
Proof. exact (Z.land_ones a 4 ltac:(lia)). Qed.

Lemma put_u8_inv v x : put_u8 v = Ok x -> x = [v] /\ 0 <= v < 256.
Proof.
  unfold put_u8, is_byte. destruct ((0 <=? v) && (v <? 256)) eqn:E; [|discriminate].
  intros H. injection H as <-. split; [reflexivity|lia].
Qed.

Notation ochain code := (chain code 3 (Some 0x11) (Some 0xc3f) true).

(** Decoding and measuring one written item. *)
Lemma old_item_spec code a it b bytes fuel rest :
  Forall (fun c => 0 < c < 256) code -> 0 <= a <= zlen code ->
  good_item code 3 (Some 0x11) (Some 0xc3f) true a it b -> no_block it ->
  old_write_item it = Ok bytes ->
  bytes_ok bytes /\ bytes <> [] /\
  old_decode_loop (S fuel) (slice code 0 a) (bytes ++ rest) = old_decode_loop fuel (slice code 0 b) rest /\
  old_size_loop (S fuel) (bytes ++ rest) = old_size_loop fuel rest.
Proof.
  intros Hc Ha Hg Hnb E. destruct it as [ch|o c|s]; [| |destruct Hnb].
  - destruct Hg as [Hz ->]. cbn [old_write_item] in E.
    assert (Hch : 0 < ch < 256) by (rewrite Forall_forall in Hc; apply Hc; eapply znth_In; eassumption).
    assert (Hl := znth_lt _ _ _ Hz).
    assert (Hsl : slice code 0 a ++ [ch] = slice code 0 (a + 1)).
    { rewrite <- (slice_1 code a ch) by (auto; lia). rewrite slice_app by lia. reflexivity. }
    destruct (Z.ltb_spec 0 (old_inv ch)) as [P|P].
    + apply put_u8_inv in E as [-> Hb]. destruct (old_inv_spec ch P) as [Hle Hnth].
      split; [repeat constructor; lia|]. split; [discriminate|].
      cbn [app old_decode_loop old_size_loop get_u8 bind].
      destruct (Z.eqb_spec (old_inv ch) 0); [lia|].
      destruct (Z.leb_spec (old_inv ch) 0x3b); [|lia]. destruct (Z.ltb_spec 0x3b (old_inv ch)); [lia|].
      rewrite Hnth, Hsl. auto.
    + unfold put_u8, is_byte in E. cbn [bind] in E.
      destruct ((0 <=? ch) && (ch <? 256)) eqn:Eb; [|lia]. cbn in E. injection E as <-.
      split; [repeat constructor; lia|]. split; [discriminate|].
      cbn [app old_decode_loop old_size_loop get_u8 bind]. cbn [Z.eqb].
      destruct (Z.eqb_spec ch 0); [lia|]. rewrite Hsl. auto.
  - destruct Hg as [(H1 & H2 & H3 & H4 & H5 & H6 & _) ->]. cbn [old_write_item] in E.
    specialize (H4 _ eq_refl). specialize (H5 _ eq_refl). specialize (H6 eq_refl).
    destruct (put_u8 (0x3c + Z.shiftr o 4)) as [x|] eqn:Ex; [|discriminate]. cbn [bind] in E.
    destruct (put_u8 (Z.land o 0xf + Z.shiftl (c - 2) 4)) as [y|] eqn:Ey; [|discriminate]. cbn [bind] in E.
    injection E as <-. apply put_u8_inv in Ex as [-> Hx]. apply put_u8_inv in Ey as [-> Hy].
    rewrite Z.shiftr_div_pow2 in * by lia. change (2 ^ 4) with 16 in *.
    rewrite Z.shiftl_mul_pow2 in * by lia. change (2 ^ 4) with 16 in *.
    rewrite land_f in *.
    split; [repeat constructor; lia|]. split; [discriminate|].
    cbn [app old_decode_loop old_size_loop get_u8 bind].
    destruct (Z.eqb_spec (60 + o / 16) 0); [lia|].
    destruct (Z.leb_spec (60 + o / 16) 0x3b); [lia|]. destruct (Z.ltb_spec 0x3b (60 + o / 16)); [|lia].
    cbn [bind]. split; [|reflexivity].
    rewrite Z.shiftr_div_pow2, Z.shiftl_mul_pow2, land_f by lia. change (2 ^ 4) with 16.
    replace ((o mod 16 + (c - 2) * 16) / 16 + 2) with c by lia.
    replace ((60 + o / 16 - 60) * 16 + (o mod 16 + (c - 2) * 16) mod 16) with o by lia.
    destruct (Z.leb_spec c o); [|lia]. cbn [assert_ bind].
    assert (H3' := H3). destruct H3' as [H8 _].
    destruct (copy_back_spec (Z.to_nat c) o (slice code 0 a)) as (out' & -> & Hcp).
    { rewrite zlen_slice by lia. lia. }
    cbn [bind]. f_equal. rewrite Z2Nat.id in Hcp by lia.
    eapply copied_unique; [|exact Hcp|apply item_copied; auto; lia]. rewrite zlen_slice by lia. lia.
Qed.

Lemma old_items_spec code : Forall (fun c => 0 < c < 256) code ->
  forall a its b, ochain code a its b -> forall body, Forall no_block (map snd its) ->
  0 <= a <= zlen code -> old_write_items (map snd its) = Ok body ->
  bytes_ok body /\ forall fuel rest, (length body < fuel)%nat ->
  exists fuel', (0 < fuel')%nat /\
  old_decode_loop fuel (slice code 0 a) (body ++ rest) = old_decode_loop fuel' (slice code 0 b) rest /\
  old_size_loop fuel (body ++ rest) = old_size_loop fuel' rest.
Proof.
  intros Hc a its b H. induction H as [a|a it m its b Hg Hch IH]; intros body Hn Ha E; cbn in E.
  - injection E as <-. split; [constructor|]. intros fuel rest Hf. exists fuel. cbn in *. auto.
  - destruct (old_write_item it) as [x|] eqn:Ex; [|discriminate]. cbn [bind] in E.
    destruct (old_write_items (map snd its)) as [y|] eqn:Ey; [|discriminate]. cbn [bind] in E.
    injection E as <-. inversion Hn as [|? ? Hn1 Hn2]; subst.
    assert (Hm : 0 <= m <= zlen code).
    { destruct it; cbn in Hg; [|destruct Hg as [(_ & ? & [? _] & _) ->]; lia|destruct Hn1].
      destruct Hg as [Hz ->]. apply znth_lt in Hz. lia. }
    destruct (IH y Hn2 Hm eq_refl) as [Hby HD].
    destruct (old_item_spec code a it m x 0 [] Hc Ha Hg Hn1 Ex) as (Hbx & Hnx & _).
    split; [apply Forall_app; auto|].
    intros fuel rest Hf. rewrite app_length in Hf.
    assert (0 < length x)%nat by (destruct x; [congruence|cbn; lia]).
    destruct fuel as [|fuel]; [lia|].
    destruct (HD fuel rest ltac:(lia)) as (fuel' & F & D1 & D2).
    exists fuel'. split; [exact F|]. rewrite <- app_assoc.
    destruct (old_item_spec code a it m x fuel (y ++ rest) Hc Ha Hg Hn1 Ex) as (_ & _ & -> & ->). auto.
Qed.

(** Blocks never occur when no literal-block positions are given. *)
Lemma writes_no_block its body : old_write_items its = Ok body -> Forall no_block its.
Proof.
  revert body; induction its as [|it its IH]; intros body E; [constructor|]. cbn in E.
  destruct (old_write_item it) eqn:Ei; [|discriminate]. cbn [bind] in E.
  destruct (old_write_items its); [|discriminate].
  constructor; [destruct it; [exact I|exact I|discriminate]|eapply IH; reflexivity].
Qed.

Lemma old_items_chain fast code : exists its, old_items fast code = Ok its /\ ochain code 0 its (zlen code).
Proof.
  unfold old_items. destruct fast.
  - apply greedy_total; [lia|]. intros m H. injection H as <-. lia.
  - apply (get_lz77_total code 3 (Some 0x11) (Some 0xc3f) true ltac:(lia)
      ltac:(intros m H; injection H as <-; lia) unit (Some measure_old) (fun _ => 0) None [] None (fun _ => True) I).
    + intros m out base H _. injection H as <-. apply measure_old_pres.
    + intros m out base H _. injection H as <-. apply measure_old_tot.
Qed.

Lemma old_roundtrip be force fail fast code mx d tail :
  (k_code_size <= zlen code \/ force = true) -> Forall (fun c => 0 < c < 256) code -> zlen code < 0x10000 ->
  compress_code (mkcopts force fail fast true be) code = Ok d ->
  bytes_ok d /\ uncompress_code be mx (d ++ 0 :: 0 :: tail) = Ok code /\
  get_compressed_size be mx (d ++ 0 :: 0 :: tail) = Ok (zlen d + 2).
Proof.
  intros Hf Hc Hl E. unfold compress_code in E. cbn [o_force o_fail o_be o_old] in E.
  replace ((k_code_size <=? zlen code) || force) with true in E
    by (destruct Hf as [H| ->]; [destruct (Z.leb_spec k_code_size (zlen code)); [reflexivity|lia]
                                 |now rewrite orb_true_r]).
  destruct (put_u16 be (Z.land (zlen code) 0xffff)) as [x|] eqn:Hx; [|discriminate]. cbn [bind] in E.
  unfold compress_body in E. cbn [o_old o_fast] in E.
  destruct (old_items_chain fast code) as (its & Ei & Hch). rewrite Ei in E. cbn [bind] in E.
  destruct (old_write_items (map snd its)) as [body|] eqn:Eb; [|discriminate]. cbn [bind] in E.
  match type of E with bind ?x _ = _ => destruct x; [|discriminate] end. cbn [bind] in E.
  change (if true then 0 else _) with 0 in E.
  destruct (put_u16 be 0) as [y|] eqn:Hy; [|discriminate]. cbn [bind] in E.
  assert (Ed : old_header ++ x ++ y ++ body = d) by congruence. subst d. clear E.
  pose proof (zlen_nonneg code).
  destruct (old_items_spec code Hc _ _ _ Hch body (writes_no_block _ _ Eb) ltac:(lia) Eb) as [Hbb HD].
  destruct (u16_roundtrip be _ (y ++ body ++ 0 :: 0 :: tail) x Hx) as (Hx1 & Hx2 & Hx3).
  destruct (u16_roundtrip be _ (body ++ 0 :: 0 :: tail) y Hy) as (Hy1 & Hy2 & Hy3).
  rewrite land_ffff, Z.mod_small in Hx1 by lia.
  destruct (HD (S (length (body ++ 0 :: 0 :: tail))) (0 :: 0 :: tail)) as (f & Hfp & D1 & D2).
  { rewrite app_length. lia. }
  split; [|split].
  - apply Forall_app. split; [repeat constructor; lia|]. apply Forall_app. split; [exact Hx3|].
    apply Forall_app. auto.
  - rewrite <- !app_assoc. unfold uncompress_code.
    change (firstn 4 (old_header ++ x ++ y ++ body ++ 0 :: 0 :: tail)) with old_header.
    change (zeqb_list old_header new_header) with false. cbn iota.
    rewrite zeqb_list_refl.
    change (skipn 4 (old_header ++ x ++ y ++ body ++ 0 :: 0 :: tail)) with (x ++ y ++ body ++ 0 :: 0 :: tail).
    rewrite Hx1. cbn [bind]. rewrite Hy1. cbn [bind assert_ Z.eqb].
    change (slice code 0 0) with (@nil Z) in D1. rewrite D1.
    destruct f as [|f]; [lia|]. cbn [old_decode_loop get_u8 bind Z.eqb].
    rewrite slice_all, Z.eqb_refl. reflexivity.
  - rewrite <- !app_assoc. unfold get_compressed_size.
    change (firstn 4 (old_header ++ x ++ y ++ body ++ 0 :: 0 :: tail)) with old_header.
    change (zeqb_list old_header new_header) with false. cbn iota.
    rewrite zeqb_list_refl.
    change (skipn 4 (old_header ++ x ++ y ++ body ++ 0 :: 0 :: tail)) with (x ++ y ++ body ++ 0 :: 0 :: tail).
    rewrite Hx1. cbn [bind]. rewrite Hy1. cbn [bind]. rewrite D2.
    destruct f as [|f]; [lia|]. cbn [old_size_loop get_u8 bind Z.eqb].
    f_equal. rewrite !zlen_app, !zlen_cons. lia.
Qed.

(** Uncompressed storage. *)
Lemma take_until0_app code tail : Forall (fun c => c <> 0) code -> take_until0 (code ++ 0 :: tail) = code.
Proof. induction 1 as [|x l Hx Hl IH]; cbn; [reflexivity|]. destruct (Z.eqb_spec x 0); [lia|]. now f_equal. Qed.
Lemma take_until0_id code : Forall (fun c => c <> 0) code -> take_until0 code = code.
Proof. induction 1 as [|x l Hx Hl IH]; cbn; [reflexivity|]. destruct (Z.eqb_spec x 0); [lia|]. now f_equal. Qed.

Lemma zbytes_spec mx code tail : Forall (fun c => c <> 0) code -> zlen code <= mx ->
  (tail = [] \/ exists t, tail = 0 :: t) -> zbytes mx (code ++ tail) = code.
Proof.
  intros Hc Hl Ht. unfold zbytes. rewrite firstn_app.
  rewrite firstn_all2 by (unfold zlen in Hl; lia).
  destruct (Z.to_nat mx - length code)%nat eqn:E.
  - cbn. rewrite app_nil_r. now apply take_until0_id.
  - destruct Ht as [->|[t ->]]; cbn.
    + rewrite app_nil_r. now apply take_until0_id.
    + now apply take_until0_app.
Qed.

Definition starts_with (p l : list Z) : Prop := exists r, l = p ++ r.

Lemma zeqb_firstn4 p l : length p = 4%nat -> zeqb_list (firstn 4 l) p = true -> starts_with p l.
Proof.
  intros Hl H. apply zeqb_list_true in H. exists (skipn 4 l). rewrite <- H. symmetry. apply firstn_skipn.
Qed.

Lemma raw_roundtrip be fail fast old code mx tail :
  zlen code < k_code_size -> zlen code <= mx -> Forall (fun c => 0 < c < 256) code ->
  ~ starts_with old_header (code ++ tail) -> (tail = [] \/ exists t, tail = 0 :: t) ->
  (code = [] -> ~ starts_with new_header tail) ->
  compress_code (mkcopts false fail fast old be) code = Ok code /\
  uncompress_code be mx (code ++ tail) = Ok code /\
  get_compressed_size be mx (code ++ tail) = Ok (zlen code).
Proof.
  intros Hk Hm Hc Hh Ht Hn.
  assert (Hc0 : Forall (fun c => c <> 0) code) by (eapply Forall_impl; [|exact Hc]; cbn; lia).
  assert (E1 : zeqb_list (firstn 4 (code ++ tail)) new_header = false).
  { destruct (zeqb_list (firstn 4 (code ++ tail)) new_header) eqn:E; [|reflexivity].
    apply zeqb_firstn4 in E; [|reflexivity]. destruct code as [|c code].
    - exfalso. exact (Hn eq_refl E).
    - destruct E as [r E]. cbn in E. injection E as -> _. inversion Hc; lia. }
  assert (E2 : zeqb_list (firstn 4 (code ++ tail)) old_header = false).
  { destruct (zeqb_list (firstn 4 (code ++ tail)) old_header) eqn:E; [|reflexivity].
    apply zeqb_firstn4 in E; [|reflexivity]. contradiction. }
  split; [|split].
  - unfold compress_code. cbn [o_force]. destruct (Z.leb_spec k_code_size (zlen code)); [lia|]. cbn [orb].
    replace (forallb is_byte code) with true; [reflexivity|]. symmetry. apply forallb_forall. intros x Hx.
    rewrite Forall_forall in Hc. specialize (Hc x Hx). unfold is_byte. lia.
  - unfold uncompress_code. rewrite E1, E2. f_equal. now apply zbytes_spec.
  - unfold get_compressed_size. rewrite E1, E2. do 2 f_equal. now apply zbytes_spec.
Qed.
