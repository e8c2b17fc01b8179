(** Compress/uncompress composition: from parses to round trips. *)
From Coq Require Import Sorted Permutation.
From Verif Require Import M_Base M_BitIO M_Lz77 M_Compress S_Bits S_Lz L_BitIO L_Compress L_Lz77.
Ltac Zify.zify_post_hook ::= Z.div_mod_to_equations.
Open Scope Z_scope.

(** *** Chains spell the code *)
Lemma slice_1 (code : list Z) a c : 0 <= a -> znth code a = Some c -> slice code a (a + 1) = [c].
Proof.
  intros Ha H. apply znth_ext. intros k Hk.
  destruct (Z.lt_ge_cases k 1) as [L|G].
  - replace k with 0 by lia. rewrite znth_slice by lia. rewrite Z.add_0_r, H. reflexivity.
  - rewrite !znth_none; [reflexivity| |]; [unfold zlen; cbn; lia|].
    rewrite zlen_slice by lia. lia.
Qed.

Lemma item_copied (code : list Z) a o c : 1 <= o <= a -> 1 <= c ->
  matches_at code a (a - o) c -> copied (slice code 0 a) (slice code 0 (a + c)) o c.
Proof.
  intros Ho Hc [H1 H2]. exists (slice code a (a + c)).
  rewrite slice_app by lia. split; [reflexivity|].
  split; [rewrite zlen_slice by lia; lia|].
  intros k Hk. rewrite zlen_slice by lia.
  rewrite !znth_slice by lia. replace (0 + (Z.max 0 (Z.min (a - 0) (zlen code - 0)) + k)) with (a + k) by lia.
  rewrite H2 by lia. f_equal. lia.
Qed.

Lemma chain_spells code min_c max_c max_o nr a its b :
  chain code min_c max_c max_o nr a its b -> 0 <= a <= zlen code ->
  spells (slice code 0 a) (map snd its) (slice code 0 b).
Proof.
  induction 1 as [a|a it m its b Hg Hc IH]; intros Ha; cbn [map snd]; [constructor|].
  destruct it as [c|o c|s]; cbn [good_item] in Hg.
  - destruct Hg as [Hz ->]. assert (Hl := znth_lt _ _ _ Hz). constructor.
    rewrite <- (slice_1 code a c) by (auto; lia). rewrite slice_app by lia. apply IH. lia.
  - destruct Hg as [(H1 & H2 & H3 & _) ->]. assert (H3' := H3). destruct H3' as [H4 _].
    econstructor; [| |apply (item_copied code a o c); [lia|lia|exact H3]|apply IH; lia].
    + rewrite zlen_slice by lia. lia.
    + lia.
  - destruct Hg as (H1 & H2 & ->). constructor. rewrite slice_app by lia. apply IH. lia.
Qed.

(** The last item of a complete parse produces text. *)
Lemma chain_last code min_c max_c max_o nr a its b : chain code min_c max_c max_o nr a its b ->
  b = zlen code -> 0 <= a -> map snd its = [] \/ ends_with_text (map snd its).
Proof.
  induction 1 as [a|a it m its b Hg Hc IH]; intros Hb Ha; [auto|]. right.
  unfold ends_with_text in *. destruct its as [|x its].
  - inversion Hc; subst. cbn. intros ->. cbn in Hg. destruct Hg as (H1 & H2 & H3).
    apply (f_equal zlen) in H3. rewrite zlen_slice in H3 by lia. unfold zlen in H3 at 1. cbn in H3. lia.
  - assert (a <= m).
    { destruct it; cbn in Hg; [lia| |lia]. destruct Hg as [(_ & ? & _) ->]. lia. }
    destruct (IH Hb ltac:(lia)) as [E|E]; [discriminate|]. exact E.
Qed.

(** *** Which items the new format's parses contain *)
Definition nul_free_blocks (its : list item) : Prop :=
  Forall (fun it => match it with Blk ((_ :: _ :: _) as s) => Forall (fun c => c <> 0) s | _ => True end) its.

Lemma slice_Forall {A} (P : A -> Prop) l a b : Forall P l -> Forall P (slice l a b).
Proof.
  intros H. unfold slice. rewrite Forall_forall in *. intros x Hx. apply H.
  rewrite <- (firstn_skipn (Z.to_nat a) l). apply in_or_app. right.
  rewrite <- (firstn_skipn (Z.to_nat (b - a)) (skipn _ l)). apply in_or_app. auto.
Qed.

Lemma znth_In {A} (l : list A) k x : znth l k = Some x -> In x l.
Proof. unfold znth. destruct (k <? 0); [discriminate|]. apply nth_error_In. Qed.

Lemma chain_pxa code a its b : bytes_ok code ->
  chain code 3 None (Some 0x7fff) false a its b -> nul_free_blocks (map snd its) ->
  Forall pxa_item (map snd its).
Proof.
  intros Hb H. induction H as [a|a it m its b Hg Hc IH]; intros Hn; [constructor|].
  inversion Hn as [|? ? Hn1 Hn2]; subst. constructor; [|auto].
  unfold bytes_ok in Hb.
  destruct it as [c|o c|s]; cbn in Hg |- *.
  - destruct Hg as [Hz _]. rewrite Forall_forall in Hb. apply Hb. eapply znth_In; eassumption.
  - destruct Hg as [(H1 & H2 & _ & H4 & _ & _ & H7) _].
    specialize (H4 _ eq_refl). specialize (H7 eq_refl ltac:(discriminate)). lia.
  - destruct Hg as (_ & _ & ->). assert (Hs := slice_Forall _ _ a m Hb).
    destruct (slice code a m) as [|x [|y l]]; [constructor|inversion Hs; assumption|].
    cbn in Hn1. rewrite Forall_forall in *. intros z Hz. specialize (Hs z Hz). specialize (Hn1 z Hz). cbn in Hs. lia.
Qed.

Definition no_block (it : item) : Prop := match it with Blk _ => False | _ => True end.

(** *** Measures *)
Definition Cok_new (c : option (list Z)) : Prop := match c with None => True | Some m => mtf_ok m end.

Lemma mtf_after_ok out : mtf_ok (mtf_after out).
Proof.
  unfold mtf_after. assert (G : forall l m, mtf_ok m -> mtf_ok (fold_left mtf_after_item l m)).
  { induction l as [|it l IH]; intros m Hm; [exact Hm|]. cbn. apply IH.
    assert (K : forall ch, mtf_ok match index_of ch m with Some i => update_mtf m i ch | None => m end).
    { intros ch. destruct (index_of ch m) eqn:E; [|exact Hm]. eapply mtf_ok_update; eassumption. }
    destruct it as [c|o c|[|c [|c2 s]]]; cbn; auto. }
  apply G. apply Permutation_refl.
Qed.

Lemma measure_new_pres code out : Mpres code 3 None (Some 0x7fff) false (list Z) Cok_new measure_new out.
Proof.
  intros ctxt it a b cost ctxt' Hc Hg E. destruct it as [ch|o c|s]; cbn [measure_new] in E.
  - unfold mtf_index in E.
    assert (Hm : mtf_ok match ctxt with Some m => m | None => mtf_after out end).
    { destruct ctxt; [exact Hc|apply mtf_after_ok]. }
    destruct (index_of ch _) eqn:Ei; [|discriminate]. cbn in E. injection E as <- <-.
    eapply mtf_ok_update; eassumption.
  - destruct (offset_bits_of _); [|discriminate]. cbn in E. injection E as <- <-. exact Hc.
  - discriminate.
Qed.

Lemma measure_new_tot code out : bytes_ok code ->
  Mtot code 3 None (Some 0x7fff) false (list Z) Cok_new measure_new out.
Proof.
  intros Hb ctxt it a b Hc Hg Hn. destruct it as [ch|o c|s]; cbn [measure_new].
  - assert (Hm : mtf_ok match ctxt with Some m => m | None => mtf_after out end).
    { destruct ctxt; [exact Hc|apply mtf_after_ok]. }
    destruct Hg as [Hz _].
    assert (Hch : 0 <= ch < 256).
    { unfold bytes_ok in Hb. rewrite Forall_forall in Hb. apply Hb. eapply znth_In; eassumption. }
    destruct (index_of_In ch _ (mtf_ok_In _ _ Hm Hch)) as [i Hi].
    unfold mtf_index. rewrite Hi. cbn. eauto.
  - destruct Hg as [(H1 & H2 & _ & H4 & _) _]. specialize (H4 _ eq_refl).
    rewrite offset_bits_spec by lia. cbn. eauto.
  - exfalso. eapply Hn. reflexivity.
Qed.

Lemma measure_old_pres code out :
  Mpres code 3 (Some 0x11) (Some 0xc3f) true unit (fun _ => True) measure_old out.
Proof. intros ctxt it a b cost ctxt' Hc Hg E. exact I. Qed.

Lemma measure_old_tot code out :
  Mtot code 3 (Some 0x11) (Some 0xc3f) true unit (fun _ => True) measure_old out.
Proof.
  intros ctxt it a b Hc Hg Hn. destruct it; cbn; eauto. exfalso. eapply Hn. reflexivity.
Qed.

(** Parses without literal blocks. *)
Lemma greedy_total code min_c max_c max_o nr fast_c : 1 <= min_c -> (forall m, max_c = Some m -> 1 <= m) ->
  exists its, greedy_lz77 code min_c max_c max_o nr fast_c = Ok its /\
    chain code min_c max_c max_o nr 0 its (zlen code).
Proof.
  intros H1 H2. unfold greedy_lz77.
  apply (get_lz77_total code min_c max_c max_o nr H1 H2 unit None (fun _ => 0) None [] fast_c
          (fun _ => True) I); discriminate.
Qed.

(** Without literal-block positions no block is yielded. *)
Lemma greedy_no_block code min_c max_c max_o nr fast_c its :
  greedy_lz77 code min_c max_c max_o nr fast_c = Ok its -> Forall no_block (map snd its).
Proof.
  unfold greedy_lz77, get_lz77. cbn [pop_idx length].
  set (fuel := (_ * _)%nat). clearbody fuel.
  match goal with |- lz_loop _ _ _ _ _ _ _ _ _ _ _ _ ?s = _ -> _ =>
    assert (G : s_next _ s = zlen code /\ Forall no_block (map snd (s_out _ s))) by (split; [reflexivity|constructor]);
    generalize s, G end.
  clear G. induction fuel as [|fuel IH]; intros s [Hn Ho] E; cbn [lz_loop] in E;
    (destruct (Z.ltb_spec (s_i _ s) (zlen code)) as [L|Ge];
      [|destruct (s_cur _ s); [discriminate|]; injection E as <-; exact Ho]).
  - discriminate.
  - destruct (lz_step _ _ _ _ _ _ _ _ _ _ _ s) as [s'|] eqn:Es; [|discriminate]. cbn [bind] in E.
    apply (IH s'); [|exact E].
    apply step_choose in Es as (s1 & bc & Ec & _ & _ & _ & _ & H5 & _ & H7 & _). rewrite H5, H7.
    unfold lz_choose in Ec. destruct (Z.leb_spec (s_next _ s) (s_i _ s)); [lia|].
    destruct (code_at code (s_i _ s)); [|discriminate]. cbn [bind] in Ec.
    destruct (fm_dict _ _ _ _ _ _ (s_d _ s)) as [[c j] d].
    assert (K : forall it, no_block it -> Forall no_block (map snd (s_out unit s ++ [(s_i unit s, it)]))).
    { intros it Hit. rewrite map_app. apply Forall_app. split; [exact Ho|]. constructor; [exact Hit|constructor]. }
    destruct (0 <? c); [destruct (fm_dict _ _ _ _ _ _ d) as [[c2 j2] d2]; destruct (c <? c2)|];
      injection Ec as <- <-; cbn [s_next s_out]; (split; [exact Hn|apply K; exact I]).
Qed.

Lemma no_block_nul_free its : Forall no_block its -> nul_free_blocks its.
Proof. intros H. eapply Forall_impl; [|exact H]. intros [c|o c|s] Hx; [exact I|exact I|destruct Hx]. Qed.

(** *** Headers *)
Lemma u16_roundtrip be v d x : put_u16 be v = Ok x -> get_u16 be (x ++ d) = Ok (v, d) /\ zlen x = 2 /\ bytes_ok x.
Proof.
  unfold put_u16. destruct ((0 <=? v) && (v <? 65536)) eqn:E; [|discriminate].
  intros H. injection H as <-. destruct be; cbn; (split; [do 2 f_equal; lia|]);
    (split; [reflexivity|]); repeat constructor; lia.
Qed.
Lemma put_u16_ok be v : 0 <= v < 65536 -> exists x, put_u16 be v = Ok x.
Proof. intros H. unfold put_u16. destruct ((0 <=? v) && (v <? 65536)) eqn:E; [eauto|lia]. Qed.

Lemma land_ffff a : Z.land a 0xffff = a mod 65536.
Proof. exact (Z.land_ones a 16 ltac:(lia)). Qed.

(** *** New format: from a valid parse to a decoded stream *)
Lemma new_roundtrip be force fail fast code its mx tail :
  (k_code_size <= zlen code \/ force = true) -> bytes_ok code -> zlen code < 0x10000 ->
  new_items fast code = Ok its -> chain code 3 None (Some 0x7fff) false 0 its (zlen code) ->
  nul_free_blocks (map snd its) -> bytes_ok tail ->
  exists d, bytes_ok d /\ 8 <= zlen d /\
    compress_code (mkcopts force fail fast false be) code =
      (if fail && negb (zlen d <=? k_code_size) then Err ECheck else Ok d) /\
    (zlen d < 0x10000 -> uncompress_code be mx (d ++ tail) = Ok code /\
                         get_compressed_size be mx (d ++ tail) = Ok (zlen d)).
Proof.
  intros Hforce Hb Hlen Hits Hch Hnf Ht.
  pose proof (chain_pxa _ _ _ _ Hb Hch Hnf) as Hp.
  pose proof (zlen_nonneg code) as Hnn.
  pose proof (chain_spells _ _ _ _ _ _ _ _ Hch ltac:(lia)) as Hs. rewrite slice_all in Hs. cbn in Hs.
  pose proof (chain_last _ _ _ _ _ _ _ _ Hch eq_refl ltac:(lia)) as He.
  destruct (pxa_stream _ _ tail Hp Hs He Ht) as (w & m & Ew & Hwb & D).
  set (body := bw_flush w) in *.
  destruct (put_u16_ok be (Z.land (zlen code) 0xffff)) as [x Hx]; [rewrite land_ffff; lia|].
  destruct (put_u16_ok be (Z.land (8 + zlen body) 0xffff)) as [y Hy]; [rewrite land_ffff; lia|].
  exists (new_header ++ x ++ y ++ body).
  assert (Hzl : zlen (new_header ++ x ++ y ++ body) = 8 + zlen body).
  { rewrite !zlen_app. destruct (u16_roundtrip be _ [] x Hx) as (_ & -> & _).
    destruct (u16_roundtrip be _ [] y Hy) as (_ & -> & _). change (zlen new_header) with 4. lia. }
  split.
  { apply Forall_app. split; [repeat constructor; lia|]. apply Forall_app.
    split; [apply (u16_roundtrip be _ [] x Hx)|]. apply Forall_app.
    split; [apply (u16_roundtrip be _ [] y Hy)|exact Hwb]. }
  split; [rewrite Hzl; pose proof (zlen_nonneg body); lia|].
  split.
  - unfold compress_code. cbn [o_force o_fail o_be o_old].
    replace ((k_code_size <=? zlen code) || force) with true
      by (destruct Hforce as [H| ->]; [destruct (Z.leb_spec k_code_size (zlen code)); [reflexivity|lia]
                                       |now rewrite orb_true_r]).
    rewrite Hx. cbn [bind]. unfold compress_body. cbn [o_old o_fast].
    rewrite Hits. cbn [bind]. rewrite Ew. cbn [bind]. fold body. rewrite Hzl.
    destruct fail; cbn [andb].
    + unfold check_. destruct (Z.ltb_spec (zlen code) 0x10000); [|lia]. cbn [bind].
      destruct (8 + zlen body <=? k_code_size); cbn [negb bind]; [rewrite Hy|]; reflexivity.
    + cbn [bind]. rewrite Hy. reflexivity.
  - intros Hsz. rewrite Hzl in Hsz. pose proof (zlen_nonneg body) as Hbn.
    assert (Hx2 := u16_roundtrip be _ (y ++ body ++ tail) x Hx). destruct Hx2 as (Hx2 & Hx3 & _).
    assert (Hy2 := u16_roundtrip be _ (body ++ tail) y Hy). destruct Hy2 as (Hy2 & Hy3 & _).
    rewrite land_ffff in Hx2, Hy2. rewrite Z.mod_small in Hx2, Hy2 by lia.
    split.
    + unfold uncompress_code.
      rewrite <- !app_assoc. change (firstn 4 (new_header ++ x ++ y ++ body ++ tail)) with new_header.
      rewrite zeqb_list_refl.
      change (skipn 4 (new_header ++ x ++ y ++ body ++ tail)) with (x ++ y ++ body ++ tail).
      rewrite Hx2. cbn [bind]. rewrite Hy2. cbn [bind].
      destruct (D (bit_fuel (body ++ tail)) (bit_fuel (body ++ tail))) as (r & Er & Hr).
      { unfold bit_fuel. rewrite app_length. lia. }
      { unfold bit_fuel. rewrite app_length. lia. }
      rewrite Er. cbn [bind]. rewrite Hr.
      replace (zlen (new_header ++ x ++ y ++ body ++ tail) - zlen tail =? 8 + zlen body) with true
        by (rewrite !zlen_app, Hx3, Hy3; change (zlen new_header) with 4; lia).
      cbn [assert_ bind]. rewrite Z.eqb_refl. reflexivity.
    + unfold get_compressed_size. rewrite <- !app_assoc.
      change (firstn 4 (new_header ++ x ++ y ++ body ++ tail)) with new_header.
      rewrite zeqb_list_refl.
      change (skipn 4 (new_header ++ x ++ y ++ body ++ tail)) with (x ++ y ++ body ++ tail).
      rewrite Hx2. cbn [bind]. rewrite Hy2. cbn [bind].
      f_equal. rewrite !zlen_app, Hx3, Hy3. change (zlen new_header) with 4. lia.
Qed.

Lemma fast_roundtrip be force fail code mx tail :
  (k_code_size <= zlen code \/ force = true) -> bytes_ok code -> zlen code < 0x10000 -> bytes_ok tail ->
  exists d, bytes_ok d /\ 8 <= zlen d /\
    compress_code (mkcopts force fail true false be) code =
      (if fail && negb (zlen d <=? k_code_size) then Err ECheck else Ok d) /\
    (zlen d < 0x10000 -> uncompress_code be mx (d ++ tail) = Ok code /\
                         get_compressed_size be mx (d ++ tail) = Ok (zlen d)).
Proof.
  intros Hf Hb Hl Ht.
  destruct (greedy_total code 3 None (Some 0x7fff) false (Some 16) ltac:(lia) ltac:(discriminate)) as (its & E & Hc).
  apply (new_roundtrip be force fail true code its); auto.
  apply no_block_nul_free. eapply greedy_no_block. exact E.
Qed.

Lemma default_roundtrip be force fail code its mx tail :
  (k_code_size <= zlen code \/ force = true) -> bytes_ok code -> zlen code < 0x10000 -> bytes_ok tail ->
  new_items false code = Ok its -> Sorted Z.le (map fst its) -> nul_free_blocks (map snd its) ->
  exists d, bytes_ok d /\ 8 <= zlen d /\
    compress_code (mkcopts force fail false false be) code =
      (if fail && negb (zlen d <=? k_code_size) then Err ECheck else Ok d) /\
    (zlen d < 0x10000 -> uncompress_code be mx (d ++ tail) = Ok code /\
                         get_compressed_size be mx (d ++ tail) = Ok (zlen d)).
Proof.
  intros Hf Hb Hl Ht E HS Hn.
  apply (new_roundtrip be force fail false code its); auto.
  unfold new_items in E. destruct (preprocess_litblock_idxs code) as [idxs|]; [|discriminate]. cbn [bind] in E.
  eapply (get_lz77_chain code 3 None (Some 0x7fff) false ltac:(lia) ltac:(discriminate)
    (list Z) (Some measure_new) min_cost_new (Some cheaper_new) [0x20; 0x400] None Cok_new I); [|exact E|exact HS].
  intros m out base H _. injection H as <-. apply measure_new_pres.
Qed.
