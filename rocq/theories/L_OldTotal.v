(** The old format's cost-driven parse never picks a one-element back-reference,
    so every byte it writes is in range. *)
From Coq Require Import Sorted.
From Verif Require Import M_Base M_BitIO M_Lz77 M_Compress S_Lz L_BitIO L_Compress L_Lz77 L_CompressTop L_OldFormat.
Ltac Zify.zify_post_hook ::= Z.div_mod_to_equations.
Open Scope Z_scope.

Lemma omax : forall m, Some 0x11 = Some m -> 1 <= m.
Proof. intros m H. injection H as <-. lia. Qed.

Section Old.
Variable code : list Z.
Notation adv := (adv unit).
Notation scan := (adv_scan unit (fun _ => 0)).

Lemma scan_some_rej cost nx advs p : forall idx, Exists (fun a : adv => a_cost unit a <= cost) advs ->
  scan cost nx advs idx (Some p) = None.
Proof.
  induction advs as [|a advs IH]; intros idx H; [inversion H|]. cbn [adv_scan].
  destruct (Z.leb_spec (a_cost unit a - 0) cost); [reflexivity|].
  apply IH. inversion H; subst; [lia|assumption].
Qed.

Lemma scan_rej cost i advs : sorted_advs unit i advs ->
  Exists (fun a : adv => a_cost unit a <= cost) advs -> scan cost (i + 1) advs 0 None = None.
Proof.
  intros Hs H. destruct advs as [|a advs]; [inversion H|]. destruct Hs as [Hs _]. cbn [adv_scan].
  assert (K : forall p, (if a_cost unit a - 0 <=? cost then None else scan cost (i + 1) advs 1 (Some p)) = None).
  { intros p. destruct (Z.leb_spec (a_cost unit a - 0) cost); [reflexivity|].
    apply scan_some_rej. inversion H; subst; [lia|assumption]. }
  destruct (Z.eqb_spec (i + 1) (a_next unit a)); [apply K|].
  destruct (Z.ltb_spec (i + 1) (a_next unit a)); [apply K|lia].
Qed.

Lemma scan_none cost nx : forall advs idx ins, scan cost nx advs idx ins = None ->
  Exists (fun a : adv => a_cost unit a <= cost) advs.
Proof.
  induction advs as [|a advs IH]; intros idx ins H; cbn [adv_scan] in H; [discriminate|].
  destruct (match ins with Some _ => ins | None => _ end).
  - destruct (Z.leb_spec (a_cost unit a - 0) cost); [constructor; lia|]. right. eapply IH; eassumption.
  - right. eapply IH; eassumption.
Qed.

Lemma upd_exists {A} (P : A -> Prop) l k x : (k < length l)%nat -> P x -> Exists P (list_upd l k x).
Proof.
  revert k; induction l as [|y l IH]; intros k Hk Hx; [cbn in Hk; lia|].
  destruct k; cbn; [now constructor|]. right. apply IH; [cbn in Hk; lia|exact Hx].
Qed.

Lemma add_literal_exists i cur cost ctxt it advs : sorted_advs unit i advs ->
  Exists (fun a : adv => a_cost unit a <= cost) (add_advance unit (fun _ => 0) i cur cost ctxt 1 it advs).
Proof.
  intros Hs. unfold add_advance.
  pose proof (adv_scan_spec _ omax unit (fun _ => 0) cost (i + 1) advs i 0 Hs ltac:(lia)) as HS.
  destruct (scan cost (i + 1) advs 0 None) as [[[k b]|]|] eqn:E.
  - destruct b.
    + destruct HS as (l1 & a & l2 & -> & -> & _). apply upd_exists; [rewrite app_length; cbn; lia|cbn; lia].
    + apply Exists_app. right. constructor. cbn. lia.
  - apply Exists_app. right. constructor. cbn. lia.
  - eapply scan_none; eassumption.
Qed.

Definition it2 (x : Z * item) : Prop := match snd x with Mat _ c => 2 <= c | _ => True end.
Definition path2 (a : adv) : Prop := Forall it2 (a_path unit a).

Lemma add_advance_path2 i cur cost ctxt c it advs :
  (match cur with Some a => path2 a | None => True end) -> it2 (i, it) -> Forall path2 advs ->
  Forall path2 (add_advance unit (fun _ => 0) i cur cost ctxt c it advs).
Proof.
  intros Hc Hi HF. unfold add_advance. destruct (scan _ _ advs _ _) as [ins|]; [|exact HF].
  assert (Hn : forall nx co ct, path2 (mkadv unit nx co ct ((i, it) ::
     match cur with Some a => a_path unit a | None => [] end))).
  { intros. constructor; [exact Hi|]. destruct cur; [exact Hc|constructor]. }
  destruct ins as [[k [|]]|].
  - apply Forall_upd; auto.
  - rewrite <- (firstn_skipn k advs) in HF. apply Forall_app in HF as [F1 F2].
    apply Forall_app. split; [exact F1|]. constructor; auto.
  - apply Forall_app. auto.
Qed.

Definition inv2 (s : lst unit) : Prop :=
  Forall it2 (s_out unit s) /\ match s_cur unit s with Some a => path2 a | None => True end /\
  Forall path2 (s_advs unit s).

Lemma choose_inv2 base s s1 bc :
  strong code 3 (Some 0x11) (Some 0xc3f) true unit (Some measure_old) (fun _ => True) base s ->
  inv2 s -> s_i unit s < zlen code -> s_i unit s < s_next unit s ->
  lz_choose code 3 (Some 0x11) (Some 0xc3f) true unit (Some measure_old) (fun _ => 0) None [] s = Ok (s1, bc) ->
  inv2 s1.
Proof.
  intros (Hi & Hch & Hcur & [Hadv1 Hadv2] & Hiff & HmN & Hd) (Ho & Hc2 & Ha2) Hlt Hnx E.
  unfold lz_choose in E. destruct (Z.leb_spec (s_next unit s) (s_i unit s)); [lia|].
  destruct (code_at code (s_i unit s)) as [ch|] eqn:Ech; [|discriminate]. cbn [bind measure_old] in E.
  set (cc := if 0 <? old_inv ch then 1 else 2) in *.
  assert (Hcc : cc <= 2) by (subst cc; destruct (0 <? old_inv ch); lia).
  set (cost0 := match s_cur unit s with Some a => a_cost unit a | None => 0 end) in *.
  set (cx := match s_cur unit s with Some a => a_ctxt unit a | None => None end) in *.
  set (advs1 := add_advance unit (fun _ => 0) (s_i unit s) (s_cur unit s) (cost0 + cc) cx 1 (Lit ch) (s_advs unit s)) in *.
  assert (Hchn : znth code (s_i unit s) = Some ch).
  { unfold code_at in Ech. destruct (znth code (s_i unit s)); congruence. }
  destruct (add_advance_ok code 3 (Some 0x11) (Some 0xc3f) true omax unit (fun _ => 0) (fun _ => True) base
    (s_i unit s) (s_cur unit s) (cost0 + cc) cx 1 (Lit ch) (s_advs unit s)) as (R1 & R2 & R3);
    try assumption; try lia.
  { destruct (s_cur unit s); cbn in Hcur; [apply Hcur|exact Hcur]. }
  { cbn. auto. }
  fold advs1 in R1, R2, R3.
  assert (P1 : Forall path2 advs1) by (apply add_advance_path2; auto; exact I).
  assert (X1 : Exists (fun a : adv => a_cost unit a <= cost0 + 2) advs1).
  { apply Exists_impl with (P := fun a : adv => a_cost unit a <= cost0 + cc); [lia|].
    apply add_literal_exists. exact Hadv1. }
  pose proof (fm_dict_ok code 3 (Some 0x11) true ltac:(lia) omax (s_i unit s) (Some 0xc3f) (s_d unit s)
     ltac:(lia) Hd) as HF.
  destruct (fm_dict _ _ _ _ _ _ (s_d unit s)) as [[c j] d]. destruct HF as [HF _].
  match type of E with bind ?x _ = _ => assert (HX : exists advs, x = Ok (advs, d) /\ Forall path2 advs) end.
  { destruct (Z.ltb_spec 0 c) as [Lc|Lc]; [|eauto].
    unfold add_match_and_cheaper, add_lz77_advance. fold cost0 cx. cbn [measure_old bind o_steps_loop].
    eexists. split; [reflexivity|].
    destruct (Z.eq_dec c 1) as [->|N].
    - unfold add_advance. rewrite scan_rej; auto.
    - apply add_advance_path2; auto. cbn. lia. }
  destruct HX as (advs & EX & PX). rewrite EX in E. cbn [bind] in E.
  destruct advs as [|a advs]; [discriminate|]. inversion PX as [|? ? Pa PX']; subst.
  destruct advs as [|a2 advs]; injection E as <- <-; unfold inv2; cbn [s_out s_cur s_advs].
  - split; [|split; [exact I|constructor]]. apply Forall_app. split; [exact Ho|]. apply Forall_rev. exact Pa.
  - auto.
Qed.

Lemma loop_inv2 fuel : forall base s its,
  strong code 3 (Some 0x11) (Some 0xc3f) true unit (Some measure_old) (fun _ => True) base s ->
  inv2 s -> s_prev unit s = s_i unit s -> s_next unit s = zlen code ->
  lz_loop code 3 (Some 0x11) (Some 0xc3f) true unit (Some measure_old) (fun _ => 0) None [] None fuel s = Ok its ->
  Forall it2 its.
Proof.
  induction fuel as [|fuel IH]; intros base s its Hs Hv Hp Hn E; cbn [lz_loop] in E;
    (destruct (Z.ltb_spec (s_i unit s) (zlen code)) as [L|G];
      [|destruct (s_cur unit s); [discriminate|]; injection E as <-; apply Hv]).
  - discriminate.
  - destruct (lz_step _ _ _ _ _ _ _ _ _ _ _ s) as [s'|] eqn:Es; [|discriminate]. cbn [bind] in E.
    destruct (step_strong code 3 (Some 0x11) (Some 0xc3f) true ltac:(lia) omax unit (Some measure_old)
      (fun _ => 0) None [] None (fun _ => True) I
      ltac:(intros m out bs H _; injection H as <-; apply measure_old_pres) base s s' Hs Hp L Es)
      as [(base' & Hst & Hpv & Hle & Hadv)|[(pre & b & O & W & Lt & Lnx)|(Ov & Cn & Hoo & Lnx)]]; [|lia|lia].
    destruct (Hadv ltac:(lia)) as (A1 & A2 & A3).
    eapply IH; [exact Hst| |exact Hpv|congruence|exact E].
    apply step_choose in Es as (s1 & bc & Ec & _ & _ & H3 & H4 & _ & _ & H7 & _).
    pose proof (choose_inv2 _ _ _ _ Hs Hv L ltac:(lia) Ec) as Hv1.
    unfold inv2 in *. rewrite H3, H4, H7. exact Hv1.
Qed.

Lemma old_items_two its : old_items false code = Ok its -> Forall it2 its.
Proof.
  unfold old_items, get_lz77. cbn [pop_idx]. intros E.
  eapply loop_inv2; [| | | |exact E]; try reflexivity.
  - apply init_strong; [exact omax|exact (fun x => x)].
  - repeat split; constructor.
Qed.

Lemma old_chain_write : bytes_ok code -> forall a its b, ochain code a its b -> Forall it2 its ->
  Forall no_block (map snd its) -> exists body, old_write_items (map snd its) = Ok body.
Proof.
  intros Hb a its b H. induction H as [a|a it m its b Hg Hch IH]; intros H2 Hn; [cbn; eauto|].
  inversion H2 as [|? ? H21 H22]; subst. inversion Hn as [|? ? Hn1 Hn2]; subst.
  destruct (IH H22 Hn2) as [body Eb]. cbn [map snd old_write_items]. rewrite Eb.
  assert (Hi : exists x, old_write_item it = Ok x).
  { destruct it as [ch|o c|s]; [| |destruct Hn1].
    - destruct Hg as [Hz _]. apply znth_In in Hz. unfold bytes_ok in Hb. rewrite Forall_forall in Hb.
      specialize (Hb _ Hz). cbn. destruct (Z.ltb_spec 0 (old_inv ch)) as [P|P].
      + destruct (old_inv_spec ch P) as [Q _]. unfold put_u8, is_byte.
        destruct ((0 <=? old_inv ch) && (old_inv ch <? 256)) eqn:E; [eauto|lia].
      + unfold put_u8, is_byte. cbn [bind]. destruct ((0 <=? ch) && (ch <? 256)) eqn:E; [cbn; eauto|lia].
    - destruct Hg as [(G1 & G2 & G3 & G4 & G5 & _) _]. specialize (G4 _ eq_refl). specialize (G5 _ eq_refl).
      cbn in H21. cbn [old_write_item]. rewrite Z.shiftr_div_pow2, Z.shiftl_mul_pow2, land_f by lia.
      change (2 ^ 4) with 16. unfold put_u8, is_byte.
      destruct ((0 <=? 60 + o / 16) && (60 + o / 16 <? 256)) eqn:E1; [|lia]. cbn [bind].
      destruct ((0 <=? o mod 16 + (c - 2) * 16) && (o mod 16 + (c - 2) * 16 <? 256)) eqn:E2; [|lia].
      cbn. eauto. }
  destruct Hi as [x ->]. cbn. eauto.
Qed.
End Old.

(** No block is ever yielded when no positions are given (cost-driven case). *)
Lemma chain_old_no_block code its : old_items false code = Ok its -> Forall no_block (map snd its).
Proof.
  unfold old_items, get_lz77. cbn [pop_idx]. set (fuel := (_ * _)%nat). clearbody fuel.
  set (nb := fun x : Z * item => no_block (snd x)).
  assert (K : forall l, Forall nb l -> Forall no_block (map snd l)).
  { induction 1; constructor; auto. }
  intros E. apply K. revert E.
  match goal with |- lz_loop _ _ _ _ _ _ _ _ _ _ _ _ ?s = _ -> _ =>
    assert (G : s_next _ s = zlen code /\ Forall nb (s_out _ s) /\
      match s_cur _ s with Some a => Forall nb (a_path _ a) | None => True end /\
      Forall (fun a => Forall nb (a_path _ a)) (s_advs _ s)) by (repeat split; constructor);
    generalize s, G end.
  clear G.
  assert (KA : forall i cur cost ctxt c it advs,
    match cur with Some a => Forall nb (a_path unit a) | None => True end -> no_block it ->
    Forall (fun a => Forall nb (a_path unit a)) advs ->
    Forall (fun a => Forall nb (a_path unit a)) (add_advance unit (fun _ => 0) i cur cost ctxt c it advs)).
  { intros i cur cost ctxt c it advs Hc Hi HF. unfold add_advance.
    destruct (adv_scan _ _ _ _ advs _ _) as [ins|]; [|exact HF].
    assert (Hn : forall nx co ct, Forall nb (a_path unit (mkadv unit nx co ct ((i, it) ::
       match cur with Some a => a_path unit a | None => [] end)))).
    { intros. constructor; [exact Hi|]. destruct cur; [exact Hc|constructor]. }
    destruct ins as [[k [|]]|].
    - apply Forall_upd; auto.
    - rewrite <- (firstn_skipn k advs) in HF. apply Forall_app in HF as [F1 F2].
      apply Forall_app. split; [exact F1|]. constructor; auto.
    - apply Forall_app. auto. }
  induction fuel as [|fuel IH]; intros s (Hn & Ho & Hc & Ha) E; cbn [lz_loop] in E;
    (destruct (Z.ltb_spec (s_i _ s) (zlen code)) as [L|Ge];
      [|destruct (s_cur _ s); [discriminate|]; injection E as <-; exact Ho]).
  - discriminate.
  - destruct (lz_step _ _ _ _ _ _ _ _ _ _ _ s) as [s'|] eqn:Es; [|discriminate]. cbn [bind] in E.
    apply (IH s'); [|exact E].
    apply step_choose in Es as (s1 & bc & Ec & _ & _ & H3 & H4 & H5 & _ & H7 & _). rewrite H3, H4, H5, H7.
    unfold lz_choose in Ec. destruct (Z.leb_spec (s_next _ s) (s_i _ s)); [lia|].
    destruct (code_at code (s_i _ s)) as [ch|]; [|discriminate]. cbn [bind measure_old] in Ec.
    destruct (fm_dict _ _ _ _ _ _ (s_d _ s)) as [[c j] d].
    match type of Ec with bind ?x _ = _ => assert (HX : exists advs, x = Ok (advs, d) /\
      Forall (fun a => Forall nb (a_path unit a)) advs) end.
    { destruct (0 <? c); [|eexists; split; [reflexivity|apply KA; auto; exact I]].
      unfold add_match_and_cheaper, add_lz77_advance. cbn [measure_old bind o_steps_loop].
      eexists. split; [reflexivity|]. apply KA; auto; [exact I|]. apply KA; auto. exact I. }
    destruct HX as (advs & EX & PX). rewrite EX in Ec. cbn [bind] in Ec.
    destruct advs as [|a advs]; [discriminate|]. inversion PX as [|? ? Pa PX']; subst.
    destruct advs as [|a2 advs]; injection Ec as <- <-; cbn [s_out s_cur s_advs s_next].
    + split; [exact Hn|]. split; [|split; [exact I|constructor]].
      apply Forall_app. split; [exact Ho|]. apply Forall_rev. exact Pa.
    + auto.
Qed.

Lemma old_default_total be force code : bytes_ok code ->
  (k_code_size <= zlen code \/ force = true) ->
  exists d, compress_code (mkcopts force false false true be) code = Ok d.
Proof.
  intros Hb Hf. unfold compress_code. cbn [o_force o_fail o_be o_old].
  replace ((k_code_size <=? zlen code) || force) with true
    by (destruct Hf as [H| ->]; [destruct (Z.leb_spec k_code_size (zlen code)); [reflexivity|lia]
                                 |now rewrite orb_true_r]).
  destruct (put_u16_ok be (Z.land (zlen code) 0xffff)) as [x Hx]; [rewrite land_ffff; lia|].
  rewrite Hx. cbn [bind]. unfold compress_body. cbn [o_old o_fast].
  destruct (old_items_chain false code) as (its & Ei & Hch). rewrite Ei. cbn [bind].
  destruct (old_chain_write code Hb _ _ _ Hch (old_items_two _ _ Ei) (chain_old_no_block _ _ Ei)) as [body ->].
  cbn [bind]. destruct (put_u16_ok be 0) as [y Hy]; [lia|]. rewrite Hy. cbn. eauto.
Qed.
