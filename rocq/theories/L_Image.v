(** Lemmas on pictures: label, sprite sheet and cart images. *)
From Verif Require Import M_Base M_Memory M_Compress M_Rom S_Rom S_Memory L_Util L_Memory L_Rom.
Open Scope Z_scope.
Ltac Zify.zify_post_hook ::= Z.div_mod_to_equations.

Local Opaque mem_create_rom.

Lemma range_true y n : 0 <= y < n -> (0 <=? y) && (y <? 0 + n) = true.
Proof. lia. Qed.
Lemma box_true x y : 0 <= x < 128 -> 0 <= y < 128 -> (0 <=? x) && (x <? 128) && (0 <=? y) && (y <? 128) = true.
Proof. lia. Qed.
Lemma map_res_ok {A B} (f : A -> res B) (g : A -> B) (l : list A) : (forall x, In x l -> f x = Ok (g x)) -> map_res f l = Ok (map g l).
Proof.
  induction l as [|x l IH]; intros H; [reflexivity|]. cbn [map_res map]. rewrite H by (left; auto). cbn [bind].
  rewrite IH by (intros; apply H; right; auto). reflexivity.
Qed.

Lemma pal_get_ok i : 0 <= i < 32 -> exists p, pal_get i = Ok p.
Proof.
  intros H. assert (S : forallb (fun i => is_ok (pal_get i)) (zrange 32) = true) by (vm_compute; reflexivity).
  pose proof (range_sweep 32 _ S i ltac:(lia)) as K. cbn beta in K; destruct (pal_get i); [eauto|discriminate].
Qed.
Definition pal_check (tr : bool) (i : Z) : bool := match cell_px tr i with Ok p => px_colour p =? i | _ => false end.
Lemma cell_px_colour tr i : 0 <= i < 32 -> exists p, cell_px tr i = Ok p /\ px_colour p = i.
Proof.
  intros H. assert (S : forallb (pal_check tr) (zrange 32) = true) by (destruct tr; vm_compute; reflexivity).
  pose proof (range_sweep 32 _ S i ltac:(lia)) as K. unfold pal_check in K. destruct (cell_px tr i) as [p|]; [|discriminate].
  exists p. split; [reflexivity|lia].
Qed.
Definition cell_pxf (tr : bool) (i : Z) : px := match cell_px tr i with Ok p => p | _ => (0,0,0,0) end.
Lemma cell_pxf_ok tr i : 0 <= i < 32 -> cell_px tr i = Ok (cell_pxf tr i) /\ px_colour (cell_pxf tr i) = i.
Proof. intros H. destruct (cell_px_colour tr i H) as (p & E & C). unfold cell_pxf. rewrite E. auto. Qed.

Lemma screenshot_roundtrip tr l : Forall (Forall (fun v => 0 <= v < 32)) l ->
  exists img, create_screenshot_surface tr l = Ok img /\ surface_to_screenshot img = l.
Proof.
  intros H. exists (map (map (cell_pxf tr)) l). split.
  - unfold create_screenshot_surface. apply map_res_ok. intros r Hr. apply map_res_ok. intros v Hv.
    rewrite Forall_forall in H. specialize (H r Hr). rewrite Forall_forall in H. apply cell_pxf_ok. auto.
  - unfold surface_to_screenshot. rewrite map_map. rewrite <- (map_id l) at 2. apply map_ext_in. intros r Hr.
    rewrite map_map. rewrite <- (map_id r) at 2. apply map_ext_in. intros v Hv.
    rewrite Forall_forall in H. specialize (H r Hr). rewrite Forall_forall in H. apply cell_pxf_ok. auto.
Qed.

Theorem label_image_roundtrip c l : c_label c = Some l -> label_ok 32 l ->
  exists img, write_cart_label c = Ok img /\ read_cart_label img = l.
Proof.
  intros E [_ H]. unfold write_cart_label. rewrite E. apply screenshot_roundtrip.
  eapply Forall_impl; [|exact H]. intros r [_ K]. exact K.
Qed.

(** *** Sprite sheet *)
Definition sheet_px (m : list Z) (x y : Z) : Z := nib_get (mget m (y * 64 + x / 2)) (x mod 2).
Lemma sheet_px_ok m x y : bytes_ok m -> zlen m = 0x4300 -> 0 <= x < 128 -> 0 <= y < 128 ->
  get4 m (mem_sprite_addr x y) = Ok (sheet_px m x y).
Proof. intros B L Hx Hy. rewrite sprite_addr_eq by lia. apply get4_ok; [assumption|lia]. Qed.
Lemma sheet_px_range m x y : bytes_ok m -> 0 <= sheet_px m x y < 16.
Proof.
  intros B. unfold sheet_px, nib_get. pose proof (mget_byte m (y * 64 + x / 2) B). destruct (x mod 2 =? 0); lia.
Qed.
Lemma sheet_px_set m x y x' y' v : bytes_ok m -> zlen m = 0x4300 -> 0 <= x < 128 -> 0 <= y < 128 ->
  0 <= x' < 128 -> 0 <= y' < 128 ->
  sheet_px (mset m (y * 64 + x / 2) (nib_set (mget m (y * 64 + x / 2)) (x mod 2) v)) x' y' =
  if (x' =? x) && (y' =? y) then v mod 16 else sheet_px m x' y'.
Proof.
  intros B L Hx Hy Hx' Hy'. unfold sheet_px. rewrite mget_mset by lia.
  destruct (Z.eqb_spec (y' * 64 + x' / 2) (y * 64 + x / 2)) as [E|N].
  - rewrite E. rewrite nib_get_set by (try apply mget_byte; auto; lia).
    destruct (Z.eqb_spec (x' mod 2) (x mod 2)).
    + replace (x' =? x) with true by lia. replace (y' =? y) with true by lia. reflexivity.
    + replace (x' =? x) with false by lia. reflexivity.
  - destruct ((x' =? x) && (y' =? y)) eqn:E; [exfalso; apply N|reflexivity].
    assert (x' = x /\ y' = y) as [-> ->] by lia. reflexivity.
Qed.

Lemma put_row_spec row : forall x y m, bytes_ok m -> zlen m = 0x4300 -> 0 <= x -> x + zlen row <= 128 -> 0 <= y < 128 ->
  exists m', put_sheet_row x y row m = Ok m' /\ bytes_ok m' /\ zlen m' = 0x4300 /\
    (forall j, 0x2000 <= j -> mget m' j = mget m j) /\
    forall x' y', 0 <= x' < 128 -> 0 <= y' < 128 -> sheet_px m' x' y' =
      if (y' =? y) && (x <=? x') && (x' <? x + zlen row) then nth (Z.to_nat (x' - x)) row 0 mod 16 else sheet_px m x' y'.
Proof.
  induction row as [|v row IH]; intros x y m B L Hx Hl Hy.
  - exists m. cbn [put_sheet_row]. repeat split; auto. intros x' y' Hx' Hy'. rewrite zlen_nil.
    destruct ((y' =? y) && (x <=? x') && (x' <? x + 0)) eqn:E; [lia|reflexivity].
  - rewrite zlen_cons in Hl. pose proof (zlen_nonneg row). cbn [put_sheet_row]. rewrite sprite_addr_eq by lia.
    rewrite set4_ok by (auto; lia). cbn [bind]. set (a := y * 64 + x / 2). set (m1 := mset m a _).
    assert (B1 : bytes_ok m1) by (apply mset_bytes; [assumption|apply nib_set_byte, mget_byte; assumption]).
    assert (L1 : zlen m1 = 0x4300) by (unfold m1; rewrite mset_len; assumption).
    destruct (IH (x + 1) y m1 B1 L1 ltac:(lia) ltac:(lia) Hy) as (m' & E & B' & L' & F & S).
    exists m'. split; [exact E|]. split; [assumption|]. split; [assumption|]. split.
    + intros j Hj. rewrite F by assumption. unfold m1, a. rewrite mget_mset by lia.
      destruct (Z.eqb_spec j (y * 64 + x / 2)); [lia|reflexivity].
    + intros x' y' Hx' Hy'. rewrite S by assumption. unfold m1, a. rewrite sheet_px_set by (auto; lia). rewrite zlen_cons.
      destruct ((y' =? y) && (x + 1 <=? x') && (x' <? x + 1 + zlen row)) eqn:E1.
      * destruct ((y' =? y) && (x <=? x') && (x' <? x + (1 + zlen row))) eqn:E2; [|lia].
        replace (Z.to_nat (x' - x)) with (Datatypes.S (Z.to_nat (x' - (x + 1)))) by lia. reflexivity.
      * destruct ((x' =? x) && (y' =? y)) eqn:E3.
        -- destruct ((y' =? y) && (x <=? x') && (x' <? x + (1 + zlen row))) eqn:E2; [|lia].
           replace (Z.to_nat (x' - x)) with 0%nat by lia. cbn [nth]. rewrite land_f. lia.
        -- destruct ((y' =? y) && (x <=? x') && (x' <? x + (1 + zlen row))) eqn:E2; [lia|reflexivity].
Qed.

Lemma put_sheet_spec rows : forall y m, bytes_ok m -> zlen m = 0x4300 -> 0 <= y -> y + zlen rows <= 128 ->
  Forall (fun r => length r = 128%nat) rows ->
  exists m', put_sheet y rows m = Ok m' /\ bytes_ok m' /\ zlen m' = 0x4300 /\
    (forall j, 0x2000 <= j -> mget m' j = mget m j) /\
    forall x' y', 0 <= x' < 128 -> 0 <= y' < 128 -> sheet_px m' x' y' =
      if (y <=? y') && (y' <? y + zlen rows) then nth (Z.to_nat x') (nth (Z.to_nat (y' - y)) rows []) 0 mod 16 else sheet_px m x' y'.
Proof.
  induction rows as [|row rows IH]; intros y m B L Hy Hl HF.
  - exists m. cbn [put_sheet]. repeat split; auto. intros x' y' Hx' Hy'. rewrite zlen_nil.
    destruct ((y <=? y') && (y' <? y + 0)) eqn:E; [lia|reflexivity].
  - rewrite zlen_cons in Hl. pose proof (zlen_nonneg rows). inversion HF as [|? ? Hr HF']; subst. cbn [put_sheet].
    destruct (put_row_spec row 0 y m B L ltac:(lia) ltac:(unfold zlen; lia) ltac:(lia)) as (m1 & E1 & B1 & L1 & F1 & S1).
    rewrite E1. cbn [bind].
    destruct (IH (y + 1) m1 B1 L1 ltac:(lia) ltac:(lia) HF') as (m' & E & B' & L' & F & S).
    exists m'. split; [exact E|]. split; [assumption|]. split; [assumption|]. split.
    + intros j Hj. rewrite F, F1 by assumption. reflexivity.
    + intros x' y' Hx' Hy'. rewrite S, S1 by assumption. rewrite zlen_cons. unfold zlen at 2. rewrite Hr.
      destruct ((y + 1 <=? y') && (y' <? y + 1 + zlen rows)) eqn:E2.
      * destruct ((y <=? y') && (y' <? y + (1 + zlen rows))) eqn:E3; [|lia].
        replace (Z.to_nat (y' - y)) with (Datatypes.S (Z.to_nat (y' - (y + 1)))) by lia. reflexivity.
      * destruct ((y' =? y) && (0 <=? x') && (x' <? 0 + Z.of_nat 128)) eqn:E3.
        -- destruct ((y <=? y') && (y' <? y + (1 + zlen rows))) eqn:E4; [|lia].
           replace (Z.to_nat (y' - y)) with 0%nat by lia. cbn [nth]. now rewrite Z.sub_0_r.
        -- destruct ((y <=? y') && (y' <? y + (1 + zlen rows))) eqn:E4; [lia|reflexivity].
Qed.

Lemma nibs_byte a b : 0 <= a < 256 -> 0 <= b < 256 -> nib_get a 0 = nib_get b 0 -> nib_get a 1 = nib_get b 1 -> a = b.
Proof. unfold nib_get. cbn. lia. Qed.

Lemma sheet_bytes m m' : bytes_ok m -> bytes_ok m' ->
  (forall x y, 0 <= x < 128 -> 0 <= y < 128 -> sheet_px m' x y = sheet_px m x y) ->
  forall j, 0 <= j < 0x2000 -> mget m' j = mget m j.
Proof.
  intros B B' H j Hj. apply nibs_byte; try now apply mget_byte.
  - specialize (H (2 * (j mod 64)) (j / 64) ltac:(lia) ltac:(lia)). unfold sheet_px in H.
    replace (j / 64 * 64 + 2 * (j mod 64) / 2) with j in H by lia.
    replace ((2 * (j mod 64)) mod 2) with 0 in H by lia. exact H.
  - specialize (H (2 * (j mod 64) + 1) (j / 64) ltac:(lia) ltac:(lia)). unfold sheet_px in H.
    replace (j / 64 * 64 + (2 * (j mod 64) + 1) / 2) with j in H by lia.
    replace ((2 * (j mod 64) + 1) mod 2) with 1 in H by lia. exact H.
Qed.

Lemma default_rom_ok : exists m0, mem_create_rom = Ok m0 /\ bytes_ok m0 /\ zlen m0 = 0x4300.
Proof.
  assert (H : match mem_create_rom with Ok m => forallb is_byte m && (zlen m =? 0x4300) | _ => false end = true)
    by (vm_compute; reflexivity).
  destruct mem_create_rom as [m|]; [|discriminate]. exists m. split; [reflexivity|].
  apply andb_prop in H. destruct H as [H1 H2]. split; [|lia].
  apply Forall_forall. intros x Hx. rewrite forallb_forall in H1. specialize (H1 x Hx). unfold is_byte in H1. lia.
Qed.

Lemma z128_in v : In v (map Z.of_nat (seq 0 128)) -> 0 <= v < 128.
Proof. intros H. apply in_map_iff in H. destruct H as (n & <- & Hn). apply in_seq in Hn. lia. Qed.
Lemma z128_nth {A} (f : Z -> A) d i : 0 <= i < 128 -> nth (Z.to_nat i) (map f (map Z.of_nat (seq 0 128))) d = f i.
Proof.
  intros H. rewrite nth_indep with (d' := f (Z.of_nat 0)) by (rewrite !map_length, seq_length; lia).
  rewrite map_nth, map_nth, seq_nth by lia. f_equal. lia.
Qed.

Theorem spritesheet_roundtrip c : bytes_ok (c_rom c) -> zlen (c_rom c) = 0x4300 ->
  exists img m' m0, write_cart_spritesheet c = Ok img /\ read_cart_spritesheet img = Ok m' /\ mem_create_rom = Ok m0 /\
    zlen m' = 0x4300 /\ get_block m' 0 0x2000 = get_block (c_rom c) 0 0x2000 /\
    get_block m' 0x2000 0x2300 = get_block m0 0x2000 0x2300.
Proof.
  intros B L. set (m := c_rom c) in *.
  set (sheet := map (fun y => map (fun x => sheet_px m x y) (map Z.of_nat (seq 0 128))) (map Z.of_nat (seq 0 128))).
  assert (E1 : map_res (fun y => map_res (fun x => get4 m (mem_sprite_addr x y)) (map Z.of_nat (seq 0 128)))
             (map Z.of_nat (seq 0 128)) = Ok sheet).
  { apply map_res_ok. intros y Hy. apply map_res_ok. intros x Hx. apply z128_in in Hx, Hy. now apply sheet_px_ok. }
  destruct (screenshot_roundtrip false sheet) as (img & E2 & E3).
  { apply Forall_forall. intros r Hr. apply in_map_iff in Hr. destruct Hr as (y & <- & _).
    apply Forall_forall. intros v Hv. apply in_map_iff in Hv. destruct Hv as (x & <- & _).
    pose proof (sheet_px_range m x y B). lia. }
  destruct default_rom_ok as (m0 & M & B0 & L0).
  destruct (put_sheet_spec sheet 0 m0 B0 L0) as (m' & E4 & B' & L' & F & S).
  { lia. } { unfold sheet, zlen. rewrite !map_length, seq_length. lia. }
  { apply Forall_forall. intros r Hr. apply in_map_iff in Hr. destruct Hr as (y & <- & _). now rewrite !map_length, seq_length. }
  exists img, m', m0. split; [unfold write_cart_spritesheet; fold m; rewrite E1; exact E2|].
  split; [unfold read_cart_spritesheet; rewrite M, E3; exact E4|]. split; [assumption|]. split; [assumption|].
  assert (X : forall j, 0 <= j < 0x2000 -> mget m' j = mget m j).
  { apply sheet_bytes; auto. intros x y Hx Hy. rewrite S by assumption.
    replace (zlen sheet) with 128 by (unfold sheet, zlen; rewrite !map_length, seq_length; reflexivity).
    rewrite (range_true y 128) by assumption.
    rewrite Z.sub_0_r. unfold sheet. rewrite z128_nth by assumption. rewrite z128_nth by assumption.
    apply Z.mod_small, sheet_px_range. assumption. }
  clearbody sheet. clear E1 E2 E3 E4 M.
  unfold get_block, slice, zlen in *. split.
  - apply (list_ext 0); [rewrite !firstn_length, !skipn_length; lia|].
    intros k. rewrite firstn_length, skipn_length. intros Hk.
    rewrite !nth_firstn, !nth_skipn by lia. specialize (X (Z.of_nat k) ltac:(lia)). unfold mget in X.
    now rewrite Nat2Z.id in X.
  - apply (list_ext 0); [rewrite !firstn_length, !skipn_length; lia|].
    intros k. rewrite firstn_length, skipn_length. intros Hk.
    rewrite !nth_firstn, !nth_skipn by lia.
    specialize (F (Z.of_nat (Z.to_nat 0x2000 + k)) ltac:(lia)). unfold mget in F. now rewrite Nat2Z.id in F.
Qed.

(** *** Cart image *)
Lemma rgb6_close p q : px_close p q -> rgb6 p = rgb6 q.
Proof.
  destruct p as [[[r g] b] a], q as [[[r2 g2] b2] a2]. cbn. rewrite !land_n3. intros [[A1 A2] [A3 A4]].
  now rewrite A1, A2, A3.
Qed.
Lemma colour_close p q : px_close p q -> px_colour p = px_colour q.
Proof. intros H. unfold px_colour. now rewrite (rgb6_close _ _ H). Qed.

Definition palette_bytes : bool := forallb (fun p => let '(r, g, b, a) := p in is_byte r && is_byte g && is_byte b && is_byte a) k_palette.
Lemma cell_px_bytes i : 0 <= i < 32 -> px_ok (cell_pxf true i).
Proof.
  intros H. assert (S : forallb (fun i => let '(r, g, b, a) := cell_pxf true i in is_byte r && is_byte g && is_byte b && is_byte a)
    (zrange 32) = true) by (vm_compute; reflexivity).
  pose proof (range_sweep 32 _ S i ltac:(lia)) as K. cbn beta in K. unfold px_ok.
  destruct (cell_pxf true i) as [[[r g] b] a]. unfold is_byte in K. lia.
Qed.

Lemma label_at_range l x y : label_ok 32 l -> 0 <= x < 128 -> 0 <= y < 128 -> 0 <= label_at l x y < 32.
Proof.
  intros [H1 H2] Hx Hy. unfold label_at. rewrite Forall_forall in H2.
  destruct (H2 (nth (Z.to_nat y) l []) ltac:(apply nth_In; lia)) as [A B]. rewrite Forall_forall in B.
  apply B. apply nth_In. lia.
Qed.

Definition in_label (i : Z) : bool :=
  (0 <=? i mod k_image_w - 16) && (i mod k_image_w - 16 <? 128) && (0 <=? i / k_image_w - 24) && (i / k_image_w - 24 <? 128).
Definition drawn (l : list (list Z)) (i : Z) (p : px) : px :=
  if in_label i then
    let v := label_at l (i mod k_image_w - 16) (i / k_image_w - 24) in if v =? 0 then p else cell_pxf true v
  else p.
Lemma draw_label_px_ok l i p : label_ok 32 l -> draw_label_px l i p = Ok (drawn l i p).
Proof.
  intros H. unfold draw_label_px, drawn, in_label.
  destruct ((0 <=? i mod k_image_w - 16) && (i mod k_image_w - 16 <? 128) && (0 <=? i / k_image_w - 24) && (i / k_image_w - 24 <? 128)) eqn:E; [|reflexivity].
  destruct (cell_pxf_ok true (label_at l (i mod k_image_w - 16) (i / k_image_w - 24))) as [-> _]; [apply label_at_range; auto; lia|].
  cbn [bind]. reflexivity.
Qed.
Lemma drawn_ok l i p : label_ok 32 l -> px_ok p -> px_ok (drawn l i p).
Proof.
  intros H Hp. unfold drawn, in_label.
  destruct ((0 <=? i mod k_image_w - 16) && (i mod k_image_w - 16 <? 128) && (0 <=? i / k_image_w - 24) && (i / k_image_w - 24 <? 128)) eqn:E; [|assumption].
  cbn zeta. destruct (_ =? 0); [assumption|]. apply cell_px_bytes, label_at_range; auto; lia.
Qed.

Lemma draw_label_spec l : label_ok 32 l -> forall pixels i, 0 <= i -> Forall px_ok pixels ->
  exists img, draw_label l i pixels = Ok img /\ length img = length pixels /\ Forall px_ok img /\
    forall k d, (k < length pixels)%nat -> nth k img d = drawn l (i + Z.of_nat k) (nth k pixels d).
Proof.
  intros Hl. induction pixels as [|p ps IH]; intros i Hi HF.
  - exists []. repeat split; auto. intros k d Hk. cbn in Hk. lia.
  - inversion HF as [|? ? Hp HF']; subst. destruct (IH (i + 1) ltac:(lia) HF') as (img & E & L & F & N).
    exists (drawn l i p :: img). cbn [draw_label]. rewrite draw_label_px_ok, E by assumption. cbn [bind length].
    split; [reflexivity|]. split; [lia|]. split; [constructor; auto; now apply drawn_ok|].
    intros [|k] d Hk; cbn [nth].
    + now rewrite Z.add_0_r.
    + rewrite N by lia. f_equal. lia.
Qed.

Lemma Forall2_nth {A B} (R : A -> B -> Prop) l l' k d d' : Forall2 R l l' -> (k < length l)%nat -> R (nth k l d) (nth k l' d').
Proof.
  intros H. revert k. induction H; intros [|k] Hk; cbn in *; try lia; auto. apply IHForall2. lia.
Qed.
Lemma Forall2_len {A B} (R : A -> B -> Prop) l l' : Forall2 R l l' -> length l = length l'.
Proof. induction 1; cbn; auto. Qed.

Lemma label_pos x y : 0 <= x < 128 -> 0 <= y < 128 ->
  Z.of_nat (Z.to_nat (x + 16 + (y + 24) * k_image_w)) mod k_image_w - 16 = x /\
  Z.of_nat (Z.to_nat (x + 16 + (y + 24) * k_image_w)) / k_image_w - 24 = y.
Proof. intros. unfold k_image_w. rewrite Z2Nat.id by lia. lia. Qed.

Theorem cart_image_roundtrip sha keep o template c out : digest_fun sha -> cart_ok c ->
  o_fail o = true -> o_be o = true ->
  parse_ordered o (c_code c) -> old_fits o (c_code c) -> not_marker o (c_code c) ->
  Forall px_ok template -> zlen template = k_image_w * k_image_h ->
  (forall l, c_label c = Some l -> label_ok 32 l) ->
  write_cart_to_rom sha true false o c = Ok out ->
  exists img c', write_cart_to_image sha false o template c = Ok img /\ Forall px_ok img /\
    read_cart_from_image sha keep img = Ok c' /\ same_cart c' c /\
    exists l', c_label c' = Some l' /\
    forall x y, 0 <= x < 128 -> 0 <= y < 128 ->
      let under := px_colour (nth (Z.to_nat (x + 16 + (y + 24) * k_image_w)) template (0,0,0,0)) in
      label_at l' x y = match c_label c with
                        | Some l => if label_at l x y =? 0 then under else label_at l x y
                        | None => under
                        end.
Proof.
  intros Hs Hc Hf Hb P1 P2 P3 Ht Hl Hlab E.
  destruct (rom_roundtrip sha keep false o c out Hs Hc Hf Hb P1 P2 P3 E) as (L & B & c' & R & S).
  unfold write_cart_to_image. rewrite E. cbn [bind].
  assert (D : exists image, match c_label c with Some l => draw_label l 0 template | None => Ok template end = Ok image /\
    length image = length template /\ Forall px_ok image /\
    forall k d, (k < length template)%nat -> nth k image d =
      match c_label c with Some l => drawn l (Z.of_nat k) (nth k template d) | None => nth k template d end).
  { destruct (c_label c) as [l|]; [|exists template; repeat split; auto].
    destruct (draw_label_spec l (Hlab l eq_refl) template 0 ltac:(lia) Ht) as (img & E1 & E2 & E3 & E4). exists img. auto. }
  destruct D as (image & ED & LD & FD & ND). rewrite ED. cbn [bind].
  destruct (image_roundtrip out image B FD) as (img & EI & IB & IC & IO).
  { unfold zlen, k_image_w, k_image_h in *. lia. }
  exists img, (with_label c' (Some (image_label img))). split; [exact EI|]. split; [assumption|].
  pose proof (Forall2_len _ _ _ IC) as LI. split; [|split; [|]].
  - unfold read_cart_from_image.
    assert (LZ : zlen img = k_image_w * k_image_h) by (unfold zlen in *; lia).
    rewrite LZ, Z.eqb_refl. cbn [bind]. rewrite IB, R. reflexivity.
  - destruct S as (S1 & S2 & S3 & S4 & S5). unfold same_cart. cbn. auto.
  - exists (image_label img). split; [reflexivity|]. intros x y Hx Hy. cbn zeta.
    unfold label_at at 1. unfold image_label. rewrite z128_nth by assumption. rewrite z128_nth by assumption.
    set (k := Z.to_nat (x + 16 + (y + 24) * k_image_w)).
    assert (Hk : (k < length template)%nat) by (unfold k, zlen, k_image_w, k_image_h in *; lia).
    rewrite (colour_close _ (nth k image (0,0,0,0))) by (apply (Forall2_nth px_close); [assumption|lia]).
    rewrite ND by assumption. fold k. destruct (c_label c) as [l|]; [|reflexivity].
    unfold drawn, in_label.
    assert (M : Z.of_nat k mod k_image_w - 16 = x) by (unfold k; apply label_pos; assumption).
    assert (Q : Z.of_nat k / k_image_w - 24 = y) by (unfold k; apply label_pos; assumption).
    rewrite M, Q. rewrite box_true by assumption. cbn zeta.
    pose proof (label_at_range l x y (Hlab l eq_refl) Hx Hy) as HR.
    destruct (label_at l x y =? 0); [reflexivity|]. apply cell_pxf_ok. assumption.
Qed.
