(** Lemmas on cart memory. *)
From Verif Require Import M_Base M_Memory S_Memory L_Util L_BitIO.
Open Scope Z_scope.
Ltac Zify.zify_post_hook ::= Z.div_mod_to_equations.

Definition mget (m : list Z) (i : Z) : Z := nth (Z.to_nat i) m 0.
Definition mset (m : list Z) (i v : Z) : list Z := list_upd m (Z.to_nat i) v.

Lemma py_index_ok n i : 0 <= i < n -> py_index n i = Some (Z.to_nat i).
Proof.
  intros H. unfold py_index. destruct (Z.ltb_spec i 0); [lia|].
  destruct ((0 <=? i) && (i <? n)) eqn:E; [reflexivity|lia].
Qed.
Lemma get8_ok m i : 0 <= i < zlen m -> get8 m i = Ok (mget m i).
Proof. intros H. unfold get8. now rewrite py_index_ok. Qed.
Lemma set8_ok m i v : 0 <= i < zlen m -> 0 <= v < 256 -> set8 m i v = Ok (mset m i v).
Proof.
  intros H Hv. unfold set8, is_byte. rewrite py_index_ok by assumption.
  destruct ((0 <=? v) && (v <? 256)) eqn:E; [reflexivity|lia].
Qed.
Lemma mset_len m i v : zlen (mset m i v) = zlen m.
Proof. unfold zlen, mset. now rewrite list_upd_length. Qed.
Lemma mset_bytes m i v : bytes_ok m -> 0 <= v < 256 -> bytes_ok (mset m i v).
Proof. apply list_upd_bytes. Qed.
Lemma mget_mset m i j v : 0 <= i < zlen m -> 0 <= j -> mget (mset m i v) j = if j =? i then v else mget m j.
Proof.
  intros Hi Hj. unfold mget, mset. rewrite list_upd_nth by (unfold zlen in Hi; lia).
  destruct (Nat.eqb_spec (Z.to_nat j) (Z.to_nat i)), (Z.eqb_spec j i); auto; lia.
Qed.
Lemma mget_byte m i : bytes_ok m -> 0 <= mget m i < 256.
Proof. apply bytes_nth. Qed.

(** *** Bit arithmetic *)
Lemma land_ff' v : Z.land v 0xff = v mod 256.
Proof. change 0xff with (Z.ones 8). rewrite Z.land_ones by lia. reflexivity. Qed.
Lemma land_ffff' v : Z.land v 0xffff = v mod 65536.
Proof. change 0xffff with (Z.ones 16). rewrite Z.land_ones by lia. reflexivity. Qed.
Lemma land_f v : Z.land v 0xf = v mod 16.
Proof. change 0xf with (Z.ones 4). rewrite Z.land_ones by lia. reflexivity. Qed.
Lemma shr8 v : Z.shiftr v 8 = v / 256. Proof. now rewrite Z.shiftr_div_pow2 by lia. Qed.
Lemma shr16 v : Z.shiftr v 16 = v / 65536. Proof. now rewrite Z.shiftr_div_pow2 by lia. Qed.
Lemma lor_add a b k : 0 <= k -> 0 <= a < 2 ^ k -> 0 <= b -> Z.lor a (Z.shiftl b k) = a + b * 2 ^ k.
Proof. exact (lor_shiftl_add a b k). Qed.

Lemma get16_ok m i : bytes_ok m -> 0 <= i -> i + 1 < zlen m -> get16 m i = Ok (mget m i + mget m (i + 1) * 256).
Proof.
  intros Hm H0 H1. unfold get16. rewrite !get8_ok by lia. cbn [bind].
  rewrite lor_add; [reflexivity|lia|apply mget_byte; assumption|apply mget_byte; assumption].
Qed.
Lemma set16_ok m i v : 0 <= i -> i + 1 < zlen m ->
  set16 m i v = Ok (mset (mset m i (v mod 256)) (i + 1) ((v / 256) mod 256)).
Proof.
  intros H0 H1. unfold set16. rewrite !land_ff', shr8. rewrite set8_ok by lia. cbn [bind].
  rewrite set8_ok; [reflexivity|rewrite mset_len; lia|lia].
Qed.

Definition nib_get (a h : Z) : Z := if h =? 0 then a mod 16 else a / 16.
Definition nib_set (a h v : Z) : Z := if h =? 0 then a / 16 * 16 + v mod 16 else (v mod 16) * 16 + a mod 16.

Lemma get4_ok m i h : bytes_ok m -> 0 <= i < zlen m -> get4 m (i, h) = Ok (nib_get (mget m i) h).
Proof.
  intros Hm Hi. unfold get4, get8_bits. cbn [fst snd]. rewrite get8_ok by assumption. cbn [bind].
  rewrite land_f. unfold nib_get. pose proof (mget_byte m i Hm). destruct (h =? 0).
  - now rewrite Z.shiftr_0_r.
  - rewrite Z.shiftr_div_pow2 by lia. change (2 ^ 4) with 16. f_equal. lia.
Qed.

Definition nib_check (a : Z) : bool := forallb (fun v =>
  (Z.lor (Z.land a (Z.lnot (Z.shiftl 15 0))) (Z.shiftl v 0) =? a / 16 * 16 + v) &&
  (Z.lor (Z.land a (Z.lnot (Z.shiftl 15 4))) (Z.shiftl v 4) =? v * 16 + a mod 16)) (zrange 16).
Lemma nib_arith a v : 0 <= a < 256 -> 0 <= v < 16 ->
  Z.lor (Z.land a (Z.lnot (Z.shiftl 15 0))) (Z.shiftl v 0) = a / 16 * 16 + v /\
  Z.lor (Z.land a (Z.lnot (Z.shiftl 15 4))) (Z.shiftl v 4) = v * 16 + a mod 16.
Proof.
  intros Ha Hv. assert (S : forallb nib_check all_bytes = true) by (vm_compute; reflexivity).
  pose proof (byte_sweep _ S a Ha) as H. unfold nib_check in H.
  pose proof (range_sweep 16 _ H v ltac:(lia)) as K. cbn beta in K. lia.
Qed.

Lemma nib_set_byte a h v : 0 <= a < 256 -> 0 <= nib_set a h v < 256.
Proof. intros H. unfold nib_set. destruct (h =? 0); lia. Qed.

Lemma set4_ok m i h v : bytes_ok m -> 0 <= i < zlen m ->
  set4 m (i, h) v = Ok (mset m i (nib_set (mget m i) h v)).
Proof.
  intros Hm Hi. unfold set4, set8_bits. cbn [fst snd]. rewrite get8_ok by assumption. cbn [bind].
  rewrite land_f. pose proof (mget_byte m i Hm) as Ha.
  destruct (nib_arith (mget m i) (v mod 16) Ha ltac:(lia)) as [E1 E2].
  pose proof (nib_set_byte (mget m i) h v Ha) as Hb. unfold nib_set in *.
  destruct (h =? 0); [rewrite E1|rewrite E2]; apply set8_ok; assumption.
Qed.

Lemma nib_get_set a h h' v : 0 <= a < 256 -> (h = 0 \/ h = 1) -> (h' = 0 \/ h' = 1) ->
  nib_get (nib_set a h v) h' = if h' =? h then v mod 16 else nib_get a h'.
Proof. intros Ha [->| ->] [->| ->]; cbn; lia. Qed.

(** *** Accessor round trips *)
Lemma acc8 m i v : 0 <= i < zlen m -> 0 <= v < 256 -> bytes_ok m ->
  exists m', set8 m i v = Ok m' /\ get8 m' i = Ok v /\ zlen m' = zlen m /\ bytes_ok m' /\
    forall j, 0 <= j < zlen m -> j <> i -> get8 m' j = get8 m j.
Proof.
  intros Hi Hv Hm. exists (mset m i v). split; [now apply set8_ok|].
  rewrite get8_ok by (rewrite mset_len; assumption). rewrite mget_mset by lia. rewrite Z.eqb_refl.
  split; [reflexivity|]. split; [apply mset_len|]. split; [now apply mset_bytes|]. intros j Hj Hn.
  rewrite !get8_ok by (rewrite ?mset_len; assumption). rewrite mget_mset by lia.
  destruct (Z.eqb_spec j i); [contradiction|reflexivity].
Qed.

Lemma acc16 m i v : 0 <= i -> i + 1 < zlen m -> bytes_ok m ->
  exists m', set16 m i v = Ok m' /\ get16 m' i = Ok (v mod 65536) /\ zlen m' = zlen m /\ bytes_ok m' /\
    forall j, 0 <= j < zlen m -> j <> i -> j <> i + 1 -> get8 m' j = get8 m j.
Proof.
  intros H0 H1 Hm. exists (mset (mset m i (v mod 256)) (i + 1) ((v / 256) mod 256)).
  split; [now apply set16_ok|].
  assert (HL : zlen (mset (mset m i (v mod 256)) (i + 1) ((v / 256) mod 256)) = zlen m) by now rewrite !mset_len.
  assert (HB : bytes_ok (mset (mset m i (v mod 256)) (i + 1) ((v / 256) mod 256))).
  { apply mset_bytes; [apply mset_bytes; [assumption|]|]; lia. }
  split; [|split; [exact HL|split; [exact HB|]]].
  - rewrite get16_ok by (auto; lia). rewrite !mget_mset by (rewrite ?mset_len; lia).
    rewrite Z.eqb_refl. destruct (Z.eqb_spec i (i + 1)); [lia|].
    rewrite Z.eqb_refl. f_equal. lia.
  - intros j Hj N1 N2. rewrite !get8_ok by (rewrite ?HL; assumption).
    rewrite !mget_mset by (rewrite ?mset_len; lia).
    destruct (Z.eqb_spec j (i + 1)); [contradiction|]. destruct (Z.eqb_spec j i); [contradiction|reflexivity].
Qed.

Lemma acc32 m i v : 0 <= i -> i + 3 < zlen m -> bytes_ok m ->
  exists m', set32 m i v = Ok m' /\ get32 m' i = Ok (v mod 4294967296) /\ zlen m' = zlen m /\ bytes_ok m' /\
    forall j, 0 <= j < zlen m -> ~ (i <= j <= i + 3) -> get8 m' j = get8 m j.
Proof.
  intros H0 H1 Hm. unfold set32. rewrite land_ffff', shr16, land_ffff'.
  destruct (acc16 m i (v mod 65536) ltac:(lia) ltac:(lia) Hm) as (m1 & E1 & G1 & L1 & B1 & U1).
  destruct (acc16 m1 (i + 2) ((v / 65536) mod 65536) ltac:(lia) ltac:(lia) B1) as (m2 & E2 & G2 & L2 & B2 & U2).
  rewrite E1. cbn [bind]. exists m2. split; [exact E2|]. split; [|split; [lia|split; [exact B2|]]].
  - unfold get32. rewrite G2.
    assert (E : get16 m2 i = get16 m1 i).
    { unfold get16. rewrite !U2 by lia. reflexivity. }
    rewrite E, G1. cbn [bind]. rewrite lor_add by lia. f_equal. change (2 ^ 16) with 65536. lia.
  - intros j Hj Hn. rewrite U2, U1 by lia. reflexivity.
Qed.

Lemma acc4 m i h v : 0 <= i < zlen m -> (h = 0 \/ h = 1) -> bytes_ok m ->
  exists m', set4 m (i, h) v = Ok m' /\ get4 m' (i, h) = Ok (v mod 16) /\ zlen m' = zlen m /\ bytes_ok m' /\
    forall j h', 0 <= j < zlen m -> (h' = 0 \/ h' = 1) -> (j, h') <> (i, h) -> get4 m' (j, h') = get4 m (j, h').
Proof.
  intros Hi Hh Hm. exists (mset m i (nib_set (mget m i) h v)). split; [now apply set4_ok|].
  pose proof (mget_byte m i Hm) as Hb.
  assert (HB : bytes_ok (mset m i (nib_set (mget m i) h v))) by (apply mset_bytes; [assumption|now apply nib_set_byte]).
  split; [|split; [apply mset_len|split; [exact HB|]]].
  - rewrite get4_ok by (rewrite ?mset_len; assumption). rewrite mget_mset by lia. rewrite Z.eqb_refl.
    rewrite nib_get_set by assumption. now rewrite Z.eqb_refl.
  - intros j h' Hj Hh' Hn. rewrite !get4_ok by (rewrite ?mset_len; assumption). rewrite mget_mset by lia.
    destruct (Z.eqb_spec j i) as [->|]; [|reflexivity]. rewrite nib_get_set by assumption.
    destruct (Z.eqb_spec h' h) as [->|]; [congruence|reflexivity].
Qed.

Lemma set_block_spec m start src : 0 <= start -> start + zlen src <= zlen m ->
  zlen (set_block m start src) = zlen m /\
  forall j, 0 <= j < zlen m -> mget (set_block m start src) j =
    if (start <=? j) && (j <? start + zlen src) then mget src (j - start) else mget m j.
Proof.
  intros H0 H1. unfold set_block, zlen in *. split.
  - rewrite !app_length, firstn_length, skipn_length. lia.
  - intros j Hj. unfold mget. destruct ((start <=? j) && (j <? start + Z.of_nat (length src))) eqn:E.
    + rewrite app_nth2 by (rewrite firstn_length; lia). rewrite firstn_length.
      rewrite app_nth1 by lia. f_equal. lia.
    + destruct (Z.lt_ge_cases j start).
      * rewrite app_nth1 by (rewrite firstn_length; lia). apply nth_firstn. lia.
      * rewrite app_nth2 by (rewrite firstn_length; lia). rewrite firstn_length.
        rewrite app_nth2 by lia. rewrite nth_skipn. f_equal. lia.
Qed.

(** *** Cells *)
(** First byte, number of bytes. *)
Definition cell_addr (c : cell) : Z :=
  match c with
  | Sprite x y => y * 64 + x / 2
  | MapTile x y => if 32 <=? y then 0x1000 + (y - 32) * 128 + x else 0x2000 + y * 128 + x
  | Flag t y => 0x3000 + y * 128 + t
  | Music p ch => 0x3100 + p * 4 + ch
  | Note s n => 0x3200 + s * 68 + n * 2
  | SfxInfo s i => 0x3200 + s * 68 + 64 + i
  end.

Lemma sprite_addr_eq x y : 0 <= x -> mem_sprite_addr x y = (y * 64 + x / 2, x mod 2).
Proof.
  intros Hx. unfold mem_sprite_addr, k_mem_sprites_addr. rewrite Z.shiftr_div_pow2 by lia.
  change (Z.land x 1) with (Z.land x (Z.ones 1)). rewrite Z.land_ones by lia. reflexivity.
Qed.
Lemma map_addr_eq x y : mem_map_addr x y = cell_addr (MapTile x y).
Proof. unfold mem_map_addr, k_mem_map_addr, cell_addr. change 0x20 with 32. destruct (32 <=? y); lia. Qed.

Definition k_rom := 0x4300.

Lemma cell_addr_range c : cell_ok c -> 0 <= cell_addr c /\
  cell_addr c + (match c with Note _ _ => 1 | _ => 0 end) < 0x4300.
Proof.
  destruct c; cbn [cell_ok cell_addr]; intros H; try lia.
  destruct (Z.leb_spec 32 y); lia.
Qed.

Lemma write_read_cell m c v : bytes_ok m -> zlen m = 0x4300 -> cell_ok c -> 0 <= v < cell_size c ->
  exists m', write_cell m c v = Ok m' /\ read_cell m' c = Ok v /\ bytes_ok m' /\ zlen m' = 0x4300.
Proof.
  intros Hm HL Hc Hv. pose proof (cell_addr_range c Hc) as HR.
  assert (W8 : forall i, 0 <= i < 0x4300 -> 0 <= v < 256 ->
    exists m', set8 m i v = Ok m' /\ get8 m' i = Ok v /\ bytes_ok m' /\ zlen m' = 0x4300).
  { intros i Hi Hv'. destruct (acc8 m i v ltac:(lia) Hv' Hm) as (m' & A & B & D & E & _). exists m'. rewrite D. auto. }
  destruct c as [x y|x y|t y|p ch|s n|s i]; cbn [write_cell read_cell cell_size cell_ok cell_addr] in *.
  - rewrite sprite_addr_eq by lia.
    destruct (acc4 m (y * 64 + x / 2) (x mod 2) v ltac:(lia) ltac:(lia) Hm) as (m' & A & B & D & E & _).
    exists m'. rewrite D. repeat split; auto. rewrite B. f_equal. lia.
  - rewrite map_addr_eq. cbn [cell_addr]. apply W8; lia.
  - unfold mem_flag_addr, k_mem_flag_addr. apply W8; lia.
  - unfold mem_music_addr, k_mem_music_addr. apply W8; lia.
  - unfold mem_sfx_addr, k_mem_sfx_addr.
    destruct (acc16 m (0x3200 + s * 0x44 + n * 2) v ltac:(lia) ltac:(lia) Hm) as (m' & A & B & D & E & _).
    exists m'. rewrite D. repeat split; auto. rewrite B. f_equal. lia.
  - unfold mem_sfx_info_addr, mem_sfx_addr, k_mem_sfx_addr. apply W8; lia.
Qed.

(** A cell whose bytes are unchanged reads the same. *)
Lemma read_cell_frame m m' c : bytes_ok m -> bytes_ok m' -> zlen m = 0x4300 -> zlen m' = 0x4300 -> cell_ok c ->
  mget m' (cell_addr c) = mget m (cell_addr c) ->
  (forall s n, c = Note s n -> mget m' (cell_addr c + 1) = mget m (cell_addr c + 1)) ->
  read_cell m' c = read_cell m c.
Proof.
  intros B B' L L' Hc E1 E2. pose proof (cell_addr_range c Hc) as HR.
  destruct c as [x y|x y|t y|p ch|s n|s i]; cbn [read_cell cell_ok] in *.
  - rewrite sprite_addr_eq by lia. cbn [cell_addr] in *. rewrite !get4_ok by (auto; lia). now rewrite E1.
  - rewrite map_addr_eq, !get8_ok by lia. now rewrite E1.
  - cbn [cell_addr] in *. unfold mem_flag_addr, k_mem_flag_addr. rewrite !get8_ok by lia. f_equal.
    etransitivity; [|etransitivity; [exact E1|]]; f_equal; lia.
  - cbn [cell_addr] in *. unfold mem_music_addr, k_mem_music_addr. rewrite !get8_ok by lia. f_equal.
    etransitivity; [|etransitivity; [exact E1|]]; f_equal; lia.
  - specialize (E2 s n eq_refl). cbn [cell_addr] in *. unfold mem_sfx_addr, k_mem_sfx_addr.
    rewrite !get16_ok by (auto; lia).
    replace (0x3200 + s * 0x44 + n * 0x2) with (0x3200 + s * 68 + n * 2) by lia. now rewrite E1, E2.
  - cbn [cell_addr] in *. unfold mem_sfx_info_addr, mem_sfx_addr, k_mem_sfx_addr. rewrite !get8_ok by lia. f_equal.
    etransitivity; [|etransitivity; [exact E1|]]; f_equal; lia.
Qed.

(** What a write leaves alone: every byte outside the cell's own. *)
Lemma write_cell_frame m c v m' : bytes_ok m -> zlen m = 0x4300 -> cell_ok c -> 0 <= v < cell_size c ->
  write_cell m c v = Ok m' ->
  forall j, 0 <= j < 0x4300 -> j <> cell_addr c -> (forall s n, c = Note s n -> j <> cell_addr c + 1) ->
  mget m' j = mget m j.
Proof.
  intros B L Hc Hv E j Hj N1 N2. pose proof (cell_addr_range c Hc) as HR.
  assert (W8 : forall i, set8 m i v = Ok m' -> 0 <= i < 0x4300 -> 0 <= v < 256 -> j <> i -> mget m' j = mget m j).
  { intros i E8 Hi Hv' N. rewrite set8_ok in E8 by lia. apply Ok_inj in E8; subst m'. rewrite mget_mset by lia.
    destruct (Z.eqb_spec j i); [contradiction|reflexivity]. }
  destruct c as [x y|x y|t y|p ch|s n|s i]; cbn [write_cell cell_size cell_ok] in *.
  - rewrite sprite_addr_eq in E by lia. cbn [cell_addr] in *. rewrite set4_ok in E by (auto; lia).
    apply Ok_inj in E; subst m'. rewrite mget_mset by lia. destruct (Z.eqb_spec j (y * 64 + x / 2)); [contradiction|reflexivity].
  - rewrite map_addr_eq in E. apply W8 in E; auto; lia.
  - cbn [cell_addr] in *. unfold mem_flag_addr, k_mem_flag_addr in E. apply W8 in E; auto; lia.
  - cbn [cell_addr] in *. unfold mem_music_addr, k_mem_music_addr in E. apply W8 in E; auto; lia.
  - specialize (N2 s n eq_refl). cbn [cell_addr] in *. unfold mem_sfx_addr, k_mem_sfx_addr in E.
    rewrite set16_ok in E by lia. apply Ok_inj in E; subst m'. rewrite !mget_mset by (rewrite ?mset_len; lia).
    destruct (Z.eqb_spec j (0x3200 + s * 0x44 + n * 0x2 + 1)); [lia|].
    destruct (Z.eqb_spec j (0x3200 + s * 0x44 + n * 0x2)); [lia|reflexivity].
  - cbn [cell_addr] in *. unfold mem_sfx_info_addr, mem_sfx_addr, k_mem_sfx_addr in E. apply W8 in E; auto; lia.
Qed.

Lemma cells_disjoint m a v m' b : bytes_ok m -> zlen m = 0x4300 -> cell_ok a -> cell_ok b -> 0 <= v < cell_size a ->
  a <> b -> ~ shared_cells a b -> write_cell m a v = Ok m' -> read_cell m' b = read_cell m b.
Proof.
  intros Bm L Ha Hb Hv Hn Hs E.
  destruct (write_read_cell m a v Bm L Ha Hv) as (m2 & E2 & _ & B' & L'). rewrite E in E2. injection E2 as <-.
  pose proof (write_cell_frame m a v m' Bm L Ha Hv E) as F.
  assert (SP : (exists x y, a = Sprite x y) /\ (exists x y, b = Sprite x y) \/
     ~ ((exists x y, a = Sprite x y) /\ (exists x y, b = Sprite x y))).
  { destruct a; try (right; intros [(? & ? & ?) _]; discriminate).
    destruct b; try (right; intros [_ (? & ? & ?)]; discriminate). left; split; do 2 eexists; reflexivity. }
  destruct SP as [[(x & y & ->) (x' & y' & ->)]|NSP].
  - cbn [write_cell read_cell cell_ok] in *. rewrite sprite_addr_eq in E by lia. rewrite sprite_addr_eq by lia.
    destruct (acc4 m (y * 64 + x / 2) (x mod 2) v ltac:(lia) ltac:(lia) Bm) as (m2 & A & _ & _ & _ & U).
    rewrite E in A. injection A as <-. apply U; [lia|lia|].
    intros K. injection K as K1 K2. apply Hn. f_equal; lia.
  - pose proof (cell_addr_range b Hb) as HR. pose proof (cell_addr_range a Ha) as HRa.
    apply read_cell_frame; auto.
    + apply F; [destruct b; lia| |].
      * intros K. destruct a, b; cbn [cell_addr shared_cells cell_ok] in *;
        repeat match goal with H : context [32 <=? ?y] |- _ => destruct (Z.leb_spec 32 y) end;
        try lia; try (apply Hn; f_equal; lia); try (apply Hs; lia); try (apply NSP; eauto 6).
      * intros s n ->. intros K. destruct b; cbn [cell_addr cell_ok] in *;
        repeat match goal with H : context [32 <=? ?y] |- _ => destruct (Z.leb_spec 32 y) end; lia.
    + intros s n ->. apply F; [cbn [cell_addr] in *; lia| |].
      * intros K. destruct a; cbn [cell_addr cell_ok] in *;
        repeat match goal with H : context [32 <=? ?y] |- _ => destruct (Z.leb_spec 32 y) end; lia.
      * intros s' n' ->. cbn [cell_addr cell_ok] in *. intros K. apply Hn. f_equal; lia.
Qed.
