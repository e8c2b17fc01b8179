(** Lemmas on URL carts, clipboard carts and merging. *)
From Verif Require Import M_Base M_Memory M_Lz77 M_Compress M_Rom M_Text M_Url S_Rom S_Url
  L_Util L_OldFormat L_LzTop L_Memory L_Rom L_Image.
Open Scope Z_scope.
Ltac Zify.zify_post_hook ::= Z.div_mod_to_equations.
Local Opaque mem_create_rom.

(** *** base64 *)
Definition b64_check (v : Z) : bool :=
  match b64_map (b64c v) with Some w => w =? v | None => false end &&
  match b64_val (b64c v) with Ok w => w =? v | Err _ => false end &&
  negb (b64c v =? 61) && negb (b64c v =? 38) && negb (b64c v =? 63).
Lemma b64_all : forallb b64_check (zrange 64) = true.
Proof. vm_compute. reflexivity. Qed.
Lemma b64_one v : 0 <= v < 64 ->
  b64_map (b64c v) = Some v /\ b64_val (b64c v) = Ok v /\ b64c v <> 61 /\ b64c v <> 38 /\ b64c v <> 63.
Proof.
  intros H. pose proof (range_sweep 64 _ b64_all v ltac:(lia)) as K. unfold b64_check in K.
  destruct (b64_map (b64c v)) as [w|]; [|discriminate K].
  destruct (b64_val (b64c v)) as [w'|e]; [|rewrite andb_false_r in K; discriminate K].
  repeat apply andb_prop in K as [K ?]. repeat apply conj; try lia; f_equal; lia.
Qed.
Lemma b64c_ne v ch : 0 <= v < 64 -> ch = 61 \/ ch = 38 \/ ch = 63 -> (b64c v =? ch) = false.
Proof. intros H K. destruct (b64_one v H) as (_ & _ & A & B & C). lia. Qed.

Lemma b64_len d : zlen (b64_encode d) = (zlen d + 2) / 3 * 4.
Proof.
  assert (H : forall n d, (length d <= n)%nat -> zlen (b64_encode d) = (zlen d + 2) / 3 * 4).
  { induction n; intros [|a [|b [|c t]]] Hn; try reflexivity; cbn [length] in Hn; try lia.
    cbn [b64_encode]. rewrite !zlen_cons, IHn by lia. lia. }
  now apply (H (length d)).
Qed.
Lemma b64_roundtrip d : bytes_ok d -> b64_decode (b64_encode d) = Ok d.
Proof.
  assert (H : forall n d, (length d <= n)%nat -> bytes_ok d -> b64_decode (b64_encode d) = Ok d).
  { induction n; intros [|a [|b [|c t]]] Hn B; try reflexivity; cbn [length] in Hn; try lia;
      pose proof (Forall_inv B) as Ha; cbn beta in Ha; apply Forall_inv_tail in B.
    - cbn [b64_encode b64_decode].
      rewrite (proj1 (proj2 (b64_one (a / 4) ltac:(lia)))), (proj1 (proj2 (b64_one (a mod 4 * 16) ltac:(lia)))).
      cbn [bind]. rewrite !Z.eqb_refl. apply (f_equal (fun x => Ok [x])). lia.
    - pose proof (Forall_inv B) as Hb; cbn beta in Hb. cbn [b64_encode b64_decode].
      rewrite (proj1 (proj2 (b64_one (a / 4) ltac:(lia)))), (proj1 (proj2 (b64_one (a mod 4 * 16 + b / 16) ltac:(lia)))).
      cbn [bind]. rewrite Z.eqb_refl, b64c_ne by lia. rewrite (proj1 (proj2 (b64_one (b mod 16 * 4) ltac:(lia)))).
      cbn [bind]. apply (f_equal2 (fun x y => Ok [x; y])); lia.
    - pose proof (Forall_inv B) as Hb; cbn beta in Hb. apply Forall_inv_tail in B.
      pose proof (Forall_inv B) as Hc; cbn beta in Hc. apply Forall_inv_tail in B.
      cbn [b64_encode b64_decode].
      rewrite (proj1 (proj2 (b64_one (a / 4) ltac:(lia)))), (proj1 (proj2 (b64_one (a mod 4 * 16 + b / 16) ltac:(lia)))).
      cbn [bind]. rewrite b64c_ne by lia. rewrite (proj1 (proj2 (b64_one (b mod 16 * 4 + c / 64) ltac:(lia)))).
      rewrite (proj1 (proj2 (b64_one (c mod 64) ltac:(lia)))). cbn [bind]. rewrite IHn by (auto; lia). cbn [bind].
      f_equal. f_equal; [lia|f_equal; [lia|f_equal; lia]]. }
  now apply (H (length d)).
Qed.
Definition url_char (ch : Z) : Prop := ch <> 38 /\ ch <> 63.
Lemma b64_chars d : bytes_ok d -> Forall url_char (b64_encode d).
Proof.
  assert (H : forall n d, (length d <= n)%nat -> bytes_ok d -> Forall url_char (b64_encode d)).
  { assert (P : forall v, 0 <= v < 64 -> url_char (b64c v)) by (intros v Hv; apply (b64_one v Hv)).
    assert (Q : url_char 61) by (split; lia).
    induction n; intros [|a [|b [|c t]]] Hn B; cbn [length] in Hn; try lia; try (apply Forall_nil);
      pose proof (Forall_inv B) as Ha; cbn beta in Ha; apply Forall_inv_tail in B; cbn [b64_encode].
    - repeat apply Forall_cons; try apply Forall_nil; auto; apply P; lia.
    - pose proof (Forall_inv B) as Hb; cbn beta in Hb.
      repeat apply Forall_cons; try apply Forall_nil; auto; apply P; lia.
    - pose proof (Forall_inv B) as Hb; cbn beta in Hb. apply Forall_inv_tail in B.
      pose proof (Forall_inv B) as Hc; cbn beta in Hc. apply Forall_inv_tail in B.
      repeat apply Forall_cons; try (apply P; lia). apply IHn; [lia|assumption]. }
  now apply (H (length d)).
Qed.

(** *** Parameters *)
Lemma split_first_app ch a b : Forall (fun c => c <> ch) a -> split_first ch (a ++ ch :: b) = Some (a, b).
Proof.
  induction a as [|c a IH]; intros H; cbn [app split_first].
  - now rewrite Z.eqb_refl.
  - inversion_clear H. destruct (Z.eqb_spec c ch); [contradiction|]. now rewrite IH.
Qed.
Lemma split_all_app ch a b cur : Forall (fun c => c <> ch) a ->
  split_all ch cur (a ++ ch :: b) = (rev cur ++ a) :: split_all ch [] b.
Proof.
  revert cur. induction a as [|c a IH]; intros cur H; cbn [app split_all].
  - rewrite Z.eqb_refl. now rewrite app_nil_r.
  - inversion_clear H. destruct (Z.eqb_spec c ch); [contradiction|]. rewrite IH by assumption. cbn [rev].
    now rewrite <- app_assoc.
Qed.
Lemma split_all_none ch a cur : Forall (fun c => c <> ch) a -> split_all ch cur a = [rev cur ++ a].
Proof.
  revert cur. induction a as [|c a IH]; intros cur H; cbn [split_all].
  - now rewrite app_nil_r.
  - inversion_clear H. destruct (Z.eqb_spec c ch); [contradiction|]. rewrite IH by assumption. cbn [rev].
    now rewrite <- app_assoc.
Qed.
Lemma url_params_ok code gfx : Forall url_char code -> Forall url_char gfx ->
  url_params [] [] (split_all 38 [] ([99; 61] ++ code ++ (match gfx with [] => [] | _ => [38; 103; 61] ++ gfx end)))
  = Ok (code, gfx).
Proof.
  intros Hc Hg. assert (Hc' : Forall (fun c => c <> 38) ([99; 61] ++ code)).
  { repeat apply Forall_cons; try lia. eapply Forall_impl; [|exact Hc]. intros c [A _]. exact A. }
  assert (Hg' : Forall (fun c => c <> 38) ([103; 61] ++ gfx)).
  { repeat apply Forall_cons; try lia. eapply Forall_impl; [|exact Hg]. intros c [A _]. exact A. }
  rewrite app_assoc. destruct gfx as [|g gfx].
  - rewrite app_nil_r, split_all_none by assumption. reflexivity.
  - change ([38; 103; 61] ++ g :: gfx) with (38 :: [103; 61] ++ g :: gfx). rewrite split_all_app by assumption.
    rewrite split_all_none by assumption. reflexivity.
Qed.

(** *** Graphics *)
(** The colours a graphics text stands for. *)
Fixpoint expand (gfx : list Z) : list Z :=
  match gfx with
  | [] => []
  | ch :: t =>
      match b64_map ch with
      | None => []
      | Some v =>
          if v / 16 + 1 =? 4 then
            match t with
            | [] => []
            | ch2 :: t2 => match b64_map ch2 with None => [] | Some v2 => repeat (v mod 16) (Z.to_nat (4 + v2)) ++ expand t2 end
            end
          else repeat (v mod 16) (Z.to_nat (v / 16 + 1)) ++ expand t
      end
  end.
Lemma run_val k color : 0 <= k <= 3 -> 0 <= color < 16 ->
  let val := Z.lor (Z.shiftl k 4) color in 0 <= val < 64 /\ val / 16 = k /\ val mod 16 = color.
Proof.
  intros Hk Hc. cbn zeta. rewrite Z.lor_comm, (lor_add color k 4) by lia. lia.
Qed.
Lemma expand_run n : forall color total t, 0 <= color < 16 -> 0 <= total <= Z.of_nat n ->
  expand (run_chars n color total ++ t) = repeat color (Z.to_nat total) ++ expand t.
Proof.
  induction n as [|n IH]; intros color total t Hc Hn.
  - replace total with 0 by lia. reflexivity.
  - cbn [run_chars]. destruct (Z.ltb_spec 0 total) as [P|P]; [|replace total with 0 by lia; reflexivity].
    cbn zeta. set (count := Z.min total (63 + 4)).
    destruct (run_val (Z.min (count - 1) 3) color ltac:(lia) Hc) as (V1 & V2 & V3).
    set (val := Z.lor (Z.shiftl (Z.min (count - 1) 3) 4) color) in *. cbn [app expand].
    rewrite (proj1 (b64_one val V1)), V2, V3.
    destruct (Z.leb_spec 4 count) as [Q|Q].
    + replace (Z.min (count - 1) 3 + 1 =? 4) with true by lia. cbn [app].
      rewrite (proj1 (b64_one (count - 4) ltac:(lia))). rewrite IH by lia. rewrite app_assoc, <- repeat_app.
      do 2 f_equal. lia.
    + replace (Z.min (count - 1) 3 + 1 =? 4) with false by lia. cbn [app]. rewrite IH by lia.
      rewrite app_assoc, <- repeat_app. do 2 f_equal. lia.
Qed.
Lemma run_chars_ok n : forall color total, 0 <= color < 16 -> 0 <= total -> Forall url_char (run_chars n color total).
Proof.
  assert (P : forall v, 0 <= v < 64 -> url_char (b64c v)) by (intros v Hv; apply (b64_one v Hv)).
  induction n as [|n IH]; intros color total Hc Hn; cbn [run_chars]; [constructor|].
  destruct (Z.ltb_spec 0 total); [|constructor]. cbn zeta.
  destruct (run_val (Z.min (Z.min total (63 + 4) - 1) 3) color ltac:(lia) Hc) as (V1 & _).
  apply Forall_cons; [now apply P|]. apply Forall_app. split; [|apply IH; lia].
  destruct (Z.leb_spec 4 (Z.min total (63 + 4))); [|constructor]. apply Forall_cons; [apply P; lia|constructor].
Qed.
Lemma gfx_runs_spec rest : forall color count, 0 <= color < 16 -> 0 <= count -> Forall (fun v => 0 <= v < 16) rest ->
  Forall url_char (gfx_runs color count rest) /\
  exists k, repeat color (Z.to_nat count) ++ rest = expand (gfx_runs color count rest) ++ repeat 0 k.
Proof.
  induction rest as [|c rest IH]; intros color count Hc Hn HF; cbn [gfx_runs].
  - cbn zeta. destruct (Z.eqb_spec color 0) as [->|N].
    + split; [apply run_chars_ok; lia|]. exists (Z.to_nat count). cbn. now rewrite app_nil_r.
    + split; [apply run_chars_ok; lia|]. exists 0%nat. cbn [repeat]. rewrite !app_nil_r.
      pose proof (expand_run (Z.to_nat count) color count [] Hc ltac:(lia)) as E. cbn [expand] in E. rewrite !app_nil_r in E.
      now rewrite E.
  - pose proof (Forall_inv HF) as Hc'. cbn beta in Hc'. apply Forall_inv_tail in HF.
    destruct (Z.eqb_spec c color) as [->|N].
    + destruct (IH color (count + 1) Hc ltac:(lia) HF) as (A & k & E). split; [exact A|]. exists k. rewrite <- E.
      replace (Z.to_nat (count + 1)) with (Z.to_nat count + 1)%nat by lia. rewrite repeat_app, <- app_assoc. reflexivity.
    + destruct (IH c 1 Hc' ltac:(lia) HF) as (A & k & E). split.
      * apply Forall_app. split; [now apply run_chars_ok|assumption].
      * exists k. rewrite expand_run by lia. rewrite <- app_assoc. rewrite <- E. reflexivity.
Qed.

(** Painting colours one after another. *)
Fixpoint paint_all (pos : Z) (colors : list Z) (m : list Z) : res (list Z) :=
  match colors with
  | [] => Ok m
  | c :: t => m <- paint 1 pos c m ;; paint_all (pos + 1) t m
  end.
Lemma paint_all_app a : forall pos b m, paint_all pos (a ++ b) m = (m <- paint_all pos a m ;; paint_all (pos + zlen a) b m).
Proof.
  induction a as [|c a IH]; intros pos b m; cbn [app paint_all].
  - cbn [bind]. rewrite zlen_nil. now replace (pos + 0) with pos by lia.
  - destruct (paint 1 pos c m); cbn [bind]; [|reflexivity]. rewrite IH, zlen_cons.
    now replace (pos + 1 + zlen a) with (pos + (1 + zlen a)) by lia.
Qed.
Lemma paint_repeat n : forall pos c m, paint n pos c m = paint_all pos (repeat c n) m.
Proof.
  induction n as [|n IH]; intros pos c m; [reflexivity|]. cbn [repeat paint_all paint].
  destruct (pos <? k_pixels); [|reflexivity]. destruct (set4 _ _ _); cbn [bind]; [apply IH|reflexivity].
Qed.
Lemma read_run n : forall color total t pos m, 0 <= color < 16 -> 0 <= total <= Z.of_nat n ->
  read_gfx (run_chars n color total ++ t) pos m =
  (m <- paint_all pos (repeat color (Z.to_nat total)) m ;; read_gfx t (pos + total) m).
Proof.
  induction n as [|n IH]; intros color total t pos m Hc Hn.
  - replace total with 0 by lia. cbn. now replace (pos + 0) with pos by lia.
  - cbn [run_chars]. destruct (Z.ltb_spec 0 total) as [P|P].
    2:{ replace total with 0 by lia. cbn. now replace (pos + 0) with pos by lia. }
    cbn zeta. set (count := Z.min total (63 + 4)).
    destruct (run_val (Z.min (count - 1) 3) color ltac:(lia) Hc) as (V1 & V2 & V3).
    set (val := Z.lor (Z.shiftl (Z.min (count - 1) 3) 4) color) in *. cbn [app read_gfx].
    unfold b64_key at 1. rewrite (proj1 (b64_one val V1)). cbn [bind]. rewrite land_f, V3.
    rewrite Z.shiftr_div_pow2 by lia. change (2 ^ 4) with 16. rewrite V2.
    replace (repeat color (Z.to_nat total)) with (repeat color (Z.to_nat count) ++ repeat color (Z.to_nat (total - count)))
      by (rewrite <- repeat_app; f_equal; lia).
    rewrite paint_all_app. rewrite <- paint_repeat.
    assert (L : zlen (repeat color (Z.to_nat count)) = count) by (unfold zlen; rewrite repeat_length; lia). rewrite L.
    destruct (Z.leb_spec 4 count) as [Q|Q].
    + replace (Z.min (count - 1) 3 + 1 =? 4) with true by lia. cbn [app].
      unfold b64_key. rewrite (proj1 (b64_one (count - 4) ltac:(lia))). cbn [bind].
      replace (Z.min (count - 1) 3 + 1 + (count - 4)) with count by lia.
      destruct (paint (Z.to_nat count) pos color m); [|reflexivity]. cbn [bind]. rewrite IH by lia.
      now replace (pos + count + (total - count)) with (pos + total) by lia.
    + replace (Z.min (count - 1) 3 + 1 =? 4) with false by lia. cbn [app].
      replace (Z.min (count - 1) 3 + 1) with count by lia.
      destruct (paint (Z.to_nat count) pos color m); [|reflexivity]. cbn [bind]. rewrite IH by lia.
      now replace (pos + count + (total - count)) with (pos + total) by lia.
Qed.
Lemma read_runs rest : forall color count pos m, 0 <= color < 16 -> 0 <= count -> Forall (fun v => 0 <= v < 16) rest ->
  read_gfx (gfx_runs color count rest) pos m = paint_all pos (expand (gfx_runs color count rest)) m.
Proof.
  assert (E : forall color total pos m, 0 <= color < 16 -> 0 <= total ->
    read_gfx (run_chars (Z.to_nat total) color total) pos m = paint_all pos (expand (run_chars (Z.to_nat total) color total)) m).
  { intros color total pos m Hc Ht.
    pose proof (expand_run (Z.to_nat total) color total [] Hc ltac:(lia)) as A.
    pose proof (read_run (Z.to_nat total) color total [] pos m Hc ltac:(lia)) as B.
    cbn [expand read_gfx] in A, B. rewrite app_nil_r in A, B. rewrite app_nil_r in A. rewrite A, B.
    destruct (paint_all _ _ m); reflexivity. }
  induction rest as [|c rest IH]; intros color count pos m Hc Hn HF; cbn [gfx_runs].
  - cbn zeta. apply E; [assumption|]. destruct (color =? 0); lia.
  - pose proof (Forall_inv HF) as Hc'. cbn beta in Hc'. apply Forall_inv_tail in HF.
    destruct (Z.eqb_spec c color) as [->|N]; [now apply IH; try lia|].
    rewrite read_run, expand_run, paint_all_app by lia.
    destruct (paint_all pos _ m); [|reflexivity]. cbn [bind]. unfold zlen at 1. rewrite repeat_length.
    replace (pos + Z.of_nat (Z.to_nat count)) with (pos + count) by lia. apply IH; auto; lia.
Qed.

Lemma paint_all_spec colors : forall pos m, bytes_ok m -> zlen m = 0x4300 -> 0 <= pos -> pos + zlen colors <= 16384 ->
  Forall (fun v => 0 <= v < 16) colors ->
  exists m', paint_all pos colors m = Ok m' /\ bytes_ok m' /\ zlen m' = 0x4300 /\
    forall x y, 0 <= x < 128 -> 0 <= y < 128 -> sheet_px m' x y =
      if (pos <=? y * 128 + x) && (y * 128 + x <? pos + zlen colors)
      then nth (Z.to_nat (y * 128 + x - pos)) colors 0 else sheet_px m x y.
Proof.
  induction colors as [|c t IH]; intros pos m B L Hp Hl HF.
  - exists m. repeat split; auto. intros x y Hx Hy. rewrite zlen_nil.
    destruct (Z.leb_spec pos (y * 128 + x)), (Z.ltb_spec (y * 128 + x) (pos + 0)); cbn [andb]; auto; lia.
  - pose proof (Forall_inv HF) as Hc. cbn beta in Hc. apply Forall_inv_tail in HF.
    rewrite zlen_cons in Hl. pose proof (zlen_nonneg t). cbn [paint_all paint]. unfold k_pixels.
    replace (pos <? 0x4000) with true by lia. rewrite sprite_addr_eq by lia.
    set (X := pos mod 128). set (Y := pos / 128). set (a := Y * 64 + X / 2).
    assert (Ha : 0 <= a < 0x2000) by (unfold a, X, Y; lia).
    rewrite set4_ok by (auto; lia). cbn [bind]. set (m1 := mset m a _).
    assert (B1 : bytes_ok m1) by (apply mset_bytes; auto; apply nib_set_byte; now apply mget_byte).
    assert (L1 : zlen m1 = 0x4300) by (unfold m1; now rewrite mset_len).
    destruct (IH (pos + 1) m1 B1 L1 ltac:(lia) ltac:(lia) HF) as (m' & E & B' & L' & Sh).
    exists m'. repeat split; auto. intros x y Hx Hy. rewrite Sh by assumption. rewrite zlen_cons.
    assert (Hm : sheet_px m1 x y = if (x =? X) && (y =? Y) then c else sheet_px m x y).
    { unfold m1, a. rewrite sheet_px_set by (auto; unfold X, Y; lia). now rewrite Z.mod_small by lia. }
    destruct (Z.leb_spec (pos + 1) (y * 128 + x)), (Z.ltb_spec (y * 128 + x) (pos + 1 + zlen t)); cbn [andb].
    + replace (pos <=? y * 128 + x) with true by lia. replace (y * 128 + x <? pos + (1 + zlen t)) with true by lia.
      cbn [andb]. replace (Z.to_nat (y * 128 + x - pos)) with (S (Z.to_nat (y * 128 + x - (pos + 1)))) by lia. reflexivity.
    + replace (y * 128 + x <? pos + (1 + zlen t)) with false by lia. rewrite andb_false_r, Hm.
      replace ((x =? X) && (y =? Y)) with false by (unfold X, Y; lia). reflexivity.
    + rewrite Hm. destruct (Z.eqb_spec (y * 128 + x) pos) as [Q|Q].
      * replace ((x =? X) && (y =? Y)) with true by (unfold X, Y; lia).
        replace (pos <=? y * 128 + x) with true by lia. replace (y * 128 + x <? pos + (1 + zlen t)) with true by lia.
        cbn [andb]. replace (Z.to_nat (y * 128 + x - pos)) with 0%nat by lia. reflexivity.
      * replace ((x =? X) && (y =? Y)) with false by (unfold X, Y; lia).
        replace (pos <=? y * 128 + x) with false by lia. reflexivity.
    + lia.
Qed.

Lemma default_sheet : forall m0, mem_create_rom = Ok m0 -> forall j, 0 <= j < 0x2000 -> mget m0 j = 0.
Proof.
  assert (H : match mem_create_rom with Ok m => zeqb_list (firstn (Z.to_nat 0x2000) m) (repeat 0 (Z.to_nat 0x2000)) | _ => false end = true)
    by (vm_compute; reflexivity).
  intros m0 E j Hj. rewrite E in H. apply zeqb_list_true in H. unfold mget.
  rewrite <- (nth_firstn m0 (Z.to_nat 0x2000)) by lia. rewrite H. apply nth_repeat.
Qed.

Definition pixels_n (m : list Z) (n : nat) : list Z :=
  map (fun pos => sheet_px m (pos mod 128) (pos / 128)) (zrange_from 0 n).
Lemma in_zrange0 p n : In p (zrange_from 0 n) -> 0 <= p < Z.of_nat n.
Proof. unfold zrange_from. intros H. apply in_map_iff in H as (i & <- & H). apply in_seq in H. lia. Qed.
Lemma pixels_ok m n : bytes_ok m -> zlen m = 0x4300 -> Z.of_nat n <= 16384 ->
  map_res (pixel m) (zrange_from 0 n) = Ok (pixels_n m n).
Proof.
  intros B L Hn. unfold pixels_n. apply map_res_ok. intros p Hp. apply in_zrange0 in Hp.
  unfold pixel. apply sheet_px_ok; auto; lia.
Qed.
Lemma pixels_range m n : bytes_ok m -> Forall (fun v => 0 <= v < 16) (pixels_n m n).
Proof.
  intros B. apply Forall_forall. intros v Hv. unfold pixels_n in Hv. apply in_map_iff in Hv as (p & E & _).
  rewrite <- E. apply sheet_px_range. exact B.
Qed.
Lemma pixels_len m n : length (pixels_n m n) = n.
Proof. unfold pixels_n, zrange_from. now rewrite !map_length, seq_length. Qed.
Lemma pixels_nth m n p : 0 <= p < Z.of_nat n -> nth (Z.to_nat p) (pixels_n m n) 0 = sheet_px m (p mod 128) (p / 128).
Proof.
  intros Hp. unfold pixels_n, zrange_from. rewrite map_map.
  rewrite (nth_indep _ _ (sheet_px m ((0 + Z.of_nat 0) mod 128) ((0 + Z.of_nat 0) / 128)))
    by (rewrite map_length, seq_length; lia).
  rewrite (map_nth (fun i => sheet_px m ((0 + Z.of_nat i) mod 128) ((0 + Z.of_nat i) / 128))).
  rewrite seq_nth by lia. cbn [Nat.add]. replace (0 + Z.of_nat (Z.to_nat p)) with p by lia. reflexivity.
Qed.
Lemma pixels_xy m n x y : Z.of_nat n = 16384 -> 0 <= x < 128 -> 0 <= y < 128 ->
  nth (Z.to_nat (y * 128 + x)) (pixels_n m n) 0 = sheet_px m x y.
Proof.
  intros Hn Hx Hy. rewrite pixels_nth by lia.
  rewrite <- (Z.mod_unique (y * 128 + x) 128 y x), <- (Z.div_unique (y * 128 + x) 128 y x) by lia. reflexivity.
Qed.
Lemma sheet_zero m0 x y : mem_create_rom = Ok m0 -> 0 <= x < 128 -> 0 <= y < 128 -> sheet_px m0 x y = 0.
Proof.
  intros M Hx Hy. unfold sheet_px. rewrite (default_sheet m0 M).
  - unfold nib_get. destruct (x mod 2 =? 0); reflexivity.
  - clear M. assert (0 <= x / 2 < 64) by lia. lia.
Qed.

Lemma gfx_roundtrip m m0 : bytes_ok m -> zlen m = 0x4300 -> mem_create_rom = Ok m0 ->
  exists gfx m', write_gfx m = Ok gfx /\ Forall url_char gfx /\ read_gfx gfx 0 m0 = Ok m' /\ bytes_ok m' /\
    zlen m' = 0x4300 /\ forall j, 0 <= j < 0x2000 -> mget m' j = mget m j.
Proof.
  intros B L M. pose proof default_rom_ok as (m0' & M' & B0 & L0). assert (m0' = m0) by congruence. subst m0'. clear M'.
  unfold write_gfx. assert (Hn : Z.of_nat (Z.to_nat k_pixels) = 16384) by reflexivity.
  generalize dependent (Z.to_nat k_pixels). intros n Hn.
  rewrite pixels_ok by (auto; lia). cbn [bind].
  pose proof (pixels_range m n B) as R. pose proof (pixels_len m n) as PL.
  pose proof (fun x y => pixels_xy m n x y Hn) as PN.
  destruct (pixels_n m n) as [|c rest]; [cbn in PL; lia|].
  pose proof (Forall_inv R) as Hc. cbn beta in Hc. apply Forall_inv_tail in R.
  destruct (gfx_runs_spec rest c 1 Hc ltac:(lia) R) as (U & k & E). cbn [Z.to_nat] in E.
  change (repeat c (Pos.to_nat 1) ++ rest) with (c :: rest) in E.
  set (gfx := gfx_runs c 1 rest) in *.
  assert (EL : zlen (expand gfx) + Z.of_nat k = 16384).
  { apply (f_equal (@length Z)) in E. rewrite PL, app_length, repeat_length in E. unfold zlen. lia. }
  assert (ER : Forall (fun v => 0 <= v < 16) (expand gfx)).
  { assert (F : Forall (fun v => 0 <= v < 16) (c :: rest)) by (constructor; assumption). rewrite E in F.
    apply Forall_app in F. apply F. }
  destruct (paint_all_spec (expand gfx) 0 m0 B0 L0 ltac:(lia) ltac:(lia) ER) as (m' & P & B' & L' & S').
  exists gfx, m'. split; [reflexivity|]. split; [assumption|].
  split; [unfold gfx; rewrite read_runs by (auto; lia); exact P|]. split; [assumption|]. split; [assumption|].
  apply sheet_bytes; auto. intros x y Hx Hy. rewrite S' by assumption. rewrite <- PN, E by assumption.
  destruct (Z.ltb_spec (y * 128 + x) (0 + zlen (expand gfx))) as [Q|Q].
  - replace (0 <=? y * 128 + x) with true by lia. cbn [andb]. rewrite app_nth1 by (unfold zlen in Q; lia). f_equal. lia.
  - rewrite andb_false_r. rewrite app_nth2 by (unfold zlen in Q; lia). rewrite nth_repeat.
    now apply sheet_zero.
Qed.

(** *** Code *)
Lemma zeros_read : uncompress_code true k_code_size (ljust [] k_code_size) = Ok [].
Proof. vm_compute. reflexivity. Qed.
Lemma tiny_padded o c raw : cart_ok c -> o_fail o = true -> o_be o = true ->
  parse_ordered (force_copts o) (c_code c) -> c_code c <> [58; 99; 58] ->
  write_cart_to_tiny_rom false o c = Ok raw -> zlen raw + 2 <= k_code_size ->
  bytes_ok raw /\ uncompress_code true k_code_size (ljust raw k_code_size) = Ok (c_code c).
Proof.
  intros (_ & _ & Hc & Hl & _) Hf Hb P NM E LR. unfold write_cart_to_tiny_rom in E.
  assert (E' : io <- compress_code (force_copts o) (c_code c) ;;
      (if zlen (c_code c) <? zlen io then if forallb is_byte (c_code c) then Ok (c_code c) else Err EValue else Ok io) = Ok raw)
    by (destruct (c_code_rom c); exact E). clear E.
  destruct (compress_code (force_copts o) (c_code c)) as [io|e] eqn:Ed; [|discriminate]. cbn [bind] in E'.
  destruct (Z.ltb_spec (zlen (c_code c)) (zlen io)) as [Sh|Sh].
  - assert (Hb' : forallb is_byte (c_code c) = true).
    { apply forallb_forall. intros x Hx. rewrite Forall_forall in Hc. specialize (Hc x Hx). unfold is_byte. lia. }
    rewrite Hb' in E'. apply Ok_inj in E'. subst raw. split; [eapply Forall_impl; [|exact Hc]; cbn; lia|].
    unfold ljust. destruct (Z.to_nat (k_code_size - zlen (c_code c))) as [|n] eqn:En; [lia|].
    destruct (raw_roundtrip true true false false (c_code c) k_code_size (repeat 0 (S n))) as (_ & X & _); auto; try lia.
    + intros [r Hr]. unfold old_header in Hr. cbn [repeat] in Hr. clear -Hr Hc NM.
      destruct (c_code c) as [|c1 [|c2 [|c3 [|c4 t]]]]; cbn [app] in Hr; try discriminate Hr.
      * injection Hr. intros. subst. contradiction.
      * injection Hr. intros. subst. do 3 apply Forall_inv_tail in Hc. apply Forall_inv in Hc. lia.
    + right. exists (repeat 0 n). reflexivity.
    + intros _ [r Hr]. cbn [repeat] in Hr. injection Hr as Hr. destruct n; cbn in Hr; discriminate Hr.
  - apply Ok_inj in E'. subst raw.
    assert (OF : old_fits (force_copts o) (c_code c)).
    { intros K d Hd. assert (d = io) by congruence. subst d. exact LR. }
    assert (NM' : not_marker (force_copts o) (c_code c)) by (intros K; discriminate K).
    destruct (code_area (force_copts o) (c_code c) io [] Hf Hb Hc Hl P OF NM' Ed (Forall_nil _)) as (A & B & D).
    rewrite app_nil_r in D. split; assumption.
Qed.

Definition url_text (prefix code gfx : list Z) : list Z :=
  prefix ++ [47; 63; 99; 61] ++ code ++ (match gfx with [] => [] | _ => [38; 103; 61] ++ gfx end).
Lemma write_url_inv prefix o c url gfx : write_gfx (c_rom c) = Ok gfx -> write_cart_to_url prefix false o c = Ok url ->
  exists raw, write_cart_to_tiny_rom false o c = Ok raw /\ url = url_text prefix (b64_encode raw) gfx /\ zlen url <= 2044.
Proof.
  unfold write_cart_to_url. intros Eg E. destruct (write_cart_to_tiny_rom false o c) as [raw|e]; [|discriminate E].
  exists raw. split; [reflexivity|]. rewrite Eg in E. cbn [bind] in E. fold (url_text prefix (b64_encode raw) gfx) in E.
  cbn zeta in E. destruct (Z.leb_spec (zlen (url_text prefix (b64_encode raw) gfx) - k_url_prefix_size) k_url_size) as [Hlen|];
    [|discriminate E]. apply Ok_inj in E. subst url. split; [reflexivity|]. unfold k_url_prefix_size, k_url_size in Hlen. lia.
Qed.
Lemma url_text_short prefix raw gfx : zlen (url_text prefix (b64_encode raw) gfx) <= 2044 -> zlen raw + 2 <= k_code_size.
Proof.
  unfold url_text. set (tail := match gfx with [] => [] | _ => _ end). rewrite !zlen_app, b64_len. intros Hlen.
  pose proof (zlen_nonneg prefix). pose proof (zlen_nonneg tail). change (zlen [47; 63; 99; 61]) with 4 in Hlen.
  unfold k_code_size. lia.
Qed.
Lemma read_url_text prefix keep raw gfx m0 m' code : Forall (fun ch => ch <> 63) prefix -> bytes_ok raw -> Forall url_char gfx ->
  mem_create_rom = Ok m0 -> read_gfx gfx 0 m0 = Ok m' -> uncompress_code true k_code_size (ljust raw k_code_size) = Ok code ->
  exists c', read_cart_from_url keep (url_text prefix (b64_encode raw) gfx) = Ok c' /\ c_code c' = code /\ c_rom c' = m'.
Proof.
  intros Hp BR Ug M Rg UR. unfold read_cart_from_url.
  replace (url_text prefix (b64_encode raw) gfx) with
    ((prefix ++ [47]) ++ 63 :: [99; 61] ++ b64_encode raw ++ (match gfx with [] => [] | _ => [38; 103; 61] ++ gfx end))
    by (rewrite <- app_assoc; reflexivity).
  rewrite split_first_app by (apply Forall_app; split; [assumption|constructor; [discriminate|constructor]]).
  rewrite url_params_ok by (auto; now apply b64_chars). cbn [bind]. rewrite M. clear M. cbn [bind].
  destruct raw as [|r0 raw].
  - rewrite zeros_read in UR. apply Ok_inj in UR.
    exists (with_rom (new_cart m0) m'). split; [|split; [exact UR|reflexivity]].
    cbn [b64_encode bind]. change (c_rom (new_cart m0)) with m0. rewrite Rg. reflexivity.
  - exists (with_rom (with_code (new_cart m0) code (snd (match read_code_from_rom keep (ljust (r0 :: raw) k_code_size) with Ok p => p | Err _ => ([], None) end))) m').
    split; [|split; reflexivity].
    destruct (b64_encode (r0 :: raw)) as [|b bs] eqn:Eb.
    { pose proof (b64_len (r0 :: raw)) as K. rewrite Eb, zlen_nil, zlen_cons in K. pose proof (zlen_nonneg raw) as K'. clear - K K'. lia. }
    rewrite <- Eb, b64_roundtrip by assumption. cbn [bind]. unfold read_code_from_rom. rewrite UR. cbn [bind snd].
    match goal with |- (rom <- read_gfx gfx 0 (c_rom (with_code (new_cart m0) code ?q)) ;; _) = _ =>
      change (c_rom (with_code (new_cart m0) code q)) with m0 end.
    rewrite Rg. reflexivity.
Qed.
Theorem url_roundtrip prefix keep o c url : cart_ok c -> o_fail o = true -> o_be o = true ->
  parse_ordered (force_copts o) (c_code c) -> c_code c <> [58; 99; 58] -> Forall (fun ch => ch <> 63) prefix ->
  write_cart_to_url prefix false o c = Ok url ->
  exists c', read_cart_from_url keep url = Ok c' /\ c_code c' = c_code c /\ zlen (c_rom c') = 0x4300 /\
    forall j, 0 <= j < 0x2000 -> mget (c_rom c') j = mget (c_rom c) j.
Proof.
  intros Hok Hf Hb P NM Hp E. destruct default_rom_ok as (m0 & M & _).
  destruct (gfx_roundtrip (c_rom c) m0 (proj1 Hok) (proj1 (proj2 Hok)) M) as (gfx & m' & Eg & Ug & Rg & Bg & Lg & G).
  destruct (write_url_inv prefix o c url gfx Eg E) as (raw & Er & -> & Hlen).
  destruct (tiny_padded o c raw Hok Hf Hb P NM Er (url_text_short _ _ _ Hlen)) as (BR & UR).
  destruct (read_url_text prefix keep raw gfx m0 m' (c_code c) Hp BR Ug M Rg UR) as (c' & R1 & R2 & R3).
  exists c'. split; [exact R1|]. split; [exact R2|]. rewrite R3. split; assumption.
Qed.

(** *** Clipboard *)
Lemma hexc_digit d : 0 <= d < 16 -> hex_digit (hexc d) = Ok d /\ hex_space (hexc d) = false.
Proof.
  intros H. unfold hexc, hex_digit, hex_space. destruct (Z.ltb_spec d 10).
  - replace ((48 <=? 48 + d) && (48 + d <=? 57)) with true by lia. split; [f_equal; lia|lia].
  - replace ((48 <=? 87 + d) && (87 + d <=? 57)) with false by lia.
    replace ((97 <=? 87 + d) && (87 + d <=? 102)) with true by lia. split; [f_equal; lia|lia].
Qed.
Lemma fromhex_hex d : bytes_ok d -> bytes_fromhex (bytes_hex d) = Ok d.
Proof.
  unfold bytes_hex. induction d as [|b d IH]; intros H; [reflexivity|].
  pose proof (Forall_inv H) as Hb. cbn beta in Hb. apply Forall_inv_tail in H.
  cbn [map concat hex2 app bytes_fromhex].
  destruct (hexc_digit (b / 16) ltac:(lia)) as [A1 A2]. destruct (hexc_digit (b mod 16) ltac:(lia)) as [B1 B2].
  rewrite A2, A1, B1. cbn [bind]. rewrite IH by assumption. cbn [bind]. do 2 f_equal. lia.
Qed.
Theorem clip_roundtrip d : bytes_ok d -> read_raw_from_clip (write_raw_to_clip d) = Ok d.
Proof.
  intros H. unfold read_raw_from_clip, write_raw_to_clip.
  assert (A : M_Text.starts_with k_clip_prefix (k_clip_prefix ++ bytes_hex d ++ k_clip_suffix) = true) by reflexivity.
  assert (B : ends_with k_clip_suffix (k_clip_prefix ++ bytes_hex d ++ k_clip_suffix) = true).
  { unfold ends_with. rewrite app_assoc, rev_app_distr. reflexivity. }
  rewrite A, B. cbn [andb].
  assert (S : slice (k_clip_prefix ++ bytes_hex d ++ k_clip_suffix) (zlen k_clip_prefix)
            (zlen (k_clip_prefix ++ bytes_hex d ++ k_clip_suffix) - zlen k_clip_suffix) = bytes_hex d).
  { unfold slice. rewrite !zlen_app. replace (Z.to_nat (zlen k_clip_prefix)) with (length k_clip_prefix) by reflexivity.
    rewrite skipn_app, skipn_all, Nat.sub_diag. cbn [app skipn].
    replace (Z.to_nat (zlen k_clip_prefix + (zlen (bytes_hex d) + zlen k_clip_suffix) - zlen k_clip_suffix - zlen k_clip_prefix))
      with (length (bytes_hex d)) by (unfold zlen; lia).
    rewrite firstn_app, firstn_all, Nat.sub_diag. cbn [firstn]. apply app_nil_r. }
  rewrite S. now apply fromhex_hex.
Qed.
Lemma clip_rstrip d : rstrip (write_raw_to_clip d) = write_raw_to_clip d.
Proof.
  unfold rstrip. assert (E : exists t, rev (write_raw_to_clip d) = 93 :: t).
  { unfold write_raw_to_clip. rewrite !rev_app_distr. eexists. reflexivity. }
  destruct E as [t E]. rewrite E. change (lstrip (93 :: t)) with (93 :: t). rewrite <- E. apply rev_involutive.
Qed.

(** *** Merging *)
Lemma copyfrom8_get dest src lo hi : zlen dest = 0x4300 -> zlen src = 0x4300 -> 0 <= lo <= hi -> hi <= 0x4300 ->
  zlen (copyfrom8 dest lo (hi - lo) src) = 0x4300 /\
  forall j, 0 <= j < 0x4300 ->
    mget (copyfrom8 dest lo (hi - lo) src) j = if (lo <=? j) && (j <? hi) then mget src j else mget dest j.
Proof.
  intros Hd Hs Hl Hh. unfold copyfrom8.
  assert (BL : zlen (get_block src lo (hi - lo)) = hi - lo).
  { unfold get_block, slice, zlen. rewrite firstn_length, skipn_length. unfold zlen in Hs. lia. }
  destruct (set_block_spec dest lo (get_block src lo (hi - lo)) ltac:(lia) ltac:(lia)) as (A & B). split; [lia|].
  intros j Hj. rewrite B by lia. rewrite BL. replace (lo + (hi - lo)) with hi by lia.
  destruct ((lo <=? j) && (j <? hi)) eqn:Q; [|reflexivity].
  unfold get_block, slice, mget. rewrite nth_firstn, nth_skipn by lia. f_equal. lia.
Qed.
Definition rest_same (a b : cart) : Prop :=
  c_version_id a = c_version_id b /\ c_version a = c_version b /\ c_platform a = c_platform b /\
  c_default_version a = c_default_version b /\ c_default_platform a = c_default_platform b /\ c_meta a = c_meta b.
Definition code_of (c : cart) := (c_code c, c_code_rom c).
Definition merged (dest src : cart) (sections : list (list Z)) (c' : cart) : Prop :=
  rest_same c' dest /\ zlen (c_rom c') = 0x4300 /\
  (In n_lua sections -> code_of c' = code_of src) /\ (~ In n_lua sections -> code_of c' = code_of dest) /\
  (In n_label sections -> c_label c' = c_label src) /\ (~ In n_label sections -> c_label c' = c_label dest) /\
  forall a, 0 <= a < 0x4300 ->
    (covered sections a -> mget (c_rom c') a = mget (c_rom src) a) /\
    (~ covered sections a -> mget (c_rom c') a = mget (c_rom dest) a).
Lemma merge_one dest src s : zlen (c_rom dest) = 0x4300 -> zlen (c_rom src) = 0x4300 -> known_section s ->
  exists c', merge_section dest src s = Ok c' /\ rest_same c' dest /\ zlen (c_rom c') = 0x4300 /\
    code_of c' = (if zeqb_list s n_lua then code_of src else code_of dest) /\
    c_label c' = (if zeqb_list s n_label then c_label src else c_label dest) /\
    forall a, 0 <= a < 0x4300 ->
      (covered [s] a -> mget (c_rom c') a = mget (c_rom src) a) /\
      (~ covered [s] a -> mget (c_rom c') a = mget (c_rom dest) a).
Proof.
  intros Hd Hs K.
  assert (NC : forall a, ~ In s (map fst data_sections) -> ~ covered [s] a).
  { intros a N (s' & lo & hi & [->|[]] & I & _). apply N. apply in_map_iff. exists (s', (lo, hi)). auto. }
  assert (CO : forall lo hi, In (s, (lo, hi)) data_sections -> (forall l h, In (s, (l, h)) data_sections -> l = lo /\ h = hi) ->
     forall a, covered [s] a <-> lo <= a < hi).
  { intros lo hi I U a. split.
    - intros (s' & l & h & [->|[]] & I' & R). destruct (U l h I') as [-> ->]. exact R.
    - intros R. exists s, lo, hi. split; [now left|]. now split. }
  destruct K as [->|[->|K]].
  - eexists. split; [reflexivity|]. repeat apply conj; try reflexivity; try exact Hd.
    intros a Ha. split; [|reflexivity]. intros C. exfalso. revert C. apply NC.
    intros I. cbn in I. repeat destruct I as [I|I]; try discriminate I. exact I.
  - eexists. split; [reflexivity|]. repeat apply conj; try reflexivity; try exact Hd.
    intros a Ha. split; [|reflexivity]. intros C. exfalso. revert C. apply NC.
    intros I. cbn in I. repeat destruct I as [I|I]; try discriminate I. exact I.
  - assert (G : exists lo hi, In (s, (lo, hi)) data_sections /\ (forall l h, In (s, (l, h)) data_sections -> l = lo /\ h = hi) /\
       0 <= lo <= hi /\ hi <= 0x4300 /\
       merge_section dest src s = Ok (with_rom dest (copyfrom8 (c_rom dest) lo (hi - lo) (c_rom src))) /\
       zeqb_list s n_lua = false /\ zeqb_list s n_label = false).
    { cbn in K. repeat destruct K as [K|K]; try contradiction; subst s.
      all: eexists; eexists; split; [cbn; eauto 10|].
      all: split; [intros l h I; cbn in I; repeat destruct I as [I|I]; try contradiction; try discriminate I;
                   injection I; intros; split; congruence|].
      all: repeat apply conj; try lia; reflexivity. }
    destruct G as (lo & hi & I & U & R1 & R2 & E & N1 & N2). rewrite E, N1, N2.
    destruct (copyfrom8_get (c_rom dest) (c_rom src) lo hi Hd Hs R1 R2) as (L & G).
    eexists. split; [reflexivity|]. repeat apply conj; try reflexivity; [exact L|].
    intros a Ha. cbn [c_rom with_rom]. rewrite G by exact Ha. rewrite (CO lo hi I U a). split; intros C.
    + replace ((lo <=? a) && (a <? hi)) with true by lia. reflexivity.
    + replace ((lo <=? a) && (a <? hi)) with false by lia. reflexivity.
Qed.
Lemma covered_dec s a : {covered s a} + {~ covered s a}.
Proof.
  destruct (existsb (fun n => existsb (fun e => zeqb_list n (fst e) && (fst (snd e) <=? a) && (a <? snd (snd e))) data_sections) s) eqn:E.
  - left. apply existsb_exists in E as (n & Hn & E). apply existsb_exists in E as ((n' & lo & hi) & He & E). cbn [fst snd] in E.
    apply andb_prop in E as [E E3]. apply andb_prop in E as [E1 E2]. apply zeqb_list_true in E1. subst n'.
    exists n, lo, hi. repeat split; auto; lia.
  - right. intros (n & lo & hi & Hn & He & R). assert (T : existsb (fun n => existsb (fun e => zeqb_list n (fst e) && (fst (snd e) <=? a) && (a <? snd (snd e))) data_sections) s = true); [|congruence].
    apply existsb_exists. exists n. split; [assumption|]. apply existsb_exists. exists (n, (lo, hi)). split; [assumption|].
    cbn [fst snd]. rewrite zeqb_list_refl. lia.
Qed.
Theorem merge_spec sections : forall dest src, zlen (c_rom dest) = 0x4300 -> zlen (c_rom src) = 0x4300 ->
  Forall known_section sections -> exists c', merge_cart dest src sections = Ok c' /\ merged dest src sections c'.
Proof.
  induction sections as [|s t IH]; intros dest src Hd Hs HF.
  - exists dest. split; [reflexivity|]. unfold merged, rest_same. repeat apply conj; auto; try (now intros []).
    intros a Ha. split; [|reflexivity]. intros (s & lo & hi & [] & _).
  - inversion_clear HF as [|? ? K HF']. destruct (merge_one dest src s Hd Hs K) as (c1 & E & RS & L1 & C1 & B1 & M1).
    destruct (IH c1 src L1 Hs HF') as (c' & E' & (R & L & A1 & A2 & A3 & A4 & A5)).
    exists c'. split; [cbn [merge_cart]; rewrite E; exact E'|].
    assert (Ein : forall n, {In n t} + {~ In n t}) by (intros n; apply in_dec, list_eq_dec, Z.eq_dec).
    unfold merged. split; [|split; [exact L|]].
    { clear - R RS. unfold rest_same in *. intuition congruence. }
    split; [|split; [|split; [|split]]].
    + intros I. destruct (Ein n_lua) as [J|J]; [auto|]. rewrite A2, C1 by assumption. destruct I as [->|I]; [|contradiction].
      now rewrite zeqb_list_refl.
    + intros I. rewrite A2, C1 by (intros J; apply I; now right). destruct (zeqb_list s n_lua) eqn:Q; [|reflexivity].
      apply zeqb_list_true in Q. exfalso. apply I. now left.
    + intros I. destruct (Ein n_label) as [J|J]; [auto|]. rewrite A4, B1 by assumption. destruct I as [->|I]; [|contradiction].
      now rewrite zeqb_list_refl.
    + intros I. rewrite A4, B1 by (intros J; apply I; now right). destruct (zeqb_list s n_label) eqn:Q; [|reflexivity].
      apply zeqb_list_true in Q. exfalso. apply I. now left.
    + intros a Ha. destruct (A5 a Ha) as [P1 P2]. destruct (M1 a Ha) as [Q1 Q2].
      assert (CC : covered (s :: t) a <-> covered [s] a \/ covered t a).
      { split.
        - intros (n & lo & hi & [->|I] & R'); [left|right]; exists n, lo, hi; [split; [now left|exact R']|now split].
        - intros [(n & lo & hi & [->|[]] & R')|(n & lo & hi & I & R')]; exists n, lo, hi; [split; [now left|exact R']|].
          split; [now right|exact R']. }
      rewrite CC. destruct (covered_dec t a) as [T|T]; [split; auto; intros N; exfalso; auto|].
      rewrite P2 by exact T. split; intros N; [destruct N; [auto|contradiction]|apply Q2; tauto].
Qed.
Theorem merge_unknown sections : forall dest src s, zlen (c_rom dest) = 0x4300 -> zlen (c_rom src) = 0x4300 ->
  In s sections -> ~ known_section s -> is_ok (merge_cart dest src sections) = false.
Proof.
  induction sections as [|s0 t IH]; intros dest src s Hd Hs I N; [destruct I|]. cbn [merge_cart].
  assert (KD : forall n, {known_section n} + {~ known_section n}).
  { intros n. unfold known_section. destruct (list_eq_dec Z.eq_dec n n_lua); [left; auto|].
    destruct (list_eq_dec Z.eq_dec n n_label); [left; auto|].
    destruct (in_dec (list_eq_dec Z.eq_dec) n (map fst data_sections)); [left; auto|right; tauto]. }
  destruct (KD s0) as [K|K].
  - destruct I as [->|I]; [contradiction|]. destruct (merge_one dest src s0 Hd Hs K) as (c1 & E & _ & L1 & _).
    rewrite E. cbn [bind]. now apply (IH c1 src s).
  - assert (NE : forall n, known_section n -> zeqb_list s0 n = false).
    { intros n Kn. apply zeqb_list_false. intros ->. contradiction. }
    unfold merge_section.
    rewrite (NE str_lua) by (left; reflexivity). rewrite (NE str_gfx) by (right; right; cbn; auto).
    rewrite (NE str_map) by (right; right; cbn; auto). rewrite (NE str_gff) by (right; right; cbn; auto).
    rewrite (NE str_music) by (right; right; cbn; auto 10). rewrite (NE str_sfx) by (right; right; cbn; auto 10).
    rewrite (NE str_label) by (right; left; reflexivity).
    destruct (M_Text.starts_with str_meta s0); reflexivity.
Qed.
