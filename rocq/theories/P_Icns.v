(** C98: the icon of the app for macOS. *)
From Coq Require Import String.
From Coq Require Import List ZArith Bool Lia.
From Verif Require Import M_Base L_Util M_Expr M_Export M_Icns S_Icns.
Import ListNotations.
Open Scope list_scope.
Open Scope Z_scope.

Lemma side_is : Z.of_nat side = 128. Proof. reflexivity. Qed.
Lemma pixels_is : Z.of_nat pixels = 128 * 128. Proof. unfold pixels. now rewrite Nat2Z.inj_mul, side_is. Qed.
Global Opaque side pixels.
Lemma seq_from g k : forall n, map g (seq k n) = map (fun x => g (x + k)%nat) (seq 0 n) :> list Z.
Proof. induction n as [|n IH]; [reflexivity|]. rewrite !seq_S, !map_app, IH. cbn [map Nat.add]. now rewrite Nat.add_comm. Qed.
Lemma rows_flat g n : forall m, flat_map (fun y => map (fun x => g (x + y * n)%nat) (seq 0 n)) (seq 0 m) = map g (seq 0 (m * n)) :> list Z.
Proof.
  induction m as [|m IH]; [reflexivity|]. rewrite seq_S, flat_map_app, IH. cbn [flat_map Nat.add]. rewrite app_nil_r, Nat.mul_succ_l, seq_app, map_app. f_equal. cbn [Nat.add]. now rewrite (seq_from g (m * n)).
Qed.
Lemma packed_app a x : packed a x -> forall b y, packed b y -> packed (a ++ b) (x ++ y).
Proof.
  induction 1 as [|n bs rest out N L P IH|n c k rest out N L P IH]; intros b y Q; [exact Q| |].
  - cbn [app]. rewrite <- !app_assoc. constructor; auto.
  - cbn [app]. rewrite <- app_assoc. constructor; auto.
Qed.
Lemma packed_rows raw chans chan : forall l, packed (flat_map (icns_row raw chans chan) l) (flat_map (fun y => map (fun x => at_ raw ((x + y * side) * chans + chan)) (seq 0 side)) l).
Proof.
  induction l as [|y l IH]; [constructor|]. cbn [flat_map]. unfold icns_row at 1. cbn [app]. constructor; [lia| |exact IH]. rewrite map_length, seq_length, side_is. reflexivity.
Qed.
Definition plane_of (raw : list Z) (chans chan : nat) : list Z := map (fun i => at_ raw (i * chans + chan)) (seq 0 pixels).
Lemma plane_ok raw chans chan : (chan < chans)%nat -> (pixels * chans <= length raw)%nat -> plane raw chans chan pixels (plane_of raw chans chan).
Proof.
  intros C L. split; [unfold plane_of; now rewrite map_length, seq_length|]. intros i I. unfold plane_of. rewrite nth_error_map, (nth_error_nth' (seq 0 pixels) 0%nat) by (now rewrite seq_length).
  rewrite seq_nth by exact I. cbn [option_map Nat.add]. unfold at_. symmetry. apply nth_error_nth'. nia.
Qed.
Lemma pixels_side : pixels = (side * side)%nat. Proof. apply Nat2Z.inj. now rewrite pixels_is, Nat2Z.inj_mul, side_is. Qed.
Lemma rows_plane raw chans chan : flat_map (fun y => map (fun x => at_ raw ((x + y * side) * chans + chan)) (seq 0 side)) (seq 0 side) = plane_of raw chans chan.
Proof. unfold plane_of. rewrite pixels_side. exact (rows_flat (fun i => at_ raw (i * chans + chan)) side side). Qed.
Lemma mask_plane raw a : icns_mask raw a = if a then plane_of raw 4 3 else repeat 255 pixels.
Proof.
  unfold icns_mask. destruct a; [apply rows_plane|]. rewrite (rows_flat (fun _ => 255)), <- pixels_side.
  assert (K : forall k n, map (fun _ : nat => 255) (seq k n) = repeat 255 n); [|apply K]. intros k n. revert k. induction n as [|n IH]; intros k; [reflexivity|]. cbn [seq map repeat]. now rewrite IH.
Qed.
Lemma rows_length raw chans chan : forall l, length (flat_map (icns_row raw chans chan) l) = (length l * S side)%nat.
Proof. induction l as [|y l IH]; [reflexivity|]. cbn [flat_map]. rewrite app_length, IH. unfold icns_row. cbn [length]. rewrite map_length, seq_length. lia. Qed.
Lemma number_of v : 0 <= v < 4294967296 -> exists b, w_u32be v = Ok b /\ number b v /\ length b = 4%nat.
Proof.
  intros V. unfold w_u32be. replace ((0 <=? v) && (v <? 4294967296)) with true by (symmetry; apply andb_true_intro; lia). eexists. split; [reflexivity|]. split; [|reflexivity].
  eexists _, _, _, _. split; [reflexivity|]. split.
  - repeat constructor; Z.div_mod_to_equations; lia.
  - Z.div_mod_to_equations. lia.
Qed.

(** For any label, with or without an alpha channel, the file is an icns file; unpacked, its colours are the red, the green and the blue of
    all pixels, in order, and its mask is their alpha, or opaque.  [n] is the number of pixels. *)
Theorem C98_icon : forall raw (has_alpha : bool) n, Z.of_nat n = 128 * 128 -> let chans := if has_alpha then 4%nat else 3%nat in (n * chans <= length raw)%nat ->
  exists file colours mask r g b, create_icns_data raw has_alpha = Ok file /\
    icns_file file [(asc "it32", [0; 0; 0; 0] ++ colours); (asc "t8mk", mask)] /\
    packed colours (r ++ g ++ b) /\ plane raw chans 0 n r /\ plane raw chans 1 n g /\ plane raw chans 2 n b /\
    if has_alpha then plane raw chans 3 n mask else mask = repeat 255 n.
Proof.
  intros raw a px Ep chans L. assert (px = pixels) by (apply Nat2Z.inj; now rewrite pixels_is). subst px. unfold create_icns_data. change (num_chan a) with chans. replace (length raw <? pixels * chans)%nat with false by (symmetry; apply Nat.ltb_ge; exact L).
  destruct (number_of (12 + 128 * 129 * 3) ltac:(lia)) as (n1 & -> & N1 & L1). cbn [M_Base.bind]. change (w_u32be 0) with (Ok [0; 0; 0; 0]). cbn [M_Base.bind].
  destruct (number_of (8 + 128 * 128) ltac:(lia)) as (n2 & -> & N2 & L2). cbn [M_Base.bind].
  set (cs := icns_colours raw chans). set (mask := icns_mask raw a).
  assert (Lc : Z.of_nat (length cs) = 128 * 129 * 3).
  { unfold cs, icns_colours. cbn [seq flat_map]. rewrite app_nil_r, !app_length, !rows_length, seq_length. rewrite !Nat2Z.inj_add, Nat2Z.inj_mul, Nat2Z.inj_succ, side_is. reflexivity. }
  assert (Lm : Z.of_nat (length mask) = 128 * 128).
  { unfold mask. rewrite mask_plane. destruct a; [unfold plane_of; rewrite map_length, seq_length|rewrite repeat_length]; exact pixels_is. }
  set (data := asc "it32" ++ n1 ++ [0; 0; 0; 0] ++ cs ++ asc "t8mk" ++ n2 ++ mask).
  assert (Ld : Z.of_nat (length data) = 20 + 128 * 129 * 3 + 128 * 128).
  { unfold data. rewrite !app_length, L1, L2. cbn [length asc]. change (length (asc "it32")) with 4%nat. change (length (asc "t8mk")) with 4%nat. lia. }
  destruct (number_of (4 + 4 + Z.of_nat (length data)) ltac:(lia)) as (n & -> & N & Ln). cbn [M_Base.bind].
  exists (asc "icns" ++ n ++ data), cs, mask, (plane_of raw chans 0), (plane_of raw chans 1), (plane_of raw chans 2).
  split; [reflexivity|]. split; [|split; [|split; [|split; [|split]]]].
  - exists n, data. split; [reflexivity|]. split.
    + rewrite !app_length, Ln. change (length (asc "icns")) with 4%nat. rewrite !Nat2Z.inj_add. replace (Z.of_nat 4 + (Z.of_nat 4 + Z.of_nat (length data))) with (4 + 4 + Z.of_nat (length data)) by lia. exact N.
    + unfold data. replace (asc "it32" ++ n1 ++ [0; 0; 0; 0] ++ cs ++ asc "t8mk" ++ n2 ++ mask) with (asc "it32" ++ n1 ++ ([0; 0; 0; 0] ++ cs) ++ (asc "t8mk" ++ n2 ++ mask ++ [])) by (now rewrite app_nil_r, <- !app_assoc).
      constructor; [reflexivity| |].
      * rewrite app_length, Nat2Z.inj_add, Lc. exact N1.
      * constructor; [reflexivity| |constructor]. rewrite Lm. exact N2.
  - unfold cs, icns_colours. cbn [seq flat_map]. rewrite app_nil_r, <- !rows_plane. apply packed_app; [apply packed_rows|]. apply packed_app; apply packed_rows.
  - apply plane_ok; [destruct a; cbn; lia|exact L].
  - apply plane_ok; [destruct a; cbn; lia|exact L].
  - apply plane_ok; [destruct a; cbn; lia|exact L].
  - unfold mask. rewrite mask_plane. destruct a; [apply plane_ok; [cbn; lia|exact L]|reflexivity].
Qed.
(** What unpacks from packed bytes is one text alone. *)
Theorem C98_unique : forall c x, packed c x -> forall y, packed c y -> x = y.
Proof.
  induction 1 as [|n bs rest out N L P IH|n b k rest out N L P IH]; intros y Q.
  - now inversion Q.
  - inversion Q as [|n' bs' rest' out' N' L' P' E|n' b' k' rest' out' N' L' P' E]; subst; [|lia].
    assert (E' : bs = bs' /\ rest = rest').
    { match goal with H : bs' ++ rest' = bs ++ rest |- _ => rename H into H0 end. assert (LL : length bs' = length bs) by lia. revert H0 LL. clear. revert bs'. induction bs as [|c bs IH]; intros [|d bs']; cbn; intros E H; try discriminate; [auto|].
      injection E as -> E. injection H as H. destruct (IH bs' E H) as (-> & ->). auto. }
    destruct E' as (<- & <-). now rewrite (IH out' P').
  - inversion Q as [|n' bs' rest' out' N' L' P' E|n' b' k' rest' out' N' L' P' E]; subst; [lia|]. replace k' with k by lia. now rewrite (IH out' P').
Qed.
(** So are the parts of a file. *)
Lemma app_same {A} : forall (a b c d : list A), a ++ b = c ++ d -> length a = length c -> a = c /\ b = d.
Proof.
  induction a as [|x a IH]; intros b [|y c] d E L; cbn [app length] in *; try discriminate L; [auto|]. injection E as -> E. injection L as L. destruct (IH b c d E L) as (-> & ->). auto.
Qed.
Lemma number_one b n m : number b n -> number b m -> n = m.
Proof. intros (a1 & a2 & a3 & a4 & -> & _ & ->) (b1 & b2 & b3 & b4 & [= <- <- <- <-] & _ & ->). reflexivity. Qed.
Lemma number_length b n : number b n -> length b = 4%nat.
Proof. now intros (a1 & a2 & a3 & a4 & -> & _). Qed.
Theorem C98_parts : forall file ps, icns_file file ps -> forall ps', icns_file file ps' -> ps = ps'.
Proof.
  assert (K : forall s ps, parts s ps -> forall s' ps', parts s' ps' -> s = s' -> ps = ps').
  { induction 1 as [|name len data rest ps N L P IH]; intros s' ps' [|name' len' data' rest' ps2 N' L' P'] E.
    - reflexivity.
    - apply (f_equal (@length Z)) in E. rewrite !app_length, N' in E. discriminate E.
    - apply (f_equal (@length Z)) in E. rewrite !app_length, N in E. discriminate E.
    - apply app_same in E as (<- & E); [|congruence]. apply app_same in E as (<- & E); [|now rewrite (number_length _ _ L), (number_length _ _ L')].
      pose proof (number_one _ _ _ L L') as D. apply app_same in E as (<- & E); [|lia]. f_equal. exact (IH _ _ P' E). }
  intros file ps (len & rest & -> & N & P) ps' (len' & rest' & E & N' & P'). apply app_same in E as (_ & E); [|reflexivity].
  apply app_same in E as (_ & E); [exact (K _ _ P _ _ P' E)|]. now rewrite (number_length _ _ N), (number_length _ _ N').
Qed.
(** With less data there is no file. *)
Theorem C98_short : forall raw (has_alpha : bool) n, Z.of_nat n = 128 * 128 -> (length raw < n * (if has_alpha then 4 else 3))%nat -> create_icns_data raw has_alpha = Err EIndex.
Proof. intros raw a px Ep L. assert (px = pixels) by (apply Nat2Z.inj; now rewrite pixels_is). subst px. unfold create_icns_data. change (num_chan a) with (if a then 4 else 3)%nat. apply Nat.ltb_lt in L. now rewrite L. Qed.
Print Assumptions C98_icon.
Print Assumptions C98_unique.
Print Assumptions C98_parts.
Print Assumptions C98_short.
(** ** A case: labels there are, with pixels that are not all the same *)
Definition ex_label : list Z := map (fun i => Z.of_nat i mod 256) (seq 0 (pixels * 3)).
Example ex_label_ok : Z.of_nat pixels = 128 * 128 /\ (pixels * 3 <= length ex_label)%nat /\ forall i, (i < pixels * 3)%nat -> nth_error ex_label i = Some (Z.of_nat i mod 256).
Proof.
  unfold ex_label. split; [exact pixels_is|]. split; [now rewrite map_length, seq_length|]. intros i I. rewrite nth_error_map, (nth_error_nth' (seq 0 (pixels * 3)) 0%nat) by (now rewrite seq_length). now rewrite seq_nth.
Qed.
Example ex_row : icns_row [1; 2; 3; 4; 5; 6] 3 1 0 <> [] /\ firstn 3 (icns_row [1; 2; 3; 4; 5; 6] 3 1 0) = [127; 2; 5].
Proof. split; [discriminate|]. Transparent side. reflexivity. Qed.
