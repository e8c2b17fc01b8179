(** Edits of pods. *)
From Coq Require Import String List.
From Verif Require Import M_Base L_Util M_Num M_Text M_Lz4 S_Lz4 L_Lz4 P_Lz4 M_Pxu L_Pxu M_Zbytes P_Zbytes M_Expr M_P64 M_Cart64 L_Cart64 L_PodPack M_Export S_Export L_Export L_ExportPod.
Import ListNotations.
Open Scope Z_scope.

Section Pod.
Context (utf8 : list Z -> bool).
Local Notation spelled := (spelled utf8).
Local Notation built := (built utf8).

(** * Writing an entry *)
Lemma name_text n : ~ In 0 n -> text_of 1 (map (fun c => [c]) n) n.
Proof.
  intros N. split; [clear; induction n as [|c n IH]; [easy|]; cbn; now rewrite <- IH|].
  apply Forall_forall. intros c I. apply in_map_iff in I as (x & <- & I). split; [easy|]. intros [= ->]. auto.
Qed.
Lemma name_field n size b : ~ In 0 n -> utf8 n = true -> write_zbytes n (Some size) 1 = Ok b ->
  length b = size /\ (bytes_ok n -> bytes_ok b) /\ forall r, r_zstr utf8 size (b ++ r) = Ok (n, r).
Proof.
  intros N U E. assert (Le : (length n <= size)%nat).
  { unfold write_zbytes in E. change (1 <? 1)%nat with false in E. cbn [andb negb assert_ bind] in E. rewrite Nat.mul_1_r in E.
    destruct (Nat.ltb_spec size (length n)); [discriminate|easy]. }
  assert (forall r, exists b', write_zbytes n (Some size) 1 = Ok b' /\ read_zbytes (Some size) 1 false (b' ++ r) = Ok (n, r) /\
    forall k, Some size = Some k -> length b' = (k * 1)%nat) as H.
  { intros r. apply (C53_roundtrip 1 (Some size) false _ n r ltac:(lia) (name_text n N)). intros k [= <-]. now rewrite map_length. }
  split; [|split].
  - destruct (H []) as (b' & E' & _ & L). rewrite E in E'. apply Ok_inj in E'. subst. rewrite (L size eq_refl). lia.
  - intros B. unfold write_zbytes in E. change (1 <? 1)%nat with false in E. cbn [andb negb assert_ bind] in E. destruct (_ <? _)%nat; [discriminate|]. apply Ok_inj in E. subst.
    apply Forall_app. split; [exact B|]. apply Forall_concat, Forall_forall. intros x I. apply repeat_spec in I. subst. constructor; [lia|constructor].
  - intros r. destruct (H r) as (b' & E' & R & _). rewrite E in E'. apply Ok_inj in E'. subst. unfold r_zstr. rewrite R. cbn [bind]. now rewrite U.
Qed.
Lemma name_written n size : (length n <= size)%nat -> exists b, write_zbytes n (Some size) 1 = Ok b.
Proof.
  intros L. unfold write_zbytes. change (1 <? 1)%nat with false. cbn [andb negb assert_ bind]. rewrite Nat.mul_1_r.
  replace (size <? length n)%nat with false by lia. eauto.
Qed.
Lemma bytes_field compress data b : bytes_ok data -> write_bytes compress data = Ok b ->
  bytes_ok b /\ (compress = true -> forall r, r_lz4 (b ++ r) = Ok (data, r)) /\ (compress = false -> b = data).
Proof.
  intros B E. unfold write_bytes in E. destruct compress.
  - apply bind_ok in E as (c & Ec & E). apply bind_ok in E as (n & En & E). apply Ok_inj in E. subst.
    split; [apply Forall_app; split; [now apply w_u32_bytes in En|now apply lz4_compress_bytes in Ec]|]. split; [|discriminate].
    intros _ r. unfold r_lz4. rewrite <- app_assoc, (w_u32_read _ _ En). cbn [bind]. unfold zlen. rewrite Nat2Z.id, r_bytes_app by reflexivity. cbn [bind].
    destruct (C10_roundtrip data true B) as (c' & Ec' & R). rewrite Ec in Ec'. apply Ok_inj in Ec'. subst. now rewrite R.
  - apply Ok_inj in E. subst. split; [exact B|]. split; [discriminate|reflexivity].
Qed.
Lemma colors_field l : Forall (fun '(r, g, b) => 0 <= r < 256 /\ 0 <= g < 256 /\ 0 <= b < 256) l ->
  exists d, write_colors (length l) l = Ok d /\ bytes_ok d /\ forall r, r_colors (length l) (d ++ r) = Ok (l, r).
Proof.
  induction 1 as [|((r, g), b) l (R & G & B) _ (d & E & Bd & Rd)]; cbn [length write_colors r_colors].
  - exists []. now repeat split; try constructor.
  - unfold w_u8. replace (is_byte r) with true by (unfold is_byte; lia). replace (is_byte g) with true by (unfold is_byte; lia).
    replace (is_byte b) with true by (unfold is_byte; lia). cbn [bind]. rewrite E. cbn [bind]. eexists. split; [reflexivity|]. split.
    + cbn [app]. repeat (constructor; [lia|]). exact Bd.
    + intros r'. cbn [app r_u8 bind]. now rewrite Rd.
Qed.

Definition index_after (i : nat) (c : content) : nat := match c with CPal _ => 255 | _ => i end.
Lemma write_spelled i name c compress h new i' : fits utf8 (name, c) -> write_entry i name c compress = Ok (h, new, i') ->
  bytes_ok new /\ (forall pos fin, spelled new (mkentry h pos fin name c)) /\ i' = index_after i c.
Proof.
  destruct c as [b|w hh bpp data|l]; destruct name as [n|]; try easy.
  - intros (U & Bn & N0 & Ln & Bb & Ub) E. cbn [write_entry] in E. set (h0 := if compress then k_cmpr_file_header else k_file_header) in *.
    apply bind_ok in E as (z & Ez & E). apply bind_ok in E as (size & Es & E). apply bind_ok in E as (nm & En & E). apply bind_ok in E as (dt & Ed & E).
    apply Ok_inj in E. injection E as <- <- <-. destruct (name_field _ _ _ N0 U En) as (Lnm & Bnm & Rn). destruct (bytes_field _ _ _ Bb Ed) as (Bd & R1 & R2).
    split; [|split; [|reflexivity]].
    + apply Forall_app. split; [unfold h0; destruct compress; apply Forall_forall; cbn; intros ? I; lia|].
      apply Forall_app. split; [now apply w_u32_bytes in Ez|]. apply Forall_app. split; [now apply w_u32_bytes in Es|]. apply Forall_app. split; [exact (Bnm Bn)|exact Bd].
    + intros pos fin r. cbn [e_header e_name e_content]. unfold read_entry. rewrite <- !app_assoc, r_bytes_app by (unfold h0; now destruct compress). cbn [bind].
      replace (zeqb_list h0 k_file_header || zeqb_list h0 k_cmpr_file_header) with true by (unfold h0; now destruct compress). cbn iota.
      rewrite (w_u32_read _ _ Ez). cbn [bind Z.eqb check_]. rewrite (w_u32_read _ _ Es). cbn [bind]. rewrite Rn. cbn [bind].
      unfold h0. destruct compress.
      * change (zeqb_list k_cmpr_file_header k_cmpr_file_header) with true. cbn iota. rewrite R1 by reflexivity. reflexivity.
      * change (zeqb_list k_file_header k_cmpr_file_header) with false. cbn iota. rewrite R2 by reflexivity. unfold zlen. rewrite Nat2Z.id, r_bytes_app by reflexivity. reflexivity.
  - intros (Hb & Uw & Uh & Bb & Ub & Ls) E. cbn [write_entry] in E. set (h0 := if compress then k_cmpr_bmp_header else k_bmp_header) in *.
    replace ((bpp =? 8) || (bpp =? 32)) with true in E by lia. cbn [negb] in E.
    apply bind_ok in E as (size & Es & E). apply bind_ok in E as (bw & Ew & E). apply bind_ok in E as (bh & Eh & E). apply bind_ok in E as (bb & Eb & E).
    apply bind_ok in E as (z & Ez & E). apply bind_ok in E as (dt & Ed & E). apply Ok_inj in E. injection E as <- <- <-.
    destruct (bytes_field _ _ _ Bb Ed) as (Bd & R1 & R2). split; [|split; [|reflexivity]].
    + apply Forall_app. split; [unfold h0; destruct compress; apply Forall_forall; cbn; intros ? I; lia|].
      repeat (apply Forall_app; split; [eapply w_u32_bytes; eassumption|]). exact Bd.
    + intros pos fin r. cbn [e_header e_name e_content]. unfold read_entry. rewrite <- !app_assoc, r_bytes_app by (unfold h0; now destruct compress). cbn [bind].
      replace (zeqb_list h0 k_file_header || zeqb_list h0 k_cmpr_file_header) with false by (unfold h0; now destruct compress).
      replace (zeqb_list h0 k_bmp_header || zeqb_list h0 k_cmpr_bmp_header) with true by (unfold h0; now destruct compress). cbn iota.
      rewrite (w_u32_read _ _ Es). cbn [bind]. rewrite (w_u32_read _ _ Ew). cbn [bind]. rewrite (w_u32_read _ _ Eh). cbn [bind]. rewrite (w_u32_read _ _ Eb). cbn [bind].
      rewrite (w_u32_read _ _ Ez). cbn [bind Z.eqb check_]. rewrite (w_u32_read _ _ Ez). cbn [bind Z.eqb check_].
      assert (from_data w hh bpp data = Ok (CBmp w hh bpp data)) as F.
      { unfold from_data. replace ((bpp =? 8) || (bpp =? 32)) with true by lia. cbn [negb]. rewrite <- Ls. unfold zlen. rewrite Nat2Z.id, Nat.ltb_irrefl, firstn_all. reflexivity. }
      unfold h0. destruct compress.
      * change (zeqb_list k_cmpr_bmp_header k_cmpr_bmp_header) with true. cbn iota. rewrite R1 by reflexivity. cbn [bind]. now rewrite F.
      * change (zeqb_list k_bmp_header k_cmpr_bmp_header) with false. cbn iota. rewrite R2 by reflexivity.
        replace (zlen data + 20 <? 20) with false by (unfold zlen; lia). replace (Z.to_nat (zlen data + 20 - 20)) with (length data) by (unfold zlen; lia).
        rewrite r_bytes_app by reflexivity. cbn [bind]. now rewrite F.
  - intros (Ll & F) E. cbn [write_entry] in E. destruct compress; [discriminate|]. apply bind_ok in E as (size & Es & E). apply bind_ok in E as (dt & Ed & E).
    apply Ok_inj in E. injection E as <- <- <-. destruct (colors_field l F) as (d & Ed' & Bd & Rd). unfold k_num_colors in Ed. rewrite <- Ll in Ed. rewrite Ed in Ed'. apply Ok_inj in Ed'. subst d.
    split; [|split; [|reflexivity]].
    + repeat (constructor; [lia|]). apply Forall_app. split; [now apply w_u32_bytes in Es|exact Bd].
    + intros pos fin r. cbn [e_header e_name e_content]. unfold read_entry. change (67 :: 80 :: 65 :: 76 :: size ++ dt) with (k_pal_header ++ size ++ dt). rewrite <- !app_assoc, r_bytes_app by reflexivity. cbn [bind].
      change (zeqb_list k_pal_header k_file_header || zeqb_list k_pal_header k_cmpr_file_header) with false.
      change (zeqb_list k_pal_header k_bmp_header || zeqb_list k_pal_header k_cmpr_bmp_header) with false.
      change (zeqb_list k_pal_header k_pal_header) with true. cbn iota. rewrite (w_u32_read _ _ Es). cbn [bind]. change (3 * 256 =? 3 * 256) with true. cbn [check_ bind].
      unfold k_num_colors. rewrite <- Ll, Rd. reflexivity.
Qed.

(** * Edits *)
Lemma count_replaced hd (b b' : list Z) rest : length hd = 44%nat -> length b = 4%nat -> replace_between (hd ++ b ++ rest) 44 48 b' = hd ++ b' ++ rest.
Proof. intros L1 L2. unfold replace_between. rewrite firstn_exact by exact L1. rewrite (app_assoc hd b rest), (skipn_exact 48) by (rewrite app_length; lia). reflexivity. Qed.
Lemma between_split {A} (x m y v : list A) i j : i = length x -> j = (length x + length m)%nat -> replace_between (x ++ m ++ y) i j v = x ++ v ++ y.
Proof.
  intros -> ->. unfold replace_between. rewrite firstn_exact by reflexivity. rewrite (app_assoc x m y), skipn_exact; [reflexivity|]. now rewrite app_length.
Qed.
Lemma insert_at {A} (x y : list A) v i : i = length x -> list_insert (x ++ y) i v = x ++ v :: y.
Proof. intros ->. unfold list_insert. now rewrite firstn_exact, skipn_exact. Qed.
Lemma split_len {A} (cs : list A) n : (n <= length cs)%nat -> exists x y, cs = x ++ y /\ length x = n.
Proof. intros L. exists (firstn n cs), (skipn n cs). split; [now rewrite firstn_skipn|]. rewrite firstn_length. lia. Qed.

Lemma built_at hd jk cs p : built hd jk cs p -> map (at_entry (p_data p)) (p_entries p) = cs.
Proof.
  intros ((Lh & _) & Lj & _ & _ & L & _ & b & Eb & ->). rewrite <- (app_nil_r (concat cs)).
  replace (hd ++ b ++ jk ++ concat cs ++ []) with ((hd ++ b ++ jk) ++ concat cs ++ []) by now rewrite <- !app_assoc.
  apply (laid_at utf8 _ _ _ L). rewrite !app_length, (w_u32_len _ _ Eb). lia.
Qed.
Lemma built_bytes hd jk x1 y1 p ex1 ey1 : built hd jk (x1 ++ y1) p -> p_entries p = ex1 ++ ey1 -> length x1 = length ex1 ->
  map (at_entry (p_data p)) ex1 = x1 /\ map (at_entry (p_data p)) ey1 = y1.
Proof.
  intros B E L. apply built_at in B. rewrite E, map_app in B. apply app_eq_app in B as (l & [(A & B)|(A & B)]);
    apply (f_equal (@length _)) in A as A'; rewrite app_length, map_length in A'; (destruct l; [|cbn in A'; lia]); rewrite app_nil_r in A; now rewrite A, B.
Qed.

Theorem insert_built p x y i name c compress p' : sound utf8 p -> p_entries p = x ++ y -> i = length x -> fits utf8 (name, c) ->
  match c with CPal _ => i = 255%nat \/ (y = [] /\ (i <= 255)%nat) | _ => True end ->
  insert_content p i name c compress = Ok p' ->
  sound utf8 p' /\ exists e x' y', p_entries p' = x' ++ e :: y' /\ item_of e = (name, c) /\ other_bytes p p' x y x' y'.
Proof.
  intros So Ep -> F Pal E. destruct (sound_built utf8 p So) as (hd & jk & cs & B). pose proof B as ((Lh & Bh & Rh) & Lj & Bj & Bc & L & U & b & Eb & Ed).
  rewrite Ep in L. destruct (split_len cs (length x)) as (cx & cy & -> & Lx); [rewrite (laid_len utf8 _ _ _ L), app_length; lia|].
  pose proof L as L0. apply laid_app in L as (L1 & L2); [|exact Lx].
  unfold insert_content in E. set (pos := match nth_error (p_entries p) (length x) with Some e => e_pos e | None => length (p_data p) end) in *.
  assert (pos = 76 + length (concat cx))%nat as Hpos.
  { unfold pos. rewrite Ep. destruct y as [|e y].
    - rewrite app_nil_r. rewrite (proj2 (nth_error_None x (length x)) (le_n _)). rewrite Ed, !app_length, Lh, Lj, (w_u32_len _ _ Eb).
      destruct cy; [|easy]. rewrite app_nil_r. lia.
    - rewrite nth_error_app2, Nat.sub_diag by lia. cbn. destruct cy as [|c0 cy]; [easy|]. now destruct L2 as (_ & -> & _). }
  clearbody pos.
  apply bind_ok in E as (((h, new), i') & Ew & E). destruct (write_spelled _ _ _ _ _ _ _ F Ew) as (Bn & Sp & ->).
  apply bind_ok in E as (data & Eu & E). apply Ok_inj in E.
  set (e := mkentry h pos (pos + length new) name c) in *.
  set (y' := map (fun e => mkentry (e_header e) (e_pos e + length new) (e_end e + length new) (e_name e) (e_content e)) y).
  assert (shift_up (list_insert (p_entries p) (index_after (length x) c) e) (index_after (length x) c + 1) (length new) = x ++ e :: y') as Es.
  { rewrite Ep. unfold shift_up.
    assert (index_after (length x) c = length x \/ (y = [] /\ (length x <= index_after (length x) c)%nat)) as [-> | (-> & Li)].
    { destruct c; cbn; [now left|now left|]. destruct Pal as [-> |(-> & Hl)]; [now left|right]. split; [reflexivity|exact Hl]. }
    - rewrite insert_at by reflexivity. change (e :: y) with ([e] ++ y). rewrite app_assoc.
      rewrite firstn_exact, skipn_exact by (rewrite app_length; reflexivity). now rewrite <- app_assoc.
    - unfold y'. rewrite app_nil_r. cbn [map]. unfold list_insert. rewrite (firstn_all2 x), (skipn_all2 x) by exact Li.
      rewrite firstn_all2, skipn_all2 by (rewrite app_length; cbn; lia). cbn. now rewrite app_nil_r. }
  rewrite Es in Eu, E. unfold update_count in Eu. apply bind_ok in Eu as (b' & Eb' & Eu). destruct (length _ <? 48)%nat; [discriminate|]. apply Ok_inj in Eu.
  assert (Dd : replace_between (p_data p) pos pos new = hd ++ b ++ jk ++ concat (cx ++ new :: cy)).
  { rewrite Ed, concat_app.
    replace (hd ++ b ++ jk ++ concat cx ++ concat cy) with ((hd ++ b ++ jk ++ concat cx) ++ [] ++ concat cy) by (cbn; now rewrite <- !app_assoc).
    rewrite between_split; [rewrite concat_app; cbn; now rewrite <- !app_assoc| |]; rewrite !app_length, (w_u32_len _ _ Eb); cbn; lia. }
  rewrite Dd, count_replaced in Eu; [|exact Lh|now apply w_u32_len in Eb].
  assert (B' : built hd jk (cx ++ new :: cy) p').
  { rewrite <- E. split; [now repeat split|]. split; [exact Lj|]. split; [exact Bj|]. split; [apply Forall_app in Bc as (B1 & B2); apply Forall_app; split; [exact B1|now constructor]|].
    split; [|split].
    - cbn [p_entries]. apply laid_app; [exact Lx|]. split; [exact L1|]. cbn [laid]. rewrite <- Hpos. split; [apply Sp|]. split; [reflexivity|]. split; [reflexivity|].
      apply (laid_move utf8 (fun n => n + length new)%nat 0 cy pos y); [intros; lia|]. now rewrite Hpos.
    - cbn [p_entries]. unfold w_u32 in Eb'. destruct ((0 <=? _) && (_ <? _)) eqn:Ec; [|discriminate]. unfold u32_ok. lia.
    - exists b'. split; [exact Eb'|]. now rewrite <- Eu. }
  split; [now apply built_sound in B'|]. exists e, x, y'. split; [now rewrite <- E|]. split; [reflexivity|].
  destruct (built_bytes _ _ _ _ _ _ _ B Ep Lx) as (A1 & A2).
  destruct (built_bytes hd jk cx (new :: cy) p' x (e :: y') B' ltac:(now rewrite <- E) Lx) as (A3 & A4). cbn [map] in A4. injection A4 as _ A4.
  unfold other_bytes. rewrite A1, A2, A3, A4. repeat split. unfold y'. rewrite map_map. now apply map_ext.
Qed.

Theorem delete_built p x e0 y i p' : sound utf8 p -> p_entries p = x ++ e0 :: y -> i = length x ->
  delete_content p i = Ok p' -> sound utf8 p' /\ exists y', p_entries p' = x ++ y' /\ other_bytes p p' x y x y'.
Proof.
  intros So Ep -> E. destruct (sound_built utf8 p So) as (hd & jk & cs & B). pose proof B as ((Lh & Bh & Rh) & Lj & Bj & Bc & L & U & b & Eb & Ed).
  rewrite Ep in L. destruct (split_len cs (length x)) as (cx & cy & -> & Lx); [rewrite (laid_len utf8 _ _ _ L), app_length; lia|].
  pose proof L as L0. apply laid_app in L as (L1 & L2); [|exact Lx]. destruct cy as [|c0 cy]; [easy|]. destruct L2 as (Sp0 & P1 & P2 & L2).
  unfold delete_content in E. rewrite Ep, nth_error_app2, Nat.sub_diag in E by lia. cbn [nth_error] in E.
  replace (e_end e0 - e_pos e0)%nat with (length c0) in E by lia.
  set (y' := map (fun e => mkentry (e_header e) (e_pos e - length c0) (e_end e - length c0) (e_name e) (e_content e)) y).
  assert (shift_down (list_delete (x ++ e0 :: y) (length x)) (length x) (length c0) = x ++ y') as Es.
  { assert (list_delete (x ++ e0 :: y) (length x) = x ++ y) as ->.
    { unfold list_delete. rewrite firstn_exact by reflexivity. f_equal. replace (x ++ e0 :: y) with ((x ++ [e0]) ++ y) by now rewrite <- app_assoc.
      apply skipn_exact. rewrite app_length. cbn. lia. }
    unfold shift_down. now rewrite firstn_exact, skipn_exact. }
  rewrite Es in E. apply bind_ok in E as (data & Eu & E). apply Ok_inj in E.
  unfold update_count in Eu. apply bind_ok in Eu as (b' & Eb' & Eu). destruct (length _ <? 48)%nat; [discriminate|]. apply Ok_inj in Eu.
  assert (Dd : replace_between (p_data p) (e_pos e0) (e_end e0) [] = hd ++ b ++ jk ++ concat (cx ++ cy)).
  { rewrite Ed, concat_app. cbn [concat].
    replace (hd ++ b ++ jk ++ concat cx ++ c0 ++ concat cy) with ((hd ++ b ++ jk ++ concat cx) ++ c0 ++ concat cy) by (cbn; now rewrite <- !app_assoc).
    rewrite between_split; [rewrite concat_app; cbn; now rewrite <- !app_assoc| |]; rewrite !app_length, (w_u32_len _ _ Eb); cbn; lia. }
  rewrite Dd, count_replaced in Eu; [|exact Lh|now apply w_u32_len in Eb].
  assert (B' : built hd jk (cx ++ cy) p').
  { rewrite <- E. split; [now repeat split|]. split; [exact Lj|]. split; [exact Bj|]. split; [apply Forall_app in Bc as (B1 & B2); inversion_clear B2; apply Forall_app; now split|].
    split; [|split].
    - cbn [p_entries]. apply laid_app; [exact Lx|]. split; [exact L1|].
      pose proof (laid_move utf8 (fun n => n - length c0)%nat 0 cy (76 + length (concat cx) + length c0)%nat y ltac:(cbv beta; intros; lia) L2) as M. cbv beta in M. now rewrite Nat.add_sub in M.
    - cbn [p_entries]. unfold w_u32 in Eb'. destruct ((0 <=? _) && (_ <? _)) eqn:Ec; [|discriminate]. unfold u32_ok. lia.
    - exists b'. split; [exact Eb'|]. now rewrite <- Eu. }
  split; [now apply built_sound in B'|]. exists y'. split; [now rewrite <- E|].
  destruct (built_bytes _ _ _ _ _ _ _ B Ep Lx) as (A1 & A2). cbn [map] in A2. injection A2 as _ A2.
  destruct (built_bytes hd jk cx cy p' x y' B' ltac:(now rewrite <- E) Lx) as (A3 & A4).
  unfold other_bytes. rewrite A1, A2, A3, A4. repeat split. unfold y'. rewrite map_map. now apply map_ext.
Qed.

(** * Edits in place *)
Lemma file_chunk c e b : spelled c e -> e_content e = CFile b ->
  exists hd z sz nm body n, c = hd ++ z ++ sz ++ nm ++ body /\ length hd = 4%nat /\ length z = 4%nat /\ length sz = 4%nat /\ length nm = 64%nat /\ e_name e = Some n /\
    (forall nm' n' pos fin, (forall r, r_zstr utf8 64 (nm' ++ r) = Ok (n', r)) -> spelled (hd ++ z ++ sz ++ nm' ++ body) (mkentry (e_header e) pos fin (Some n') (CFile b))) /\
    (e_header e = k_file_header -> body = b /\
      forall b' pos fin, length b' = length b -> spelled (hd ++ z ++ sz ++ nm ++ b') (mkentry (e_header e) pos fin (Some n) (CFile b'))).
Proof.
  intros Sp Ec. pose proof (Sp []) as E. rewrite Ec in E. unfold read_entry in E.
  apply bind_ok in E as ((hd, d1) & E1 & E). apply r_bytes_inv in E1 as (E1 & L1).
  destruct (zeqb_list hd k_file_header || zeqb_list hd k_cmpr_file_header) eqn:Eh.
  2: { exfalso. destruct (zeqb_list hd k_bmp_header || zeqb_list hd k_cmpr_bmp_header).
       - do 5 (apply bind_ok in E as ((? & ?) & _ & E)). apply bind_ok in E as (? & _ & E). apply bind_ok in E as ((? & ?) & _ & E). apply bind_ok in E as (? & _ & E).
         apply bind_ok in E as ((? & ?) & _ & E). apply bind_ok in E as (ct & F & E). apply Ok_inj in E. injection E as _ _ -> _.
         unfold from_data in F. destruct (negb _); [discriminate|]. destruct (_ <? _)%nat; [discriminate|]. apply Ok_inj in F. discriminate.
       - destruct (zeqb_list hd k_pal_header); [|discriminate]. apply bind_ok in E as ((? & ?) & _ & E). apply bind_ok in E as (? & _ & E).
         apply bind_ok in E as ((? & ?) & _ & E). apply Ok_inj in E. discriminate. }
  apply bind_ok in E as ((z, d2) & E2 & E). apply local_len4 in E2 as (c2 & E2 & L2 & F2). apply bind_ok in E as (t & C & E). destruct t.
  apply bind_ok in E as ((size, d3) & E3 & E). apply local_len4 in E3 as (c3 & E3 & L3 & F3).
  apply bind_ok in E as ((nm, d4) & E4 & E). apply local_zstr_len in E4 as (c4 & E4 & L4 & F4).
  apply bind_ok in E as ((b0, d5) & E5 & E). apply Ok_inj in E. injection E as Eh' En -> ->.
  assert (exists body, d4 = body ++ [] /\ forall r, (if zeqb_list hd k_cmpr_file_header then r_lz4 (body ++ r) else r_bytes (Z.to_nat size) false (body ++ r)) = Ok (b, r)) as (body & E5' & F5).
  { destruct (zeqb_list hd k_cmpr_file_header); [apply local_lz4 in E5|apply local_bytes in E5]; exact E5. }
  exists hd, c2, c3, c4, body, nm.
  assert (Ecc : c = hd ++ c2 ++ c3 ++ c4 ++ body) by (rewrite app_nil_r in *; rewrite E1, E2, E3, E4, E5'; reflexivity).
  split; [exact Ecc|]. do 4 (split; [assumption|]). split; [now symmetry|]. split.
  - intros nm' n' pos fin R r. cbn [e_header e_name e_content]. unfold read_entry. rewrite <- !app_assoc, r_bytes_app by exact L1. cbn [bind]. rewrite Eh.
    rewrite F2. cbn [bind]. rewrite C. cbn [bind]. rewrite F3. cbn [bind]. rewrite R. cbn [bind]. rewrite F5. cbn [bind]. now rewrite Eh'.
  - intros K. rewrite <- Eh' in K. rewrite K in F5. change (zeqb_list k_file_header k_cmpr_file_header) with false in F5. cbn iota in F5.
    assert (body = b /\ length b = Z.to_nat size) as (-> & Lb).
    { pose proof (F5 []) as Q. apply r_bytes_inv in Q as (Q & L). now rewrite !app_nil_r in Q. }
    split; [reflexivity|]. intros b' pos fin Lb' r. cbn [e_header e_name e_content]. unfold read_entry. rewrite <- !app_assoc, r_bytes_app by exact L1. cbn [bind]. rewrite Eh.
    rewrite F2. cbn [bind]. rewrite C. cbn [bind]. rewrite F3. cbn [bind]. rewrite F4. cbn [bind]. rewrite <- Eh', K. change (zeqb_list k_file_header k_cmpr_file_header) with false. cbn iota.
    rewrite r_bytes_app by lia. reflexivity.
Qed.

(** [e'] takes the place of [e0], with as many bytes *)
Lemma place_built hd jk cx c0 cy p x e0 y c' e' b : built hd jk (cx ++ c0 :: cy) p -> p_entries p = x ++ e0 :: y -> length cx = length x ->
  w_u32 (zlen (p_entries p)) = Ok b ->
  length c' = length c0 -> bytes_ok c' -> spelled c' e' -> e_pos e' = e_pos e0 -> e_end e' = e_end e0 ->
  let p' := mkpod (hd ++ b ++ jk ++ concat (cx ++ c' :: cy)) (x ++ e' :: y) in
  sound utf8 p' /\ other_bytes p p' x y x y.
Proof.
  intros B Ep Lx Eb0 Lc Bc' Sp P1 P2 p'. pose proof B as (H & Lj & Bj & Bc & L & U & b0 & Eb & Ed). rewrite Eb in Eb0. apply Ok_inj in Eb0. subst b0.
  assert (Ln : zlen (x ++ e' :: y) = zlen (p_entries p)) by (rewrite Ep; unfold zlen; rewrite !app_length; reflexivity).
  assert (B' : built hd jk (cx ++ c' :: cy) p').
  { split; [exact H|]. split; [exact Lj|]. split; [exact Bj|]. split; [apply Forall_app in Bc as (B1 & B2); inversion_clear B2; apply Forall_app; split; [|constructor]; auto|].
    split; [|split].
    - cbn [p_entries p']. rewrite Ep in L. apply laid_app in L as (L1 & Q1 & Q2 & Q3 & L2); [|exact Lx]. apply laid_app; [exact Lx|]. split; [exact L1|].
      cbn [laid]. rewrite Lc. split; [exact Sp|]. split; [congruence|]. split; [congruence|exact L2].
    - cbn [p_entries p']. now rewrite Ln.
    - exists b. cbn [p_entries p_data p']. rewrite Ln. now split. }
  split; [now apply built_sound in B'|].
  destruct (built_bytes _ _ _ _ _ _ _ B Ep Lx) as (A1 & A2). cbn [map] in A2. injection A2 as _ A2.
  destruct (built_bytes hd jk cx (c' :: cy) p' x (e' :: y) B' eq_refl Lx) as (A3 & A4). apply (f_equal (@tl _)) in A4. cbn [map tl] in A4.
  unfold other_bytes. rewrite A1, A2, A3, A4. now repeat split.
Qed.

Lemma cut_at p x e0 y : sound utf8 p -> p_entries p = x ++ e0 :: y -> exists hd jk cx c0 cy b, built hd jk (cx ++ c0 :: cy) p /\ length cx = length x /\ spelled c0 e0 /\ bytes_ok c0 /\
  w_u32 (zlen (p_entries p)) = Ok b /\ p_data p = (hd ++ b ++ jk ++ concat cx) ++ c0 ++ concat cy /\ length (hd ++ b ++ jk ++ concat cx) = e_pos e0.
Proof.
  intros So Ep. destruct (sound_built utf8 p So) as (hd & jk & cs & B). pose proof B as ((Lh & Bh & Rh) & Lj & Bj & Bc & L & U & b & Eb & Ed).
  rewrite Ep in L. destruct (split_len cs (length x)) as (cx & cy & -> & Lx); [rewrite (laid_len utf8 _ _ _ L), app_length; lia|].
  apply laid_app in L as (L1 & L2); [|exact Lx]. destruct cy as [|c0 cy]; [easy|]. destruct L2 as (Sp0 & P1 & P2 & L2).
  exists hd, jk, cx, c0, cy, b. split; [exact B|]. split; [exact Lx|]. split; [exact Sp0|]. split; [apply Forall_app in Bc as (_ & Bc); now inversion_clear Bc|].
  split; [exact Eb|]. split.
  - rewrite Ed, concat_app. cbn [concat]. now rewrite <- !app_assoc.
  - rewrite !app_length, (w_u32_len _ _ Eb), Lh, Lj. lia.
Qed.

Theorem rename_built p x e0 y b0 i n p' : sound utf8 p -> p_entries p = x ++ e0 :: y -> i = length x -> e_content e0 = CFile b0 ->
  utf8 n = true -> bytes_ok n -> ~ In 0 n -> rename_content p i n = Ok p' ->
  sound utf8 p' /\ exists e', p_entries p' = x ++ e' :: y /\ item_of e' = (Some n, CFile b0) /\ other_bytes p p' x y x y.
Proof.
  intros So Ep -> Ec Un Bn N0 E. destruct (cut_at p x e0 y So Ep) as (hd & jk & cx & c0 & cy & b & B & Lx & Sp & Bc & Eb & Ed & Lp).
  unfold rename_content in E. rewrite Ep, nth_error_app2, Nat.sub_diag in E by lia. cbn [nth_error] in E. rewrite Ec in E.
  apply bind_ok in E as (nb & En & E). apply Ok_inj in E. destruct (name_field _ _ _ N0 Un En) as (Ln & Bnb & Rn).
  destruct (file_chunk c0 e0 b0 Sp Ec) as (h & z & sz & nm & body & n0 & Ec0 & L1 & L2 & L3 & L4 & En0 & Fn & _).
  set (e' := mkentry (e_header e0) (e_pos e0) (e_end e0) (Some n) (CFile b0)) in *.
  destruct (place_built hd jk cx c0 cy p x e0 y (h ++ z ++ sz ++ nb ++ body) e' b B Ep Lx Eb) as (So' & O).
  - rewrite Ec0, !app_length. lia.
  - rewrite Ec0 in Bc. repeat (apply Forall_app in Bc as (? & Bc); apply Forall_app; split; [assumption || exact (Bnb Bn)|]). exact Bc.
  - apply Fn. exact Rn.
  - reflexivity.
  - reflexivity.
  - assert (p' = mkpod (hd ++ b ++ jk ++ concat (cx ++ (h ++ z ++ sz ++ nb ++ body) :: cy)) (x ++ e' :: y)) as ->.
    { rewrite <- E. f_equal.
      - rewrite Ed, Ec0, concat_app. cbn [concat]. set (pre := hd ++ b ++ jk ++ concat cx) in *.
        replace (pre ++ (h ++ z ++ sz ++ nm ++ body) ++ concat cy) with ((pre ++ h ++ z ++ sz) ++ nm ++ (body ++ concat cy)) by now rewrite <- !app_assoc.
        rewrite between_split; [unfold pre; now rewrite <- !app_assoc| |]; rewrite !app_length, ?Ln; lia.
      - clear. induction x as [|a x IH]; [reflexivity|]. cbn. now rewrite IH. }
    split; [exact So'|]. exists e'. split; [reflexivity|]. split; [reflexivity|exact O].
Qed.

Theorem replace_built p x e0 y i c p' : sound utf8 p -> p_entries p = x ++ e0 :: y -> i = length x ->
  fits utf8 (e_name e0, c) -> match c with CPal _ => i = 255%nat \/ (y = [] /\ (i <= 255)%nat) | _ => True end ->
  replace_content p i c = Ok p' ->
  sound utf8 p' /\ exists e' x' y', p_entries p' = x' ++ e' :: y' /\ item_of e' = (e_name e0, c) /\ other_bytes p p' x y x' y'.
Proof.
  intros So Ep -> F Pal E. unfold replace_content in E. rewrite Ep, nth_error_app2, Nat.sub_diag in E by lia. cbn [nth_error] in E.
  assert (forall p', (p0 <- delete_content p (length x) ;; insert_content p0 (length x) (e_name e0) c false)%res = Ok p' ->
    sound utf8 p' /\ exists e' x' y', p_entries p' = x' ++ e' :: y' /\ item_of e' = (e_name e0, c) /\ other_bytes p p' x y x' y') as Again.
  { clear E p'. intros p' E. apply bind_ok in E as (p1 & E1 & E2). destruct (delete_built _ _ _ _ _ _ So Ep eq_refl E1) as (S1 & y1 & Ep1 & (_ & I1 & A1 & A2)).
    destruct (fun Q => insert_built p1 x y1 _ _ c false p' S1 Ep1 eq_refl F Q E2) as (S2 & e' & x' & y' & Ep2 & Ie & (J1 & J2 & J3 & J4)).
    - destruct c; [exact I|exact I|]. destruct Pal as [|(-> & Pal)]; [now left|right]. split; [|exact Pal]. now destruct y1.
    - split; [exact S2|]. exists e', x', y'. split; [exact Ep2|]. split; [exact Ie|]. repeat split; congruence. }
  destruct c as [new|w h bpp dt|l]; [|now apply Again|now apply Again]. destruct (e_content e0) as [old|? ? ? ?|?] eqn:Ec; [|now apply Again|now apply Again].
  destruct (zeqb_list (e_header e0) k_file_header && (length new =? length old)%nat) eqn:Ek; [|now apply Again].
  apply andb_prop in Ek as (Ek & El). apply zeqb_list_true in Ek. apply Nat.eqb_eq in El. apply Ok_inj in E.
  destruct (cut_at p x e0 y So Ep) as (hd & jk & cx & c0 & cy & b & B & Lx & Sp & Bc & Eb & Ed & Lp).
  destruct (file_chunk c0 e0 old Sp Ec) as (h & z & sz & nm & body & n0 & Ec0 & L1 & L2 & L3 & L4 & En0 & _ & Fb).
  destruct (Fb Ek) as (-> & Fb'). rewrite En0 in F. cbn in F. destruct F as (_ & _ & _ & _ & Bnew & _).
  set (e' := mkentry (e_header e0) (e_pos e0) (e_end e0) (e_name e0) (CFile new)) in *.
  destruct (place_built hd jk cx c0 cy p x e0 y (h ++ z ++ sz ++ nm ++ new) e' b B Ep Lx Eb) as (So' & O).
  - rewrite Ec0, !app_length. lia.
  - rewrite Ec0 in Bc. repeat (apply Forall_app in Bc as (? & Bc); apply Forall_app; split; [assumption|]). exact Bnew.
  - unfold e'. rewrite En0. now apply Fb'.
  - reflexivity.
  - reflexivity.
  - assert (p' = mkpod (hd ++ b ++ jk ++ concat (cx ++ (h ++ z ++ sz ++ nm ++ new) :: cy)) (x ++ e' :: y)) as ->.
    { rewrite <- E. f_equal.
      - rewrite Ed, Ec0, concat_app. cbn [concat]. set (pre := hd ++ b ++ jk ++ concat cx) in *.
        replace (pre ++ (h ++ z ++ sz ++ nm ++ old) ++ concat cy) with ((pre ++ h ++ z ++ sz ++ nm) ++ old ++ concat cy) by now rewrite <- !app_assoc.
        rewrite between_split; [unfold pre; now rewrite <- !app_assoc| |]; rewrite !app_length; lia.
      - clear. induction x as [|a x IH]; [reflexivity|]. cbn. now rewrite IH. }
    split; [exact So'|]. exists e', x, y. split; [reflexivity|]. split; [reflexivity|exact O].
Qed.

(** * Success *)
Lemma update_ok data es : u32_ok (zlen es) -> (48 <= length data)%nat -> exists d, update_count data es = Ok d.
Proof.
  intros U L. unfold update_count. destruct (r_u32_ok (zlen es) U) as (b & -> & _). cbn [bind]. replace (length data <? 48)%nat with false by lia. eauto.
Qed.
Lemma insert_ok p i name c (compress : bool) : sound utf8 p -> fits utf8 (name, c) -> u32_ok (zlen (p_entries p) + 1) ->
  (compress = true -> match c with CFile b => zlen b < 2147483647 | CBmp _ _ _ d => zlen d < 2147483647 | CPal _ => False end) ->
  exists p', insert_content p i name c compress = Ok p'.
Proof.
  intros (_ & Ld & _) F U Hc. unfold insert_content.
  assert (forall d, bytes_ok d -> (compress = true -> zlen d < 2147483647) -> exists b, write_bytes compress d = Ok b) as Hw.
  { intros d B Hd. unfold write_bytes. destruct compress; [|eauto]. destruct (lz4_compress_spec d B true) as (bytes & seqs & last & E & Bl & Sp & _). rewrite E. cbn [bind].
    pose proof (block_length _ _ _ Bl). rewrite (spells_length _ _ _ Sp) in H. destruct (r_u32_ok (zlen bytes)) as (b & -> & _); [specialize (Hd eq_refl); unfold zlen in *; lia|]. cbn. eauto. }
  assert (forall v, u32_ok v -> exists b, w_u32 v = Ok b) as Hu by (intros v Hv; destruct (r_u32_ok v Hv) as (b & -> & _); eauto).
  assert (exists h new i', write_entry i name c compress = Ok (h, new, i')) as (h & new & i' & Ew).
  { destruct c as [b|w hh bpp data|l]; destruct name as [n|]; try easy; cbn [write_entry].
    - destruct F as (U1 & Bn & N0 & Ln & Bb & Ub). destruct (Hu 0) as (? & ->); [unfold u32_ok; lia|]. cbn [bind]. destruct (Hu _ Ub) as (? & ->). cbn [bind].
      destruct (name_written n 64 Ln) as (? & ->). cbn [bind]. destruct (Hw b Bb Hc) as (? & ->). cbn [bind]. eauto.
    - destruct F as (Hb & Uw & Uh & Bb & Ub & Ls). replace ((bpp =? 8) || (bpp =? 32)) with true by lia. cbn [negb]. destruct (Hu _ Ub) as (? & ->). cbn [bind].
      destruct (Hu _ Uw) as (? & ->). cbn [bind]. destruct (Hu _ Uh) as (? & ->). cbn [bind]. destruct (Hu bpp) as (? & ->); [unfold u32_ok; lia|]. cbn [bind].
      destruct (Hu 0) as (? & ->); [unfold u32_ok; lia|]. cbn [bind]. destruct (Hw data Bb Hc) as (? & ->). cbn [bind]. eauto.
    - destruct compress; [destruct (Hc eq_refl)|]. destruct F as (Ll & F). destruct (Hu (3 * 256)) as (? & ->); [unfold u32_ok; lia|]. cbn [bind].
      destruct (colors_field l F) as (d & Ed & _). rewrite Ll in Ed. change 256%nat with k_num_colors in Ed. rewrite Ed. cbn [bind]. eauto. }
  rewrite Ew. cbn [bind].
  match goal with |- context [update_count ?d ?es] => destruct (update_ok d es) as (d' & E) end.
  - unfold shift_up, list_insert, zlen in *. rewrite app_length, map_length, <- app_length, firstn_skipn, app_length. cbn [length]. rewrite Nat.add_succ_r, <- app_length, firstn_skipn.
    unfold u32_ok in *. lia.
  - unfold replace_between. rewrite !app_length, firstn_length, skipn_length. lia.
  - rewrite E. cbn [bind]. eauto.
Qed.
Lemma delete_ok p i : sound utf8 p -> (i < length (p_entries p))%nat -> u32_ok (zlen (p_entries p)) -> exists p', delete_content p i = Ok p'.
Proof.
  intros So Li U. destruct (nth_error (p_entries p) i) as [e|] eqn:En; [|apply nth_error_None in En; lia].
  apply nth_error_split in En as (x & y & Ep & Lx). destruct (cut_at p x e y So Ep) as (hd & jk & cx & c0 & cy & b & B & Lx' & Sp & Bc & Eb & Ed & Lp).
  unfold delete_content. rewrite Ep, nth_error_app2, Lx, Nat.sub_diag by lia. cbn [nth_error].
  match goal with |- context [update_count ?d ?es] => destruct (update_ok d es) as (d' & E) end.
  - unfold shift_down, list_delete, zlen in *. rewrite app_length, map_length, <- app_length, firstn_skipn, app_length, firstn_length, skipn_length.
    rewrite Ep in U. unfold u32_ok in *. lia.
  - unfold replace_between. rewrite !app_length, firstn_length.
    assert (76 <= length (hd ++ b ++ jk ++ concat cx))%nat.
    { destruct B as ((Lh & _) & Lj & _). rewrite !app_length, (w_u32_len _ _ Eb). lia. }
    rewrite Ed, app_length. lia.
  - rewrite E. cbn [bind]. eauto.
Qed.
End Pod.
