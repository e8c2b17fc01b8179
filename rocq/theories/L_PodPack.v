(** Writing a pod to bytes and reading them. *)
From Coq Require Import String List ZArith Lia Bool.
From Verif Require Import M_Base L_Util M_Fold M_Num M_Token M_Str M_Charset M_Text M_Url M_P64 M_Expr M_Compress M_Lz77 M_Lz4 M_Pxu M_Pod S_Num S_Str S_Text S_Token S_Expr S_Pod S_Lz S_Lz4
  L_Str L_Token L_TextRead L_Url L_P64 L_Pxu L_Lz4 L_Luastr L_PodText L_Pod L_PodFmt L_PodBytes P_Lz4 P_Pxu.
Import ListNotations.
Open Scope Z_scope.

(** ** The bytes of userdata *)
Lemma w_u8_bytes v b : w_u8 v = Ok b -> bytes_ok b.
Proof. unfold w_u8, is_byte. destruct ((0 <=? v) && (v <? 256)) eqn:E; [|discriminate]. intros [= <-]. constructor; [lia|constructor]. Qed.
Lemma w_u16_bytes v b : w_u16 v = Ok b -> bytes_ok b.
Proof.
  unfold w_u16. destruct ((0 <=? v) && (v <? 65536)) eqn:E; [|discriminate]. intros H. apply ok_inj in H. subst b.
  constructor; [lia|]. constructor; [lia|constructor].
Qed.
Lemma w_u32_bytes v b : w_u32 v = Ok b -> bytes_ok b.
Proof.
  unfold w_u32. destruct ((0 <=? v) && (v <? 4294967296)) eqn:E; [|discriminate]. intros H. apply ok_inj in H. subst b.
  repeat (constructor; [lia|]). constructor.
Qed.
Lemma write_type_bytes t v b : write_type t v = Ok b -> bytes_ok b.
Proof. destruct t; [apply w_u8_bytes|apply w_u16_bytes]. Qed.
Lemma write_count_bytes fuel : forall v b, write_count fuel v = Ok b -> bytes_ok b.
Proof.
  induction fuel as [|fuel IH]; intros v b; cbn [write_count]; destruct (255 <=? v); try discriminate; try apply w_u8_bytes.
  destruct (write_count fuel (v - 255)) as [r|] eqn:E; [|discriminate]. intros [= <-]. constructor; [lia|now apply (IH (v - 255))].
Qed.
Lemma write_runs_bytes t bits fuel : forall mapping mtf data b, write_runs fuel t bits mapping mtf data = Ok b -> bytes_ok b.
Proof.
  induction fuel as [|fuel IH]; intros mapping mtf [|value data] b; cbn [write_runs]; try (intros [= <-]; constructor); try discriminate.
  destruct (run_of value data) as (n, data'). 
  match goal with |- (bind ?m _) = _ -> _ => destruct m as [((index, mapping'), mtf')|]; [|discriminate] end. cbn [bind].
  match goal with |- (bind ?m _) = _ -> _ => destruct m as [h|] eqn:Eh; [|discriminate] end. cbn [bind].
  match goal with |- (bind ?m _) = _ -> _ => destruct m as [v|] eqn:Ev; [|discriminate] end. cbn [bind].
  match goal with |- (bind ?m _) = _ -> _ => destruct m as [c|] eqn:Ec; [|discriminate] end. cbn [bind].
  destruct (write_runs fuel t bits mapping' mtf' data') as [rest|] eqn:Er; [|discriminate]. intros [= <-].
  apply Forall_app. split; [now apply w_u8_bytes in Eh|]. apply Forall_app. split.
  { destruct (index =? _); [now apply write_type_bytes in Ev|]. injection Ev as <-. constructor. }
  apply Forall_app. split; [|now apply IH in Er]. destruct (_ <=? _); [now apply write_count_bytes in Ec|]. injection Ec as <-. constructor.
Qed.
Lemma write_pxu_bytes int16 u runtime b : write_pxu int16 u runtime = Ok (Some b) -> bytes_ok b /\ exists r, b = k_pxu_prefix ++ r.
Proof.
  unfold write_pxu. destruct (zeqb_list _ _); [discriminate|]. destruct (pxu_of_name (ud_type u)) as [t|]; [|discriminate].
  match goal with |- match ?m with _ => _ end = _ -> _ => destruct m as [(comp, bits)|] eqn:Eb; [|discriminate] end.
  assert (Hb : 0 <= bits < 256) by (destruct t; [injection Eb as _ <-; lia|destruct (21 <=? runtime); [injection Eb as _ <-; lia|discriminate]]).
  cbv zeta.
  match goal with |- (bind ?m _) = _ -> _ => destruct m as [f|] eqn:Ef; [|discriminate] end. cbn [bind].
  match goal with |- (bind ?m _) = _ -> _ => destruct m as [w|] eqn:Ew; [|discriminate] end. cbn [bind].
  match goal with |- (bind ?m _) = _ -> _ => destruct m as [h|] eqn:Eh; [|discriminate] end. cbn [bind].
  match goal with |- (bind ?m _) = _ -> _ => destruct m as [values|]; [|discriminate] end. cbn [bind].
  match goal with |- (bind ?m _) = _ -> _ => destruct m as [runs|] eqn:Er; [|discriminate] end. cbn [bind]. intros H. apply ok_inj in H. injection H as <-.
  split; [|now eexists]. do 4 (constructor; [lia|]).
  apply Forall_app. split; [now apply w_u16_bytes in Ef|]. apply Forall_app. split; [destruct (_ || _); [now apply w_u32_bytes in Ew|now apply w_u8_bytes in Ew]|].
  apply Forall_app. split.
  { destruct (negb _); [|injection Eh as <-; constructor]. destruct (_ || _); [now apply w_u32_bytes in Eh|now apply w_u8_bytes in Eh]. }
  constructor; [exact Hb|]. now apply write_runs_bytes in Er.
Qed.

(** ** The handler *)
Section Handler.
Context (isdigit : Z -> bool) (int16 : list Z -> option Z) (H16 : hex_reader int16) (o : write_opts).
Notation handler := (pxu_handler int16 o).
Notation kd := (keep isdigit handler).
Definition pxu_able (u : userdata) : Prop := exists t digits, u = mkud (pxu_name t) (ud_width u) (ud_height u) digits /\ Forall (is_digit 16) digits.
Lemma pxu_of_name_some s t : pxu_of_name s = Some t -> s = pxu_name t.
Proof.
  unfold pxu_of_name. destruct (zeqb_list s (pxu_name U8)) eqn:E; [apply zeqb_list_true in E; now intros [= <-]|].
  destruct (zeqb_list s (pxu_name I16)) eqn:E'; [apply zeqb_list_true in E'; now intros [= <-]|discriminate].
Qed.
Lemma ready_write u : pxu_ready u -> write_pxu int16 u (wo_runtime o) = Ok None \/
  pxu_able u /\ exists b, write_pxu int16 u (wo_runtime o) = Ok (Some b) /\ forall pre post, read_pxu (pre ++ b ++ post) (length pre) = Ok (u, (length pre + length b)%nat).
Proof.
  intros R. unfold write_pxu. destruct (zeqb_list (firstn 4 (ud_data u)) [104; 101; 120; 58]) eqn:E; [now left|].
  destruct (pxu_of_name (ud_type u)) as [t|] eqn:T; [|now left]. apply pxu_of_name_some in T as Et.
  assert (N : firstn 4 (ud_data u) <> asc "hex:") by (intros K; rewrite K in E; discriminate E).
  destruct (R t Et N) as (Hw & Hh & D & L).
  destruct (match t with U8 => Some (PMtf, 4) | I16 => if 21 <=? wo_runtime o then Some (PRle, 0) else None end) eqn:B; [|now left].
  right. assert (Hr : t = I16 -> 21 <= wo_runtime o) by (intros ->; destruct (Z.leb_spec 21 (wo_runtime o)); [assumption|discriminate]).
  destruct u as [ty w h ds]. cbn [ud_type ud_width ud_height ud_data] in *. subst ty. split; [exists t, ds; now split|].
  destruct (C12_roundtrip int16 t (wo_runtime o) w h ds [] [] H16 Hr Hw Hh D L) as (b & W & _). exists b. split.
  - unfold write_pxu in W. cbn [ud_type ud_width ud_height ud_data] in W. rewrite E, T, B in W. exact W.
  - intros pre post. destruct (C12_roundtrip int16 t (wo_runtime o) w h ds pre post H16 Hr Hw Hh D L) as (b' & W' & Rd). cbv zeta in W, W'. rewrite W in W'. injection W' as <-. exact Rd.
Qed.
Lemma ready_handled u : pxu_ready u -> handled isdigit handler u.
Proof.
  intros R. unfold handled, pxu_handler. destruct (wo_pxu o); [|now eexists]. destruct (ready_write u R) as [->|(_ & b & -> & _)]; cbn [bind]; eauto.
Qed.
Lemma ready_kept u : pxu_ready u -> kd u = true -> pxu_able u /\ bytes_ok (blob isdigit handler u) /\ (exists r, blob isdigit handler u = k_pxu_prefix ++ r) /\
  forall pre post, read_pxu (pre ++ blob isdigit handler u ++ post) (length pre) = Ok (u, (length pre + length (blob isdigit handler u))%nat).
Proof.
  intros R. unfold keep, blob, pxu_handler. destruct (wo_pxu o); [|discriminate]. destruct (ready_write u R) as [->|(A & b & W & Rd)]; [discriminate|]. rewrite W. cbn [bind].
  destruct (zlen b <? _); [|discriminate]. intros _. destruct (write_pxu_bytes _ _ _ _ W) as (B & X). auto.
Qed.
Lemma able_ascii u : pxu_able u -> Forall ascii (ud_type u) /\ Forall ascii (ud_data u).
Proof.
  clear. intros (t & ds & -> & D). cbn. split; [destruct t; cbn; repeat (constructor; [unfold ascii; lia|]); constructor|]. apply Forall_impl with (2 := D).
  intros c H. unfold is_digit, digit_value in H. unfold ascii. destruct H as (H & _). lia.
Qed.
End Handler.

(** ** Compression *)
Lemma u8_sum_bytes fuel : forall v b, write_u8_sum fuel v = Ok b -> bytes_ok b.
Proof.
  induction fuel as [|fuel IH]; intros v b; cbn [write_u8_sum]; [discriminate|]. cbv zeta. destruct (w_u8 (Z.min v 255)) as [x|] eqn:E; [|discriminate]. cbn [bind].
  apply w_u8_bytes in E. destruct (negb _); [now intros [= <-]|]. destruct (write_u8_sum fuel _) as [r|] eqn:Er; [|discriminate]. intros [= <-]. apply Forall_app. split; [exact E|now apply IH in Er].
Qed.
Lemma lits_bytes l : forall x, map_res w_u8 l = Ok x -> bytes_ok (concat x).
Proof.
  induction l as [|a l IH]; intros x; cbn [map_res]; [intros [= <-]; constructor|]. destruct (w_u8 a) as [b|] eqn:E; [|discriminate]. cbn [bind].
  destruct (map_res w_u8 l) as [r|]; [|discriminate]. intros [= <-]. cbn [concat]. apply Forall_app. split; [now apply w_u8_bytes in E|now apply IH].
Qed.
Lemma write_block_bytes lits it b : write_block lits it = Ok b -> bytes_ok b.
Proof.
  unfold write_block. cbv zeta.
  match goal with |- (bind ?m _) = _ -> _ => destruct m as [h|] eqn:Eh; [|discriminate] end. cbn [bind]. apply w_u8_bytes in Eh.
  match goal with |- (bind ?m _) = _ -> _ => destruct m as [e|] eqn:Ee; [|discriminate] end. cbn [bind].
  assert (He : bytes_ok e) by (destruct (_ <=? _); [now apply u8_sum_bytes in Ee|injection Ee as <-; constructor]).
  match goal with |- (bind ?m _) = _ -> _ => destruct m as [l|] eqn:El; [|discriminate] end. cbn [bind]. apply lits_bytes in El.
  destruct it as [(offset, count)|].
  - match goal with |- (bind ?m _) = _ -> _ => destruct m as [f|] eqn:Ef; [|discriminate] end. cbn [bind]. apply w_u16_bytes in Ef.
    match goal with |- (bind ?m _) = _ -> _ => destruct m as [g|] eqn:Eg; [|discriminate] end. cbn [bind]. intros H. apply ok_inj in H. subst b.
    assert (Hg : bytes_ok g) by (destruct (_ <=? _) in Eg; [now apply u8_sum_bytes in Eg|injection Eg as <-; constructor]).
    repeat (apply Forall_app; split; [assumption|]). assumption.
  - intros H. apply ok_inj in H. subst b. repeat (apply Forall_app; split; [assumption|]). assumption.
Qed.
Lemma lz4_write_bytes data its : forall lits b, lz4_write data its lits = Ok b -> bytes_ok b.
Proof.
  induction its as [|x its IH]; intros lits b; cbn [lz4_write]; [apply write_block_bytes|]. destruct (lz4_check data x); [|discriminate]. cbn [bind].
  destruct (lz4_item data lits x) as (blk, lits'). match goal with |- (bind ?m _) = _ -> _ => destruct m as [h|] eqn:Eh; [|discriminate] end. cbn [bind].
  destruct (lz4_write data its lits') as [r|] eqn:Er; [|discriminate]. intros [= <-]. apply Forall_app. split; [|now apply IH in Er].
  destruct blk as [(l, m)|]; [now apply write_block_bytes in Eh|injection Eh as <-; constructor].
Qed.
Lemma lz4_compress_bytes data fast b : lz4_compress data fast = Ok b -> bytes_ok b.
Proof. unfold lz4_compress. destruct (lz4_items data fast); [|discriminate]. cbn [bind]. apply lz4_write_bytes. Qed.
Definition bare (value : list Z) : Prop := match value with c :: _ => c <> 98 /\ c <> 108 | [] => True end.
Lemma bare_prefix p value c w : bare value -> p = c :: w -> c = 98 \/ c = 108 -> starts_with p value = false.
Proof.
  intros B -> C. destruct (starts_with (c :: w) value) eqn:E; [|reflexivity]. apply starts_with_iff in E as (r & ->). cbn in B. lia.
Qed.
Lemma unpack_packed (compress base64 : bool) value bytes : bytes_ok value -> bare value ->
  (v <- (if compress then
           compressed <- lz4_compress value false ;;
           s <- w_u32 (zlen compressed) ;;
           u <- w_u32 (zlen value) ;;
           let compressed_value := k_lz4_prefix ++ s ++ u ++ compressed in
           Ok (if zlen compressed_value <? zlen value then compressed_value else value)
         else Ok value) ;;
   Ok (if base64 then k_b64_prefix ++ b64_encode v else v))%res = Ok bytes -> unpack bytes = Ok value.
Proof.
  intros B Ba E.
  assert (N1 : starts_with k_b64_prefix value = false) by (now apply (bare_prefix _ _ 98 [54; 52; 58]); auto).
  assert (N2 : starts_with k_lz4_prefix value = false) by (now apply (bare_prefix _ _ 108 [122; 52; 0]); auto).
  match type of E with bind ?m _ = _ => destruct m as [packed|] eqn:Em; [|discriminate E] end. cbn [bind] in E.
  assert (K : unpack_lz4 packed = Ok value /\ bytes_ok packed /\ starts_with k_b64_prefix packed = false).
  { destruct compress; [|injection Em as <-; unfold unpack_lz4; now rewrite N2].
    destruct (lz4_compress_spec value B false) as (c & seqs & last & Ec & Bl & Sp & _). pose proof (lz4_uncompress_spec _ _ _ _ Bl Sp) as U. rewrite Ec in Em. cbn [bind] in Em.
    destruct (w_u32 (zlen c)) as [s|] eqn:Es; [|discriminate Em]. cbn [bind] in Em. destruct (w_u32 (zlen value)) as [u|] eqn:Eu; [|discriminate Em]. cbn [bind] in Em. cbv zeta in Em.
    apply ok_inj in Em. destruct (zlen _ <? zlen value) in Em; [|subst packed; unfold unpack_lz4; now rewrite N2]. subst packed.
    split; [|split].
    - unfold unpack_lz4. replace (starts_with k_lz4_prefix (k_lz4_prefix ++ s ++ u ++ c)) with true by (symmetry; apply starts_with_iff; now eexists).
      change (skipn 4 (k_lz4_prefix ++ s ++ u ++ c)) with (s ++ u ++ c).
      assert (Rs : forall v b, w_u32 v = Ok b -> forall d, r_u32 (b ++ d) = Ok (v, d)).
      { intros v b W d. assert (Hv : 0 <= v < 4294967296) by (unfold w_u32 in W; destruct ((0 <=? v) && (v <? 4294967296)) eqn:Q; [lia|discriminate]).
        destruct (r_u32_ok v Hv) as (b' & W' & R). rewrite W in W'. injection W' as ->. apply R. }
      rewrite (Rs _ _ Es). cbn [bind]. rewrite (Rs _ _ Eu). cbn [bind]. rewrite Z.sub_diag. cbn [Z.ltb Z.compare].
      unfold zlen. rewrite Nat2Z.id, firstn_all. exact U.
    - apply Forall_app. split; [unfold k_lz4_prefix; cbn; repeat (constructor; [lia|]); constructor|]. apply Forall_app. split; [now apply w_u32_bytes in Es|].
      apply Forall_app. split; [now apply w_u32_bytes in Eu|]. now apply lz4_compress_bytes in Ec.
    - reflexivity. }
  destruct K as (K1 & K2 & K3). apply ok_inj in E. unfold unpack. destruct base64; subst bytes; [|rewrite K3; exact K1].
  replace (starts_with k_b64_prefix (k_b64_prefix ++ b64_encode packed)) with true by (symmetry; apply starts_with_iff; now eexists).
  change (skipn 4 (k_b64_prefix ++ b64_encode packed)) with (b64_encode packed). rewrite (b64_loose_ok packed); [exact K1|exact K2|now apply b64_filter].
Qed.

Lemma more_length v l : more_bytes v l -> 0 <= v /\ zlen l <= v + 1.
Proof. unfold zlen. induction 1; cbn [length] in *; lia. Qed.
Lemma code_length v n l : length_code v n l -> zlen l <= v.
Proof. intros [(H & _ & ->)|(_ & H)]; [cbn; lia|]. apply more_length in H. lia. Qed.
Lemma block_length c seqs last : lz4_block c seqs last -> zlen c <= 2 * (seqs_size seqs + zlen last) + 1.
Proof.
  assert (A : forall a b : list Z, zlen (a ++ b) = zlen a + zlen b) by (intros; unfold zlen; rewrite app_length; lia).
  assert (C : forall x (a : list Z), zlen (x :: a) = 1 + zlen a) by (intros; unfold zlen; cbn [length]; lia).
  induction 1 as [lits n ext m _ L|lits n ext offset count n2 ext2 rest seqs last L L2 _ _ IH]; rewrite !C, !A.
  - apply code_length in L. cbn [seqs_size fold_right]. lia.
  - pose proof (code_length _ _ _ L2) as K2. apply code_length in L. cbn [seqs_size fold_right]. change (fold_right _ 0 seqs) with (seqs_size seqs). unfold seq_size. 
    rewrite !C. change (zlen (@nil Z)) with 0. pose proof (zlen_nonneg ext2). lia.
Qed.
Definition item_size (i : item) : Z := match i with Lit _ => 1 | Blk s => zlen s | Mat _ n => n end.
Lemma spells_size out its data : spells out its data -> zlen out + fold_right (fun i n => item_size i + n) 0 its = zlen data.
Proof.
  assert (A : forall a b : list Z, zlen (a ++ b) = zlen a + zlen b) by (intros; unfold zlen; rewrite app_length; lia).
  induction 1; cbn [fold_right item_size]; [lia| | |]. 
  - rewrite A in IHspells. cbn in IHspells. lia.
  - rewrite A in IHspells. lia.
  - destruct H1 as (ext & -> & <- & _). rewrite A in IHspells. lia.
Qed.
Lemma spells_length seqs last data : spells [] (block_items seqs last) data -> seqs_size seqs + zlen last = zlen data.
Proof.
  intros H. apply spells_size in H. change (zlen (@nil Z)) with 0 in H. rewrite Z.add_0_l in H. rewrite <- H. unfold block_items.
  assert (L : forall l rest, fold_right (fun i n => item_size i + n) 0 (map Lit l ++ rest) = zlen l + fold_right (fun i n => item_size i + n) 0 rest).
  { induction l as [|c l IH]; intros rest; [reflexivity|]. cbn [map app fold_right item_size]. rewrite IH. unfold zlen. cbn [length]. lia. }
  clear H. induction seqs as [|(lits, (o, n)) seqs IH]; cbn [map concat app].
  - rewrite <- (app_nil_r (map Lit last)), L. cbn. lia.
  - cbn [seq_items]. rewrite <- !app_assoc, L. cbn [app fold_right item_size seqs_size seq_size] in *. change (fold_right _ 0 seqs) with (seqs_size seqs). lia.
Qed.

(** ** The round trip *)
Lemma kept_all kd (P : list Z -> Prop) (Q : userdata -> Prop) : (forall v, all_pod P Q v -> Forall (fun u => Q u /\ kd u = true) (kept kd v)) /\
  (forall t, all_entries P Q t -> Forall (fun u => Q u /\ kd u = true) (kept_entries kd t)).
Proof.
  apply pod_entries_ind; try (intros; constructor).
  - intros u (_ & _ & H). cbn [kept]. destruct (kd u) eqn:E; [|constructor]. constructor; [now split|constructor].
  - intros t IH G. exact (IH G).
  - intros k IHk v IHv t IHt (A & B & C). rewrite kept_cons. apply Forall_app. split; [exact (IHk A)|]. apply Forall_app. split; [exact (IHv B)|exact (IHt C)].
Qed.
Lemma enc_literal b : text_ok b -> enc (literal b) = literal (enc b).
Proof.
  intros T. assert (A : Forall ascii [34]) by (constructor; [unfold ascii; lia|constructor]). pose proof (ascii_text _ A) as G. unfold literal.
  change (34 :: b ++ [34]) with ([34] ++ b ++ [34]). rewrite !enc_app by (try apply text_ok_app; auto). now rewrite !enc_ascii by easy.
Qed.
Lemma splice_bytes lit (P : list Z -> Prop) ps : (forall s, P s -> bytes_ok (lit s)) -> Forall (piece_ok P) ps -> forall blobs, Forall bytes_ok blobs -> bytes_ok (splice lit ps blobs).
Proof.
  intros L. induction 1 as [|p ps H _ IH]; intros blobs B; [constructor|]. destruct p as [s| |x]; cbn [splice render].
  - apply Forall_app. split; [now apply L|now apply IH].
  - destruct B; [constructor|]. apply Forall_app. split; [assumption|now apply IH].
  - apply Forall_app. split; [|now apply IH]. destruct H as (_ & F & _). apply Forall_impl with (2 := F). unfold ascii. lia.
Qed.
Lemma splice_length lit ps : forall blobs, holes ps = length blobs -> Forall (fun b => b <> []) blobs -> (length blobs <= length (splice lit ps blobs))%nat.
Proof.
  induction ps as [|p ps IH]; intros blobs L B; [destruct blobs; [cbn; lia|discriminate]|]. destruct p as [s| |x]; cbn [splice holes] in *.
  - rewrite app_length. specialize (IH blobs L B). lia.
  - destruct B as [|d blobs N B]; [discriminate|]. rewrite app_length. cbn [length] in *. specialize (IH blobs ltac:(lia) B). destruct d; [easy|]. cbn [length]. lia.
  - rewrite app_length. specialize (IH blobs L B). lia.
Qed.
Lemma same_vmap (same : list Z -> list Z -> Prop) val (P : list Z -> Prop) (Q : userdata -> Prop) : (forall s, P s -> same s (val s)) ->
  (forall v, storable same v -> all_pod P Q v -> same_pod same v (vmap val v)) /\ (forall t, storable_entries same t -> all_entries P Q t -> same_entries same t (emap val t)).
Proof.
  intros H. apply pod_entries_ind; try easy.
  - intros s _ G. now apply H.
  - intros u _ (A & B & _). refine (conj _ (conj eq_refl (conj eq_refl _))); now apply H.
  - intros k IHk v IHv t IHt (Sk & Sv & _ & _ & _ & St) (Gk & Gv & Gt). exact (conj (IHk Sk Gk) (conj (IHv Sv Gv) (IHt St Gt))).
Qed.
Lemma vmap_fix val (P : list Z -> Prop) (Q : userdata -> Prop) : (forall s, P s -> val s = s) ->
  (forall v, all_pod P Q v -> vmap val v = v) /\ (forall t, all_entries P Q t -> emap val t = t).
Proof.
  intros H. apply pod_entries_ind; try reflexivity.
  - intros s G. cbn. now rewrite H.
  - intros [ty w h d] (A & B & _). cbn in *. unfold umap. cbn. now rewrite !H.
  - intros t IH G. change (VTable (emap val t) = VTable t). now rewrite (IH G).
  - intros k IHk v IHv t IHt (A & B & C). rewrite emap_cons, (IHk A), (IHv B), (IHt C). reflexivity.
Qed.

Section WriteRead.
Context (isdigit : Z -> bool) (int16 : list Z -> option Z) (o : write_opts).
Context (D : forall c, 0 <= c < 128 -> isdigit c = (48 <=? c) && (c <=? 57)) (H16 : hex_reader int16).
Notation handler := (pxu_handler int16 o).
Notation kd := (keep isdigit handler).
Notation lit := (plit isdigit).
Lemma plit_text : lit_text lit text_ok.
Proof. intros s T. exists (body isdigit s). split; [reflexivity|]. now apply (escaped_encode (body isdigit s) s (body_escaped isdigit D s)). Qed.
Lemma plit_enc s : text_ok s -> enc (lit s) = literal (enc (body isdigit s)) /\ escaped (enc (body isdigit s)) (enc s).
Proof. intros T. destruct (escaped_encode _ s (body_escaped isdigit D s) T) as (T' & X). split; [now apply enc_literal|exact X]. Qed.
Context (v : pod) (S : storable same_bytes v) (G : all_pod text_ok pxu_ready v).
Let ps := pieces kd v.
Let blobs := map (blob isdigit handler) (kept kd v).
Let value := splice (fun s => enc (lit s)) ps blobs.
Lemma ps_good : Forall (piece_ok text_ok) ps.
Proof. unfold ps. apply (proj1 (pieces_good kd same_bytes text_ok)); [exact S|]. apply (all_mono text_ok text_ok pxu_ready (fun _ => True)); auto. Qed.
Lemma kept_facts : Forall (fun u => pxu_ready u /\ kd u = true) (kept kd v).
Proof. apply (proj1 (kept_all kd text_ok pxu_ready) v G). Qed.
Lemma holes_blobs : holes ps = length blobs.
Proof. unfold ps, blobs. rewrite map_length. apply (proj1 (holes_ok kd same_bytes text_ok)). Qed.
Lemma lit_zero s : text_ok s -> ~ In 0 (enc (lit s)).
Proof.
  intros T. destruct (plit_enc s T) as (-> & X). apply escaped_plain in X. unfold literal. intros [E|E]; [discriminate|]. apply in_app_or in E as [E|[E|[]]]; [easy|discriminate].
Qed.
Lemma write_value : format_pod isdigit handler v = Ok (all_pieces lit [0] ps, blobs) /\ encode_luastr (all_pieces lit [0] ps) = Ok (all_pieces (fun s => enc (lit s)) [0] ps) /\
  put_pxus 0 (all_pieces (fun s => enc (lit s)) [0] ps) blobs = Ok value.
Proof.
  assert (A : Forall ascii [0]) by (constructor; [unfold ascii; lia|constructor]). split; [|split].
  - rewrite (proj1 (format_ok isdigit handler same_bytes) v S).
    + now rewrite (proj1 (pieces_ok kd lit [0]) v).
    + apply (proj1 (all_mono text_ok (fun _ => True) pxu_ready (handled isdigit handler) (fun _ _ => I) (fun u _ _ => ready_handled isdigit int16 H16 o u)) v G).
  - rewrite text_ok_encode by (apply (pieces_text _ _ text_ok); [apply plit_text|exact A|apply ps_good]). f_equal. apply (pieces_enc _ _ text_ok); [apply plit_text|exact A|apply ps_good].
  - exact (put_ok _ text_ok lit_zero ps ps_good [] [] blobs ltac:(easy) holes_blobs).
Qed.
Lemma blobs_facts : Forall2 (fun u d => (exists r, d = k_pxu_prefix ++ r) /\ forall pre post, read_pxu (pre ++ d ++ post) (length pre) = Ok (u, (length pre + length d)%nat)) (kept kd v) blobs
  /\ Forall bytes_ok blobs /\ Forall (fun b => b <> []) blobs.
Proof.
  unfold blobs. induction kept_facts as [|u us (R & K) _ (I1 & I2 & I3)]; [repeat split; constructor|]. destruct (ready_kept isdigit int16 H16 o u R K) as (_ & B & (r & E) & Rd). cbn [map].
  split; [|split]; constructor; auto; [split; [now exists r|exact Rd]|]. now rewrite E.
Qed.
Lemma value_bytes : bytes_ok value.
Proof.
  apply (splice_bytes _ text_ok); [|apply ps_good|apply blobs_facts]. intros s T. destruct (plit_text s T) as (b & E & T'). rewrite E, enc_literal by exact T'.
  unfold literal. constructor; [lia|]. apply Forall_app. split; [now apply enc_bytes|]. constructor; [lia|constructor].
Qed.
Lemma value_bare : bare value.
Proof.
  pose proof blobs_facts as (F & _ & _). pose proof holes_blobs as L. pose proof ps_good as Gp. unfold value. revert F L Gp. unfold ps. clearbody blobs.
  generalize (kept kd v) as us. intros us F L Gp. destruct v as [|b|z| |s|u|t].
  - cbn. lia.
  - destruct b; cbn; lia.
  - cbn [pieces splice render]. rewrite app_nil_r. destruct (digits_ok z S) as (Fd & N & _). rewrite int_text_eq. destruct (z <? 0); [cbn; lia|].
    destruct (digits z); [exact I|]. inversion Fd; subst. apply digit10 in H1. cbn. lia.
  - exact I.
  - cbn [pieces splice render]. inversion Gp; subst. cbn [piece_ok] in *. destruct (plit_enc s) as (-> & _); [assumption|]. cbn. lia.
  - cbn [pieces] in *. unfold user_pieces in *. destruct (kd u); [|cbn; lia]. cbn [splice]. destruct F as [|u' d us' bl ((r & ->) & _) _]; [exact I|]. cbn. lia.
  - change (pieces kd (VTable t)) with (PText (asc "{") :: pieces_e kd 1 t ++ [PText (asc "}")]). cbn. lia.
Qed.
Theorem write_read bytes rf depth : function_reader rf -> write_pod isdigit int16 o v = Ok bytes -> read_pod rf (Datatypes.S depth) bytes = Ok (vmap deco v).
Proof.
  intros R W. destruct write_value as (W1 & W2 & W3). unfold write_pod in W. rewrite W1 in W. cbn [bind] in W. rewrite W2 in W. cbn [bind] in W. rewrite W3 in W. cbn [bind] in W.
  cbn [read_pod]. rewrite (unpack_packed _ _ _ _ value_bytes value_bare W). cbn [bind].
  pose proof blobs_facts as (F & _ & N). pose proof (unpack_ok (fun s => enc (lit s)) text_ok lit_zero ps ps_good blobs (kept kd v)) as U.
  specialize (U ltac:(apply (proj1 (holes_ok kd same_bytes text_ok))) F (length value) [] [] [] ltac:(easy)). cbn [app length] in U. fold value in U. rewrite U.
  2:{ pose proof (splice_length (fun s => enc (lit s)) ps blobs holes_blobs N) as K. unfold blobs in K at 1. rewrite map_length in K. exact K. }
  cbn [bind]. assert (A : Forall ascii k_userdata) by (repeat (constructor; [cbn; unfold ascii; lia|]); constructor).
  rewrite (pieces_dec _ _ text_ok); [| |exact A|easy|apply ps_good]. 2:{ intros s T. destruct (plit_enc s T) as (-> & _). now eexists. }
  change (fun s => decode_luastr (enc (lit s))) with (fun s => deco (lit s)). unfold ps. rewrite <- (proj1 (pieces_ok kd (fun s => deco (lit s)) k_userdata) v).
  apply (parse_text (fun s => deco (lit s)) kd deco text_ok pxu_ready same_bytes); auto.
  - intros s T. destruct (plit_text s T) as (b & E & T'). exists (deco (body isdigit s)). split; [|apply escaped_deco; [now apply body_escaped|exact T]].
    unfold plit in *. apply deco_literal. injection E as E. now apply app_inj_tail in E as (-> & _).
  - intros s As. unfold deco. rewrite enc_ascii by exact As. now apply decode_asciis_all.
  - intros s s' T T' E. unfold same_bytes. rewrite <- (enc_deco s), <- (enc_deco s') by assumption. now rewrite E.
  - intros u Ru K. destruct (ready_kept isdigit int16 H16 o u Ru K) as (Ab & _). destruct (able_ascii u Ab) as (A1 & A2). unfold deco. rewrite !enc_ascii, !decode_asciis_all by assumption. now split.
Qed.
Lemma write_value_eq c b : write_pod isdigit int16 (mkwo c (wo_pxu o) b (wo_runtime o)) v =
  (v <- (if c then
           compressed <- lz4_compress value false ;;
           s <- w_u32 (zlen compressed) ;;
           u <- w_u32 (zlen value) ;;
           let compressed_value := k_lz4_prefix ++ s ++ u ++ compressed in
           Ok (if zlen compressed_value <? zlen value then compressed_value else value)
         else Ok value) ;;
   Ok (if b then k_b64_prefix ++ b64_encode v else v))%res.
Proof.
  destruct write_value as (W1 & W2 & W3). unfold write_pod. change (pxu_handler int16 (mkwo c (wo_pxu o) b (wo_runtime o))) with handler. rewrite W1. cbn [bind].
  rewrite W2. cbn [bind]. rewrite W3. reflexivity.
Qed.
Lemma write_plain : write_pod isdigit int16 (mkwo false (wo_pxu o) false (wo_runtime o)) v = Ok value.
Proof. now rewrite write_value_eq. Qed.
Lemma write_ok : wo_compress o = false \/ zlen value < 2 ^ 31 - 1 -> exists bytes, write_pod isdigit int16 o v = Ok bytes.
Proof.
  intros H. pose proof (write_value_eq (wo_compress o) (wo_base64 o)) as E. replace (mkwo _ _ _ _) with o in E by (now destruct o). rewrite E. clear E.
  destruct (wo_compress o); [|cbn [bind]; eauto]. destruct H as [H|H]; [discriminate|].
  destruct (lz4_compress_spec value value_bytes false) as (c & seqs & last & Ec & Bl & Sp & _). rewrite Ec. cbn [bind].
  pose proof (block_length _ _ _ Bl) as L. pose proof (spells_length _ _ _ Sp) as L'. rewrite L' in L.
  change (2 ^ 31) with 2147483648 in H. unfold w_u32. pose proof (zlen_nonneg c). pose proof (zlen_nonneg value).
  rewrite (proj2 (andb_true_iff (0 <=? zlen c) _)) by lia. cbn [bind]. rewrite (proj2 (andb_true_iff (0 <=? zlen value) _)) by lia. cbn [bind]. eauto.
Qed.
End WriteRead.
