(** Proofs about the userdata format pxu. *)
From Verif Require Import M_Base L_Util M_Lz77 M_Compress L_Compress S_Num S_Text M_Num L_Num L_NumFmt M_Text M_Lz4 S_Lz4 L_Lz4 M_Pxu.
From Coq Require Import Permutation.
Open Scope Z_scope.

Definition type_range (t : pxu_type) : Z := match t with U8 => 256 | I16 => 65536 end.

Lemma type_ok t v : 0 <= v < type_range t ->
  exists b, write_type t v = Ok b /\ forall d, read_type t (b ++ d) = Ok (v, d).
Proof.
  destruct t; cbn [type_range write_type read_type]; intros H.
  - rewrite w_u8_ok by easy. eexists. split; [reflexivity|]. easy.
  - unfold w_u16. destruct (Z.leb_spec 0 v); [|lia]. destruct (Z.ltb_spec v 65536); [|lia]. cbn [andb].
    eexists. split; [reflexivity|]. intros d. cbn [app r_u16]. do 2 f_equal.
    pose proof (Z.div_mod v 256). lia.
Qed.

Lemma run_of_spec value data : forall n rest, run_of value data = (n, rest) ->
  data = repeat value n ++ rest /\ (length rest <= length data)%nat.
Proof.
  induction data as [|x data IH]; cbn [run_of]; intros n rest E.
  - injection E as <- <-. split; [reflexivity|easy].
  - destruct (Z.eqb_spec x value) as [->|N].
    + destruct (run_of value data) as (k, r). injection E as <- <-. destruct (IH k r eq_refl) as (-> & L).
      split; [reflexivity|]. cbn [length] in *. lia.
    + injection E as <- <-. split; [reflexivity|lia].
Qed.

Lemma write_count_spec fuel : forall v, 0 <= v -> (Z.to_nat (v / 255) <= fuel)%nat ->
  exists l, write_count fuel v = Ok l /\ more_bytes v l.
Proof.
  induction fuel as [|fuel IH]; intros v Hv F; cbn [write_count].
  - destruct (Z.leb_spec 255 v) as [L|L].
    { exfalso. pose proof (Z.div_str_pos v 255). lia. }
    rewrite w_u8_ok by lia. eexists. split; [reflexivity|]. constructor. lia.
  - destruct (Z.leb_spec 255 v) as [L|L].
    + destruct (IH (v - 255)) as (l & -> & M); [lia| |].
      { assert (Q : v / 255 = (v - 255) / 255 + 1).
        { replace v with ((v - 255) + 1 * 255) at 1 by lia. now rewrite Z.div_add by lia. }
        pose proof (Z.div_pos (v - 255) 255 ltac:(lia) ltac:(lia)). lia. }
      cbn [bind]. eexists. split; [reflexivity|].
      replace v with ((v - 255) + 255) at 1 by lia. now constructor.
    + rewrite w_u8_ok by lia. eexists. split; [reflexivity|]. constructor. lia.
Qed.

Lemma header_ok bits index m : bits = 4 \/ bits = 0 ->
  0 <= index <= Z.shiftl 1 bits - 1 -> 0 <= m < Z.shiftl 1 (8 - bits) ->
  let h := Z.lor index (Z.shiftl m bits) in
  0 <= h < 256 /\ Z.land h (Z.shiftl 1 bits - 1) = index /\ Z.shiftr h bits = m.
Proof.
  intros [-> | ->] Hi Hm h.
  - change (Z.shiftl 1 4 - 1) with 15 in *. change (Z.shiftl 1 (8 - 4)) with 16 in *.
    unfold h. rewrite header_val by lia. destruct (nibbles m index) as (A & B); [lia|lia|]. rewrite A, B. lia.
  - change (Z.shiftl 1 0 - 1) with 0 in *. change (Z.shiftl 1 (8 - 0)) with 256 in *.
    assert (index = 0) by lia. subst index. unfold h. rewrite Z.shiftl_0_r, Z.lor_0_l, Z.land_0_r, Z.shiftr_0_r. lia.
Qed.

Lemma pxu_range_In n k : In k (pxu_range n) <-> 0 <= k < n.
Proof.
  unfold pxu_range. rewrite in_map_iff. split.
  - intros (i & <- & I). apply in_seq in I. lia.
  - intros H. exists (Z.to_nat k). split; [lia|]. apply in_seq. lia.
Qed.
Lemma pxu_range_length n : length (pxu_range n) = Z.to_nat n.
Proof. unfold pxu_range. now rewrite map_length, seq_length. Qed.

Lemma set_mapping_ok mapping mtf value : mapping <> [] -> Permutation mtf (pxu_range (zlen mapping)) ->
  exists mapping', set_mapping mapping mtf value = Ok mapping' /\ zlen mapping' = zlen mapping.
Proof.
  intros Nm P. unfold set_mapping. destruct (rev mtf) as [|k r] eqn:E.
  - apply (f_equal (@length Z)) in E. rewrite rev_length, (Permutation_length P), pxu_range_length in E.
    unfold zlen in E. destruct mapping; [easy|cbn in E; lia].
  - assert (I : In k (pxu_range (zlen mapping))).
    { apply (Permutation_in _ P). apply in_rev. rewrite E. now left. }
    apply pxu_range_In in I. destruct (Z.leb_spec 0 k); [|lia]. destruct (Z.ltb_spec k (zlen mapping)); [|lia].
    cbn [andb]. eexists. split; [reflexivity|]. unfold zlen. now rewrite list_upd_length.
Qed.

Lemma update_perm l k ch : index_of ch l = Some k -> Permutation (update_mtf l k ch) l.
Proof.
  intros H. apply index_of_split in H as (l1 & l2 & -> & <-). rewrite update_mtf_spec. apply Permutation_middle.
Qed.

Lemma index_of_znth v l : forall k, index_of v l = Some k -> znth l (Z.of_nat k) = Some v.
Proof.
  intros k H. apply index_of_split in H as (l1 & l2 & -> & <-). unfold znth.
  destruct (Z.ltb_spec (Z.of_nat (length l1)) 0); [lia|]. rewrite Nat2Z.id.
  rewrite nth_error_app2 by lia. now rewrite Nat.sub_diag.
Qed.

Section Runs.
Context (t : pxu_type) (bits : Z) (Hb : bits = 4 \/ bits = 0).
Notation mask := (Z.shiftl 1 bits - 1).
Notation ext_count := (Z.shiftl 1 (8 - bits)).

(** the choice of the index: what is written, and what it does to the reader *)
Lemma choice_ok mapping mtf value : zlen mapping = mask -> Permutation mtf (pxu_range mask) ->
  exists index mapping' mtf',
  match index_of value mapping with
  | None =>
      mapping <- (if bits =? 0 then Ok mapping else set_mapping mapping mtf value) ;;
      Ok (mask, mapping, mtf)
  | Some k =>
      let index := Z.of_nat k in
      j <- mtf_index index mtf ;;
      Ok (index, mapping, update_mtf mtf j index)
  end = Ok (index, mapping', mtf') /\ 0 <= index <= mask /\
  zlen mapping' = mask /\ Permutation mtf' (pxu_range mask) /\
  (index = mask -> (if bits =? 0 then Ok mapping else set_mapping mapping mtf value) = Ok mapping' /\ mtf' = mtf) /\
  (index <> mask -> exists k, mtf_index index mtf = Ok k /\ mtf' = update_mtf mtf k index /\
     mapping' = mapping /\ znth mapping index = Some value).
Proof.
  intros Lm P. destruct (index_of value mapping) as [k|] eqn:E.
  - pose proof (index_of_znth _ _ _ E) as Zk.
    assert (Lk : Z.of_nat k < mask).
    { rewrite <- Lm. apply index_of_split in E as (l1 & l2 & -> & <-). unfold zlen. rewrite app_length. cbn [length]. lia. }
    destruct (index_of_In (Z.of_nat k) mtf) as (j & Ej).
    { apply (Permutation_in _ (Permutation_sym P)). apply pxu_range_In. lia. }
    exists (Z.of_nat k), mapping, (update_mtf mtf j (Z.of_nat k)). cbn zeta. unfold mtf_index. rewrite Ej. cbn [bind].
    split; [reflexivity|]. split; [lia|]. split; [exact Lm|].
    split; [rewrite (update_perm mtf j _ Ej); exact P|]. split; [lia|]. intros _. exists j. easy.
  - assert (M : exists mapping', (if bits =? 0 then Ok mapping else set_mapping mapping mtf value) = Ok mapping' /\ zlen mapping' = mask).
    { destruct Hb as [-> | ->]; cbn [Z.eqb].
      - destruct (set_mapping_ok mapping mtf value) as (m' & A & B).
        + intros ->. discriminate Lm.
        + now rewrite Lm.
        + exists m'. split; [exact A|lia].
      - now exists mapping. }
    destruct M as (mapping' & A & B). exists mask, mapping', mtf. rewrite A. cbn [bind].
    split; [reflexivity|]. split; [destruct Hb as [-> | ->]; cbn; lia|]. split; [exact B|]. split; [exact P|]. split; easy.
Qed.

Lemma repeat_all {A} (x : A) a b : repeat x (a + b) = repeat x a ++ repeat x b.
Proof. apply repeat_app. Qed.

Lemma write_runs_spec fuel : forall mapping mtf data, (length data <= fuel)%nat ->
  zlen mapping = mask -> Permutation mtf (pxu_range mask) -> Forall (fun v => 0 <= v < type_range t) data ->
  exists bytes, write_runs fuel t bits mapping mtf data = Ok bytes /\
    forall fuel2 out post, (length bytes <= fuel2)%nat ->
      read_runs fuel2 t bits (zlen out + zlen data) mapping mtf out (bytes ++ post) = Ok (out ++ data, post).
Proof.
  induction fuel as [|fuel IH]; intros mapping mtf data F Lm P Fa.
  { destruct data; [|cbn in F; lia]. exists []. split; [reflexivity|]. intros fuel2 out post _.
    destruct fuel2; cbn [read_runs]; (destruct (Z.ltb_spec (zlen out) (zlen out + zlen (@nil Z))) as [L|L];
      [rewrite zlen_nil in L; lia|]); cbn [app]; now rewrite app_nil_r. }
  destruct data as [|value data].
  { exists []. split; [reflexivity|]. intros fuel2 out post _.
    destruct fuel2; cbn [read_runs]; (destruct (Z.ltb_spec (zlen out) (zlen out + zlen (@nil Z))) as [L|L];
      [rewrite zlen_nil in L; lia|]); cbn [app]; now rewrite app_nil_r. }
  cbn [write_runs]. destruct (run_of value data) as (n, rest) eqn:R. apply run_of_spec in R. destruct R as (Rd & Rl).
  destruct (choice_ok mapping mtf value Lm P) as (index & mapping' & mtf' & E & Hi & Lm' & P' & Cm & Cn).
  cbn zeta in E |- *. rewrite E. cbn [bind].
  inversion Fa as [|? ? Hv Fa']; subst.
  set (count := 1 + Z.of_nat n).
  assert (He : 1 <= ext_count) by (destruct Hb as [-> | ->]; cbn; lia).
  assert (Hn : 0 <= Z.min count ext_count - 1 < ext_count) by lia.
  destruct (header_ok bits index (Z.min count ext_count - 1) Hb Hi Hn) as (H1 & H2 & H3). cbn zeta in H1, H2, H3.
  set (h := Z.lor index _) in *. rewrite (w_u8_ok h H1). cbn [bind].
  destruct (type_ok t value Hv) as (tb & Wt & Rt).
  assert (Wv : exists vb, (if index =? mask then write_type t value else Ok []) = Ok vb /\
    vb = if index =? mask then tb else []).
  { destruct (index =? mask); eauto. }
  destruct Wv as (vb & -> & Evb). cbn [bind].
  assert (Wc : exists cb, (if ext_count <=? count then write_count (Z.to_nat (count / 0xff)) (count - ext_count) else Ok []) = Ok cb /\
    forall d, (if Z.min count ext_count =? ext_count then read_u8_sum (Z.min count ext_count) (cb ++ d) else Ok (Z.min count ext_count, cb ++ d)) = Ok (count, d)).
  { destruct (Z.leb_spec ext_count count) as [L|L].
    - destruct (write_count_spec (Z.to_nat (count / 255)) (count - ext_count)) as (l & A & B); [lia| |].
      { pose proof (Z.div_le_mono (count - ext_count) count 255 ltac:(lia) ltac:(lia)). lia. }
      exists l. split; [exact A|]. intros d. destruct (Z.eqb_spec (Z.min count ext_count) ext_count) as [Q|Q]; [|lia].
      rewrite (read_u8_sum_spec _ _ B). do 2 f_equal. lia.
    - exists []. split; [reflexivity|]. intros d. destruct (Z.eqb_spec (Z.min count ext_count) ext_count) as [Q|Q]; [lia|].
      cbn [app]. do 2 f_equal. lia. }
  destruct Wc as (cb & -> & Rc). cbn [bind].
  destruct (IH mapping' mtf' rest) as (bytes & -> & Rd); [cbn in F; lia|exact Lm'|exact P'| |].
  { apply Forall_app in Fa'. apply Fa'. }
  cbn [bind]. eexists. split; [reflexivity|].
  intros fuel2 out post F2. destruct fuel2 as [|fuel2]; [cbn in F2; lia|].
  cbn [read_runs]. rewrite zlen_cons, zlen_app. pose proof (zlen_nonneg rest). pose proof (zlen_nonneg (repeat value n)).
  destruct (Z.ltb_spec (zlen out) (zlen out + (1 + (zlen (repeat value n) + zlen rest)))) as [_|L]; [|lia].
  cbn [app r_u8 bind]. rewrite H2, H3.
  assert (Ch : forall d, (if index =? mask then
             '(value, d) <- read_type t (vb ++ d) ;;
             mapping <- (if bits =? 0 then Ok mapping else set_mapping mapping mtf value) ;;
             Ok (value, mapping, mtf, d)
           else
             k <- mtf_index index mtf ;;
             let mtf := update_mtf mtf k index in
             match znth mapping index with
             | Some value => Ok (value, mapping, mtf, vb ++ d)
             | None => Err EIndex
             end) = Ok (value, mapping', mtf', d)).
  { intros d. destruct (Z.eqb_spec index mask) as [Q|Q]; subst vb.
    - rewrite Rt. cbn [bind]. destruct (Cm Q) as (-> & ->). reflexivity.
    - destruct (Cn Q) as (k & -> & -> & -> & ->). reflexivity. }
  rewrite <- !app_assoc. rewrite Ch. cbn [bind].
  replace (1 + (Z.min count ext_count - 1)) with (Z.min count ext_count) by lia.
  rewrite Rc. cbn [bind].
  replace (out ++ value :: repeat value n ++ rest) with ((out ++ repeat value (Z.to_nat count)) ++ rest).
  2:{ rewrite <- app_assoc. f_equal. unfold count. replace (Z.to_nat (1 + Z.of_nat n)) with (S n) by lia. reflexivity. }
  replace (zlen out + (1 + (zlen (repeat value n) + zlen rest))) with (zlen (out ++ repeat value (Z.to_nat count)) + zlen rest).
  2:{ rewrite zlen_app. unfold zlen. rewrite !repeat_length. unfold count. lia. }
  apply Rd. cbn [app length] in F2. rewrite !app_length in F2. lia.
Qed.
End Runs.

(* ------------------------------------------------------------------ *)
(** * Digits *)

Lemma hexv_app base s : forall acc s', digits_value base acc (s ++ s') = digits_value base (digits_value base acc s) s'.
Proof. induction s as [|c s IH]; intros acc s'; cbn [app digits_value]; [reflexivity|apply IH]. Qed.

Lemma hexv_snoc base acc s c : digits_value base acc (s ++ [c]) = digits_value base acc s * base + digit_value c.
Proof. now rewrite hexv_app. Qed.

Lemma digit_inj a b : is_digit 16 a -> is_digit 16 b -> digit_value a = digit_value b -> a = b.
Proof.
  unfold is_digit, digit_value. intros (A & _) (B & _). destruct (Z.ltb_spec a 58), (Z.ltb_spec b 58); lia.
Qed.
Lemma digit_range a : is_digit 16 a -> 0 <= digit_value a < 16.
Proof. unfold is_digit, digit_value. intros (A & B). destruct (Z.ltb_spec a 58); lia. Qed.

Lemma digits_inj : forall a b, length a = length b -> Forall (is_digit 16) a -> Forall (is_digit 16) b ->
  digits_value 16 0 a = digits_value 16 0 b -> a = b.
Proof.
  induction a as [|x a IH] using rev_ind; intros b L A B E.
  - destruct b; [reflexivity|discriminate L].
  - destruct b as [|y b] using rev_ind; [rewrite app_length in L; cbn in L; lia|]. clear IHb.
    rewrite !hexv_snoc in E. rewrite !app_length in L. cbn [length] in L.
    apply Forall_app in A as (A & Ax). apply Forall_app in B as (B & By).
    inversion Ax; inversion By; subst.
    pose proof (digit_range x H1). pose proof (digit_range y H5).
    rewrite (IH b); [|lia|easy|easy|lia]. rewrite (digit_inj x y); [reflexivity|easy|easy|lia].
Qed.

Lemma hexv_bound s : Forall (is_digit 16) s -> 0 <= digits_value 16 0 s < 16 ^ Z.of_nat (length s).
Proof.
  induction s as [|c s IH] using rev_ind; intros F; [cbn; lia|].
  apply Forall_app in F as (F & Fc). inversion Fc; subst. rewrite hexv_snoc, app_length. cbn [length].
  pose proof (digit_range c H1). specialize (IH F). rewrite Nat2Z.inj_add, Z.pow_add_r by lia. change (16 ^ Z.of_nat 1) with 16. lia.
Qed.

Lemma digits_value_zeros n s : digits_value 16 0 (repeat 48 n ++ s) = digits_value 16 0 s.
Proof. induction n as [|n IH]; [reflexivity|exact IH]. Qed.

Lemma value_hex_ok t c : length c = type_nybbles t -> Forall (is_digit 16) c -> value_hex t (digits_value 16 0 c) = c.
Proof.
  intros L F. pose proof (hexv_bound c F) as B. unfold value_hex, zero_pad.
  destruct (base_str_ok 16 (digits_value 16 0 c)) as (Fb & Vb & _); [now right|lia|].
  assert (Lb : zlen (base_str 16 (digits_value 16 0 c)) <= Z.of_nat (length c)).
  { apply base_str_len; [now right|lia|]. rewrite L. destruct t; cbn; lia. }
  unfold zlen in Lb. apply digits_inj; [| |exact F|].
  - rewrite app_length, repeat_length. lia.
  - apply Forall_app. split; [|exact Fb]. apply Forall_forall. intros x I. apply repeat_spec in I. subst x.
    unfold is_digit, digit_value. cbn. lia.
  - now rewrite digits_value_zeros.
Qed.

Lemma chunks_spec n : (0 < n)%nat -> forall k fuel s, length s = (n * k)%nat -> (length s <= fuel)%nat ->
  Forall (is_digit 16) s ->
  Forall (fun c => length c = n /\ Forall (is_digit 16) c) (chunks fuel n s) /\ concat (chunks fuel n s) = s /\
  length (chunks fuel n s) = k.
Proof.
  intros Hn. induction k as [|k IH]; intros fuel s L F D.
  - rewrite Nat.mul_0_r in L. destruct s; [|discriminate L]. destruct fuel; cbn; repeat split; constructor.
  - destruct s as [|c s]; [cbn in L; lia|]. destruct fuel as [|fuel]; [cbn in F; lia|]. cbn [chunks].
    destruct (IH fuel (skipn n (c :: s))) as (A & B & C).
    + rewrite skipn_length, L. lia.
    + rewrite skipn_length. lia.
    + now apply Forall_skipn.
    + split; [|split].
      * constructor; [|exact A]. split; [rewrite firstn_length, L; lia|now apply Forall_firstn].
      * cbn [concat]. rewrite B. apply firstn_skipn.
      * cbn [length]. now rewrite C.
Qed.

Lemma r_u32_ok v : 0 <= v < 4294967296 -> exists b, w_u32 v = Ok b /\ forall d, r_u32 (b ++ d) = Ok (v, d).
Proof.
  intros H. unfold w_u32. destruct (Z.leb_spec 0 v); [|lia]. destruct (Z.ltb_spec v 4294967296); [|lia]. cbn [andb].
  eexists. split; [reflexivity|]. intros d. cbn [app r_u32]. do 2 f_equal.
  replace (v / 65536) with (v / 256 / 256) by (rewrite Z.div_div by lia; reflexivity).
  replace (v / 16777216) with (v / 256 / 256 / 256) by (rewrite !Z.div_div by lia; reflexivity).
  pose proof (Z.div_mod v 256). pose proof (Z.div_mod (v / 256) 256). pose proof (Z.div_mod (v / 256 / 256) 256). lia.
Qed.

Lemma dim_ok (long : bool) v : 0 <= v < 4294967296 -> (long = false -> v < 256) ->
  exists b, (if long then w_u32 else w_u8) v = Ok b /\
    forall d, (if long then r_u32 (b ++ d) else r_u8 (b ++ d)) = Ok (v, d).
Proof.
  intros H L. destruct long; [now apply r_u32_ok|]. specialize (L eq_refl). rewrite w_u8_ok by lia.
  eexists. split; [reflexivity|]. reflexivity.
Qed.

Lemma flags_ok t (hh long : bool) :
  let flags := Z.lor (pxu_value t) (Z.shiftl (comp_value (match t with U8 => PMtf | I16 => PRle end)) 12) in
  let flags := if hh then Z.lor flags has_height else flags in
  let flags := if long then Z.lor flags long_size else flags in
  exists a b, w_u16 flags = Ok [a; b] /\ a + b * 256 = flags /\ Z.land flags pxu_full_mask = flags /\
    pxu_of_value (Z.land flags 0xf) = Some t /\
    comp_of_value (Z.shiftr (Z.land flags 0xf000) 12) = Some (match t with U8 => PMtf | I16 => PRle end) /\
    negb (Z.land flags long_size =? 0) = long /\ negb (Z.land flags has_height =? 0) = hh.
Proof. destruct t, hh, long; vm_compute; eexists _, _; repeat split; reflexivity. Qed.

Lemma map_hex t l : Forall (fun c => length c = type_nybbles t /\ Forall (is_digit 16) c) l ->
  map (value_hex t) (map (digits_value 16 0) l) = l.
Proof.
  induction 1 as [|c l (L & D) _ IH]; [reflexivity|]. cbn [map]. now rewrite IH, value_hex_ok.
Qed.

Lemma pxu_roundtrip int16 t runtime width height s pre post : hex_reader int16 ->
  (t = I16 -> 21 <= runtime) -> 0 <= width < 4294967296 -> 0 <= height < 4294967296 ->
  Forall (is_digit 16) s ->
  zlen s = Z.of_nat (type_nybbles t) * (width * (if height =? 0 then 1 else height)) ->
  exists bytes, write_pxu int16 (mkud (pxu_name t) width height s) runtime = Ok (Some bytes) /\
    read_pxu (pre ++ bytes ++ post) (length pre) =
      Ok (mkud (pxu_name t) width height s, (length pre + length bytes)%nat).
Proof.
  intros H16 Hr Hw Hh D L. unfold write_pxu. cbn [ud_data ud_type ud_width ud_height].
  destruct (zeqb_list (firstn 4 s) [104; 101; 120; 58]) eqn:E.
  { exfalso. apply zeqb_list_true in E. pose proof (Forall_firstn _ 4 _ D) as Q. rewrite E in Q.
    inversion Q as [|? ? (Q1 & _) _]; subst. lia. }
  assert (On : pxu_of_name (pxu_name t) = Some t) by now destruct t. rewrite On.
  set (bits := match t with U8 => 4 | I16 => 0 end).
  replace (match t with U8 => Some (PMtf, 4) | I16 => if 21 <=? runtime then Some (PRle, 0) else None end)
    with (Some (match t with U8 => PMtf | I16 => PRle end, bits)).
  2:{ unfold bits. destruct t; [reflexivity|]. specialize (Hr eq_refl). destruct (Z.leb_spec 21 runtime); [reflexivity|lia]. }
  set (hh := negb (height =? 0)). set (long := (256 <=? width) || (256 <=? height)).
  destruct (flags_ok t hh long) as (fa & fb & F1 & F2 & F3 & F4 & F5 & F6 & F7). cbn zeta in *.
  set (flags := if long then _ else _) in *. rewrite F1. cbn [bind].
  destruct (dim_ok long width Hw) as (wb & -> & Rw).
  { unfold long. destruct (Z.leb_spec 256 width); [discriminate|lia]. }
  cbn [bind].
  assert (Hb : exists hb, (if hh then (if long then w_u32 else w_u8) height else Ok []) = Ok hb /\
    forall d, (if hh then if long then r_u32 (hb ++ d) else r_u8 (hb ++ d) else Ok (1, hb ++ d)) = Ok (if height =? 0 then 1 else height, d)).
  { unfold hh. destruct (Z.eqb_spec height 0) as [Q|Q]; cbn [negb].
    - now exists [].
    - apply dim_ok; [easy|]. unfold long. destruct (Z.leb_spec 256 width), (Z.leb_spec 256 height); cbn; try discriminate; lia. }
  destruct Hb as (hb & -> & Rh). cbn [bind].
  set (size := width * (if height =? 0 then 1 else height)) in *.
  assert (Sz : 0 <= size) by (unfold size; destruct (height =? 0); nia).
  destruct (chunks_spec (type_nybbles t) ltac:(destruct t; cbn; lia) (Z.to_nat size) (length s) s) as (C1 & C2 & C3); [|lia|exact D|].
  { unfold zlen in L. destruct t; cbn [type_nybbles] in *; lia. }
  set (cs := chunks _ _ _) in *.
  assert (Mv : map_res (fun s => match int16 s with Some v => Ok v | None => Err ECheck end) cs = Ok (map (digits_value 16 0) cs)).
  { clear - H16 C1. induction C1 as [|c cs (Lc & Dc) _ IH]; [reflexivity|]. cbn [map_res map].
    rewrite H16; [|intros ->; destruct t; discriminate Lc|exact Dc]. cbn [bind]. now rewrite IH. }
  rewrite Mv. cbn [bind].
  assert (Lm : zlen (pxu_range (Z.shiftl 1 bits - 1)) = Z.shiftl 1 bits - 1).
  { unfold bits. now destruct t. }
  destruct (write_runs_spec t bits ltac:(unfold bits; destruct t; auto) (length (map (digits_value 16 0) cs))
    (pxu_range (Z.shiftl 1 bits - 1)) (pxu_range (Z.shiftl 1 bits - 1)) (map (digits_value 16 0) cs))
    as (runs & -> & Rr); [lia|exact Lm|reflexivity| |].
  { apply Forall_map. eapply Forall_impl; [|exact C1]. intros c (Lc & Dc). pose proof (hexv_bound c Dc) as B.
    rewrite Lc in B. destruct t; cbn in *; lia. }
  cbn [bind]. eexists. split; [reflexivity|].
  unfold read_pxu. rewrite skipn_app, skipn_all, Nat.sub_diag. cbn [skipn app k_pxu_prefix firstn].
  change (zeqb_list [112; 120; 117; 0] k_pxu_prefix) with true. cbn [negb r_u16 bind].
  rewrite F2, F3, Z.eqb_refl. cbn [negb]. rewrite F4, F5, F6, F7. rewrite <- !app_assoc.
  rewrite Rw. cbn [bind]. rewrite Rh. cbn [bind]. fold size.
  assert (Rv : ('(bits, d) <- r_u8 (([bits] ++ runs ++ post)) ;;
            if 8 <? bits then Err EValue else
            let mask := Z.shiftl 1 bits - 1 in
            read_runs (length d) t bits size (pxu_range mask) (pxu_range mask) [] d) = Ok (map (digits_value 16 0) cs, post)).
  { cbn [app r_u8 bind]. replace (8 <? bits) with false by (unfold bits; now destruct t). cbn zeta.
    specialize (Rr (length (runs ++ post)) [] post ltac:(rewrite app_length; lia)).
    replace (zlen (@nil Z) + zlen (map (digits_value 16 0) cs)) with size in Rr; [exact Rr|].
    unfold zlen. rewrite map_length, C3. cbn. lia. }
  match goal with |- bind ?m _ = _ => replace m with (Ok (map (digits_value 16 0) cs, post)) end.
  2:{ destruct t; symmetry; exact Rv. }
  cbn [bind]. rewrite (map_hex t cs C1), C2. f_equal. f_equal.
  - f_equal. unfold hh. destruct (Z.eqb_spec height 0); cbn [negb]; lia.
  - rewrite !app_length. cbn [length]. rewrite !app_length. cbn [length]. lia.
Qed.
