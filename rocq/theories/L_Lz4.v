(** Proofs about the LZ4 codec. *)
From Verif Require Import M_Base L_Util M_Lz77 M_Compress S_Lz L_Lz77 L_Compress L_CompressTop M_Lz4 S_Lz4.
Open Scope Z_scope.

(* ------------------------------------------------------------------ *)
(** * Reading *)

Lemma read_u8_sum_spec v l : more_bytes v l -> forall s d, read_u8_sum s (l ++ d) = Ok (s + v, d).
Proof.
  induction 1 as [v H|v l H IH]; intros s d; cbn [app read_u8_sum].
  - destruct (Z.eqb_spec v 255); [lia|]. reflexivity.
  - change (255 =? 255) with true. cbn [negb]. rewrite IH. do 2 f_equal. lia.
Qed.

Lemma read_literals_spec lits : forall unc d, read_literals (length lits) unc (lits ++ d) = Ok (unc ++ lits, d).
Proof.
  induction lits as [|b lits IH]; intros unc d; cbn [length app read_literals]; [now rewrite app_nil_r|].
  cbn [r_u8 bind]. rewrite IH. now rewrite <- app_assoc.
Qed.

Lemma more_bytes_pos v l : more_bytes v l -> 0 <= v.
Proof. induction 1; lia. Qed.

Lemma length_code_range v n l : length_code v n l -> 0 <= n <= 15 /\ 0 <= v.
Proof. intros [(? & -> & _)|(-> & M)]; [lia|]. apply more_bytes_pos in M. lia. Qed.

Lemma nibbles n m : 0 <= n <= 15 -> 0 <= m < 16 ->
  Z.shiftr (n * 16 + m) 4 = n /\ Z.land (n * 16 + m) 0xf = m.
Proof.
  intros Hn Hm. split.
  - rewrite Z.shiftr_div_pow2 by lia. change (2 ^ 4) with 16. rewrite Z.add_comm, Z.div_add by lia.
    rewrite Z.div_small by lia. lia.
  - change 0xf with (Z.ones 4). rewrite Z.land_ones by lia. change (2 ^ 4) with 16.
    rewrite Z.add_comm, Z.mod_add by lia. now apply Z.mod_small.
Qed.

Lemma read_size v n l d : length_code v n l ->
  (if n =? 0xf then read_u8_sum n (l ++ d) else Ok (n, l ++ d)) = Ok (v, d).
Proof.
  intros [(H & -> & ->)|(-> & M)].
  - destruct (Z.eqb_spec v 15); [lia|]. reflexivity.
  - rewrite Z.eqb_refl. rewrite (read_u8_sum_spec _ _ M). do 2 f_equal. lia.
Qed.

Lemma read_count v n l d : length_code (v - 4) n l ->
  (if 4 + n =? 0x13 then read_u8_sum (4 + n) (l ++ d) else Ok (4 + n, l ++ d)) = Ok (v, d).
Proof.
  intros [(H & -> & ->)|(-> & M)].
  - destruct (Z.eqb_spec (4 + (v - 4)) 19); [lia|]. cbn [app]. do 2 f_equal. lia.
  - change (4 + 15 =? 19) with true. cbn [negb]. rewrite (read_u8_sum_spec _ _ M). do 2 f_equal. lia.
Qed.

Lemma spells_lits l : forall out its data, spells out (map Lit l ++ its) data <-> spells (out ++ l) its data.
Proof.
  induction l as [|c l IH]; intros out its data; cbn [map app]; [now rewrite app_nil_r|]. split.
  - intros H. inversion H; subst. apply IH in H4. now rewrite <- app_assoc in H4.
  - intros H. constructor. apply IH. now rewrite <- app_assoc.
Qed.

Lemma block_cons bytes seqs last : lz4_block bytes seqs last -> exists b r, bytes = b :: r.
Proof. intros []; eauto. Qed.

Lemma lz4_loop_nil fuel out : lz4_loop fuel out [] = Ok out.
Proof. now destruct fuel. Qed.

Lemma to_nat_zlen {A} (l : list A) : Z.to_nat (zlen l) = length l.
Proof. unfold zlen. lia. Qed.

Lemma lz4_loop_spec bytes seqs last : lz4_block bytes seqs last -> forall fuel out data,
  (length seqs < fuel)%nat -> spells out (block_items seqs last) data -> lz4_loop fuel out bytes = Ok data.
Proof.
  induction 1 as [lits n ext m Hm Hl|lits n ext offset count n2 ext2 rest seqs last Hl Hc Ho B IH];
    intros fuel out data F Sp; (destruct fuel as [|fuel]; [cbn in F; lia|]); cbn [lz4_loop r_u8 bind].
  - destruct (length_code_range _ _ _ Hl) as (Rn & _). destruct (nibbles n m Rn Hm) as (-> & ->).
    rewrite (read_size _ _ _ lits Hl). cbn [bind]. rewrite to_nat_zlen.
    rewrite <- (app_nil_r lits) at 2. rewrite read_literals_spec. cbn [bind]. rewrite lz4_loop_nil.
    unfold block_items in Sp. cbn [map concat app] in Sp. rewrite <- (app_nil_r (map Lit lits)) in Sp.
    apply spells_lits in Sp. now inversion Sp; subst.
  - destruct (length_code_range _ _ _ Hl) as (Rn & _). destruct (length_code_range _ _ _ Hc) as (Rc & Rc').
    destruct (nibbles n n2 Rn ltac:(lia)) as (-> & ->).
    rewrite (read_size _ _ _ _ Hl). cbn [bind]. rewrite to_nat_zlen, read_literals_spec. cbn [bind app r_u16].
    replace (offset mod 256 + offset / 256 * 256) with offset by (pose proof (Z.div_mod offset 256); lia).
    rewrite (read_count _ _ _ _ Hc). cbn [bind].
    unfold block_items in Sp. cbn [map concat seq_items] in Sp. rewrite <- !app_assoc in Sp.
    apply spells_lits in Sp. cbn [app] in Sp. inversion Sp as [| | |? ? ? mid ? ? Q1 Q2 Q3 Q4]; subst.
    destruct (copy_back_spec (Z.to_nat count) offset (out ++ lits)) as (mid' & -> & Cp); [easy|]. cbn [bind].
    rewrite Z2Nat.id in Cp by lia.
    rewrite (copied_unique _ _ _ _ _ Q1 Cp Q3). apply IH; [cbn in F; lia|]. easy.
Qed.

Lemma block_length bytes seqs last : lz4_block bytes seqs last -> (length seqs < length bytes)%nat.
Proof.
  induction 1 as [|lits n ext offset count n2 ext2 rest seqs last Hl Hc Ho B IH]; cbn [length]; [lia|].
  rewrite !app_length. cbn [length]. lia.
Qed.

Lemma lz4_uncompress_spec bytes seqs last data : lz4_block bytes seqs last ->
  spells [] (block_items seqs last) data -> lz4_uncompress bytes = Ok data.
Proof. intros B Sp. unfold lz4_uncompress. eapply lz4_loop_spec; eauto. now apply block_length in B. Qed.

(** reading ends on every input *)
Lemma read_u8_sum_len d : forall s, match read_u8_sum s d with
  | Ok (_, d') => (length d' <= length d)%nat | Err e => e <> EFuel end.
Proof.
  induction d as [|v d IH]; intros s; cbn [read_u8_sum]; [easy|]. destruct (negb (v =? 255)); [cbn; lia|].
  specialize (IH (s + v)). destruct (read_u8_sum (s + v) d) as [(a, b)|e]; cbn [length]; [lia|easy].
Qed.
Lemma read_literals_len n : forall u d, match read_literals n u d with
  | Ok (_, d') => (length d' <= length d)%nat | Err e => e <> EFuel end.
Proof.
  induction n as [|n IH]; intros u d; cbn [read_literals]; [lia|]. destruct d as [|b d]; cbn [r_u8 bind]; [easy|].
  specialize (IH (u ++ [b]) d). destruct (read_literals n (u ++ [b]) d) as [(a, c)|e]; cbn [length]; [lia|easy].
Qed.
Lemma copy_back_err n o : forall u e, copy_back n o u = Err e -> e <> EFuel.
Proof.
  induction n as [|n IH]; intros u e; cbn [copy_back]; [easy|].
  destruct (neg_index u o) as [c|e'] eqn:E; cbn [bind]; [apply IH|].
  intros [= <-]. unfold neg_index in E. destruct (znth u _) in E; [discriminate E|]. injection E as <-. discriminate.
Qed.

Lemma lz4_loop_ends fuel : forall u d, (length d <= fuel)%nat -> lz4_loop fuel u d <> Err EFuel.
Proof.
  induction fuel as [|fuel IH]; intros u d L; [destruct d; [discriminate|cbn in L; lia]|].
  destruct d as [|h d]; [discriminate|]. cbn [lz4_loop r_u8 bind]. cbn [length] in L.
  set (sz := Z.shiftr h 4). set (m1 := if sz =? 15 then _ else _).
  assert (H1 : match m1 with Ok (_, d') => (length d' <= length d)%nat | Err e => e <> EFuel end).
  { unfold m1. destruct (sz =? 15); [apply read_u8_sum_len|easy]. }
  destruct m1 as [(size, d1)|e]; cbn [bind]; [|congruence].
  pose proof (read_literals_len (Z.to_nat size) u d1) as H2.
  destruct (read_literals (Z.to_nat size) u d1) as [(u2, d2)|e]; cbn [bind]; [|congruence].
  destruct d2 as [|x d2]; [rewrite lz4_loop_nil; discriminate|].
  destruct d2 as [|y d2]; cbn [r_u16 bind]; [discriminate|].
  set (m2 := if 4 + _ =? 19 then _ else _).
  assert (H3 : match m2 with Ok (_, d') => (length d' <= length d2)%nat | Err e => e <> EFuel end).
  { unfold m2. destruct (_ =? 19); [apply read_u8_sum_len|easy]. }
  destruct m2 as [(count, d3)|e]; cbn [bind]; [|congruence].
  destruct (copy_back (Z.to_nat count) (x + y * 256) u2) as [u3|e] eqn:E; cbn [bind].
  - apply IH. cbn [length] in H2. lia.
  - apply copy_back_err in E. congruence.
Qed.

(* ------------------------------------------------------------------ *)
(** * Writing *)

Lemma w_u8_ok v : 0 <= v < 256 -> w_u8 v = Ok [v].
Proof. intros H. unfold w_u8, is_byte. destruct (Z.leb_spec 0 v), (Z.ltb_spec v 256); cbn; easy || lia. Qed.

Lemma write_u8_sum_spec fuel : forall v, 0 <= v -> (Z.to_nat (v / 255) < fuel)%nat ->
  exists l, write_u8_sum fuel v = Ok l /\ more_bytes v l.
Proof.
  induction fuel as [|fuel IH]; intros v Hv F; [lia|]. cbn [write_u8_sum].
  rewrite w_u8_ok by lia. cbn [bind]. destruct (Z.eqb_spec (Z.min v 255) 255) as [E|E]; cbn [negb].
  - destruct (IH (v - Z.min v 255)) as (l & -> & M); [lia| |].
    { rewrite E. assert (Q : v / 255 = (v - 255) / 255 + 1).
      { replace v with ((v - 255) + 1 * 255) at 1 by lia. now rewrite Z.div_add by lia. }
      pose proof (Z.div_pos (v - 255) 255 ltac:(lia) ltac:(lia)). lia. }
    cbn [bind]. eexists. split; [reflexivity|]. rewrite E in *. cbn [app].
    replace v with ((v - 255) + 255) at 1 by lia. now constructor.
  - eexists. split; [reflexivity|]. replace (Z.min v 255) with v by lia. constructor. lia.
Qed.

Lemma u8_sum_spec v : 0 <= v -> exists l, u8_sum v = Ok l /\ more_bytes v l.
Proof. intros H. apply write_u8_sum_spec; [easy|lia]. Qed.

Lemma write_ext v : 0 <= v -> exists l,
  (if 0xf <=? v then u8_sum (v - 0xf) else Ok []) = Ok l /\ length_code v (Z.min v 0xf) l.
Proof.
  intros H. destruct (Z.leb_spec 15 v) as [L|L].
  - destruct (u8_sum_spec (v - 15)) as (l & E & M); [lia|]. exists l. split; [exact E|]. right. split; [lia|easy].
  - exists []. split; [reflexivity|]. left. repeat split; lia.
Qed.

Lemma write_lits l : bytes_ok l -> exists x, map_res w_u8 l = Ok x /\ concat x = l.
Proof.
  induction 1 as [|b l Hb Hl (x & E & C)]; [now exists []|]. cbn [map_res]. rewrite w_u8_ok by easy. cbn [bind].
  rewrite E. cbn [bind]. eexists. split; [reflexivity|]. cbn [concat app]. now rewrite C.
Qed.

Lemma header_val a b : 0 <= a <= 15 -> 0 <= b <= 15 -> Z.lor a (Z.shiftl b 4) = b * 16 + a.
Proof.
  intros Ha Hb. rewrite Z.shiftl_mul_pow2 by lia. change (2 ^ 4) with 16.
  assert (P : forallb (fun a => forallb (fun b => Z.lor a (b * 16) =? b * 16 + a) (zrange 16)) (zrange 16) = true) by (vm_compute; reflexivity).
  pose proof (range_sweep 16 _ P a ltac:(lia)) as Q. cbn beta in Q.
  pose proof (range_sweep 16 _ Q b ltac:(lia)) as R. cbn beta in R. lia.
Qed.

Lemma write_block_seq lits offset count : bytes_ok lits -> 1 <= offset < 65536 -> 4 <= count ->
  exists b, write_block lits (Some (offset, count)) = Ok b /\
    forall rest seqs last, lz4_block rest seqs last -> lz4_block (b ++ rest) ((lits, (offset, count)) :: seqs) last.
Proof.
  intros Hl Ho Hc. unfold write_block, lz4_min_c. pose proof (zlen_nonneg lits).
  rewrite header_val by lia. rewrite w_u8_ok by lia. cbn [bind].
  destruct (write_ext (zlen lits)) as (e1 & -> & L1); [lia|]. cbn [bind].
  destruct (write_lits lits Hl) as (x & -> & Cx). cbn [bind]. rewrite Cx.
  unfold w_u16. destruct (Z.leb_spec 0 offset); [|lia]. destruct (Z.ltb_spec offset 65536); [|lia]. cbn [andb bind].
  destruct (write_ext (count - 4)) as (e2 & -> & L2); [lia|]. cbn [bind].
  eexists. split; [reflexivity|]. intros rest seqs last B. cbn [app]. rewrite <- !app_assoc. cbn [app].
  now apply (block_seq lits _ e1 offset count _ e2 rest).
Qed.

Lemma write_block_end lits : bytes_ok lits ->
  exists b, write_block lits None = Ok b /\ lz4_block b [] lits.
Proof.
  intros Hl. unfold write_block. pose proof (zlen_nonneg lits).
  rewrite header_val by lia. rewrite w_u8_ok by lia. cbn [bind].
  destruct (write_ext (zlen lits)) as (e1 & -> & L1); [lia|]. cbn [bind].
  destruct (write_lits lits Hl) as (x & -> & Cx). cbn [bind]. rewrite Cx.
  eexists. split; [reflexivity|]. cbn [app]. apply block_end; [lia|easy].
Qed.

Section Write.
Context (data : list Z) (Bd : bytes_ok data).

(** the rules for sequences that start at [p] *)
Definition rules_from (p : Z) (seqs : list (list Z * (Z * Z))) : Prop :=
  forall before lits offset count after,
    seqs = before ++ (lits, (offset, count)) :: after ->
    p + seqs_size before + zlen lits + 12 <= zlen data /\
    p + seqs_size before + zlen lits + count + 5 <= zlen data.

Lemma rules_cons p lits offset count seqs :
  p + zlen lits + 12 <= zlen data -> p + zlen lits + count + 5 <= zlen data ->
  rules_from (p + zlen lits + count) seqs -> rules_from p ((lits, (offset, count)) :: seqs).
Proof.
  intros H1 H2 R [|s before] l o c after E; cbn [app] in E.
  - injection E as -> -> -> ->. cbn. lia.
  - injection E as <- ->. destruct (R before l o c after eq_refl) as (A & B).
    cbn [seqs_size fold_right seq_size]. change (fold_right _ 0 before) with (seqs_size before). lia.
Qed.

Lemma lz4_write_spec a its b : chain data 4 None (Some 0xffff) false a its b -> b = zlen data -> 0 <= a <= zlen data ->
  forall p, 0 <= p <= a -> exists bytes seqs last,
    lz4_write data its (slice data p a) = Ok bytes /\ lz4_block bytes seqs last /\
    spells (slice data 0 p) (block_items seqs last) data /\ rules_from p seqs.
Proof.
  induction 1 as [a|a it m its b G Ch IH]; intros -> Ha p Hp; cbn [lz4_write].
  - destruct (write_block_end (slice data p (zlen data))) as (bytes & E & B); [now apply slice_Forall|].
    exists bytes, [], (slice data p (zlen data)). split; [exact E|]. split; [exact B|]. split.
    + unfold block_items. cbn [map concat app]. rewrite <- (app_nil_r (map Lit _)). apply spells_lits.
      rewrite slice_app by lia. rewrite slice_all. constructor.
    + intros [|? ?] ? ? ? ? Q; discriminate Q.
  - destruct it as [c|o c|s].
    + destruct G as (Gc & ->). cbn [lz4_check lz4_item bind].
      assert (Hl := znth_lt _ _ _ Gc).
      rewrite <- (slice_1 data a c) by (auto; lia). rewrite slice_app by lia.
      destruct (IH eq_refl ltac:(lia) p ltac:(lia)) as (bytes & seqs & last & -> & H). cbn [bind app].
      exists bytes, seqs, last. split; [reflexivity|exact H].
    + destruct G as ((H1 & H2 & H3 & H4 & _ & _ & H7) & ->).
      specialize (H4 _ eq_refl). specialize (H7 eq_refl ltac:(discriminate)).
      pose proof H3 as (H3' & _). cbn [lz4_check lz4_item].
      unfold end_of_lz77s, end_of_lz77_reach.
      destruct (Z.ltb_spec a (zlen data - 12)) as [L|L].
      * (* a match is written *)
        assert (W : forall c' d', 4 <= c' <= c -> a + c' + 5 <= zlen data ->
          d' = slice data (a + c') (a + c) ->
          exists bytes seqs last,
          (b <- write_block (slice data p a) (Some (o, c')) ;; rest <- lz4_write data its d' ;; Ok (b ++ rest)) = Ok bytes /\
          lz4_block bytes seqs last /\ spells (slice data 0 p) (block_items seqs last) data /\ rules_from p seqs).
        { intros c' d' Hc' Lc ->.
          destruct (write_block_seq (slice data p a) o c') as (x & -> & B); [now apply slice_Forall|lia|lia|].
          destruct (IH eq_refl ltac:(lia) (a + c') ltac:(lia)) as (bytes & seqs & last & -> & B2 & Sp & R). cbn [bind].
          exists (x ++ bytes), ((slice data p a, (o, c')) :: seqs), last. split; [reflexivity|]. split; [now apply B|].
          assert (Zl : zlen (slice data p a) = a - p) by (rewrite zlen_slice by lia; lia). split.
          - unfold block_items. cbn [map concat seq_items]. rewrite <- !app_assoc. apply spells_lits.
            rewrite slice_app by lia. cbn [app].
            econstructor; [| |apply (item_copied data a o c'); [lia|lia|]|exact Sp].
            + rewrite zlen_slice by lia. lia.
            + lia.
            + destruct H3 as (M1 & M2). split; [lia|]. intros k Hk. apply M2. lia.
          - apply rules_cons; [lia|lia|]. now replace (p + zlen (slice data p a) + c') with (a + c') by lia. }
        destruct (Z.leb_spec (a + c) (zlen data - 5)) as [Lc|Lc].
        -- cbn [bind]. apply W; [lia|lia|]. unfold slice. now replace (Z.to_nat (a + c - (a + c))) with 0%nat by lia.
        -- unfold assert_, lz4_min_c. destruct (Z.leb_spec 4 (zlen data - 5 - a)); [|lia]. cbn [bind].
           apply W; [lia|lia|]. f_equal. lia.
      * (* too close to the end *)
        cbn [bind]. rewrite slice_app by lia.
        destruct (IH eq_refl ltac:(lia) p ltac:(lia)) as (bytes & seqs & last & -> & H). cbn [bind app].
        exists bytes, seqs, last. split; [reflexivity|exact H].
    + destruct G as (G1 & G2 & ->). cbn [lz4_check lz4_item bind]. rewrite slice_app by lia.
      destruct (IH eq_refl ltac:(lia) p ltac:(lia)) as (bytes & seqs & last & -> & H). cbn [bind app].
      exists bytes, seqs, last. split; [reflexivity|exact H].
Qed.

Lemma lz4_items_chain fast : exists its, lz4_items data fast = Ok its /\
  chain data 4 None (Some 0xffff) false 0 its (zlen data).
Proof.
  unfold lz4_items. destruct fast.
  - apply (get_lz77_total data 4 None (Some 0xffff) false ltac:(lia) ltac:(discriminate) Z None (fun _ => 0) None [] None
      (fun _ => True) I); discriminate.
  - apply (get_lz77_total data 4 None (Some 0xffff) false ltac:(lia) ltac:(discriminate) Z (Some (lz4_measure data))
      lz4_min_cost (Some lz4_cheaper_c) [] None (fun _ => True) I); [repeat intro; exact I|].
    intros m out base [= <-] _ ctxt it a b _ _ Nb. unfold lz4_measure. destruct it; eauto.
Qed.

Lemma lz4_compress_spec fast : exists bytes seqs last,
  lz4_compress data fast = Ok bytes /\ lz4_block bytes seqs last /\
  spells [] (block_items seqs last) data /\ end_rules (zlen data) seqs.
Proof.
  unfold lz4_compress. destruct (lz4_items_chain fast) as (its & -> & Ch). cbn [bind].
  destruct (lz4_write_spec 0 its _ Ch eq_refl ltac:(pose proof (zlen_nonneg data); lia) 0 ltac:(lia))
    as (bytes & seqs & last & E & B & Sp & R).
  exists bytes, seqs, last. change (slice data 0 0) with (@nil Z) in *.
  split; [exact E|]. split; [exact B|]. split; [exact Sp|].
  intros before lits o c after Q. destruct (R before lits o c after Q) as (A1 & A2). cbn zeta. lia.
Qed.
End Write.
