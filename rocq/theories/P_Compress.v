(** Property theorems C01-C09: code compression. *)
From Coq Require Import Sorted.
From Verif Require Import M_Base M_BitIO M_Lz77 M_Compress S_Bits S_Lz
  L_BitIO L_Compress L_Lz77 L_CompressTop L_OldFormat L_OldTotal L_Decode L_LzTop.
Open Scope Z_scope.

(** C01.  Fast mode, pxa format: for every code string of byte characters below
    64k, the compressor produces some [d]; unless it refuses it for being too
    big, [d] (followed by anything) is read back as the same code, and the size
    reported for the stored code is the number of bytes written. *)
Theorem C01_fast_compression_lossless : forall be force fail code mx tail,
  (k_code_size <= zlen code \/ force = true) -> bytes_ok code -> zlen code < 0x10000 -> bytes_ok tail ->
  exists d, bytes_ok d /\
    compress_code (mkcopts force fail true false be) code =
      (if fail && negb (zlen d <=? k_code_size) then Err ECheck else Ok d) /\
    (zlen d < 0x10000 -> uncompress_code be mx (d ++ tail) = Ok code /\
                         get_compressed_size be mx (d ++ tail) = Ok (zlen d)).
Proof.
  intros be force fail code mx tail H1 H2 H3 H4.
  destruct (fast_roundtrip be force fail code mx tail H1 H2 H3 H4) as (d & A & _ & B & D). eauto.
Qed.
Print Assumptions C01_fast_compression_lossless.

Example C01_case :
  let code := [112;114;105;110;116;40;34;104;105;34;41;10;112;114;105;110;116;40;34;104;105;34;41;10;0;200] in
  bytes_ok code /\ zlen code < 0x10000 /\
  exists d, compress_code (mkcopts true true true false true) code = Ok d /\ (zlen d < 40) /\
            uncompress_code true 100 (d ++ [7;7]) = Ok code.
Proof. cbn zeta. split; [repeat constructor; lia|]. split; [reflexivity|]. eexists. vm_compute. repeat split. Qed.

(** C02.  Default mode.  The full claim "compressing with the default options
    and reading back returns the same code" is false of the code: the literal
    block heuristic can produce unordered positions and the compressor then dies
    on its own assertion.  [C02_default_compression_refuted] is a concrete
    48-character cart.  The two partial theorems cover (a) every run whose yielded
    positions never go back and (b) every code for which the heuristic asks for
    no literal block; in case (b) success is part of the conclusion. *)
Theorem C02_default_compression_refuted :
  exists code, Forall (fun c => 0 < c < 256) code /\ zlen code < 0x10000 /\
    compress_code (mkcopts true true false false true) code = Err EAssert.
Proof.
  exists ([65] ++ [240;241;242;243;244] ++ [240;241;242;243;244;240] ++ map Z.of_nat (seq 66 18)
            ++ [120;121;122] ++ [84;84;85;85;86;87]).
  split; [repeat constructor; lia|]. split; vm_compute; reflexivity.
Qed.
Print Assumptions C02_default_compression_refuted.

Theorem C02_default_compression_partial : forall be force fail code its mx tail,
  (k_code_size <= zlen code \/ force = true) -> Forall (fun c => 0 < c < 256) code ->
  zlen code < 0x10000 -> bytes_ok tail ->
  new_items false code = Ok its -> Sorted Z.le (map fst its) ->
  exists d, bytes_ok d /\
    compress_code (mkcopts force fail false false be) code =
      (if fail && negb (zlen d <=? k_code_size) then Err ECheck else Ok d) /\
    (zlen d < 0x10000 -> uncompress_code be mx (d ++ tail) = Ok code /\
                         get_compressed_size be mx (d ++ tail) = Ok (zlen d)).
Proof.
  intros be force fail code its mx tail H1 H2 H3 H4 H5 H6.
  destruct (default_sorted be force fail code its mx tail H1 H2 H3 H4 H5 H6) as (d & A & _ & B & D). eauto.
Qed.
Print Assumptions C02_default_compression_partial.

Theorem C02_default_without_blocks_partial : forall be force fail code mx tail,
  (k_code_size <= zlen code \/ force = true) -> Forall (fun c => 0 < c < 256) code ->
  zlen code < 0x10000 -> bytes_ok tail ->
  preprocess_litblock_idxs code = Ok [] ->
  exists d, bytes_ok d /\
    compress_code (mkcopts force fail false false be) code =
      (if fail && negb (zlen d <=? k_code_size) then Err ECheck else Ok d) /\
    (zlen d < 0x10000 -> uncompress_code be mx (d ++ tail) = Ok code /\
                         get_compressed_size be mx (d ++ tail) = Ok (zlen d)).
Proof.
  intros be force fail code mx tail H1 H2 H3 H4 H5.
  destruct (default_noblock be force fail code mx tail H1 H2 H3 H4 H5) as (d & A & _ & B & D). eauto.
Qed.
Print Assumptions C02_default_without_blocks_partial.

(** The hypotheses of both are met by ordinary code; a run with a real literal
    block (40 distinct high characters) also meets those of the first. *)
Example C02_case1 :
  let code := concat (repeat [112;114;105;110;116;40;34;104;105;34;41;10] 6) in
  preprocess_litblock_idxs code = Ok [] /\
  exists its, new_items false code = Ok its /\ Sorted Z.le (map fst its).
Proof.
  cbn zeta. split; [vm_compute; reflexivity|]. eexists. split; [vm_compute; reflexivity|].
  apply sortedb_ok. reflexivity.
Qed.
Example C02_case2 :
  let code := [97;98;99] ++ map (fun k => 255 - Z.of_nat k) (seq 0 100) ++ repeat 97 20 in
  exists its, new_items false code = Ok its /\ Sorted Z.le (map fst its) /\
    existsb (fun x => match snd x with Blk s => 20 <? zlen s | _ => false end) its = true.
Proof.
  cbn zeta. eexists. split; [vm_compute; reflexivity|].
  split; [apply sortedb_ok; reflexivity|reflexivity].
Qed.

(** C03.  Any input, any cost callback (which may raise), any options and any
    literal-block positions: if the parser finishes and its reported positions
    never go back, the items spell the input and respect the limits.  Without
    literal-block positions and with callbacks that do not raise, it always
    finishes and the positions condition is not needed. *)
Theorem C03_lz77_parse_partial : forall code min_c max_c max_o no_repeat C measure min_cost cheaper steps fast_c idxs its,
  1 <= min_c -> (forall m, max_c = Some m -> 1 <= m) ->
  get_lz77 code min_c max_c max_o no_repeat C measure min_cost cheaper steps fast_c idxs = Ok its ->
  Sorted Z.le (map fst its) ->
  spells [] (map snd its) code /\ Forall (within_limits min_c max_c max_o no_repeat) (map snd its).
Proof. exact lz77_spells. Qed.
Print Assumptions C03_lz77_parse_partial.

Theorem C03_lz77_parse_without_blocks : forall code min_c max_c max_o no_repeat C measure min_cost cheaper steps fast_c,
  1 <= min_c -> (forall m, max_c = Some m -> 1 <= m) ->
  (forall m, measure = Some m -> forall out ctxt it, (forall s, it <> Blk s) ->
     exists cost ctxt', m out ctxt it = Ok (cost, ctxt')) ->
  exists its, get_lz77 code min_c max_c max_o no_repeat C measure min_cost cheaper steps fast_c [] = Ok its /\
  spells [] (map snd its) code /\ Forall (within_limits min_c max_c max_o no_repeat) (map snd its).
Proof. exact lz77_total. Qed.
Print Assumptions C03_lz77_parse_without_blocks.

(** With ordered positions alone the claim is false: a match may jump over a
    whole block, and the parser then goes back and repeats text. *)
Theorem C03_ordered_positions_refuted : exists code idxs its,
  Sorted Z.lt idxs /\ Forall (fun i => 0 <= i <= zlen code) idxs /\
  get_lz77 code 3 None None false unit None (fun _ => 0) None [] None idxs = Ok its /\
  ~ spells [] (map snd its) code.
Proof.
  exists [97;98;99;100;101;97;98;99;100;101;120;121], [6;7].
  eexists. split; [repeat constructor|]. split; [repeat constructor; cbn; lia|].
  split; [vm_compute; reflexivity|]. cbn [map snd]. intros H.
  repeat match goal with
  | H : spells _ (Lit _ :: _) _ |- _ => inversion H; clear H; subst
  | H : spells _ (Blk _ :: _) _ |- _ => inversion H; clear H; subst
  | H : spells _ (Mat 0 _ :: _) _ |- _ => inversion H; lia
  | H : spells _ (Mat _ _ :: _) _ |- _ => inversion H; clear H; subst
  end.
Qed.
Print Assumptions C03_ordered_positions_refuted.

Example C03_case : exists its,
  get_lz77 (concat (repeat [1;2;3;4] 5)) 3 None (Some 100) false unit
           (Some measure_old) (fun _ => 0) None [] None [] = Ok its /\ In (4, Mat 4 16) its.
Proof. eexists. split; [vm_compute; reflexivity|]. cbn. auto 8. Qed.

(** C04.  Every valid split of a code into items (not ending in an empty block)
    is written to a stream that decodes to that code, whatever follows, and the
    decoder stops exactly at the end of the written bytes. *)
Theorem C04_pxa_stream_decodes : forall its code tail, Forall pxa_item its -> spells [] its code ->
  its = [] \/ ends_with_text its -> bytes_ok tail ->
  exists w mtf', write_items its (bw_init, mtf_init) = Ok (w, mtf') /\ bytes_ok (bw_flush w) /\
  forall fuel ifuel, (8 * length (bw_flush w) <= fuel)%nat -> (8 * length (bw_flush w) <= ifuel)%nat ->
  exists r, decode_loop fuel ifuel (zlen code) mtf_init [] (br_init (bw_flush w ++ tail)) = Ok (code, r)
            /\ br_rest r = tail.
Proof. exact pxa_stream. Qed.
Print Assumptions C04_pxa_stream_decodes.

Example C04_case :
  let its := [Lit 97; Mat 1 9; Blk [1;2;255]; Mat 3 20; Lit 0] in
  Forall pxa_item its /\ spells [] its (repeat 97 10 ++ concat (repeat [1;2;255] 7) ++ [1;2;0]) /\ ends_with_text its.
Proof.
  cbn zeta. split; [repeat constructor; lia|]. split; [|discriminate].
  constructor. cbn [app]. eapply (sp_mat _ 1 9 (repeat 97 10)); [cbn; lia|lia| |].
  { exists (repeat 97 9). repeat split. intros k Hk.
    assert (K : k = 0 \/ k = 1 \/ k = 2 \/ k = 3 \/ k = 4 \/ k = 5 \/ k = 6 \/ k = 7 \/ k = 8) by lia.
    repeat (destruct K as [->|K]; [reflexivity|]). subst; reflexivity. }
  constructor. eapply (sp_mat _ 3 20 (repeat 97 10 ++ concat (repeat [1;2;255] 7) ++ [1;2])); [cbn; lia|lia| |].
  { exists (concat (repeat [1;2;255] 6) ++ [1;2]). repeat split. intros k Hk.
    assert (K : exists n, (n < 20)%nat /\ k = Z.of_nat n) by (exists (Z.to_nat k); lia).
    destruct K as (n & Hn & ->). do 20 (destruct n as [|n]; [reflexivity|]). lia. }
  constructor. cbn. constructor.
Qed.

(** C05.  Old format: whatever the compressor accepts is read back unchanged
    from a zero-padded area, in both speeds. *)
Theorem C05_old_compression_lossless : forall be force fail fast code mx d tail,
  (k_code_size <= zlen code \/ force = true) -> Forall (fun c => 0 < c < 256) code -> zlen code < 0x10000 ->
  compress_code (mkcopts force fail fast true be) code = Ok d ->
  bytes_ok d /\ uncompress_code be mx (d ++ 0 :: 0 :: tail) = Ok code.
Proof.
  intros be force fail fast code mx d tail H1 H2 H3 H4.
  destruct (old_roundtrip be force fail fast code mx d tail H1 H2 H3 H4) as (A & B & _). auto.
Qed.
Print Assumptions C05_old_compression_lossless.

Example C05_case : exists d,
  compress_code (mkcopts true true false true true) (concat (repeat [112;114;105;110;116;40;34] 9)) = Ok d /\ zlen d < 40.
Proof. eexists. split; vm_compute; reflexivity. Qed.

(** C06.  In the default speed the old format accepts every code string of
    bytes.  In fast mode it does not: a repeated character makes a match whose
    offset the parser is allowed to choose too small or too large for its byte. *)
Theorem C06_old_default_total : forall be force code, bytes_ok code ->
  (k_code_size <= zlen code \/ force = true) ->
  exists d, compress_code (mkcopts force false false true be) code = Ok d.
Proof. exact old_default_total. Qed.
Print Assumptions C06_old_default_total.

Theorem C06_old_fast_refuted : exists code,
  Forall (fun c => 0 < c < 256) code /\ zlen code < 300 /\
  compress_code (mkcopts true true true true true) code = Err EStruct.
Proof.
  exists ([98;99;100;101;102;103;104;105] ++ repeat 97 224 ++ [120;121]).
  split; [repeat constructor; lia|]. split; vm_compute; reflexivity.
Qed.
Print Assumptions C06_old_fast_refuted.

Example C06_case : bytes_ok ([98;99;100;101;102;103;104;105] ++ repeat 97 224 ++ [120;121]).
Proof. repeat constructor; lia. Qed.

(** C07.  Arbitrary bytes: the decoder never loops; what it returns has the
    declared length (pxa), or that or one less (old), or is the NUL-terminated
    prefix (uncompressed); the pxa result is spelled by items whose
    back-references all point inside the text already produced. *)
Theorem C07_decompressor_terminates : forall be mx d, bytes_ok d -> uncompress_code be mx d <> Err EFuel.
Proof. exact uncompress_no_fuel. Qed.
Print Assumptions C07_decompressor_terminates.

Theorem C07_decompressor_length : forall be mx d code n rest, bytes_ok d ->
  firstn 4 d = new_header -> get_u16 be (skipn 4 d) = Ok (n, rest) -> uncompress_code be mx d = Ok code ->
  zlen code = n /\ bytes_ok code /\ exists its, Forall pxa_item its /\ spells [] its code.
Proof. exact uncompress_new_sound. Qed.
Print Assumptions C07_decompressor_length.

Theorem C07_old_length : forall be mx d code n rest, firstn 4 d = old_header ->
  get_u16 be (skipn 4 d) = Ok (n, rest) -> uncompress_code be mx d = Ok code ->
  zlen code = n \/ zlen code = n - 1.
Proof. exact uncompress_old_len. Qed.
Print Assumptions C07_old_length.

Theorem C07_raw : forall be mx d, firstn 4 d <> new_header -> firstn 4 d <> old_header ->
  exists code rest, uncompress_code be mx d = Ok code /\ d = code ++ rest /\ Forall (fun c => c <> 0) code /\
    (zlen code <= Z.max 0 mx) /\ (rest = [] \/ zlen code = Z.max 0 mx \/ exists t, rest = 0 :: t).
Proof. exact uncompress_raw. Qed.
Print Assumptions C07_raw.

Example C07_case : exists d code n rest,
  bytes_ok d /\ firstn 4 d = new_header /\ get_u16 true (skipn 4 d) = Ok (n, rest) /\
  uncompress_code true 100 d = Ok code /\ zlen code = 11.
Proof.
  assert (H : exists d, compress_code (mkcopts true true true false true) (repeat 97 11) = Ok d /\
     uncompress_code true 100 d = Ok (repeat 97 11) /\ forallb is_byte d = true /\ firstn 4 d = new_header /\
     exists rest, get_u16 true (skipn 4 d) = Ok (11, rest)).
  { eexists. vm_compute. repeat split. eexists. reflexivity. }
  destruct H as (d & _ & H1 & H2 & H3 & rest & H4). exists d, (repeat 97 11), 11, rest.
  repeat split; auto. apply Forall_forall. intros x Hx. rewrite forallb_forall in H2. specialize (H2 x Hx).
  unfold is_byte in H2. lia.
Qed.

(** C08.  The size reported for stored code: bytes written (pxa, see also C01
    and C02), bytes written plus the two-byte terminator (old), code length
    (uncompressed). *)
Theorem C08_size_old : forall be force fail fast code mx d tail,
  (k_code_size <= zlen code \/ force = true) -> Forall (fun c => 0 < c < 256) code -> zlen code < 0x10000 ->
  compress_code (mkcopts force fail fast true be) code = Ok d ->
  get_compressed_size be mx (d ++ 0 :: 0 :: tail) = Ok (zlen d + 2).
Proof.
  intros be force fail fast code mx d tail H1 H2 H3 H4.
  destruct (old_roundtrip be force fail fast code mx d tail H1 H2 H3 H4) as (_ & _ & B). exact B.
Qed.
Print Assumptions C08_size_old.

Theorem C08_size_pxa : forall be force fail code mx tail,
  (k_code_size <= zlen code \/ force = true) -> bytes_ok code -> zlen code < 0x10000 -> bytes_ok tail ->
  forall d, compress_code (mkcopts force fail true false be) code = Ok d -> zlen d < 0x10000 ->
  get_compressed_size be mx (d ++ tail) = Ok (zlen d).
Proof.
  intros be force fail code mx tail H1 H2 H3 H4 d E L.
  destruct (fast_roundtrip be force fail code mx tail H1 H2 H3 H4) as (d' & _ & _ & B & D).
  rewrite B in E. destruct (fail && negb (zlen d' <=? k_code_size)); [discriminate|]. injection E as <-.
  now apply D.
Qed.
Print Assumptions C08_size_pxa.

Theorem C08_raw_storage : forall be fail fast old code mx tail,
  zlen code < k_code_size -> zlen code <= mx -> Forall (fun c => 0 < c < 256) code ->
  ~ starts_with old_header (code ++ tail) -> (tail = [] \/ exists t, tail = 0 :: t) ->
  (code = [] -> ~ starts_with new_header tail) ->
  compress_code (mkcopts false fail fast old be) code = Ok code /\
  uncompress_code be mx (code ++ tail) = Ok code /\
  get_compressed_size be mx (code ++ tail) = Ok (zlen code).
Proof. exact raw_roundtrip. Qed.
Print Assumptions C08_raw_storage.

Example C08_case : ~ starts_with old_header ([112;114;105;110;116] ++ repeat 0 10).
Proof. intros [r H]. discriminate. Qed.

(** C09.  Bit fields. *)
Theorem C09_bit_streams : forall fs tail,
  Forall (fun f => 0 <= snd f < 2 ^ Z.of_nat (fst f)) fs -> bytes_ok tail ->
  let d := bw_flush (write_fields fs bw_init) in
  bytes_ok d /\ length d = bytes_for_bits (fold_right Nat.add 0%nat (map fst fs)) /\
  exists r, read_fields (map fst fs) (br_init (d ++ tail)) = Ok (map snd fs, r).
Proof. exact fields_roundtrip. Qed.
Print Assumptions C09_bit_streams.

Example C09_case : bw_flush (write_fields [(3%nat, 5); (0%nat, 0); (11%nat, 1234); (20%nat, 1048575)] bw_init)
  = [149; 230; 255; 255; 3].
Proof. vm_compute. reflexivity. Qed.
