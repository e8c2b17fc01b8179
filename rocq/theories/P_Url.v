(** Property theorems C21, C22, C26: URL carts, clipboard carts, merging. *)
From Verif Require Import M_Base M_Memory M_Lz77 M_Compress M_Rom M_Text M_Url S_Rom S_Url
  L_Util L_LzTop L_Memory L_Rom L_Image L_Url P_Rom.
Open Scope Z_scope.

Definition byte_at (m : list Z) (a : Z) : Z := nth (Z.to_nat a) m 0.

(** C21.  A cart written as a URL, after any prefix without "?", is read back with its
    code and its sprite sheet (addresses 0 to 0x1fff).  Two conditions remain: the parse
    condition of C02 and code other than ":c:" (refuted below). *)
Theorem C21_url_partial : forall prefix keep o c url, cart_ok c -> o_fail o = true -> o_be o = true ->
  parse_ordered (force_copts o) (c_code c) -> c_code c <> [58; 99; 58] -> Forall (fun ch => ch <> 63) prefix ->
  write_cart_to_url prefix false o c = Ok url ->
  exists c', read_cart_from_url keep url = Ok c' /\ c_code c' = c_code c /\ zlen (c_rom c') = 0x4300 /\
    forall j, 0 <= j < 0x2000 -> byte_at (c_rom c') j = byte_at (c_rom c) j.
Proof. exact url_roundtrip. Qed.
Print Assumptions C21_url_partial.

(** The two size-limited parts on their own, without conditions: any bytes through the
    code parameter's alphabet, any sprite sheet through the run-length text. *)
Theorem C21_code_text : forall d, bytes_ok d -> b64_decode (b64_encode d) = Ok d /\ Forall (fun ch => ch <> 38 /\ ch <> 63) (b64_encode d).
Proof. intros d H. split; [now apply b64_roundtrip|now apply b64_chars]. Qed.
Print Assumptions C21_code_text.
Theorem C21_sheet_text : forall m m0, bytes_ok m -> zlen m = 0x4300 -> mem_create_rom = Ok m0 ->
  exists gfx m', write_gfx m = Ok gfx /\ Forall (fun ch => ch <> 38 /\ ch <> 63) gfx /\ read_gfx gfx 0 m0 = Ok m' /\
    bytes_ok m' /\ zlen m' = 0x4300 /\ forall j, 0 <= j < 0x2000 -> byte_at m' j = byte_at m j.
Proof. exact gfx_roundtrip. Qed.
Print Assumptions C21_sheet_text.

Definition url_rom : list Z := [0x12; 0x12; 0x11; 0x33] ++ repeat 0 (Z.to_nat 0x2000 - 4) ++ repeat 200 (Z.to_nat 0x2300).
Definition url_cart (code : list Z) : cart := mkcart 41 (0,2,5,6) 119 false false url_rom code None None [].
Lemma url_rom_ok : bytes_ok url_rom /\ zlen url_rom = 0x4300.
Proof.
  unfold url_rom. split.
  - repeat (apply Forall_app; split); try (apply Forall_forall; intros x Hx; apply repeat_spec in Hx; lia).
    repeat (apply Forall_cons; [lia|]). apply Forall_nil.
  - unfold zlen. now rewrite !app_length, !repeat_length.
Qed.
Lemma url_cart_ok code : Forall (fun x => 0 < x < 256) code -> zlen code < 0x10000 -> cart_ok (url_cart code).
Proof.
  intros H1 H2. unfold cart_ok, url_cart, byte_version; cbn [c_rom c_code c_version c_version_id c_platform].
  split; [apply url_rom_ok|]. split; [apply url_rom_ok|]. repeat split; auto; lia.
Qed.
(** Its sprite sheet starts with the colours 2 1 2 1 1 1 3 3 and is otherwise empty. *)
Definition url_gfx : list Z := [b64c 2; b64c 1; b64c 2; b64c 33; b64c 19].
Lemma runs_zero k : forall n, gfx_runs 0 n (repeat 0 k) = [].
Proof. induction k as [|k IH]; intros n; [reflexivity|]. cbn [repeat gfx_runs]. rewrite Z.eqb_refl. apply IH. Qed.
Lemma url_pixels n : Z.of_nat n = 16384 -> pixels_n url_rom n = [2; 1; 2; 1; 1; 1; 3; 3] ++ repeat 0 (n - 8).
Proof.
  intros Hn. apply (nth_ext _ _ 0 0).
  - rewrite pixels_len, app_length, repeat_length. cbn [length]. lia.
  - intros k Hk. rewrite pixels_len in Hk. rewrite <- (Nat2Z.id k) at 1. rewrite pixels_nth by lia.
    destruct (Nat.lt_ge_cases k 8) as [L|L].
    + rewrite app_nth1 by (cbn; lia). do 8 (destruct k as [|k]; [reflexivity|]). lia.
    + rewrite app_nth2 by (cbn; lia). rewrite nth_repeat. unfold sheet_px.
      assert (E : mget url_rom (Z.of_nat k / 128 * 64 + Z.of_nat k mod 128 / 2) = 0).
      { unfold mget, url_rom.
        assert (B : 4 <= Z.of_nat k / 128 * 64 + Z.of_nat k mod 128 / 2 < 0x2000) by (zify; Z.div_mod_to_equations; lia).
        rewrite app_nth2 by (cbn; lia). rewrite app_nth1 by (rewrite repeat_length; cbn [length]; lia). apply nth_repeat. }
      rewrite E. unfold nib_get. now destruct (_ =? 0).
Qed.
Lemma url_gfx_ok : write_gfx url_rom = Ok url_gfx.
Proof.
  unfold write_gfx. assert (Hn : Z.of_nat (Z.to_nat k_pixels) = 16384) by reflexivity.
  generalize dependent (Z.to_nat k_pixels). intros n Hn. rewrite pixels_ok by (try apply url_rom_ok; lia). cbn [bind].
  rewrite url_pixels by exact Hn. assert (E : (n - 8)%nat = S (n - 9)) by lia. rewrite E. generalize (n - 9)%nat. intros j.
  cbn [app repeat gfx_runs Z.eqb Pos.eqb]. rewrite runs_zero. reflexivity.
Qed.
Lemma url_write prefix o code raw : write_cart_to_tiny_rom false o (url_cart code) = Ok raw ->
  zlen (url_text prefix (b64_encode raw) url_gfx) - k_url_prefix_size <= k_url_size ->
  write_cart_to_url prefix false o (url_cart code) = Ok (url_text prefix (b64_encode raw) url_gfx).
Proof.
  intros E L. unfold write_cart_to_url. rewrite E. change (c_rom (url_cart code)) with url_rom. rewrite url_gfx_ok. cbn [bind].
  fold (url_text prefix (b64_encode raw) url_gfx). cbn zeta. destruct (Z.leb_spec (zlen (url_text prefix (b64_encode raw) url_gfx) - k_url_prefix_size) k_url_size); [reflexivity|lia].
Qed.
(** "https://x", the code "print(1)": the hypotheses are met. *)
Example C21_case : let c := url_cart [112; 114; 105; 110; 116; 40; 49; 41] in
  let o := mkcopts false true false false true in
  cart_ok c /\ parse_ordered (force_copts o) (c_code c) /\
  exists url, write_cart_to_url [104; 116; 116; 112; 115; 58; 47; 47; 120] false o c = Ok url.
Proof.
  cbn zeta. split; [apply url_cart_ok; [repeat constructor; lia|reflexivity]|]. split.
  - intros _ _ _ its E. vm_compute in E. apply Ok_inj in E. subst its. apply sortedb_ok. reflexivity.
  - eexists. apply url_write; [vm_compute; reflexivity|]. vm_compute. discriminate.
Qed.

(** Without the last condition the claim is false: the code ":c:" goes into the URL as
    itself, and padding makes it the header of the old format. *)
Theorem C21_marker_refuted : exists c url c', cart_ok c /\ c_code c = [58; 99; 58] /\
  write_cart_to_url [] false (mkcopts false true false false true) c = Ok url /\
  read_cart_from_url false url = Ok c' /\ c_code c' = [].
Proof.
  destruct default_rom_ok as (m0 & M & _).
  destruct (gfx_roundtrip url_rom m0 (proj1 url_rom_ok) (proj2 url_rom_ok) M) as (gfx & m' & Eg & Ug & Rg & _).
  rewrite url_gfx_ok in Eg. apply Ok_inj in Eg. subst gfx.
  assert (B : bytes_ok [58; 99; 58]) by (repeat (apply Forall_cons; [clear; lia|]); apply Forall_nil).
  assert (U : uncompress_code true k_code_size (ljust [58; 99; 58] k_code_size) = Ok []) by (vm_compute; reflexivity).
  destruct (read_url_text [] false [58; 99; 58] url_gfx m0 m' [] (Forall_nil _) B Ug M Rg U) as (c' & R & C & _). clear M.
  exists (url_cart [58; 99; 58]), (url_text [] (b64_encode [58; 99; 58]) url_gfx), c'.
  split; [apply url_cart_ok; [repeat constructor; lia|reflexivity]|]. split; [reflexivity|].
  split; [|now split]. apply url_write; [vm_compute; reflexivity|]. vm_compute. discriminate.
Qed.
Print Assumptions C21_marker_refuted.

(** C22.  Clipboard text of any bytes gives the bytes back, also after the [rstrip] done
    on a file's contents. *)
Theorem C22_clip : forall d, bytes_ok d ->
  read_raw_from_clip (write_raw_to_clip d) = Ok d /\ rstrip (write_raw_to_clip d) = write_raw_to_clip d.
Proof. intros d H. split; [now apply clip_roundtrip|apply clip_rstrip]. Qed.
Print Assumptions C22_clip.
(** Hence, with any lossless picture encoding, a clipboard cart is as good as the cart image (C13). *)
Theorem C22_clip_cart : forall enc dec sha keep keep' o template c img,
  (forall i, bytes_ok (enc i)) -> (forall i, dec (enc i) = Ok i) ->
  write_cart_to_image sha keep o template c = Ok img ->
  exists clip, write_cart_to_clip enc sha keep o template c = Ok clip /\
    read_cart_from_clip dec sha keep' clip = read_cart_from_image sha keep' img.
Proof.
  intros enc dec sha keep keep' o template c img HB HD E. unfold write_cart_to_clip, read_cart_from_clip. rewrite E.
  eexists. split; [reflexivity|]. rewrite clip_roundtrip by apply HB. cbn [bind]. rewrite HD. reflexivity.
Qed.
Print Assumptions C22_clip_cart.
Example C22_case : write_raw_to_clip [0; 255; 26] = [91;99;97;114;116;93; 48;48; 102;102; 49;97; 91;47;99;97;114;116;93].
Proof. reflexivity. Qed.

(** C26.  Merging known sections: each requested one is the source's, everything else is
    the destination's; the order and repetition of the names do not matter. *)
Theorem C26_merge : forall dest src sections, zlen (c_rom dest) = 0x4300 -> zlen (c_rom src) = 0x4300 ->
  Forall known_section sections ->
  exists c', merge_cart dest src sections = Ok c' /\
    (c_version_id c' = c_version_id dest /\ c_version c' = c_version dest /\ c_platform c' = c_platform dest /\
     c_default_version c' = c_default_version dest /\ c_default_platform c' = c_default_platform dest /\ c_meta c' = c_meta dest) /\
    zlen (c_rom c') = 0x4300 /\
    (In n_lua sections -> (c_code c', c_code_rom c') = (c_code src, c_code_rom src)) /\
    (~ In n_lua sections -> (c_code c', c_code_rom c') = (c_code dest, c_code_rom dest)) /\
    (In n_label sections -> c_label c' = c_label src) /\ (~ In n_label sections -> c_label c' = c_label dest) /\
    forall a, 0 <= a < 0x4300 ->
      (covered sections a -> byte_at (c_rom c') a = byte_at (c_rom src) a) /\
      (~ covered sections a -> byte_at (c_rom c') a = byte_at (c_rom dest) a).
Proof. intros dest src sections. exact (merge_spec sections dest src). Qed.
Print Assumptions C26_merge.
(** A name that is not a section is refused. *)
Theorem C26_unknown_refused : forall dest src sections s, zlen (c_rom dest) = 0x4300 -> zlen (c_rom src) = 0x4300 ->
  In s sections -> ~ known_section s -> is_ok (merge_cart dest src sections) = false.
Proof. intros dest src sections s. exact (merge_unknown sections dest src s). Qed.
Print Assumptions C26_unknown_refused.
Example C26_case : Forall known_section [[103; 102; 102]; n_lua] /\ covered [[103; 102; 102]; n_lua] 0x3010 /\
  ~ covered [[103; 102; 102]; n_lua] 0x3100.
Proof.
  split; [apply Forall_cons; [right; right; cbn; auto|apply Forall_cons; [left; reflexivity|apply Forall_nil]]|]. split.
  - exists [103; 102; 102], 0x3000, 0x3100. cbn. repeat split; auto; lia.
  - intros (s & lo & hi & I & J & R). cbn in I, J.
    destruct I as [<-|[<-|[]]]; repeat destruct J as [J|J]; try discriminate J; try contradiction; injection J; intros; subst; lia.
Qed.

(** "meta:" sections are documented sections, yet no merge of one ever succeeds: the code
    indexes the source's name instead of its metadata. *)
Theorem C26_meta_refuted : forall dest src name,
  merge_cart dest src [[109; 101; 116; 97; 58] ++ name] = Err EType.
Proof. intros dest src name. reflexivity. Qed.
Print Assumptions C26_meta_refuted.
