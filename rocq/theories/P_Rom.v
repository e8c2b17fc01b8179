(** Property theorems C13, C15, C16, C55, C56: binary cart formats and pictures. *)
From Coq Require Import Sorted.
From Verif Require Import M_Base M_Memory M_Lz77 M_Compress M_Rom S_Memory S_Rom
  L_Util L_LzTop L_Memory L_Rom L_Image.
Open Scope Z_scope.

(** C13.  Pixels: any bytes can be hidden in any picture of the same size; they are
    read back exactly and no channel of any pixel changes above its low two bits. *)
Theorem C13_pixels_carry_bytes : forall output pixels,
  bytes_ok output -> Forall px_ok pixels -> length output = length pixels ->
  exists img, image_hide output pixels = Ok img /\ image_bytes img = output /\
    Forall2 px_close img pixels /\ Forall px_ok img.
Proof. exact image_roundtrip. Qed.
Print Assumptions C13_pixels_carry_bytes.

Example C13_case : exists img, image_hide [0; 255; 0x1b] [(1,2,3,4); (255,255,255,255); (16,32,64,128)] = Ok img /\
  img = [(0,0,0,4); (255,255,255,255); (17,34,67,128)] /\ image_bytes img = [0; 255; 0x1b].
Proof. eexists. split; [vm_compute; reflexivity|]. split; reflexivity. Qed.

(** C13, whole carts: a cart written over any template picture of cart size is read
    back with the same data, code and version (conditions of C15); the picture read
    back as label is the cart's label, showing the template where the label is 0. *)
Theorem C13_cart_image : forall sha keep o template c out, digest_fun sha -> cart_ok c ->
  o_fail o = true -> o_be o = true ->
  parse_ordered o (c_code c) -> old_fits o (c_code c) -> not_marker o (c_code c) ->
  Forall px_ok template -> zlen template = k_image_w * k_image_h ->
  (forall l, c_label c = Some l -> label_ok 32 l) ->
  write_cart_to_rom sha true false o c = Ok out ->
  exists img c', write_cart_to_image sha false o template c = Ok img /\ Forall px_ok img /\
    read_cart_from_image sha keep img = Ok c' /\ same_cart c' c /\
    exists l', c_label c' = Some l' /\
    forall x y, 0 <= x < 128 -> 0 <= y < 128 ->
      let under := px_colour (nth (Z.to_nat (x + 16 + (y + 24) * k_image_w)) template (0,0,0,0)) in
      label_at l' x y = match c_label c with
                        | Some l => if label_at l x y =? 0 then under else label_at l x y
                        | None => under
                        end.
Proof. exact cart_image_roundtrip. Qed.
Print Assumptions C13_cart_image.

(** C15.  A rom file with its version trailer is read back to the same cart, for any
    digest function.  Three conditions remain and are needed: the parse condition of
    C02, two spare bytes for the old format, and code other than ":c:". *)
Theorem C15_rom_file_partial : forall sha keep tiny o c buf, digest_fun sha -> cart_ok c ->
  o_fail o = true -> o_be o = true ->
  parse_ordered o (c_code c) -> old_fits o (c_code c) -> not_marker o (c_code c) ->
  write_cart_to_rom sha true false o c = Ok buf ->
  zlen buf = 0x8020 /\ bytes_ok buf /\ exists c', read_cart_from_rom sha tiny keep buf = Ok c' /\ same_cart c' c.
Proof. exact rom_roundtrip. Qed.
Print Assumptions C15_rom_file_partial.

Theorem C15_rom_file_without_trailer_partial : forall sha keep tiny o c buf, digest_fun sha -> cart_ok c ->
  o_fail o = true -> o_be o = true ->
  parse_ordered o (c_code c) -> old_fits o (c_code c) -> not_marker o (c_code c) ->
  write_cart_to_rom sha false false o c = Ok buf ->
  zlen buf = 0x8000 /\
  exists c', read_cart_from_rom sha tiny keep buf = Ok c' /\ c_rom c' = c_rom c /\ c_code c' = c_code c.
Proof. exact rom_roundtrip_plain. Qed.
Print Assumptions C15_rom_file_without_trailer_partial.

(** Keeping the compressed code of a rom that was read writes the same file again,
    whatever compression options are given. *)
Theorem C15_keep_compression : forall sha tiny (buf : list Z) c,
  zlen buf = 0x8000 -> bytes_ok buf -> (forall x, zlen (sha x) = 20) ->
  read_cart_from_rom sha tiny true buf = Ok c ->
  forall o, write_cart_to_rom sha false true o c = Ok buf.
Proof. exact rom_keep. Qed.
Print Assumptions C15_keep_compression.

Definition const_sha (_ : list Z) : list Z := repeat 7 20.
Definition some_cart (code : list Z) : cart :=
  mkcart 41 (0,2,5,6) 119 false false (repeat 1 (Z.to_nat 0x2000) ++ repeat 200 (Z.to_nat 0x2300)) code None None [].
Lemma some_cart_ok code : Forall (fun x => 0 < x < 256) code -> zlen code < 0x10000 -> cart_ok (some_cart code).
Proof.
  intros H1 H2. unfold cart_ok, some_cart, byte_version; cbn [c_rom c_code c_version c_version_id c_platform].
  split; [|split; [|repeat split; auto; lia]].
  - apply Forall_app. split; apply Forall_forall; intros x Hx; apply repeat_spec in Hx; lia.
  - unfold zlen. now rewrite app_length, !repeat_length.
Qed.
Lemma const_sha_digest : digest_fun const_sha.
Proof. intros d. split; [reflexivity|]. repeat constructor; lia. Qed.

Example C15_case : cart_ok (some_cart [112;114;105;110;116]) /\ digest_fun const_sha /\
  parse_ordered (mkcopts false true false false true) [112;114;105;110;116] /\
  is_ok (write_cart_to_rom const_sha true false (mkcopts false true false false true) (some_cart [112;114;105;110;116])) = true.
Proof.
  split; [apply some_cart_ok; [repeat constructor; lia|reflexivity]|]. split; [apply const_sha_digest|].
  split; [|vm_compute; reflexivity]. intros _ _ [H|H]; exfalso; [revert H; unfold k_code_size, zlen; cbn [length]; lia|discriminate H].
Qed.
Example C15_case_compressed : exists its,
  new_items false (concat (repeat [112;114;105;110;116;10] 4)) = Ok its /\ Sorted Z.le (map fst its) /\
  is_ok (write_cart_to_rom const_sha true false (mkcopts true true false false true)
           (some_cart (concat (repeat [112;114;105;110;116;10] 4)))) = true.
Proof.
  eexists. split; [vm_compute; reflexivity|]. split; [apply sortedb_ok; reflexivity|vm_compute; reflexivity].
Qed.

(** Without the last condition the claim is false: the code ":c:" reads back empty. *)
Theorem C15_marker_code_refuted : exists c buf c', cart_ok c /\
  write_cart_to_rom const_sha true false (mkcopts false true false false true) c = Ok buf /\
  read_cart_from_rom const_sha false false buf = Ok c' /\ c_code c = [58;99;58] /\ c_code c' = [].
Proof.
  exists (some_cart [58;99;58]).
  assert (H : match write_cart_to_rom const_sha true false (mkcopts false true false false true) (some_cart [58;99;58]) with
     | Ok b => match read_cart_from_rom const_sha false false b with Ok c' => zeqb_list (c_code c') [] | _ => false end
     | _ => false end = true) by (vm_compute; reflexivity).
  destruct (write_cart_to_rom const_sha true false (mkcopts false true false false true) (some_cart [58;99;58])) as [buf|];
    [|discriminate H].
  exists buf. destruct (read_cart_from_rom const_sha false false buf) as [c'|]; [|discriminate H]. exists c'.
  split; [apply some_cart_ok; [repeat constructor; lia|reflexivity]|].
  split; [exact eq_refl|]. split; [exact eq_refl|]. split; [exact eq_refl|]. now apply L_Util.zeqb_list_true.
Qed.
Print Assumptions C15_marker_code_refuted.

(** C16.  A tiny rom gives the code back (pxa format; parse condition of C02). *)
Theorem C16_tiny_rom_partial : forall sha keep o c buf, cart_ok c ->
  o_fail o = true -> o_be o = true -> o_old o = false ->
  parse_ordered (force_copts o) (c_code c) ->
  write_cart_to_tiny_rom false o c = Ok buf ->
  exists c', read_cart_from_rom sha true keep buf = Ok c' /\ c_code c' = c_code c.
Proof. exact tiny_roundtrip. Qed.
Print Assumptions C16_tiny_rom_partial.

Example C16_case : exists buf,
  write_cart_to_tiny_rom false (mkcopts false true true false true) (some_cart (repeat 97 60)) = Ok buf /\ zlen buf < 30 /\
  parse_ordered (force_copts (mkcopts false true true false true)) (repeat 97 60).
Proof.
  eexists. split; [vm_compute; reflexivity|]. split; [reflexivity|]. intros _ H. discriminate H.
Qed.

(** In the old format it is false: no end is written and the reader runs off the file. *)
Theorem C16_tiny_rom_old_refuted : exists c buf, cart_ok c /\
  write_cart_to_tiny_rom false (mkcopts false true false true true) c = Ok buf /\
  read_cart_from_rom const_sha true false buf = Err EStruct.
Proof.
  exists (some_cart (repeat 97 60)).
  assert (H : match write_cart_to_tiny_rom false (mkcopts false true false true true) (some_cart (repeat 97 60)) with
     | Ok b => match read_cart_from_rom const_sha true false b with Err EStruct => true | _ => false end
     | _ => false end = true) by (vm_compute; reflexivity).
  destruct (write_cart_to_tiny_rom false (mkcopts false true false true true) (some_cart (repeat 97 60))) as [buf|];
    [|discriminate H].
  exists buf. destruct (read_cart_from_rom const_sha true false buf) as [c'|e]; [discriminate H|].
  split; [apply some_cart_ok; [repeat constructor; lia|reflexivity]|].
  split; [exact eq_refl|]. destruct e; try discriminate H. reflexivity.
Qed.
Print Assumptions C16_tiny_rom_old_refuted.

(** C55.  A label picture file gives the same label back. *)
Theorem C55_label_image : forall c l, c_label c = Some l -> label_ok 32 l ->
  exists img, write_cart_label c = Ok img /\ read_cart_label img = l.
Proof. exact label_image_roundtrip. Qed.
Print Assumptions C55_label_image.

Example C55_case : label_ok 32 (repeat (map (fun n => Z.of_nat n mod 32) (seq 0 128)) 128).
Proof.
  split; [reflexivity|]. apply Forall_forall. intros r Hr. apply repeat_spec in Hr. subst r. split; [reflexivity|].
  apply Forall_forall. intros x Hx. apply in_map_iff in Hx. destruct Hx as (n & <- & _).
  apply Z.mod_pos_bound. lia.
Qed.

(** C56.  A sprite sheet picture gives the sprite memory back and leaves the rest of
    the memory at its defaults. *)
Theorem C56_spritesheet_image : forall c, bytes_ok (c_rom c) -> zlen (c_rom c) = 0x4300 ->
  exists img m' m0, write_cart_spritesheet c = Ok img /\ read_cart_spritesheet img = Ok m' /\ mem_create_rom = Ok m0 /\
    zlen m' = 0x4300 /\ get_block m' 0 0x2000 = get_block (c_rom c) 0 0x2000 /\
    get_block m' 0x2000 0x2300 = get_block m0 0x2000 0x2300.
Proof. exact spritesheet_roundtrip. Qed.
Print Assumptions C56_spritesheet_image.

Example C56_case : bytes_ok (c_rom (some_cart [])) /\ zlen (c_rom (some_cart [])) = 0x4300.
Proof. destruct (some_cart_ok [] (Forall_nil _) ltac:(reflexivity)) as (A & B & _). auto. Qed.
