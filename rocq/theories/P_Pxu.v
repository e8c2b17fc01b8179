(** C12: the userdata format pxu. *)
From Verif Require Import M_Base L_Util S_Num S_Text M_Lz4 M_Pxu L_Pxu.
Open Scope Z_scope.

(** Userdata of bytes or 16-bit numbers, given by its hexadecimal digits, is written
    and, in any surrounding bytes, read back as it was; reading stops right after it.
    [int16] is Python's [int(s, 16)]. *)
Theorem C12_roundtrip : forall int16 t runtime width height digits before after, hex_reader int16 ->
  (t = I16 -> 21 <= runtime) -> 0 <= width < 2 ^ 32 -> 0 <= height < 2 ^ 32 ->
  Forall (is_digit 16) digits ->
  zlen digits = (match t with U8 => 2 | I16 => 4 end) * (width * (if height =? 0 then 1 else height)) ->
  let ud := mkud (pxu_name t) width height digits in
  exists bytes, write_pxu int16 ud runtime = Ok (Some bytes) /\
    read_pxu (before ++ bytes ++ after) (length before) = Ok (ud, (length before + length bytes)%nat).
Proof.
  intros int16 t runtime width height digits before after H Hr Hw Hh D L ud. apply pxu_roundtrip; auto.
  rewrite L. now destruct t.
Qed.

(** a case: 2 by 2 bytes, a run of three and a value that is not in the table *)
Example C12_case : forall int16, hex_reader int16 ->
  write_pxu int16 (mkud [117; 56] 2 2 [48;53; 48;53; 48;53; 102;102]) 0 =
    Ok (Some [112;120;117;0; 0x43;0x20; 2; 2; 4; 0x25; 0x0f;255]) /\
  read_pxu [112;120;117;0; 0x43;0x20; 2; 2; 4; 0x25; 0x0f;255] 0 =
    Ok (mkud [117; 56] 2 2 [48;53; 48;53; 48;53; 102;102], 12%nat).
Proof.
  intros int16 H. split; [|vm_compute; reflexivity].
  assert (A : int16 [48; 53] = Some 5).
  { rewrite H; [reflexivity|discriminate|]. unfold is_digit, digit_value. repeat (constructor; [cbn; lia|]). constructor. }
  assert (B : int16 [102; 102] = Some 255).
  { rewrite H; [reflexivity|discriminate|]. unfold is_digit, digit_value. repeat (constructor; [cbn; lia|]). constructor. }
  unfold write_pxu. cbn -[write_runs]. rewrite A, B. vm_compute. reflexivity.
Qed.
Print Assumptions C12_roundtrip.
