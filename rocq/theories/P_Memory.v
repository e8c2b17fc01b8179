(** Property theorems C23-C25: character set and cart memory. *)
From Verif Require Import M_Base M_Charset M_Memory S_Memory L_Util L_Charset L_Memory.
Open Scope Z_scope.

(** C23.  Any PICO-8 string, in either capital-letter style, survives conversion
    to Unicode and back; and any Unicode text converts to PICO-8 characters only. *)
Theorem C23_p8str_roundtrip : forall unicaps s, bytes_ok s ->
  exists t, from_p8str unicaps s = Ok t /\ to_p8str t = Ok s.
Proof. exact p8str_roundtrip. Qed.
Print Assumptions C23_p8str_roundtrip.

Theorem C23_to_p8str_in_range : forall t s, Forall (fun c => 0 <= c < 0x110000) t ->
  to_p8str t = Ok s -> bytes_ok s.
Proof. intros t s H. exact (to_p8str_bytes t H false s). Qed.
Print Assumptions C23_to_p8str_in_range.

(** A string with a two-code-point character, a capital and a control character. *)
Example C23_case : from_p8str true [131; 65; 1; 10; 97] = Ok [11015; 65039; 120354; 185; 10; 97]
  /\ bytes_ok [131; 65; 1; 10; 97].
Proof. split; [vm_compute; reflexivity|bytes_lia]. Qed.

(** C24.  Each width: the written value (modulo the width) is read back, and
    nothing else changes. *)
Theorem C24_byte : forall m i v, 0 <= i < zlen m -> 0 <= v < 256 -> bytes_ok m ->
  exists m', set8 m i v = Ok m' /\ get8 m' i = Ok v /\ zlen m' = zlen m /\ bytes_ok m' /\
    forall j, 0 <= j < zlen m -> j <> i -> get8 m' j = get8 m j.
Proof. exact acc8. Qed.
Print Assumptions C24_byte.

Theorem C24_word : forall m i v, 0 <= i -> i + 1 < zlen m -> bytes_ok m ->
  exists m', set16 m i v = Ok m' /\ get16 m' i = Ok (v mod 65536) /\ zlen m' = zlen m /\ bytes_ok m' /\
    forall j, 0 <= j < zlen m -> j <> i -> j <> i + 1 -> get8 m' j = get8 m j.
Proof. exact acc16. Qed.
Print Assumptions C24_word.

Theorem C24_dword : forall m i v, 0 <= i -> i + 3 < zlen m -> bytes_ok m ->
  exists m', set32 m i v = Ok m' /\ get32 m' i = Ok (v mod 4294967296) /\ zlen m' = zlen m /\ bytes_ok m' /\
    forall j, 0 <= j < zlen m -> ~ (i <= j <= i + 3) -> get8 m' j = get8 m j.
Proof. exact acc32. Qed.
Print Assumptions C24_dword.

Theorem C24_nibble : forall m i h v, 0 <= i < zlen m -> (h = 0 \/ h = 1) -> bytes_ok m ->
  exists m', set4 m (i, h) v = Ok m' /\ get4 m' (i, h) = Ok (v mod 16) /\ zlen m' = zlen m /\ bytes_ok m' /\
    forall j h', 0 <= j < zlen m -> (h' = 0 \/ h' = 1) -> (j, h') <> (i, h) -> get4 m' (j, h') = get4 m (j, h').
Proof. exact acc4. Qed.
Print Assumptions C24_nibble.

Example C24_case : exists m, set32 [1;2;3;4;5;6] 1 (-2) = Ok m /\ m = [1;254;255;255;255;6]
  /\ get4 m (1, 0) = Ok 14 /\ get4 m (1, 1) = Ok 15.
Proof. eexists. split; [vm_compute; reflexivity|]. vm_compute. auto. Qed.

(** C25.  In a cart memory, a write through one cell reads back, and every other
    cell of every section reads as before unless it is the documented overlap. *)
Theorem C25_cells_hold_values : forall m c v, bytes_ok m -> zlen m = 0x4300 -> cell_ok c -> 0 <= v < cell_size c ->
  exists m', write_cell m c v = Ok m' /\ read_cell m' c = Ok v /\ bytes_ok m' /\ zlen m' = 0x4300.
Proof. exact write_read_cell. Qed.
Print Assumptions C25_cells_hold_values.

Theorem C25_cells_disjoint : forall m a v m' b,
  bytes_ok m -> zlen m = 0x4300 -> cell_ok a -> cell_ok b -> 0 <= v < cell_size a ->
  a <> b -> ~ shared_cells a b -> write_cell m a v = Ok m' -> read_cell m' b = read_cell m b.
Proof. exact cells_disjoint. Qed.
Print Assumptions C25_cells_disjoint.

Example C25_case : exists m', write_cell (repeat 7 (Z.to_nat 0x4300)) (Sprite 127 127) 3 = Ok m' /\
  read_cell m' (MapTile 127 63) = Ok 0x37 /\ shared_cells (Sprite 127 127) (MapTile 127 63) /\
  read_cell m' (MapTile 0 0) = Ok 7 /\ ~ shared_cells (Sprite 127 127) (MapTile 0 0).
Proof.
  eexists. split; [vm_compute; reflexivity|]. split; [vm_compute; reflexivity|].
  split; [cbn; lia|]. split; [vm_compute; reflexivity|cbn; lia].
Qed.
