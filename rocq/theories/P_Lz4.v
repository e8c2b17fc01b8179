(** C10, C11: the LZ4 codec. *)
From Verif Require Import M_Base L_Util M_Lz77 S_Lz M_Lz4 S_Lz4 L_Lz4.
Open Scope Z_scope.

(** C10: compressing any bytes, fast or not, gives a block that the reader turns back
    into the same bytes. *)
Theorem C10_roundtrip : forall data fast, bytes_ok data ->
  exists bytes, lz4_compress data fast = Ok bytes /\ lz4_uncompress bytes = Ok data.
Proof.
  intros data fast Bd. destruct (lz4_compress_spec data Bd fast) as (bytes & seqs & last & E & B & Sp & _).
  exists bytes. split; [exact E|]. now apply (lz4_uncompress_spec bytes seqs last).
Qed.

(** The reader understands every block of the LZ4 format, not only its own. *)
Theorem C10_reader : forall bytes seqs last data, lz4_block bytes seqs last ->
  spells [] (block_items seqs last) data -> lz4_uncompress bytes = Ok data.
Proof. exact lz4_uncompress_spec. Qed.

(** Reading ends on every input, with data or with an error. *)
Theorem C10_reader_ends : forall bytes, lz4_uncompress bytes <> Err EFuel.
Proof. intros bytes. now apply lz4_loop_ends. Qed.

(** C11: what is written is a block of the format that spells the data, and obeys the
    rules for the end of a block. *)
Theorem C11_block : forall data fast, bytes_ok data ->
  exists bytes seqs last, lz4_compress data fast = Ok bytes /\ lz4_block bytes seqs last /\
    spells [] (block_items seqs last) data /\ end_rules (zlen data) seqs.
Proof. intros data fast Bd. now apply lz4_compress_spec. Qed.

(** a case: 20 bytes with a match that must be cut short *)
Example C10_case :
  let data := [97;98;99;100;97;98;99;100;97;98;99;100;97;98;99;100;97;98;99;100] in
  bytes_ok data /\ lz4_compress data false = Ok [0x47; 97;98;99;100; 4;0; 0x50; 100;97;98;99;100] /\
  lz4_block [0x47; 97;98;99;100; 4;0; 0x50; 100;97;98;99;100] [([97;98;99;100], (4, 11))] [100;97;98;99;100].
Proof.
  cbn zeta. split; [repeat (constructor; [lia|]); constructor|]. split; [vm_compute; reflexivity|].
  refine (block_seq [97;98;99;100] 4 [] 4 11 7 [] [0x50;100;97;98;99;100] [] [100;97;98;99;100] _ _ _ _).
  - left. cbn. repeat split; lia.
  - left. cbn. repeat split; lia.
  - lia.
  - apply (block_end [100;97;98;99;100] 5 [] 0); [lia|]. left. cbn. repeat split; lia.
Qed.

Print Assumptions C10_roundtrip.
Print Assumptions C10_reader.
Print Assumptions C10_reader_ends.
Print Assumptions C11_block.
