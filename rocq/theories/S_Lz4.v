(** The LZ4 block format, after the description of the format
    (lz4_Block_format.md), said without the code. *)
From Verif Require Import M_Base M_Lz77 S_Lz.
Open Scope Z_scope.

(** the bytes added to a length that does not fit its four bits *)
Inductive more_bytes : Z -> list Z -> Prop :=
| more_last v : 0 <= v < 255 -> more_bytes v [v]
| more_next v l : more_bytes v l -> more_bytes (v + 255) (255 :: l).

(** a length: four bits and the bytes that follow *)
Definition length_code (v : Z) (nibble : Z) (bytes : list Z) : Prop :=
  (0 <= v < 15 /\ nibble = v /\ bytes = []) \/ (nibble = 15 /\ more_bytes (v - 15) bytes).

(** A block is a list of sequences, each of literals and a match given by offset and
    length, and last literals. *)
Inductive lz4_block : list Z -> list (list Z * (Z * Z)) -> list Z -> Prop :=
| block_end lits n ext m : 0 <= m < 16 -> length_code (zlen lits) n ext ->
    lz4_block ((n * 16 + m) :: ext ++ lits) [] lits
| block_seq lits n ext offset count n2 ext2 rest seqs last :
    length_code (zlen lits) n ext -> length_code (count - 4) n2 ext2 ->
    1 <= offset < 65536 -> lz4_block rest seqs last ->
    lz4_block ((n * 16 + n2) :: ext ++ lits ++ [offset mod 256; offset / 256] ++ ext2 ++ rest)
              ((lits, (offset, count)) :: seqs) last.

(** what the sequences spell *)
Definition seq_items (s : list Z * (Z * Z)) : list item :=
  let '(lits, (offset, count)) := s in map Lit lits ++ [Mat offset count].
Definition block_items (seqs : list (list Z * (Z * Z))) (last : list Z) : list item :=
  concat (map seq_items seqs) ++ map Lit last.

(** the size of what they spell *)
Definition seq_size (s : list Z * (Z * Z)) : Z :=
  let '(lits, (offset, count)) := s in zlen lits + count.
Definition seqs_size (seqs : list (list Z * (Z * Z))) : Z :=
  fold_right (fun s n => seq_size s + n) 0 seqs.

(** The rules for the end of a block of [size] bytes: the last match starts at least
    12 bytes before the end and the last 5 bytes are literals. *)
Definition end_rules (size : Z) (seqs : list (list Z * (Z * Z))) : Prop :=
  forall before lits offset count after,
    seqs = before ++ (lits, (offset, count)) :: after ->
    let start := seqs_size before + zlen lits in
    start + 12 <= size /\ start + count + 5 <= size.
