(** The format of icns files: what a file with icons is, and what its packed colours are. *)
From Coq Require Import List ZArith.
Import ListNotations.
Open Scope list_scope.
Open Scope Z_scope.

(** Four bytes and the number they are *)
Definition number (b : list Z) (n : Z) : Prop :=
  exists b1 b2 b3 b4, b = [b1; b2; b3; b4] /\ Forall (fun x => 0 <= x < 256) b /\ n = ((b1 * 256 + b2) * 256 + b3) * 256 + b4.
(** Parts: a name of four bytes, the length of all of the part, what is in it *)
Inductive parts : list Z -> list (list Z * list Z) -> Prop :=
| no_parts : parts [] []
| a_part name len data rest ps : length name = 4%nat -> number len (8 + Z.of_nat (length data)) -> parts rest ps ->
    parts (name ++ len ++ data ++ rest) ((name, data) :: ps).
(** The file begins with "icns" and its length. *)
Definition icns_file (file : list Z) (ps : list (list Z * list Z)) : Prop :=
  exists len rest, file = [105; 99; 110; 115] ++ len ++ rest /\ number len (Z.of_nat (length file)) /\ parts rest ps.
(** Packed bytes: below 128 one more than so many bytes follow; else the byte that follows comes 125 times less than that number *)
Inductive packed : list Z -> list Z -> Prop :=
| packed_none : packed [] []
| packed_bytes n bs rest out : 0 <= n < 128 -> Z.of_nat (length bs) = n + 1 -> packed rest out -> packed (n :: bs ++ rest) (bs ++ out)
| packed_run n b k rest out : 128 <= n < 256 -> Z.of_nat k = n - 125 -> packed rest out -> packed (n :: b :: rest) (repeat b k ++ out).
(** A plane has the [chan]-th of each [chans] bytes, and [n] of them. *)
Definition plane (raw : list Z) (chans chan n : nat) (p : list Z) : Prop :=
  length p = n /\ forall i, (i < n)%nat -> nth_error p i = nth_error raw (i * chans + chan).
