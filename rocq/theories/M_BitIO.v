(** Model of the bit stream classes of /repo/utils.py (little-endian variants:
    every user in the repo constructs them with the default big_end = False). *)
From Verif Require Import M_Base.
Open Scope Z_scope.

(** [BinaryBitWriter] state, utils.py l.1283-1290: the bytes already written to
    the underlying stream, and the [_bits]/[_nbits] accumulator. *)
Record bw := mkbw { bw_out : list Z; bw_acc : Z; bw_n : nat }.

Definition bw_init : bw := mkbw [] 0 0.

(** [_remove_bits_le], utils.py l.1299-1302. *)
Definition bw_remove (w : bw) : bw :=
  mkbw (bw_out w ++ [Z.land (bw_acc w) 0xff]) (Z.shiftr (bw_acc w) 8) (bw_n w - 8).

(** The [while m._nbits >= 8] loop, utils.py l.1308-1309.  [k] bounds the number
    of iterations; it is always called with [k = _nbits], which is enough. *)
Fixpoint bw_drain (k : nat) (w : bw) : bw :=
  match k with
  | O => w
  | S k => if (8 <=? bw_n w)%nat then bw_drain k (bw_remove w) else w
  end.

(** [_bits_le(n, v)], utils.py l.1304-1309. *)
Definition bw_bits (n : nat) (v : Z) (w : bw) : bw :=
  let w' := mkbw (bw_out w) (Z.lor (bw_acc w) (Z.shiftl v (Z.of_nat (bw_n w)))) (bw_n w + n) in
  bw_drain (bw_n w') w'.

(** [bit(v)], utils.py l.1327-1328. *)
Definition bw_bit (b : bool) (w : bw) : bw := bw_bits 1 (if b then 1 else 0) w.

(** [_flush_le], utils.py l.1334-1337; result: all bytes written. *)
Definition bw_flush (w : bw) : list Z :=
  if (bw_n w =? 0)%nat then bw_out w else bw_out w ++ [Z.land (bw_acc w) 0xff].

(** [BinaryBitReader] state, utils.py l.1075-1083: bytes not yet read from the
    underlying stream and the accumulator. *)
Record br := mkbr { br_rest : list Z; br_acc : Z; br_n : nat }.

Definition br_init (data : list Z) : br := mkbr data 0 0.

(** [_bits_le(n)] with advance=True, utils.py l.1101-1109, including the
    refill loop [_add_bits_le(strict=True)], l.1093-1099.  [k] bounds the refill
    loop; called with [k = n] which is always enough (each refill adds 8 bits). *)
Fixpoint br_fill (k : nat) (n : nat) (r : br) : res br :=
  if (br_n r <? n)%nat then
    match k with
    | O => Err EFuel
    | S k =>
        match br_rest r with
        | [] => Err EStruct
        | b :: rest =>
            br_fill k n (mkbr rest (Z.lor (br_acc r) (Z.shiftl b (Z.of_nat (br_n r)))) (br_n r + 8))
        end
    end
  else Ok r.

Definition br_bits (n : nat) (r : br) : res (Z * br) :=
  r' <- br_fill n n r ;;
  Ok (Z.land (br_acc r') (Z.shiftl 1 (Z.of_nat n) - 1),
      mkbr (br_rest r') (Z.shiftr (br_acc r') (Z.of_nat n)) (br_n r' - n)).

(** [bit()], utils.py l.1131-1132. *)
Definition br_bit (r : br) : res (bool * br) :=
  '(v, r') <- br_bits 1 r ;; Ok (negb (v =? 0), r').
