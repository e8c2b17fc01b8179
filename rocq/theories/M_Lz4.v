(** Model of the LZ4 block codec, /repo/pico_export.py l.447-570.  Bytes are numbers;
    the stream read is the list of bytes not yet read. *)
From Verif Require Import M_Base M_Lz77 M_Compress.
Open Scope Z_scope.

(* ------------------------------------------------------------------ *)
(** * Reading *)

(** [r.u8()], /repo/utils.py l.959: struct.error at the end *)
Definition r_u8 (d : list Z) : res (Z * list Z) :=
  match d with [] => Err EStruct | b :: d => Ok (b, d) end.

(** [read_u8_sum], l.448-454 *)
Fixpoint read_u8_sum (sum : Z) (d : list Z) : res (Z * list Z) :=
  match d with
  | [] => Err EStruct
  | val :: d =>
      let sum := sum + val in
      if negb (val =? 0xff) then Ok (sum, d) else read_u8_sum sum d
  end.

(** [for i in range(size): uncdata.append(r.u8())], l.467-468 *)
Fixpoint read_literals (size : nat) (uncdata d : list Z) : res (list Z * list Z) :=
  match size with
  | O => Ok (uncdata, d)
  | S size => '(b, d) <- r_u8 d ;; read_literals size (uncdata ++ [b]) d
  end.

(** [r.u16()], little endian *)
Definition r_u16 (d : list Z) : res (Z * list Z) :=
  match d with a :: b :: d => Ok (a + b * 256, d) | _ => Err EStruct end.

(** [while not r.eof(): ...], l.461-478.  Each round reads a byte, so the number of
    bytes is enough fuel.  [copy_back] is l.477-478: [uncdata[-offset]], where offset 0
    reads the first byte. *)
Fixpoint lz4_loop (fuel : nat) (uncdata d : list Z) : res (list Z) :=
  match d with
  | [] => Ok uncdata
  | _ =>
      match fuel with
      | O => Err EFuel
      | S fuel =>
          '(header, d) <- r_u8 d ;;
          let size := Z.shiftr header 4 in
          '(size, d) <- (if size =? 0xf then read_u8_sum size d else Ok (size, d)) ;;
          '(uncdata, d) <- read_literals (Z.to_nat size) uncdata d ;;
          match d with
          | [] => lz4_loop fuel uncdata d
          | _ =>
              '(offset, d) <- r_u16 d ;;
              let count := 4 + Z.land header 0xf in
              '(count, d) <- (if count =? 0x13 then read_u8_sum count d else Ok (count, d)) ;;
              uncdata <- copy_back (Z.to_nat count) offset uncdata ;;
              lz4_loop fuel uncdata d
          end
      end
  end.

(** [lz4_uncompress], l.447-481 *)
Definition lz4_uncompress (data : list Z) : res (list Z) := lz4_loop (length data) [] data.

(* ------------------------------------------------------------------ *)
(** * Writing *)

Definition lz4_min_c : Z := 4.

(** [w.u8(v)], [w.u16(v)]: struct.error if the value does not fit *)
Definition w_u8 (v : Z) : res (list Z) := if is_byte v then Ok [v] else Err EStruct.
Definition w_u16 (v : Z) : res (list Z) :=
  if (0 <=? v) && (v <? 65536) then Ok [v mod 256; v / 256] else Err EStruct.

(** [write_u8_sum], l.490-496; each round but the last lowers [val] by 255 *)
Fixpoint write_u8_sum (fuel : nat) (val : Z) : res (list Z) :=
  match fuel with
  | O => Err EFuel
  | S fuel =>
      let byte := Z.min val 0xff in
      b <- w_u8 byte ;;
      if negb (byte =? 0xff) then Ok b
      else rest <- write_u8_sum fuel (val - byte) ;; Ok (b ++ rest)
  end.
Definition u8_sum (val : Z) : res (list Z) := write_u8_sum (S (Z.to_nat (val / 255))) val.

(** [write_block], l.498-517: the bytes written; clearing the literals is left to
    the caller.  Each literal is written with [w.u8]. *)
Definition write_block (literals : list Z) (it : option (Z * Z)) : res (list Z) :=
  let size := zlen literals in
  let count := match it with Some (_, count) => count - lz4_min_c | None => 0 end in
  header <- w_u8 (Z.lor (Z.min count 0xf) (Z.shiftl (Z.min size 0xf) 4)) ;;
  ext <- (if 0xf <=? size then u8_sum (size - 0xf) else Ok []) ;;
  lits <- map_res w_u8 literals ;;
  match it with
  | None => Ok (header ++ ext ++ concat lits)
  | Some (offset, _) =>
      off <- w_u16 offset ;;
      ext2 <- (if 0xf <=? count then u8_sum (count - 0xf) else Ok []) ;;
      Ok (header ++ ext ++ concat lits ++ off ++ ext2)
  end.

Section Compress.
Context (uncdata : list Z).

(** l.543-544: lz4 disallows matches near the end *)
Definition end_of_lz77_reach : Z := zlen uncdata - 5.
Definition end_of_lz77s : Z := zlen uncdata - 12.

(** The body of the loop over items, l.552-565, with the list of literals: the block
    to write, if any, and the literals afterwards.  [Blk] items do not occur, as no
    literal blocks are asked for. *)
Definition lz4_item (literals : list Z) (x : Z * item)
  : option (list Z * (Z * Z)) * list Z :=
  let '(i, it) := x in
  match it with
  | Mat offset count =>
      if i <? end_of_lz77s then
        if i + count <=? end_of_lz77_reach then (Some (literals, (offset, count)), [])
        else (Some (literals, (offset, end_of_lz77_reach - i)),
              slice uncdata end_of_lz77_reach (i + count))
      else (None, literals ++ slice uncdata i (i + count))
  | Lit c => (None, literals ++ [c])
  | Blk s => (None, literals ++ s)
  end.

(** the assertion of l.559 *)
Definition lz4_check (x : Z * item) : res unit :=
  let '(i, it) := x in
  match it with
  | Mat offset count =>
      if i <? end_of_lz77s then
        if i + count <=? end_of_lz77_reach then Ok tt
        else assert_ (lz4_min_c <=? end_of_lz77_reach - i)
      else Ok tt
  | _ => Ok tt
  end.

(** [literals] after the items in [out] have been handled *)
Definition lz4_literals (out : list (Z * item)) : list Z :=
  fold_left (fun literals x => snd (lz4_item literals x)) out [].

(** [measure], l.519-533.  The context is the number of literals. *)
Definition lz4_measure (out : list (Z * item)) (ctxt : option Z) (it : item) : res (Z * option Z) :=
  let ctxt_litcount := match ctxt with Some n => n | None => zlen (lz4_literals out) end in
  match it with
  | Mat _ count =>
      let count_bits := (count - lz4_min_c + 0xf0) / 0xff in
      Ok (3 + count_bits, Some 0)
  | _ =>
      let ctxt_litcount := ctxt_litcount + 1 in
      let cost := if (ctxt_litcount + 0xf0) mod 0xff =? 0 then 2 else 1 in
      Ok (cost, Some ctxt_litcount)
  end.

(** [get_cheaper_c], l.535-536, and [round_down], /repo/utils.py l.2601-2604 *)
Definition lz4_cheaper_c (c : Z) : Z :=
  let a := c - lz4_min_c + 0xf0 in
  (a - a mod 0xff) - 1 - 0xf0 + lz4_min_c.

(** [min_cost], l.538-541 *)
Definition lz4_min_cost (dist : Z) : Z := Z.max ((dist - lz4_min_c + 0xf0) / 0xff - 1) 0.

(** l.546-550 *)
Definition lz4_items (fast : bool) : res (list (Z * item)) :=
  if fast then
    get_lz77 uncdata lz4_min_c None (Some 0xffff) false Z None (fun _ => 0) None [] None []
  else
    get_lz77 uncdata lz4_min_c None (Some 0xffff) false Z (Some lz4_measure) lz4_min_cost
             (Some lz4_cheaper_c) [] None [].

(** the loop, l.552-566 *)
Fixpoint lz4_write (its : list (Z * item)) (literals : list Z) : res (list Z) :=
  match its with
  | [] => write_block literals None
  | x :: its =>
      _ <- lz4_check x ;;
      let '(blk, literals) := lz4_item literals x in
      b <- match blk with Some (lits, m) => write_block lits (Some m) | None => Ok [] end ;;
      rest <- lz4_write its literals ;;
      Ok (b ++ rest)
  end.

(** [lz4_compress], l.483-570 *)
Definition lz4_compress (fast : bool) : res (list Z) :=
  its <- lz4_items fast ;; lz4_write its [].
End Compress.
