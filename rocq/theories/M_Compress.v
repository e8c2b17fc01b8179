(** Model of /repo/pico_compress.py l.28-170 (decoders) and l.413-619 (encoder). *)
From Verif Require Import M_Base M_BitIO M_Lz77.
Open Scope Z_scope.

(** pico_defs.py: k_code_size (l.118). *)
Definition k_code_size : Z := 0x3d00.

(** *** Move to front *)

(** [mtf = [chr(i) for i in range(0x100)]], l.57 and l.429. *)
Definition mtf_init : list Z := map Z.of_nat (seq 0 256).

(** [update_mtf], l.41-44: the loop [for ii in range(idx, 0, -1): mtf[ii] = mtf[ii-1]],
    then [mtf[0] = ch].  (Callers pass [idx < len(mtf)].) *)
Fixpoint mtf_shift (ii : nat) (mtf : list Z) : list Z :=
  match ii with
  | O => mtf
  | S k => mtf_shift k (list_upd mtf ii (nth k mtf 0))
  end.
Definition update_mtf (mtf : list Z) (idx : nat) (ch : Z) : list Z :=
  list_upd (mtf_shift idx mtf) 0 ch.

(** [mtf.index(ch)]; [None] = ValueError. *)
Fixpoint index_of (ch : Z) (l : list Z) : option nat :=
  match l with
  | [] => None
  | x :: l => if x =? ch then Some O else option_map S (index_of ch l)
  end.
Definition mtf_index (ch : Z) (l : list Z) : res nat :=
  match index_of ch l with Some i => Ok i | None => Err EValue end.

(** *** utils.py helpers *)

(** [count_significant_bits], utils.py l.2550-2553. *)
Definition count_significant_bits (a : Z) : res Z :=
  if a <? 0 then Err EAssert else Ok (if a =? 0 then 0 else Z.log2 a + 1).

(** [round_up], utils.py l.2606-2610 (callers pass b > 0). *)
Definition round_up (a b : Z) : Z := let m := a mod b in if m =? 0 then a else a + (b - m).
(** [round_down], utils.py l.2601-2604. *)
Definition round_down (a b : Z) : Z := let m := a mod b in if m =? 0 then a else a - m.
(** [make_mask], utils.py l.2572-2574. *)
Definition make_mask (pos size : Z) : Z := Z.shiftl (Z.shiftl 1 size - 1) pos.

(** *** Headers and integers *)
Definition new_header : list Z := [0; 112; 120; 97].   (* b"\0pxa", l.39 *)
Definition old_header : list Z := [58; 99; 58; 0].     (* b":c:\0", l.38 *)

(** [w.u16(v)] (utils.py l.1184-1188), [be] is the stream's [big_end] flag;
    struct.pack raises when out of range. *)
Definition put_u16 (be : bool) (v : Z) : res (list Z) :=
  if (0 <=? v) && (v <? 65536) then
    Ok (if be then [v / 256; v mod 256] else [v mod 256; v / 256])
  else Err EStruct.

(** [r.u16()] (utils.py l.964-969); unpack raises on short data. *)
Definition get_u16 (be : bool) (d : list Z) : res (Z * list Z) :=
  match d with
  | a :: b :: d => Ok (if be then a * 256 + b else b * 256 + a, d)
  | _ => Err EStruct
  end.

Definition put_u8 (v : Z) : res (list Z) :=
  if is_byte v then Ok [v] else Err EStruct.
Definition get_u8 (d : list Z) : res (Z * list Z) :=
  match d with b :: d => Ok (b, d) | [] => Err EStruct end.

(** *** New format: writers (l.506-545) *)

(** The count loop of [write_match], l.518-521.  [k] bounds the iterations
    (called with [count_val], each one removes 7). *)
Fixpoint put_count (k : nat) (count_val : Z) (w : bw) : bw :=
  match k with
  | O => bw_bits 3 count_val w
  | S k => if 7 <=? count_val then put_count k (count_val - 7) (bw_bits 3 7 w)
           else bw_bits 3 count_val w
  end.

(** [offset_bits = max(round_up(count_significant_bits(v), 5), 5)], l.511. *)
Definition offset_bits_of (v : Z) : res Z :=
  b <- count_significant_bits v ;; Ok (Z.max (round_up b 5) 5).

(** [write_match], l.506-521 (min_c = 3). *)
Definition write_match (offset count : Z) (w : bw) : res bw :=
  let w := bw_bit false w in
  let offset_val := offset - 1 in
  let count_val := count - 3 in
  ob <- offset_bits_of offset_val ;;
  _ <- assert_ ((ob =? 5) || (ob =? 10) || (ob =? 15)) ;;
  let w := bw_bit (ob <? 15) w in
  let w := if ob <? 15 then bw_bit (ob <? 10) w else w in
  let w := bw_bits (Z.to_nat ob) offset_val w in
  Ok (put_count (Z.to_nat count_val) count_val w).

(** The unary/prefix loop of [write_literal], l.527-534.  [k] bounds the
    iterations (called with [ch_i], each one removes at least 16). *)
Fixpoint put_mtf_idx (k : nat) (i_val : Z) (i_bits : nat) (w : bw) : bw :=
  let fin := bw_bits i_bits i_val (bw_bit false w) in
  match k with
  | O => fin
  | S k => if Z.shiftl 1 (Z.of_nat i_bits) <=? i_val
           then put_mtf_idx k (i_val - Z.shiftl 1 (Z.of_nat i_bits)) (S i_bits) (bw_bit true w)
           else fin
  end.

(** [write_literal], l.523-537. *)
Definition write_literal (ch : Z) (st : bw * list Z) : res (bw * list Z) :=
  let '(w, mtf) := st in
  let w := bw_bit true w in
  ch_i <- mtf_index ch mtf ;;
  Ok (put_mtf_idx ch_i (Z.of_nat ch_i) 4 w, update_mtf mtf ch_i ch).

(** [write_litblock], l.539-545. *)
Definition write_litblock (s : list Z) (w : bw) : bw :=
  let w := bw_bit false (bw_bit true (bw_bit false w)) in
  let w := bw_bits 10 0 w in
  let w := fold_left (fun w ch => bw_bits 8 ch w) s w in
  bw_bits 8 0 w.

(** The item dispatch, l.556-562. *)
Definition write_item (it : item) (st : bw * list Z) : res (bw * list Z) :=
  match it with
  | Mat o c => w <- write_match o c (fst st) ;; Ok (w, snd st)
  | Lit ch => write_literal ch st
  | Blk [ch] => write_literal ch st
  | Blk s => Ok (write_litblock s (fst st), snd st)
  end.

Fixpoint write_items (its : list item) (st : bw * list Z) : res (bw * list Z) :=
  match its with
  | [] => Ok st
  | it :: its => st <- write_item it st ;; write_items its st
  end.

(** *** New format: cost model *)

(** [mtf_cost_heuristic], l.431-439. *)
Fixpoint mtf_cost_loop (k : nat) (ch_i mask count : Z) : Z :=
  match k with
  | O => count
  | S k => if mask <=? ch_i then mtf_cost_loop k ch_i (Z.lor (Z.shiftl mask 1) (Z.shiftl 1 4)) (count + 2)
           else count
  end.
Definition mtf_cost_heuristic (ch_i : Z) : Z :=
  let count := mtf_cost_loop (S (Z.to_nat ch_i)) ch_i (Z.shiftl 1 4) 6 in
  if 16 <=? ch_i then count - 1 else count.

(** The state of the shared [mtf] after the yielded items have been written
    (only literals change it). *)
Definition mtf_after_item (mtf : list Z) (it : item) : list Z :=
  match it with
  | Lit ch | Blk [ch] => match index_of ch mtf with Some i => update_mtf mtf i ch | None => mtf end
  | _ => mtf
  end.
Definition mtf_after (out : list (Z * item)) : list Z :=
  fold_left mtf_after_item (map snd out) mtf_init.

(** [measure] of the new format, l.441-455. *)
Definition measure_new (out : list (Z * item)) (ctxt : option (list Z)) (it : item)
  : res (Z * option (list Z)) :=
  match it with
  | Mat o c =>
      ob <- offset_bits_of (o - 1) ;;
      let count_bits := ((c - 3) / 7 + 1) * 3 in
      Ok (2 + (if ob <? 15 then 1 else 0) + ob + count_bits, ctxt)
  | Lit ch =>
      let m := match ctxt with Some m => m | None => mtf_after out end in
      ch_i <- mtf_index ch m ;;
      Ok (mtf_cost_heuristic (Z.of_nat ch_i), Some (update_mtf m ch_i ch))
  | Blk _ => Err EType   (* never measured *)
  end.

(** [min_cost], l.457-460. *)
Definition min_cost_new (dist : Z) : Z := Z.max (((dist - 3) / 7 + 1) * 3 - 11) 0.

(** [get_cheaper_c], l.547-548. *)
Definition cheaper_new (c : Z) : Z := round_down (c - 3) 7 - 1 + 3.

(** *** Literal block heuristic, l.462-504 *)
Record lbst := mklb { lb_costs : list Z; lb_sum : Z; lb_in : bool; lb_idxs : list Z }.

(** [sum(ordered_costs[-j-1:])] with 32 elements, l.487. *)
Definition suffix_sum (l : list Z) (j : nat) : Z := fold_right Z.add 0 (skipn (length l - (j + 1)) l).

(** Python [max/min(range(32), key=...)]: the first best element. *)
Fixpoint best_by (better : Z -> Z -> bool) (key : nat -> Z) (best : nat) (l : list nat) : nat :=
  match l with
  | [] => best
  | j :: l => best_by better key (if better (key j) (key best) then j else best) l
  end.

(** [add_last_cost], l.473-489. *)
Definition add_last_cost (i cost : Z) (s : lbst) : lbst :=
  let cost_i := Z.to_nat (Z.land i 31) in
  let sum := lb_sum s - nth cost_i (lb_costs s) 0 + cost in
  let costs := list_upd (lb_costs s) cost_i cost in
  if ((32 <=? i) && (negb (lb_in s) && (19 <? sum))) || (lb_in s && (sum <? 0)) then
    let in' := negb (lb_in s) in
    let ordered := skipn (S cost_i) costs ++ firstn (S cost_i) costs in
    let better := if in' then (fun a b => b <? a) else (fun a b => a <? b) in
    let best_j := best_by better (suffix_sum ordered) 0 (seq 1 31) in
    mklb costs sum in' (lb_idxs s ++ [i - Z.of_nat best_j])
  else mklb costs sum (lb_in s) (lb_idxs s).

Fixpoint add_costs (n : nat) (i cost : Z) (s : lbst) : lbst :=
  match n with O => s | S n => add_costs n (i + 1) cost (add_last_cost i cost s) end.

(** One step of the loop over the greedy parse, l.491-499. *)
Definition lb_item (st : list Z * lbst) (x : Z * item) : res (list Z * lbst) :=
  let '(premtf, s) := st in
  match x with
  | (i, Mat o c) => Ok (premtf, add_costs (Z.to_nat c) i ((20 - c * 8) / c) s)
  | (i, Lit ch) =>
      ch_i <- mtf_index ch premtf ;;
      Ok (update_mtf premtf ch_i ch, add_last_cost i (mtf_cost_heuristic (Z.of_nat ch_i) - 8) s)
  | (_, Blk _) => Err EType   (* no literal blocks in the greedy parse *)
  end.
Fixpoint lb_items (l : list (Z * item)) (st : list Z * lbst) : res (list Z * lbst) :=
  match l with [] => Ok st | x :: l => st <- lb_item st x ;; lb_items l st end.

(** [preprocess_litblock_idxs], l.463-504: greedy parse with min_c = 4, fast_c = 1. *)
Definition greedy_lz77 (code : list Z) (min_c : Z) (max_c max_o : option Z) (no_repeat : bool)
  (fast_c : option Z) : res (list (Z * item)) :=
  get_lz77 code min_c max_c max_o no_repeat unit None (fun _ => 0) None [] fast_c [].

Definition preprocess_litblock_idxs (code : list Z) : res (list Z) :=
  its <- greedy_lz77 code 4 (Some 0x7fff) (Some 0x7fff) false (Some 1) ;;
  '(_, s) <- lb_items its (mtf_init, mklb (repeat 0 32) 0 false []) ;;
  (* l.501-502: flush *)
  Ok (lb_idxs (add_costs 32 (zlen code) 0 s)).

(** The items chosen by the new-format compressor, l.550-554. *)
Definition new_items (fast : bool) (code : list Z) : res (list (Z * item)) :=
  if fast then
    greedy_lz77 code 3 None (Some 0x7fff) false (Some 16)
  else
    idxs <- preprocess_litblock_idxs code ;;
    get_lz77 code 3 None (Some 0x7fff) false (list Z) (Some measure_new) min_cost_new
             (Some cheaper_new) [0x20; 0x400] None idxs.

(** *** Old format: writer *)

(** [k_old_code_table], l.28-34; entry 0 is None. *)
Definition old_code_table : list Z :=
  [ -1; 10; 32; 48; 49; 50; 51; 52; 53; 54; 55; 56; 57;
    97; 98; 99; 100; 101; 102; 103; 104; 105; 106; 107; 108; 109;
    110; 111; 112; 113; 114; 115; 116; 117; 118; 119; 120; 121; 122;
    33; 35; 37; 40; 41; 123; 125; 91; 93; 60; 62;
    43; 61; 47; 42; 58; 59; 46; 44; 126; 95 ].

(** [k_old_inv_code_table.get(ch, 0)], l.36 and l.587 ([chr] values only). *)
Definition old_inv (ch : Z) : Z :=
  match index_of ch old_code_table with Some i => Z.of_nat i | None => 0 end.

(** [measure] of the old format, l.572-578. *)
Definition measure_old (_ : list (Z * item)) (ctxt : option unit) (it : item) : res (Z * option unit) :=
  match it with
  | Mat _ _ => Ok (2, ctxt)
  | Lit ch => Ok ((if 0 <? old_inv ch then 1 else 2), ctxt)
  | Blk _ => Err EType
  end.

(** [write_match]/[write_literal] of the old format, l.580-594. *)
Definition old_write_item (it : item) : res (list Z) :=
  match it with
  | Mat offset count =>
      let count_val := count - 2 in
      a <- put_u8 (0x3c + Z.shiftr offset 4) ;;
      b <- put_u8 (Z.land offset 0xf + Z.shiftl count_val 4) ;;
      Ok (a ++ b)
  | Lit ch =>
      let ch_i := old_inv ch in
      if 0 <? ch_i then put_u8 ch_i
      else a <- put_u8 0 ;; b <- put_u8 ch ;; Ok (a ++ b)
  | Blk _ => Err EType
  end.
Fixpoint old_write_items (its : list item) : res (list Z) :=
  match its with
  | [] => Ok []
  | it :: its => a <- old_write_item it ;; b <- old_write_items its ;; Ok (a ++ b)
  end.

Definition old_items (fast : bool) (code : list Z) : res (list (Z * item)) :=
  if fast then greedy_lz77 code 3 (Some 0x11) (Some 0xc3f) true None
  else get_lz77 code 3 (Some 0x11) (Some 0xc3f) true unit (Some measure_old) (fun _ => 0) None [] None [].

(** *** [compress_code], l.413-619: the bytes written (size/debug handlers omitted). *)
Record copts := mkcopts { o_force : bool; o_fail : bool; o_fast : bool; o_old : bool; o_be : bool }.

Definition compress_body (o : copts) (code : list Z) : res (list Z) :=
  if o_old o then its <- old_items (o_fast o) code ;; old_write_items (map snd its)
  else
    its <- new_items (o_fast o) code ;;
    '(w, _) <- write_items (map snd its) (bw_init, mtf_init) ;;
    Ok (bw_flush w).

Definition compress_code (o : copts) (code : list Z) : res (list Z) :=
  if (k_code_size <=? zlen code) || o_force o then
    len16 <- put_u16 (o_be o) (Z.land (zlen code) 0xffff) ;;
    body <- compress_body o code ;;
    let size := 8 + zlen body in
    _ <- (if o_fail o then
            _ <- check_ (zlen code <? 0x10000) ;; check_ (size <=? k_code_size)
          else Ok tt) ;;
    size16 <- put_u16 (o_be o) (if o_old o then 0 else Z.land size 0xffff) ;;
    Ok ((if o_old o then old_header else new_header) ++ len16 ++ size16 ++ body)
  else
    (* encode_p8str, pico_defs.py l.222-224: bytes() raises ValueError above 255 *)
    if forallb is_byte code then Ok code else Err EValue.

(** *** [uncompress_code], l.46-144 *)

(** [code[-offset]] (l.96, l.131) for the offsets that can occur (>= 0);
    [code[-0]] is [code[0]]. *)
Definition neg_index (code : list Z) (offset : Z) : res Z :=
  match znth code (if offset =? 0 then 0 else zlen code - offset) with
  | Some c => Ok c
  | None => Err EIndex
  end.

(** [for _ in range(count): code.append(code[-offset])]. *)
Fixpoint copy_back (n : nat) (offset : Z) (code : list Z) : res (list Z) :=
  match n with
  | O => Ok code
  | S n => c <- neg_index code offset ;; copy_back n offset (code ++ [c])
  end.

(** [while br.bit(): extra += 1], l.66-67. *)
Fixpoint read_extra (fuel : nat) (extra : nat) (r : br) : res (nat * br) :=
  match fuel with
  | O => Err EFuel
  | S fuel =>
      '(b, r) <- br_bit r ;;
      if (b : bool) then read_extra fuel (S extra) r else Ok (extra, r)
  end.

(** The literal block loop, l.80-85. *)
Fixpoint read_block (fuel : nat) (code : list Z) (r : br) : res (list Z * br) :=
  match fuel with
  | O => Err EFuel
  | S fuel =>
      '(ch, r) <- br_bits 8 r ;;
      if ch =? 0 then Ok (code, r) else read_block fuel (code ++ [ch]) r
  end.

(** The count loop, l.89-94. *)
Fixpoint read_count (fuel : nat) (count : Z) (r : br) : res (Z * br) :=
  match fuel with
  | O => Err EFuel
  | S fuel =>
      '(part, r) <- br_bits 3 r ;;
      if part =? 7 then read_count fuel (count + part) r else Ok (count + part, r)
  end.

(** One iteration of the decoding loop, l.62-97.  [fuel] bounds the inner loops. *)
Definition decode_one (fuel : nat) (mtf code : list Z) (r : br) : res (list Z * list Z * br) :=
  '(b, r) <- br_bit r ;;
  if (b : bool) then
    '(extra, r) <- read_extra fuel 0 r ;;
    '(v, r) <- br_bits (4 + extra) r ;;
    let idx := v + make_mask 4 (Z.of_nat extra) in
    match znth mtf idx with
    | None => Err EIndex
    | Some ch => Ok (update_mtf mtf (Z.to_nat idx) ch, code ++ [ch], r)
    end
  else
    '(b, r) <- br_bit r ;;
    '(offlen, r) <- (if (b : bool) then '(b, r) <- br_bit r ;; Ok (if (b : bool) then 5%nat else 10%nat, r)
                     else Ok (15%nat, r)) ;;
    '(v, r) <- br_bits offlen r ;;
    let offset := v + 1 in
    if (offset =? 1) && negb (Nat.eqb offlen 5) then
      _ <- assert_ (Nat.eqb offlen 10) ;;
      '(code, r) <- read_block fuel code r ;; Ok (mtf, code, r)
    else
      '(count, r) <- read_count fuel 3 r ;;
      code <- copy_back (Z.to_nat count) offset code ;; Ok (mtf, code, r).

Fixpoint decode_loop (fuel ifuel : nat) (unc_size : Z) (mtf code : list Z) (r : br) : res (list Z * br) :=
  if zlen code <? unc_size then
    match fuel with
    | O => Err EFuel
    | S fuel =>
        '(mtf, code, r) <- decode_one ifuel mtf code r ;;
        decode_loop fuel ifuel unc_size mtf code r
    end
  else Ok (code, r).

(** Every loop iteration consumes at least one bit, so this fuel is enough. *)
Definition bit_fuel (d : list Z) : nat := S (8 * length d).

(** Old format decoding loop, l.108-132. *)
Fixpoint old_decode_loop (fuel : nat) (code : list Z) (d : list Z) : res (list Z * list Z) :=
  match fuel with
  | O => Err EFuel
  | S fuel =>
      '(ch, d) <- get_u8 d ;;
      if ch =? 0 then
        '(ch2, d) <- get_u8 d ;;
        if ch2 =? 0 then Ok (code, d) else old_decode_loop fuel (code ++ [ch2]) d
      else if ch <=? 0x3b then
        match znth old_code_table ch with
        | Some c => old_decode_loop fuel (code ++ [c]) d
        | None => Err EIndex
        end
      else
        '(ch2, d) <- get_u8 d ;;
        let count := Z.shiftr ch2 4 + 2 in
        let offset := Z.shiftl (ch - 0x3c) 4 + Z.land ch2 0xf in
        _ <- assert_ (count <=? offset) ;;
        code <- copy_back (Z.to_nat count) offset code ;;
        old_decode_loop fuel code d
  end.

(** [r.zbytes(max, allow_eof=True)] (utils.py l.903-932 with size given, count = 1):
    the bytes up to the first zero within [max] bytes. *)
Fixpoint take_until0 (l : list Z) : list Z :=
  match l with [] => [] | x :: l => if x =? 0 then [] else x :: take_until0 l end.
Definition zbytes (max : Z) (d : list Z) : list Z := take_until0 (firstn (Z.to_nat max) d).

(** [uncompress_code] on the bytes [d] that follow the reader's position.
    [be]: the reader's big_end flag.  (Size and debug handlers omitted.) *)
Definition uncompress_code (be : bool) (max_code_size : Z) (d : list Z) : res (list Z) :=
  let header := firstn 4 d in
  if zeqb_list header new_header then
    let d1 := skipn 4 d in
    '(unc_size, d1) <- get_u16 be d1 ;;
    '(com_size, d1) <- get_u16 be d1 ;;
    '(code, r) <- decode_loop (bit_fuel d1) (bit_fuel d1) unc_size mtf_init [] (br_init d1) ;;
    (* r.pos() - start_pos == com_size *)
    _ <- assert_ (zlen d - zlen (br_rest r) =? com_size) ;;
    _ <- assert_ (zlen code =? unc_size) ;;
    Ok code
  else if zeqb_list header old_header then
    let d1 := skipn 4 d in
    '(unc_size, d1) <- get_u16 be d1 ;;
    '(z, d1) <- get_u16 be d1 ;;
    _ <- assert_ (z =? 0) ;;
    '(code, _) <- old_decode_loop (S (length d1)) [] d1 ;;
    _ <- assert_ ((zlen code =? unc_size) || (zlen code =? unc_size - 1)) ;;
    Ok code
  else Ok (zbytes max_code_size d).

(** [get_compressed_size], l.146-170. *)
Fixpoint old_size_loop (fuel : nat) (d : list Z) : res (list Z) :=
  match fuel with
  | O => Err EFuel
  | S fuel =>
      '(ch, d) <- get_u8 d ;;
      if ch =? 0 then
        '(ch2, d) <- get_u8 d ;;
        if ch2 =? 0 then Ok d else old_size_loop fuel d
      else if 0x3b <? ch then '(_, d) <- get_u8 d ;; old_size_loop fuel d
      else old_size_loop fuel d
  end.

Definition get_compressed_size (be : bool) (max_code_size : Z) (d : list Z) : res Z :=
  let header := firstn 4 d in
  if zeqb_list header new_header then
    '(_, d1) <- get_u16 be (skipn 4 d) ;;
    '(s, _) <- get_u16 be d1 ;; Ok s
  else if zeqb_list header old_header then
    '(_, d1) <- get_u16 be (skipn 4 d) ;;
    '(_, d1) <- get_u16 be d1 ;;
    rest <- old_size_loop (S (length d1)) d1 ;;
    Ok (zlen d - zlen rest)
  else Ok (zlen (zbytes max_code_size d)).
