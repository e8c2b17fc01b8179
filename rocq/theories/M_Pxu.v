(** Model of the userdata format pxu, /repo/picotron_fs.py l.174-265 and l.304-381.
    Bytes and characters are numbers; the stream read is the list of bytes not yet
    read. *)
From Verif Require Import M_Base M_Compress M_Num M_Text M_Lz4.
Open Scope Z_scope.

(** [UserData], l.20-22 *)
Record userdata := mkud { ud_type : list Z; ud_width : Z; ud_height : Z; ud_data : list Z }.

(** [PxuType], l.178-181 *)
Inductive pxu_type := U8 | I16.
Definition pxu_name (t : pxu_type) : list Z := match t with U8 => [117; 56] | I16 => [105; 49; 54] end.
(** [PxuType(ud.type)]: by name; [None] is a ValueError *)
Definition pxu_of_name (s : list Z) : option pxu_type :=
  if zeqb_list s (pxu_name U8) then Some U8 else if zeqb_list s (pxu_name I16) then Some I16 else None.
Definition pxu_value (t : pxu_type) : Z := match t with U8 => 3 | I16 => 12 end.
Definition pxu_of_value (v : Z) : option pxu_type :=
  if v =? 3 then Some U8 else if v =? 12 then Some I16 else None.
(** [get_pxu_type_info], l.183-189 *)
Definition type_nybbles (t : pxu_type) : nat := match t with U8 => 2 | I16 => 4 end.
Definition read_type (t : pxu_type) (d : list Z) : res (Z * list Z) :=
  match t with U8 => r_u8 d | I16 => r_u16 d end.
Definition write_type (t : pxu_type) (v : Z) : res (list Z) :=
  match t with U8 => w_u8 v | I16 => w_u16 v end.

(** [PxuCompression], l.191-194 *)
Inductive pxu_compression := PNone | PMtf | PRle.
Definition comp_value (c : pxu_compression) : Z := match c with PNone => 1 | PMtf => 2 | PRle => 8 end.
Definition comp_of_value (v : Z) : option pxu_compression :=
  if v =? 1 then Some PNone else if v =? 2 then Some PMtf else if v =? 8 then Some PRle else None.

Definition k_pxu_prefix : list Z := [112; 120; 117; 0].
Definition pxu_full_mask : Z := 0xf84f.
Definition has_height : Z := 0x40.
Definition long_size : Z := 0x800.

(** [r.u32()] and [w.u32(v)], little endian *)
Definition r_u32 (d : list Z) : res (Z * list Z) :=
  match d with
  | a :: b :: c :: e :: d => Ok (a + b * 256 + c * 65536 + e * 16777216, d)
  | _ => Err EStruct
  end.
Definition w_u32 (v : Z) : res (list Z) :=
  if (0 <=? v) && (v <? 4294967296) then Ok [v mod 256; v / 256 mod 256; v / 65536 mod 256; v / 16777216] else Err EStruct.

(** [mapping[mtf[-1]] = value] *)
Definition set_mapping (mapping mtf : list Z) (value : Z) : res (list Z) :=
  match rev mtf with
  | [] => Err EIndex
  | k :: _ => if (0 <=? k) && (k <? zlen mapping) then Ok (list_upd mapping (Z.to_nat k) value) else Err EIndex
  end.

Definition pxu_range (n : Z) : list Z := map Z.of_nat (seq 0 (Z.to_nat n)).

(* ------------------------------------------------------------------ *)
(** * Reading *)

(** the loop of l.237-260; each round reads a byte, so the number of bytes is enough
    fuel *)
Fixpoint read_runs (fuel : nat) (t : pxu_type) (bits size : Z) (mapping mtf data d : list Z)
  : res (list Z * list Z) :=
  if zlen data <? size then
    match fuel with
    | O => Err EFuel
    | S fuel =>
        let mask := Z.shiftl 1 bits - 1 in
        let ext_count := Z.shiftl 1 (8 - bits) in
        '(b, d) <- r_u8 d ;;
        let index := Z.land b mask in
        '(value, mapping, mtf, d) <-
          (if index =? mask then
             '(value, d) <- read_type t d ;;
             mapping <- (if bits =? 0 then Ok mapping else set_mapping mapping mtf value) ;;
             Ok (value, mapping, mtf, d)
           else
             k <- mtf_index index mtf ;;
             let mtf := update_mtf mtf k index in
             match znth mapping index with
             | Some value => Ok (value, mapping, mtf, d)
             | None => Err EIndex
             end) ;;
        let count := 1 + Z.shiftr b bits in
        '(count, d) <- (if count =? ext_count then read_u8_sum count d else Ok (count, d)) ;;
        read_runs fuel t bits size mapping mtf (data ++ repeat value (Z.to_nat count)) d
    end
  else Ok (data, d).

(** [f"{b:x}".zfill(type_nybbles)], l.263 *)
Definition value_hex (t : pxu_type) (b : Z) : list Z := zero_pad (type_nybbles t) (base_str 16 b).

(** [[read_type() for _ in range(size)]], l.223 *)
Fixpoint read_values (n : nat) (t : pxu_type) (d : list Z) : res (list Z * list Z) :=
  match n with
  | O => Ok ([], d)
  | S n => '(v, d) <- read_type t d ;; '(vs, d) <- read_values n t d ;; Ok (v :: vs, d)
  end.

(** [read_pxu], l.202-265: the userdata and the position after it.  The warnings
    about unusual [bits] are left out.  Unknown flags raise. *)
Definition read_pxu (data : list Z) (idx : nat) : res (userdata * nat) :=
  let d := skipn idx data in
  if negb (zeqb_list (firstn 4 d) k_pxu_prefix) then Err ECheck else
  let d := skipn 4 d in
  '(flags, d) <- r_u16 d ;;
  if negb (Z.land flags pxu_full_mask =? flags) then Err ECheck else
  match pxu_of_value (Z.land flags 0xf), comp_of_value (Z.shiftr (Z.land flags 0xf000) 12) with
  | Some t, Some comp =>
      let long := negb (Z.land flags long_size =? 0) in
      let hh := negb (Z.land flags has_height =? 0) in
      '(width, d) <- (if long then r_u32 d else r_u8 d) ;;
      '(height, d) <- (if hh then if long then r_u32 d else r_u8 d else Ok (1, d)) ;;
      let size := width * height in
      '(values, d) <-
        match comp with
        | PNone => read_values (Z.to_nat size) t d
        | _ =>
            '(bits, d) <- r_u8 d ;;
            if 8 <? bits then Err EValue (* 1 << (8 - bits) *) else
            let mask := Z.shiftl 1 bits - 1 in
            read_runs (length d) t bits size (pxu_range mask) (pxu_range mask) [] d
        end ;;
      Ok (mkud (pxu_name t) width (if hh then height else 0) (concat (map (value_hex t) values)),
          (length data - length d)%nat)
  | _, _ => Err ECheck
  end.

(* ------------------------------------------------------------------ *)
(** * Writing *)

(** [while i < len(data) and data[i] == value], l.350-352: how many, and the rest *)
Fixpoint run_of (value : Z) (data : list Z) : nat * list Z :=
  match data with
  | x :: data' => if x =? value then let '(n, r) := run_of value data' in (S n, r) else (O, data)
  | [] => (O, [])
  end.

(** [while count >= 0xff: ...], l.373-376 *)
Fixpoint write_count (fuel : nat) (count : Z) : res (list Z) :=
  if 0xff <=? count then
    match fuel with
    | O => Err EFuel
    | S fuel => rest <- write_count fuel (count - 0xff) ;; Ok (0xff :: rest)
    end
  else w_u8 count.

(** the loop of l.345-376 *)
Fixpoint write_runs (fuel : nat) (t : pxu_type) (bits : Z) (mapping mtf data : list Z) : res (list Z) :=
  match data with
  | [] => Ok []
  | value :: data =>
      match fuel with
      | O => Err EFuel
      | S fuel =>
          let mask := Z.shiftl 1 bits - 1 in
          let ext_count := Z.shiftl 1 (8 - bits) in
          let '(n, data) := run_of value data in
          let count := 1 + Z.of_nat n in
          '(index, mapping, mtf) <-
            match index_of value mapping with
            | None =>
                mapping <- (if bits =? 0 then Ok mapping else set_mapping mapping mtf value) ;;
                Ok (mask, mapping, mtf)
            | Some k =>
                let index := Z.of_nat k in
                j <- mtf_index index mtf ;;
                Ok (index, mapping, update_mtf mtf j index)
            end ;;
          h <- w_u8 (Z.lor index (Z.shiftl (Z.min count ext_count - 1) bits)) ;;
          v <- (if index =? mask then write_type t value else Ok []) ;;
          c <- (if ext_count <=? count then write_count (Z.to_nat (count / 0xff)) (count - ext_count) else Ok []) ;;
          rest <- write_runs fuel t bits mapping mtf data ;;
          Ok (h ++ v ++ c ++ rest)
      end
  end.

(** [ud.data[i:i+type_nybbles]] for the [i] of l.335 *)
Fixpoint chunks (fuel n : nat) (s : list Z) : list (list Z) :=
  match s with
  | [] => []
  | _ => match fuel with O => [] | S fuel => firstn n s :: chunks fuel n (skipn n s) end
  end.

Section Write.
(** [int(s, 16)] *)
Context (int16 : list Z -> option Z).

(** [write_pxu], l.304-381; [None] if the userdata is not of a kind it handles *)
Definition write_pxu (ud : userdata) (runtime : Z) : res (option (list Z)) :=
  if zeqb_list (firstn 4 (ud_data ud)) [104; 101; 120; 58] then Ok None
  else match pxu_of_name (ud_type ud) with
  | None => Ok None
  | Some t =>
      match (match t with U8 => Some (PMtf, 4) | I16 => if 21 <=? runtime then Some (PRle, 0) else None end) with
      | None => Ok None
      | Some (comp, bits) =>
          let flags := Z.lor (pxu_value t) (Z.shiftl (comp_value comp) 12) in
          let hh := negb (ud_height ud =? 0) in
          let flags := if hh then Z.lor flags has_height else flags in
          let long := (0x100 <=? ud_width ud) || (0x100 <=? ud_height ud) in
          let flags := if long then Z.lor flags long_size else flags in
          f <- w_u16 flags ;;
          w <- (if long then w_u32 else w_u8) (ud_width ud) ;;
          h <- (if hh then (if long then w_u32 else w_u8) (ud_height ud) else Ok []) ;;
          values <- map_res (fun s => match int16 s with Some v => Ok v | None => Err ECheck end)
                      (chunks (length (ud_data ud)) (type_nybbles t) (ud_data ud)) ;;
          let mask := Z.shiftl 1 bits - 1 in
          runs <- write_runs (length values) t bits (pxu_range mask) (pxu_range mask) values ;;
          Ok (Some (k_pxu_prefix ++ f ++ w ++ h ++ [bits] ++ runs))
      end
  end.
End Write.
