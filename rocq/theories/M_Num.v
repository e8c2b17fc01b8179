(** Model of number parsing and printing: /repo/pico_tokenize.py l.731-826 and
    /repo/pico_output.py l.7-92, l.106-147 (integers).  Characters are code points. *)
From Verif Require Import M_Base M_Compress M_Fold.
Open Scope Z_scope.

(** *** Python floats.
    The non-negative floats that occur here are pairs (numerator, denominator), the
    denominator a power of two.  The exponent range is unbounded: neither overflow nor
    subnormal numbers are modelled. *)

(** Nearest integer to [a/b], ties to even (b > 0). *)
Definition rne (a b : Z) : Z :=
  let q := a / b in
  let r := a mod b in
  if 2 * r <? b then q else if b <? 2 * r then q + 1 else if Z.even q then q else q + 1.

(** The exponent [e] with 2^e <= n/d < 2^(e+1). *)
Definition qlog2 (n d : Z) : Z :=
  let k := Z.log2 n - Z.log2 d in
  if n * 2 ^ Z.max (- k) 0 <? d * 2 ^ Z.max k 0 then k - 1 else k.

(** The binary64 number nearest to [n/d] (53 significant bits). *)
Definition rnd53 (n d : Z) : Z * Z :=
  if n =? 0 then (0, 1)
  else
    let e := qlog2 n d - 52 in
    if e <? 0 then (rne (n * 2 ^ (- e)) d, 2 ^ (- e)) else (rne n (d * 2 ^ e) * 2 ^ e, 1).

(** [int / int]: CPython rounds the quotient correctly. *)
Definition int_div (a b : Z) : Z * Z := rnd53 a b.
(** [int + float]: the int is first converted. *)
Definition int_plus_float (i : Z) (f : Z * Z) : Z * Z :=
  let '(a, b) := rnd53 i 1 in
  let '(n, d) := f in
  rnd53 (a * d + n * b) (b * d).

(** *** Digits *)
Definition k_digits10 : list Z := [48; 49; 50; 51; 52; 53; 54; 55; 56; 57].
Definition k_digits16 : list Z := k_digits10 ++ [97; 98; 99; 100; 101; 102].
Definition k_digits2 : list Z := [48; 49].

(** ["%x" % v] and ["%d" % v] for [v >= 0], [base] 16 and 10. *)
Fixpoint base_loop (base : Z) (fuel : nat) (v : Z) (acc : list Z) : list Z :=
  match fuel with
  | O => acc
  | S fuel =>
      let acc := nth (Z.to_nat (v mod base)) k_digits16 0 :: acc in
      if v / base =? 0 then acc else base_loop base fuel (v / base) acc
  end.
Definition base_str (base v : Z) : list Z := base_loop base (S (Z.to_nat (Z.log2 v))) v [].
(** [s.rjust(width, '0')] *)
Definition zero_pad (width : nat) (s : list Z) : list Z := repeat 48 (width - length s) ++ s.
(** [s.rstrip(ch)] *)
Fixpoint lstrip_ch (ch : Z) (s : list Z) : list Z :=
  match s with [] => [] | c :: s' => if c =? ch then lstrip_ch ch s' else s end.
Definition rstrip_ch (ch : Z) (s : list Z) : list Z := rev (lstrip_ch ch (rev s)).

(** [str.lower()] on ASCII (other characters never match anything below). *)
Definition lower_ch (c : Z) : Z := if (65 <=? c) && (c <=? 90) then c + 32 else c.
Definition lower (s : list Z) : list Z := map lower_ch s.

(** The digit loops of [parse_fixnum], l.754-756 and l.762-765: the value read, the
    number of digits and the rest. *)
Fixpoint scan_digits (digits : list Z) (value count : Z) (s : list Z) : Z * Z * list Z :=
  match s with
  | c :: s' =>
      match index_of c digits with
      | Some i => scan_digits digits (value * zlen digits + Z.of_nat i) (count + 1) s'
      | None => (value, count, s)
      end
  | [] => (value, count, [])
  end.

(** [parse_fixnum], l.742-773 without the sign: [value] is an int until a dot is met. *)
Definition parse_fixnum_abs (s : list Z) : res Z :=
  let '(digits, s) :=
    match s with
    | 48 :: 120 :: t => (k_digits16, t)
    | 48 :: 98 :: t => (k_digits2, t)
    | _ => (k_digits10, s)
    end in
  let base := zlen digits in
  let '(value, _, s) := scan_digits digits 0 0 s in
  let '(num, den, s) :=
    match s with
    | 46 :: s =>
        let '(dotvalue, dotdigits, s) := scan_digits digits 0 0 s in
        let '(n, d) := int_plus_float value (int_div dotvalue (base ^ dotdigits)) in (n, d, s)
    | _ => (value, 1, s)
    end in
  match s with
  | _ :: _ => Err ECheck
  | [] => Ok (Z.land (num * 65536 / den) k_fixnum_mask)   (* num_to_fixnum *)
  end.
(** [parse_fixnum], l.731-777. *)
Definition parse_fixnum (origstr : list Z) : res Z :=
  match lower origstr with
  | 45 :: s => v <- parse_fixnum_abs s ;; Ok (Z.land (- v) k_fixnum_mask)
  | 126 :: s => v <- parse_fixnum_abs s ;; Ok (Z.land (Z.lnot v) k_fixnum_mask)
  | s => parse_fixnum_abs s
  end.

(** [float_str_add_1], l.7-15, on the reversed string. *)
Fixpoint add_1_rev (s : list Z) : list Z :=
  match s with
  | [] => [49]
  | c :: s =>
      if c =? 46 then 46 :: add_1_rev s
      else if c =? 57 then 48 :: add_1_rev s
      else c + 1 :: s
  end.
Definition float_str_add_1 (s : list Z) : list Z := rev (add_1_rev (rev s)).

(** [float_str_minify], l.17-44, for a parser of exact values. *)
Section Minify.
Context (parse : list Z -> res Z) (cmpval : Z) (keep_float : bool).
Fixpoint minify_loop (fuel : nat) (ok : bool) (s : list Z) : res (list Z) :=
  match fuel with
  | O => Err EFuel
  | S fuel =>
      if existsb (Z.eqb 46) s then
        match rev s with
        | [] => Err EIndex
        | ch :: r =>
            let nextvalue := rev r in
            if ch =? 46 then Ok (if keep_float then s else nextvalue)
            else if (ch =? 48) && ok then minify_loop fuel ok nextvalue
            else
              let nextupvalue := float_str_add_1 nextvalue in
              p <- parse nextvalue ;;
              if p =? cmpval then minify_loop fuel true nextvalue
              else
                p <- parse nextupvalue ;;
                if p =? cmpval then minify_loop fuel true nextupvalue
                else _ <- check_ ok ;; Ok s
        end
      else Ok s
  end.
Definition float_str_minify (s : list Z) : res (list Z) :=
  p <- parse s ;;
  s <- minify_loop (S (length s)) (p =? cmpval) s ;;
  Ok (match s with 48 :: 46 :: _ :: _ => tl s | _ => s end).
End Minify.

(** The [sign] and [base] arguments; [SEmpty] is the empty string, [SNone] is None. *)
Inductive sign_arg := SNone | SEmpty | SNeg | SNot.
Inductive base_arg := BNone | B10 | B16.

(** ["%.6f" % f]: exact decimal expansion, rounded half to even. *)
Definition format_6f (f : Z * Z) : list Z :=
  let '(n, d) := f in
  let q := rne (n * 1000000) d in
  base_str 10 (q / 1000000) ++ 46 :: zero_pad 6 (base_str 10 (q mod 1000000)).

(** l.61-65 *)
Definition fixnum_hex (value : Z) : list Z :=
  let intvalue := Z.shiftr value 16 in
  let dotvalue := Z.land value 0xffff in
  let hexvalue := 48 :: 120 :: base_str 16 intvalue in
  if dotvalue =? 0 then hexvalue
  else (if zeqb_list hexvalue [48; 120; 48] then [48; 120] else hexvalue)
       ++ rstrip_ch 48 (46 :: zero_pad 4 (base_str 16 dotvalue)).
(** l.71-72 *)
Definition fixnum_dec (value : Z) : res (list Z) :=
  float_str_minify parse_fixnum value false (format_6f (int_div value 65536)).

(** l.61-78: the shorter of hexadecimal and decimal, unless a base is requested. *)
Definition shorter (a b : list Z) : list Z := if zlen a <? zlen b then a else b.
Definition fixnum_min (base : base_arg) (value : Z) : res (list Z) :=
  match base with
  | B16 => Ok (fixnum_hex value)
  | B10 => fixnum_dec value
  | BNone => d <- fixnum_dec value ;; Ok (shorter (fixnum_hex value) d)
  end.

(** [format_fixnum], l.48-92. *)
Definition format_fixnum_neg (base : base_arg) (value : Z) : res (list Z) :=
  s <- fixnum_min base (Z.land (- value) k_fixnum_mask) ;; Ok (45 :: s).
Definition format_fixnum_not (base : base_arg) (value : Z) : res (list Z) :=
  s <- fixnum_min base (Z.land (Z.lnot value) k_fixnum_mask) ;; Ok (126 :: s).
Definition format_fixnum (sign : sign_arg) (base : base_arg) (value : Z) : res (list Z) :=
  match sign with
  | SNeg => format_fixnum_neg base value
  | SNot => format_fixnum_not base value
  | SEmpty => fixnum_min base value
  | SNone =>
      minvalue <- fixnum_min base value ;;
      if negb (Z.land value 0x80000000 =? 0) && negb (value =? 0x80000000) then
        negvalue <- format_fixnum_neg base value ;;
        let minvalue := shorter negvalue minvalue in
        notvalue <- format_fixnum_not base value ;;
        Ok (shorter notvalue minvalue)
      else Ok minvalue
  end.

(** *** Picotron integers *)

(** [format_luanum] on ints, l.108-147. *)
Definition luaint_min (base : base_arg) (value : Z) : list Z :=
  let hexvalue := 48 :: 120 :: base_str 16 value in
  let decvalue := base_str 10 value in
  match base with
  | B16 => hexvalue
  | B10 => decvalue
  | BNone => if 0x8000000000000000 <=? value then hexvalue else shorter hexvalue decvalue
  end.
Definition format_luaint_neg (base : base_arg) (value : Z) : list Z :=
  45 :: luaint_min base (Z.land (- value) k_luaint_mask).
Definition format_luaint_not (base : base_arg) (value : Z) : list Z :=
  126 :: luaint_min base (Z.land (Z.lnot value) k_luaint_mask).
Definition format_luaint (sign : sign_arg) (base : base_arg) (allow_not : bool) (value : Z) : list Z :=
  match sign with
  | SNeg => format_luaint_neg base value
  | SNot => format_luaint_not base value
  | SEmpty => luaint_min base (Z.land value k_luaint_mask)
  | SNone =>
      let value := Z.land value k_luaint_mask in
      let minvalue := luaint_min base value in
      if negb (Z.land value 0x8000000000000000 =? 0) && negb (value =? 0x8000000000000000) then
        let minvalue := shorter (format_luaint_neg base value) minvalue in
        if allow_not then shorter (format_luaint_not base value) minvalue else minvalue
      else minvalue
  end.

(** [int(s, base=...)] on digits only (no underscores, spaces or signs): ValueError otherwise. *)
Definition int_of_digits (digits s : list Z) : res Z :=
  match s with
  | [] => Err EValue
  | _ => let '(v, _, rest) := scan_digits digits 0 0 s in
         match rest with [] => Ok v | _ => Err EValue end
  end.

(** What [parse_luanum] returns: an int, or a float (whose value is not modelled). *)
Inductive luanum := LInt (v : Z) | LFloat.

(** [parse_luanum], l.779-826; a ValueError is rethrown as CheckError. *)
Definition has_ch (c : Z) (s : list Z) : bool := existsb (Z.eqb c) s.
Definition rethrow {A} (r : res A) : res A := match r with Err EValue => Err ECheck | _ => r end.
Definition parse_luanum_abs (s : list Z) : res luanum :=
  rethrow
    match s with
    | 48 :: 120 :: t =>
        if has_ch 46 s || has_ch 112 s then Ok LFloat
        else v <- int_of_digits k_digits16 t ;; Ok (LInt (num_to_luaint v))
    | 48 :: 98 :: t =>
        if has_ch 46 s then Ok LFloat
        else v <- int_of_digits k_digits2 t ;; Ok (LInt (num_to_luaint v))
    | _ =>
        if has_ch 46 s || has_ch 101 s then Ok LFloat
        else
          v <- int_of_digits k_digits10 s ;;
          Ok (if (-0x8000000000000000 <=? v) && (v <=? 0x7fffffffffffffff) then LInt (num_to_luaint v) else LFloat)
    end.
Definition parse_luanum (origstr : list Z) : res luanum :=
  match lower origstr with
  | 45 :: s => v <- parse_luanum_abs s ;; Ok (match v with LInt v => LInt (- v) | LFloat => LFloat end)
  | s => parse_luanum_abs s
  end.
