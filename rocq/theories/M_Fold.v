(** Model of constant folding: /repo/pico_constfold.py l.7-368 (values and
    operators), l.370-420 (operator tables), l.441-474, l.570-650 (folding of
    expressions).  Floating point values (Picotron only) are not modelled. *)
From Verif Require Import M_Base.
Open Scope Z_scope.

(** [LuaValue], l.11-83; [LuaFixnum] masks its value (l.67), [LuaInteger] wraps it (l.72). *)
Inductive lval :=
  | VNil
  | VBool (b : bool)
  | VFix (v : Z)
  | VInt (v : Z)
  | VStr (s : list Z).

Inductive language := Pico8 | Picotron.

(** /repo/pico_defs.py l.260-293 *)
Definition k_fixnum_mask : Z := 0xffffffff.
Definition fixnum_is_negative (v : Z) : bool := negb (Z.land v 0x80000000 =? 0).
Definition fixnum_is_whole (v : Z) : bool := Z.land v 0xffff =? 0.
Definition fixnum_to_whole (v : Z) : Z := Z.shiftr v 16.
Definition fixnum_to_signed (v : Z) : Z := if negb (Z.land v 0x80000000 =? 0) then v - 0x100000000 else v.
Definition is_signed_fixnum_in_range (v : Z) : bool := (-0x80000000 <=? v) && (v <? 0x80000000).
(** l.297-306 *)
Definition k_luaint_mask : Z := 0xffffffffffffffff.
Definition num_to_luaint (v : Z) : Z :=
  let v := Z.land v k_luaint_mask in
  if negb (Z.land v 0x8000000000000000 =? 0) then v - 0x10000000000000000 else v.

(** Constructors, l.64-73. *)
Definition LuaFixnum (v : Z) : lval := VFix (Z.land v k_fixnum_mask).
Definition LuaInteger (v : Z) : lval := VInt (num_to_luaint v).

(** [is_truthy], l.43-44. *)
Definition is_truthy (a : lval) : bool :=
  match a with VNil => false | VBool b => b | _ => true end.

(** [signed_value], l.52-56 (numbers only). *)
Definition signed_value (a : lval) : Z :=
  match a with VFix v => fixnum_to_signed v | VInt v => v | _ => 0 end.
Definition is_number (a : lval) : bool := match a with VFix _ | VInt _ => true | _ => false end.

(** Unary operators and functions, l.92-132; [None] = not folded. *)
Definition lua_neg (a : lval) : option lval :=
  match a with
  | VFix v => Some (LuaFixnum (- v))
  | VInt v => Some (LuaInteger (- v))
  | _ => None
  end.
Definition lua_abs (a : lval) : option lval :=
  match a with
  | VFix v => if v =? 0x80000000 then None else Some (LuaFixnum (Z.abs (fixnum_to_signed v)))
  | VInt v => if v =? -0x8000000000000000 then None else Some (LuaInteger (Z.abs v))
  | _ => None
  end.
Definition lua_floor (a : lval) : option lval :=
  match a with
  | VFix v => Some (LuaFixnum (Z.land v 0xffff0000))
  | VInt v => Some a
  | _ => None
  end.
Definition lua_ceil (a : lval) : option lval :=
  match a with
  | VFix v =>
      if negb (Z.land v 0xffff =? 0) then
        let r := Z.land v 0xffff0000 + 0x10000 in
        if r =? 0x80000000 then None else Some (LuaFixnum r)
      else Some (LuaFixnum v)
  | VInt v => Some a
  | _ => None
  end.

(** Arithmetic, l.134-215. *)
Definition lua_add (a b : lval) : option lval :=
  match a, b with
  | VFix x, VFix y => Some (LuaFixnum (x + y))
  | VInt x, VInt y => Some (LuaInteger (x + y))
  | _, _ => None
  end.
Definition lua_sub (a b : lval) : option lval :=
  match a, b with
  | VFix x, VFix y => Some (LuaFixnum (x - y))
  | VInt x, VInt y => Some (LuaInteger (x - y))
  | _, _ => None
  end.
Definition lua_mul (a b : lval) : option lval :=
  match a, b with
  | VFix x, VFix y =>
      let r := Z.shiftr (fixnum_to_signed x * fixnum_to_signed y) 16 in
      if is_signed_fixnum_in_range r then Some (LuaFixnum r) else None
  | VInt x, VInt y => Some (LuaInteger (x * y))
  | _, _ => None
  end.
(** [_div_trunc], l.169-173: Python's [//] is [Z.div] (floor). *)
Definition div_trunc (a b : Z) : Z :=
  if negb (Bool.eqb (a <? 0) (b <? 0)) then - (a / (- b)) else a / b.
Definition lua_div (a b : lval) : option lval :=
  match a, b with
  | VFix x, VFix y =>
      if y =? 0 then None
      else
        let r := div_trunc (Z.shiftl (fixnum_to_signed x) 16) (fixnum_to_signed y) in
        if is_signed_fixnum_in_range r then Some (LuaFixnum r) else None
  | _, _ => None   (* integers divide as floats *)
  end.
Definition lua_idiv (a b : lval) : option lval :=
  match a, b with
  | VFix _, VFix _ => match lua_div a b with Some c => lua_floor c | None => None end
  | VInt x, VInt y => if y =? 0 then None else Some (LuaInteger (x / y))
  | _, _ => None
  end.
Definition lua_mod (a b : lval) : option lval :=
  match a, b with
  | VFix x, VFix y =>
      if negb (y =? 0) && negb (fixnum_is_negative y) then
        let r := fixnum_to_signed x mod fixnum_to_signed y in
        if is_signed_fixnum_in_range r then Some (LuaFixnum r) else None
      else None
  | VInt x, VInt y => if y =? 0 then None else Some (LuaInteger (x mod y))
  | _, _ => None
  end.

(** Comparison, l.217-252.  Strings compare as Python strings, by code points. *)
Fixpoint str_ltb (a b : list Z) : bool :=
  match a, b with
  | _, [] => false
  | [], _ :: _ => true
  | x :: a, y :: b => (x <? y) || ((x =? y) && str_ltb a b)
  end.
Definition str_leb (a b : list Z) : bool := negb (str_ltb b a).

Definition num_value (a : lval) : Z := match a with VFix v | VInt v => v | _ => 0 end.
Definition same_value (a b : lval) : bool :=
  match a, b with
  | VNil, VNil => true
  | VBool x, VBool y => Bool.eqb x y
  | VStr x, VStr y => zeqb_list x y
  | _, _ => false
  end.
Definition lua_eq (a b : lval) : option lval :=
  if is_number a && is_number b then Some (VBool (num_value a =? num_value b)) else Some (VBool (same_value a b)).
Definition lua_not_eq (a b : lval) : option lval :=
  if is_number a && is_number b then Some (VBool (negb (num_value a =? num_value b)))
  else Some (VBool (negb (same_value a b))).
Definition lua_cmp (numop : Z -> Z -> bool) (strop : list Z -> list Z -> bool) (a b : lval) : option lval :=
  if is_number a && is_number b then Some (VBool (numop (signed_value a) (signed_value b)))
  else match a, b with VStr x, VStr y => Some (VBool (strop x y)) | _, _ => None end.
Definition lua_less := lua_cmp Z.ltb str_ltb.
Definition lua_less_eq := lua_cmp Z.leb str_leb.
Definition lua_greater := lua_cmp (fun x y => y <? x) (fun x y => str_ltb y x).
Definition lua_greater_eq := lua_cmp (fun x y => y <=? x) (fun x y => str_leb y x).

(** l.254-267 *)
Definition lua_max (a b : lval) : option lval :=
  if is_number a && is_number b then Some (if signed_value b <? signed_value a then a else b) else None.
Definition lua_min (a b : lval) : option lval :=
  if is_number a && is_number b then Some (if signed_value a <? signed_value b then a else b) else None.
Definition lua_mid (a b c : lval) : option lval :=
  if is_number a && is_number b && is_number c then
    let '(av, bv, cv) := (signed_value a, signed_value b, signed_value c) in
    let '(condab, condbc, condac) := (av <? bv, bv <? cv, av <? cv) in
    Some (if Bool.eqb condab condbc then b else if negb (Bool.eqb condab condac) then a else c)
  else None.

(** Bitwise, l.269-291; [uint_value] (l.49-51) masks to 64 bits. *)
Definition uint_value (v : Z) : Z := Z.land v k_luaint_mask.
Definition lua_bin_not (a : lval) : option lval :=
  match a with
  | VFix v => Some (LuaFixnum (Z.lnot v))
  | VInt v => Some (LuaInteger (Z.lnot (uint_value v)))
  | _ => None
  end.
Definition lua_bit (f : Z -> Z -> Z) (a b : lval) : option lval :=
  match a, b with
  | VFix x, VFix y => Some (LuaFixnum (f x y))
  | VInt x, VInt y => Some (LuaInteger (f (uint_value x) (uint_value y)))
  | _, _ => None
  end.
Definition lua_bin_and := lua_bit Z.land.
Definition lua_bin_or := lua_bit Z.lor.
Definition lua_bin_xor := lua_bit Z.lxor.

(** [rotate_left]/[rotate_right], /repo/utils.py l.2631-2641 (value >= 0). *)
Definition rotate_left (value count bits : Z) : Z :=
  let count := count mod bits in
  Z.land (Z.lor (Z.shiftl value count) (Z.shiftr value (bits - count))) (Z.shiftl 1 bits - 1).
Definition rotate_right (value count bits : Z) : Z :=
  let count := count mod bits in
  Z.land (Z.lor (Z.shiftr value count) (Z.shiftl value (bits - count))) (Z.shiftl 1 bits - 1).

(** Shifts and rotations call each other on a negative count, l.293-343.  [fuel]
    is Python's recursion limit. *)
Inductive shop := Shl | Shr | Lshr | Rotl | Rotr.
Fixpoint lua_shift (fuel : nat) (op : shop) (a b : lval) : res (option lval) :=
  match fuel with
  | O => Err ERecursion
  | S fuel =>
      let again op := match lua_neg b with Some nb => lua_shift fuel op a nb | None => Ok None end in
      match a, b with
      | VFix x, VFix y =>
          match op with
          | Shl =>
              if fixnum_is_negative y then
                if negb (fixnum_is_negative x) then again Lshr else Ok None
              else if fixnum_is_whole y then
                Ok (Some (LuaFixnum (Z.shiftl x (Z.min (fixnum_to_whole y) 32))))
              else Ok None
          | Shr =>
              if fixnum_is_negative y then again Shl
              else if fixnum_is_whole y then
                Ok (Some (LuaFixnum (Z.shiftr (fixnum_to_signed x) (Z.min (fixnum_to_whole y) 32))))
              else Ok None
          | Lshr =>
              if fixnum_is_negative y then again Shl
              else if fixnum_is_whole y then
                Ok (Some (LuaFixnum (Z.shiftr x (Z.min (fixnum_to_whole y) 32))))
              else Ok None
          | Rotl =>
              if fixnum_is_negative y then again Rotr
              else if fixnum_is_whole y then
                Ok (Some (LuaFixnum (rotate_left x (fixnum_to_whole y) 32)))
              else Ok None
          | Rotr =>
              if fixnum_is_negative y then again Rotl
              else if fixnum_is_whole y then
                Ok (Some (LuaFixnum (rotate_right x (fixnum_to_whole y) 32)))
              else Ok None
          end
      | VInt x, VInt y =>
          match op with
          | Shl =>
              if y <? 0 then again Shr
              else Ok (Some (LuaInteger (Z.shiftl (uint_value x) (Z.min (uint_value y) 64))))
          | Shr =>
              if y <? 0 then again Shl
              else if 0 <=? x then Ok (Some (LuaInteger (Z.shiftr (uint_value x) (Z.min (uint_value y) 64))))
              else Ok None
          | _ => Ok None
          end
      | _, _ => Ok None
      end
  end.
Definition recursion_limit : nat := 1000.

(** l.345-368 *)
Definition lua_not (a : lval) : option lval := Some (VBool (negb (is_truthy a))).
Definition lua_and (a b : lval) : option lval := Some (if is_truthy a then b else a).
Definition lua_or (a b : lval) : option lval := Some (if is_truthy a then a else b).

(** [lua_len], l.351-356, PICO-8 case ([k_lua_maxint] = 0x7fff); in Picotron the length is
    that of the UTF-8 form, which is not modelled. *)
Definition lua_len (lang : language) (a : lval) : option lval :=
  match a, lang with
  | VStr s, Pico8 => if zlen s <=? 0x7fff then Some (LuaFixnum (Z.shiftl (zlen s) 16)) else None
  | _, _ => None
  end.

(** Decimal digits of a non-negative number ("%d"). *)
Fixpoint dec_loop (fuel : nat) (v : Z) (acc : list Z) : list Z :=
  match fuel with
  | O => acc
  | S fuel => let acc := (48 + v mod 10) :: acc in if v / 10 =? 0 then acc else dec_loop fuel (v / 10) acc
  end.
Definition dec_str (v : Z) : list Z := dec_loop (S (Z.to_nat (Z.log2 v))) v [].

(** [_lua_tostr], l.358-366: for whole fixnums [format_fixnum(.., base=10, sign=..)] prints the
    whole number in decimal after a possible minus. *)
Definition lua_tostr (a : lval) : option (list Z) :=
  match a with
  | VStr s => Some s
  | VFix v =>
      if fixnum_is_whole v then
        Some (if fixnum_is_negative v then 45 :: dec_str (Z.shiftr (Z.land (- v) k_fixnum_mask) 16)
              else dec_str (Z.shiftr v 16))
      else None
  | VInt v => Some (if v <? 0 then 45 :: dec_str (Z.land (- v) k_luaint_mask) else dec_str (Z.land v k_luaint_mask))
  | _ => None
  end.
Definition lua_cat (a b : lval) : option lval :=
  match lua_tostr a, lua_tostr b with Some x, Some y => Some (VStr (x ++ y)) | _, _ => None end.

(** *** Operator tables, l.370-420 *)
Inductive unop := UNeg | UBnot | UNot | ULen.
Inductive binop := BOr | BAnd | BNe | BEq | BLt | BLe | BGt | BGe | BBor | BBxor | BBand
  | BShl | BShr | BLshr | BRotl | BRotr | BCat | BAdd | BSub | BMul | BDiv | BIdiv | BMod | BPow.
Definition const_unary (lang : language) (op : unop) (a : lval) : res (option lval) :=
  Ok (match op with UNeg => lua_neg a | UBnot => lua_bin_not a | UNot => lua_not a | ULen => lua_len lang a end).
(** "^" is not in the table: never folded. *)
Definition const_binary (op : binop) (a b : lval) : res (option lval) :=
  match op with
  | BOr => Ok (lua_or a b) | BAnd => Ok (lua_and a b)
  | BNe => Ok (lua_not_eq a b) | BEq => Ok (lua_eq a b)
  | BLt => Ok (lua_less a b) | BLe => Ok (lua_less_eq a b) | BGt => Ok (lua_greater a b) | BGe => Ok (lua_greater_eq a b)
  | BBor => Ok (lua_bin_or a b) | BBxor => Ok (lua_bin_xor a b) | BBand => Ok (lua_bin_and a b)
  | BShl => lua_shift recursion_limit Shl a b | BShr => lua_shift recursion_limit Shr a b
  | BLshr => lua_shift recursion_limit Lshr a b
  | BRotl => lua_shift recursion_limit Rotl a b | BRotr => lua_shift recursion_limit Rotr a b
  | BCat => Ok (lua_cat a b)
  | BAdd => Ok (lua_add a b) | BSub => Ok (lua_sub a b) | BMul => Ok (lua_mul a b) | BDiv => Ok (lua_div a b)
  | BIdiv => Ok (lua_idiv a b) | BMod => Ok (lua_mod a b)
  | BPow => Ok None
  end.
(** [k_const_globals], l.404-420. *)
Inductive cfun := FAbs | FCeil | FFlr | FMax | FMid | FMin | FBand | FBnot | FBor | FBxor
  | FLshr | FRotl | FRotr | FShl | FShr.
Definition cfun_pico8_only (f : cfun) : bool :=
  match f with FAbs | FCeil | FFlr | FMax | FMid | FMin => false | _ => true end.
Definition const_call (lang : language) (f : cfun) (args : list lval) : res (option lval) :=
  if cfun_pico8_only f && (match lang with Picotron => true | Pico8 => false end) then Ok None
  else
  match f, args with
  | FAbs, [a] => Ok (lua_abs a) | FCeil, [a] => Ok (lua_ceil a) | FFlr, [a] => Ok (lua_floor a)
  | FBnot, [a] => Ok (lua_bin_not a)
  | FMax, [a; b] => Ok (lua_max a b) | FMin, [a; b] => Ok (lua_min a b)
  | FBand, [a; b] => Ok (lua_bin_and a b) | FBor, [a; b] => Ok (lua_bin_or a b) | FBxor, [a; b] => Ok (lua_bin_xor a b)
  | FLshr, [a; b] => lua_shift recursion_limit Lshr a b
  | FRotl, [a; b] => lua_shift recursion_limit Rotl a b | FRotr, [a; b] => lua_shift recursion_limit Rotr a b
  | FShl, [a; b] => lua_shift recursion_limit Shl a b | FShr, [a; b] => lua_shift recursion_limit Shr a b
  | FMid, [a; b; c] => Ok (lua_mid a b c)
  | _, _ => Ok None
  end.

(** *** Folding of expressions, [update_node_constval], l.595-640.

    [EOther id multi expand args] is any expression that is not folded itself and whose parts
    are evaluated in order (variables that are not constants, calls of unknown functions,
    table accesses and constructors, ...); [multi] says whether it is one that may give several
    values (a call or "..."), [expand] whether the last part may (call arguments, table
    constructors).  Nothing else of the parse tree is modelled.  [ECall] is a call of a
    foldable builtin that is not reassigned.  [EWorse v e] is a node [e] carrying [worse_const] = v (l.466-470): the
    node keeps its text, but folds further up see the constant. *)
Inductive expr :=
  | EConst (v : lval)
  | EOther (id : Z) (multi expand : bool) (args : list expr)
  | EGroup (e : expr)
  | EUn (op : unop) (e : expr)
  | EBin (op : binop) (l r : expr)
  | ECall (f : cfun) (args : list expr)
  | EWorse (v : lval) (e : expr).

(** [get_const], l.441-450. *)
Fixpoint get_const (e : expr) : option lval :=
  match e with
  | EConst v => Some v
  | EGroup e => get_const e
  | EWorse v _ => Some v
  | _ => None
  end.

(** [set_const], l.452-474.  [longer v e]: the constant's text is longer than the node's (only
    asked when focusing on characters); any test is allowed. *)
Definition set_const (longer : lval -> expr -> bool) (e : expr) (v : lval) : expr :=
  if longer v e then EWorse v e else EConst v.

Fixpoint get_consts (l : list expr) : option (list lval) :=
  match l with
  | [] => Some []
  | e :: l => match get_const e with
              | Some v => match get_consts l with Some vs => Some (v :: vs) | None => None end
              | None => None
              end
  end.

(** Post-order traversal. *)
Section fold_list.
  Context (f : expr -> res expr).
  Fixpoint fold_list (l : list expr) : res (list expr) :=
    match l with
    | [] => Ok []
    | x :: l => x <- f x ;; l <- fold_list l ;; Ok (x :: l)
    end.
End fold_list.
Fixpoint fold_expr (longer : lval -> expr -> bool) (lang : language) (e : expr) : res expr :=
  match e with
  | EConst _ | EWorse _ _ => Ok e
  | EOther id multi expand args =>
      args <- fold_list (fold_expr longer lang) args ;; Ok (EOther id multi expand args)
  | EGroup x => x <- fold_expr longer lang x ;; Ok (EGroup x)
  | EUn op x =>
      x <- fold_expr longer lang x ;;
      match get_const x with
      | Some v => r <- const_unary lang op v ;;
                  Ok (match r with Some c => set_const longer (EUn op x) c | None => EUn op x end)
      | None => Ok (EUn op x)
      end
  | EBin op l r =>
      l <- fold_expr longer lang l ;; r <- fold_expr longer lang r ;;
      match get_const l with
      | Some lv =>
          match get_const r with
          | Some rv => c <- const_binary op lv rv ;;
                       Ok (match c with Some c => set_const longer (EBin op l r) c | None => EBin op l r end)
          | None =>
              match op with
              | BAnd => Ok (if is_truthy lv then r else set_const longer (EBin op l r) lv)
              | BOr => Ok (if is_truthy lv then set_const longer (EBin op l r) lv else r)
              | _ => Ok (EBin op l r)
              end
          end
      | None => Ok (EBin op l r)
      end
  | ECall f args =>
      args <- fold_list (fold_expr longer lang) args ;;
      match get_consts args with
      | Some vs => c <- const_call lang f vs ;;
                   Ok (match c with Some c => set_const longer (ECall f args) c | None => ECall f args end)
      | None => Ok (ECall f args)
      end
  end.
