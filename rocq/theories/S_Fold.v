(** What the PICO-8 and Picotron machines compute, in ordinary arithmetic on signed
    integers.  A PICO-8 number with value x / 65536 is the integer x. *)
From Verif Require Import M_Base M_Fold.
Open Scope Z_scope.

(** Two's complement: the integer in [-2^(w-1), 2^(w-1)) equal to [z] modulo 2^w. *)
Definition in_width (w z : Z) : Prop := - 2 ^ (w - 1) <= z < 2 ^ (w - 1).
Definition wraps (w z r : Z) : Prop := in_width w r /\ (r - z) mod 2 ^ w = 0.

(** The value is the number: 16.16 fixed point in PICO-8, a 64 bit integer in Picotron. *)
Definition number (lang : language) (a : lval) (x : Z) : Prop :=
  match lang with
  | Pico8 => in_width 32 x /\ a = VFix (x mod 2 ^ 32)
  | Picotron => in_width 64 x /\ a = VInt x
  end.

(** The values programs of a language can name (Picotron floats are not modelled). *)
Definition value_of (lang : language) (a : lval) : Prop :=
  match a with
  | VNil | VBool _ | VStr _ => True
  | _ => exists x, number lang a x
  end.

Definition truthy (a : lval) : Prop := a <> VNil /\ a <> VBool false.

(** Lexicographic order. *)
Inductive before : list Z -> list Z -> Prop :=
  | before_nil y b : before [] (y :: b)
  | before_lt x y a b : x < y -> before (x :: a) (y :: b)
  | before_eq x a b : before a b -> before (x :: a) (x :: b).

Definition less (lang : language) (a b : lval) : Prop :=
  (exists x y, number lang a x /\ number lang b y /\ x < y) \/
  (exists s t, a = VStr s /\ b = VStr t /\ before s t).
Definition comparable (lang : language) (a b : lval) : Prop :=
  (exists x y, number lang a x /\ number lang b y) \/ (exists s t, a = VStr s /\ b = VStr t).

(** Decimal digits of a natural number, without leading zeros. *)
Fixpoint horner (acc : Z) (s : list Z) : Z :=
  match s with [] => acc | d :: s => horner (acc * 10 + (d - 48)) s end.
Definition is_decimal (s : list Z) (v : Z) : Prop :=
  s <> [] /\ Forall (fun d => 48 <= d <= 57) s /\ horner 0 s = v /\ (hd 0 s = 48 -> s = [48]).
(** The text of an integer. *)
Definition int_text (s : list Z) (v : Z) : Prop :=
  (0 <= v /\ is_decimal s v) \/ (v < 0 /\ exists t, s = 45 :: t /\ is_decimal t (- v)).
(** The text of a value in a concatenation; only whole numbers are covered. *)
Definition text (lang : language) (a : lval) (s : list Z) : Prop :=
  a = VStr s \/
  exists x, number lang a x /\
    match lang with
    | Pico8 => x mod 65536 = 0 /\ int_text s (x / 65536)
    | Picotron => int_text s x
    end.

(** The shift distance: [n] places, negative meaning the other way. *)
Definition distance (lang : language) (y n : Z) : Prop :=
  match lang with Pico8 => y = n * 65536 | Picotron => y = n end.
Definition width (lang : language) : Z := match lang with Pico8 => 32 | Picotron => 64 end.

(** Shift left by [n >= 0] places, arithmetic and logical shift right by [n >= 0] places. *)
Definition shifted_left (w x n r : Z) : Prop := wraps w (x * 2 ^ n) r.
Definition shifted_right (x n r : Z) : Prop := r = x / 2 ^ n.
Definition shifted_right_logical (w x n r : Z) : Prop := wraps w (x mod 2 ^ w / 2 ^ n) r.

(** "/" and ">>>", "<<>", ">><" on Picotron numbers are not covered. *)
Definition arith (lang : language) (op : binop) (x y r : Z) : Prop :=
  let w := width lang in
  match op with
  | BAdd => wraps w (x + y) r
  | BSub => wraps w (x - y) r
  | BMul => match lang with Pico8 => r = x * y / 65536 | Picotron => wraps w (x * y) r end
  (* the quotient is rounded towards zero *)
  | BDiv => lang = Pico8 /\ y <> 0 /\ r = Z.quot (x * 65536) y
  | BIdiv => y <> 0 /\
      match lang with
      | Pico8 => exists q, q = Z.quot (x * 65536) y /\ r mod 65536 = 0 /\ r <= q < r + 65536
      | Picotron => wraps w (x / y) r
      end
  | BMod => y <> 0 /\ r = x mod y /\ (lang = Pico8 -> 0 < y)
  | BBand => forall i, 0 <= i < w -> Z.testbit r i = Z.testbit x i && Z.testbit y i
  | BBor => forall i, 0 <= i < w -> Z.testbit r i = Z.testbit x i || Z.testbit y i
  | BBxor => forall i, 0 <= i < w -> Z.testbit r i = xorb (Z.testbit x i) (Z.testbit y i)
  | BShl => exists n, distance lang y n /\
      (0 <= n -> shifted_left w x n r) /\ (n < 0 -> 0 <= x /\ shifted_right x (- n) r)
  | BShr => exists n, distance lang y n /\
      (0 <= n -> (lang = Picotron -> 0 <= x) /\ shifted_right x n r) /\ (n < 0 -> shifted_left w x (- n) r)
  | BLshr => lang = Pico8 /\ exists n, distance lang y n /\
      (0 <= n -> shifted_right_logical w x n r) /\ (n < 0 -> shifted_left w x (- n) r)
  | BRotl => lang = Pico8 /\ exists n, distance lang y n /\
      forall i, 0 <= i < w -> Z.testbit r ((i + n) mod w) = Z.testbit x i
  | BRotr => lang = Pico8 /\ exists n, distance lang y n /\
      forall i, 0 <= i < w -> Z.testbit r i = Z.testbit x ((i + n) mod w)
  | _ => False
  end.

(** [c] is what [a op b] evaluates to. *)
Definition binary_means (lang : language) (op : binop) (a b c : lval) : Prop :=
  match op with
  | BAnd => (truthy a /\ c = b) \/ (~ truthy a /\ c = a)
  | BOr => (truthy a /\ c = a) \/ (~ truthy a /\ c = b)
  | BEq => exists t, c = VBool t /\ (t = true <-> a = b)
  | BNe => exists t, c = VBool t /\ (t = true <-> a <> b)
  | BLt => comparable lang a b /\ exists t, c = VBool t /\ (t = true <-> less lang a b)
  | BGt => comparable lang a b /\ exists t, c = VBool t /\ (t = true <-> less lang b a)
  | BLe => comparable lang a b /\ exists t, c = VBool t /\ (t = true <-> ~ less lang b a)
  | BGe => comparable lang a b /\ exists t, c = VBool t /\ (t = true <-> ~ less lang a b)
  | BCat => exists s t, text lang a s /\ text lang b t /\ c = VStr (s ++ t)
  | _ => exists x y r, number lang a x /\ number lang b y /\ number lang c r /\ arith lang op x y r
  end.

Definition unary_means (lang : language) (op : unop) (a c : lval) : Prop :=
  match op with
  | UNeg => exists x r, number lang a x /\ number lang c r /\ wraps (width lang) (- x) r
  | UBnot => exists x r, number lang a x /\ number lang c r /\
      forall i, 0 <= i < width lang -> Z.testbit r i = negb (Z.testbit x i)
  | UNot => exists t, c = VBool t /\ (t = true <-> ~ truthy a)
  | ULen => exists s, a = VStr s /\ lang = Pico8 /\ number Pico8 c (zlen s * 65536)
  end.

Definition call_means (lang : language) (f : cfun) (args : list lval) (c : lval) : Prop :=
  match f, args with
  | FAbs, [a] => exists x, number lang a x /\ number lang c (Z.abs x)
  | FFlr, [a] => exists x r, number lang a x /\ number lang c r /\
      match lang with Pico8 => r mod 65536 = 0 /\ r <= x < r + 65536 | Picotron => r = x end
  | FCeil, [a] => exists x r, number lang a x /\ number lang c r /\
      match lang with Pico8 => r mod 65536 = 0 /\ x <= r < x + 65536 | Picotron => r = x end
  | FMax, [a; b] => exists x y, number lang a x /\ number lang b y /\ number lang c (Z.max x y)
  | FMin, [a; b] => exists x y, number lang a x /\ number lang b y /\ number lang c (Z.min x y)
  | FMid, [a; b; d] => exists x y z, number lang a x /\ number lang b y /\ number lang d z /\
      number lang c (Z.max (Z.min x y) (Z.min (Z.max x y) z))
  | FBnot, [a] => lang = Pico8 /\ unary_means lang UBnot a c
  | FBand, [a; b] => lang = Pico8 /\ binary_means lang BBand a b c
  | FBor, [a; b] => lang = Pico8 /\ binary_means lang BBor a b c
  | FBxor, [a; b] => lang = Pico8 /\ binary_means lang BBxor a b c
  | FShl, [a; b] => lang = Pico8 /\ binary_means lang BShl a b c
  | FShr, [a; b] => lang = Pico8 /\ binary_means lang BShr a b c
  | FLshr, [a; b] => lang = Pico8 /\ binary_means lang BLshr a b c
  | FRotl, [a; b] => lang = Pico8 /\ binary_means lang BRotl a b c
  | FRotr, [a; b] => lang = Pico8 /\ binary_means lang BRotr a b c
  | _, _ => False
  end.

(** *** Running an expression *)

(** Runtime values: the constants, and references to tables, functions, ... *)
Inductive rval := RV (v : lval) | RRef (n : Z).
Definition rtruthy (r : rval) : bool :=
  match r with RV VNil | RV (VBool false) => false | _ => true end.

(** A machine with states [St]: what operators, builtin functions and all other expressions
    do; [None] is a runtime error.  Each gets its operands already evaluated.  An expression
    may give any number of values. *)
Record machine (St : Type) := mkmachine {
  m_un : unop -> rval -> St -> option (rval * St);
  m_bin : binop -> rval -> rval -> St -> option (rval * St);
  m_call : cfun -> list rval -> St -> option (list rval * St);
  m_other : Z -> bool -> list rval -> St -> option (list rval * St)
}.
Arguments m_un {St}. Arguments m_bin {St}. Arguments m_call {St}. Arguments m_other {St}.

(** The machine computes what it should on constants. *)
Definition machine_ok {St} (lang : language) (m : machine St) : Prop :=
  (forall op a c s, value_of lang a -> unary_means lang op a c -> m_un m op (RV a) s = Some (RV c, s)) /\
  (forall op a b c s, value_of lang a -> value_of lang b -> binary_means lang op a b c ->
     m_bin m op (RV a) (RV b) s = Some (RV c, s)) /\
  (forall f args c s, Forall (value_of lang) args -> call_means lang f args c ->
     m_call m f (map RV args) s = Some ([RV c], s)).

Definition first (l : list rval) : rval := match l with [] => RV VNil | r :: _ => r end.
Definition adjust (multi : bool) (l : list rval) : list rval := if multi then l else [first l].

(** The values and the final state of an expression.  Operators and parentheses take the first
    value; in a list only the last expression keeps all its values. *)
Section eval_list.
  Context {St : Type} (ev : expr -> St -> option (list rval * St)).
  Fixpoint eval_list (expand : bool) (l : list expr) (s : St) : option (list rval * St) :=
    match l with
    | [] => Some ([], s)
    | x :: l =>
        match ev x s with
        | None => None
        | Some (vs, s) =>
            match eval_list expand l s with
            | None => None
            | Some (ws, s) => Some (adjust (match l with [] => expand | _ => false end) vs ++ ws, s)
            end
        end
    end.
End eval_list.
Fixpoint eval {St} (m : machine St) (e : expr) (s : St) : option (list rval * St) :=
  match e with
  | EConst v => Some ([RV v], s)
  | EWorse _ e => eval m e s
  | EGroup e => match eval m e s with Some (vs, s) => Some ([first vs], s) | None => None end
  | EUn op e =>
      match eval m e s with
      | Some (vs, s) => match m_un m op (first vs) s with Some (r, s) => Some ([r], s) | None => None end
      | None => None
      end
  | EBin op l r =>
      match eval m l s with
      | None => None
      | Some (vs, s) =>
          let skip := match op with BAnd => negb (rtruthy (first vs)) | BOr => rtruthy (first vs) | _ => false end in
          if skip then Some ([first vs], s)
          else
            match eval m r s with
            | None => None
            | Some (ws, s) =>
                match op with
                | BAnd | BOr => Some ([first ws], s)
                | _ => match m_bin m op (first vs) (first ws) s with Some (r, s) => Some ([r], s) | None => None end
                end
            end
      end
  | ECall f args =>
      match eval_list (eval m) true args s with
      | Some (vs, s) => m_call m f vs s
      | None => None
      end
  | EOther id multi expand args =>
      match eval_list (eval m) expand args s with
      | Some (vs, s) =>
          match m_other m id multi vs s with Some (ws, s) => Some (adjust multi ws, s) | None => None end
      | None => None
      end
  end.
(** The same in a place where one value is taken. *)
Definition eval1 {St} (m : machine St) (e : expr) (s : St) : option (rval * St) :=
  match eval m e s with Some (vs, s) => Some (first vs, s) | None => None end.

(** May give a number of values other than one. *)
Definition multi_expr (e : expr) : bool :=
  match e with EOther _ multi _ _ => multi | ECall _ _ => true | _ => false end.

(** Source expressions all of whose constants are values of the language. *)
Fixpoint source_expr (lang : language) (e : expr) : Prop :=
  match e with
  | EConst v => value_of lang v
  | EWorse _ _ => False
  | EGroup e | EUn _ e => source_expr lang e
  | EBin _ l r => source_expr lang l /\ source_expr lang r
  | ECall _ args | EOther _ _ _ args =>
      (fix all (l : list expr) : Prop := match l with [] => True | x :: l => source_expr lang x /\ all l end) args
  end.

(** No "and"/"or" stands in a place that takes several values ([many]) while its right hand
    side, brought out by folding, could give several. *)
Fixpoint no_spread (many : bool) (e : expr) : Prop :=
  match e with
  | EConst _ | EWorse _ _ => True
  | EGroup e | EUn _ e => no_spread false e
  | EBin op l r =>
      no_spread false l /\
      match op with
      | BAnd | BOr => (many = true -> multi_expr r = false) /\ no_spread many r
      | _ => no_spread false r
      end
  | ECall _ args =>
      (fix all (l : list expr) : Prop :=
         match l with
         | [] => True
         | x :: l => no_spread (match l with [] => true | _ => false end) x /\ all l
         end) args
  | EOther _ _ expand args =>
      (fix all (l : list expr) : Prop :=
         match l with
         | [] => True
         | x :: l => no_spread (match l with [] => expand | _ => false end) x /\ all l
         end) args
  end.
