(** A small machine for concrete cases: numbers, booleans, strings, a print that records what it
    gets, globals; no tables. *)
From Coq Require Import String List ZArith Bool.
From Verif Require Import M_Base M_Fold M_Token M_Expr M_Stmt S_Run S_Tidy.
Import ListNotations.
Open Scope Z_scope.

Inductive val := VNil | VBool (b : bool) | VNum (z : Z) | VStr (s : list Z) | VFun (n : nat) | VPrint.
(** The globals and what has been printed. *)
Record world := World { globals : list (list Z * val); printed : list val }.
Fixpoint lookup (x : list Z) (g : list (list Z * val)) : val :=
  match g with [] => VNil | (y, v) :: g => if zeqb_list y x then v else lookup x g end.
Definition truth (v : val) : bool := match v with VNil | VBool false => false | _ => true end.
Definition toy_const (t : tok) : val :=
  match t with
  | Tok TKeyword v => if zeqb_list v (asc "nil") then VNil else if zeqb_list v (asc "false") then VBool false else VBool true
  | Tok TNumber v => VNum (fold_left (fun n d => n * 10 + (d - 48)) v 0)
  | Tok _ v => VStr v
  | TErr => VNil
  end.
Definition error (me : world) : steps val world := Fail (VStr (asc "error")) me.
Definition toy_bin (op : list Z) (a b : Z) : option val :=
  if zeqb_list op (asc "+") then Some (VNum (a + b)) else if zeqb_list op (asc "-") then Some (VNum (a - b)) else if zeqb_list op (asc "*") then Some (VNum (a * b))
  else if zeqb_list op (asc "<") then Some (VBool (a <? b)) else if zeqb_list op (asc "~=") then Some (VBool (negb (a =? b))) else None.
Definition toy_do (a : ask) (vs : list val) (me : world) : steps val world :=
  match a, vs with
  | ABin op, [VNum a; VNum b] => match toy_bin (spell op) a b with Some v => Done [v] me | None => error me end
  | AGlobal x, _ => Done [lookup x (globals me)] me
  | ASetGlobal x, [v] => Done [] (World ((x, v) :: globals me) (printed me))
  | ACall, VPrint :: vs => Done [] (World (globals me) (printed me ++ vs))
  | AForTest, [VNum i; VNum z; _] => Done [VBool (i <=? z)] me
  | AForNext, [VNum i; VNum s] => Done [VNum (i + s)] me
  | AForNext, [VNum i; _] => Done [VNum (i + 1)] me
  | _, _ => error me
  end.
Definition toy : machine val world := {|
  m_nil := VNil; m_true := truth; m_is_nil := fun v => match v with VNil => true | _ => false end;
  m_const := toy_const; m_str := VStr; m_fun := VFun; m_is_fun := fun v => match v with VFun n => Some n | _ => None end;
  m_do := toy_do |}.
Definition new_world : world := World [(asc "print", VPrint)] [].
(** What a program prints, and whether it ends without an error. *)
Definition report (x : option ((list val + val) * world)) : option (bool * list val) :=
  match x with
  | Some (inl _, me) => Some (true, printed me)
  | Some (inr _, me) => Some (false, printed me)
  | None => None
  end.
Definition shows (n : nat) (b : blk) : option (bool * list val) := report (run toy n b new_world).
