(** A small PICO-8 machine for concrete cases of constant folding: numbers, strings and booleans with
    their operators and the builtins folding knows, a print that records what it gets, globals; no tables. *)
From Coq Require Import String List ZArith Bool.
From Verif Require Import M_Base M_Num M_Fold M_Token M_Expr M_Stmt S_Fold L_FoldDet S_Run S_Const.
Import ListNotations.
Open Scope Z_scope.

Inductive cval := CV (v : lval) | CFun (n : nat) | CBuiltin (f : cfun) | CPrint.
(** The globals and what has been printed. *)
Record cmem := CMem { cglobals : list (list Z * cval); cprinted : list cval }.
Fixpoint cfind (x : list Z) (g : list (list Z * cval)) : cval :=
  match g with [] => CV VNil | (y, v) :: g => if zeqb_list y x then v else cfind x g end.
Fixpoint named {A} (op : list Z) (l : list (string * A)) : option A :=
  match l with [] => None | (s, o) :: l => if zeqb_list op (asc s) then Some o else named op l end.
(** The constants; strings are written without quotes here. *)
Definition calc_value (t : tok) : option lval :=
  match t with
  | Tok TNumber s => match parse_fixnum s with Ok v => if (0 <=? v) && (v <? 2 ^ 32) then Some (VFix v) else None | Err _ => None end
  | Tok TString s => Some (VStr s)
  | Tok TKeyword s => if zeqb_list s (asc "nil") then Some VNil else if zeqb_list s (asc "true") then Some (VBool true) else if zeqb_list s (asc "false") then Some (VBool false) else None
  | _ => None
  end.
Definition calc_token (v : lval) : tok :=
  match v with
  | VNil => Tok TKeyword (asc "nil")
  | VBool b => Tok TKeyword (asc (if b then "true" else "false"))
  | VStr s => Tok TString s
  | VFix n => match format_fixnum SEmpty BNone n with Ok s => Tok TNumber s | Err _ => TErr end
  | _ => TErr
  end.
Definition wrong (me : cmem) : steps cval cmem := Fail (CV (VStr (asc "error"))) me.
Definition gives (o : option lval) (me : cmem) : steps cval cmem := match o with Some v => Done [CV v] me | None => wrong me end.
Fixpoint plain_vals (vs : list cval) : option (list lval) :=
  match vs with [] => Some [] | CV v :: vs => match plain_vals vs with Some us => Some (v :: us) | None => None end | _ :: _ => None end.
Definition calc_do (a : ask) (vs : list cval) (me : cmem) : steps cval cmem :=
  match a, vs with
  | AUn op, [CV a] => match named op unary_names with Some o => gives (match const_unary Pico8 o a with Ok r => r | Err _ => None end) me | None => wrong me end
  | ABin op, [CV a; CV b] => match named op binary_names with Some o => gives (sample_bin Pico8 o a b) me | None => wrong me end
  | AGlobal x, _ => Done [cfind x (cglobals me)] me
  | ASetGlobal x, [v] => Done [] (CMem ((x, v) :: cglobals me) (cprinted me))
  | ACall, CPrint :: vs => Done [] (CMem (cglobals me) (cprinted me ++ vs))
  | ACall, CBuiltin f :: vs => match plain_vals vs with Some us => gives (sample_call Pico8 f us) me | None => wrong me end
  | _, _ => wrong me
  end.
Definition calc : machine cval cmem := {|
  m_nil := CV VNil; m_true := fun v => match v with CV VNil | CV (VBool false) => false | _ => true end;
  m_is_nil := fun v => match v with CV VNil => true | _ => false end;
  m_const := fun t => match calc_value t with Some v => CV v | None => CV VNil end;
  m_str := fun s => CV (VStr s); m_fun := CFun; m_is_fun := fun v => match v with CFun n => Some n | _ => None end;
  m_do := calc_do |}.
Definition has_builtin (s : string) (me : cmem) : Prop := exists f, In (s, f) builtin_names /\ cfind (asc s) (cglobals me) = CBuiltin f.
Definition calc_start : cmem := CMem ((asc "print", CPrint) :: map (fun p => (asc (fst p), CBuiltin (snd p))) builtin_names) [].
(** What a program prints, and whether it ends without an error. *)
Definition prints (n : nat) (b : blk) : option (bool * list cval) :=
  match run calc n b calc_start with
  | Some (inl _, me) => Some (true, cprinted me)
  | Some (inr _, me) => Some (false, cprinted me)
  | None => None
  end.
