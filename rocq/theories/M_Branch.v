(** Model of how branches with constant conditions are resolved: the part of [fold_consts] for
    "if" and "elseif", /repo/pico_constfold.py l.645-676, with [create_do_node_if_needed]
    l.535-557, [create_else_node] l.559-562 and [remove_else_node] l.564-569.

    The traversal is in post-order, so the parts of a statement are done before it.  Comments
    are left out.  The folding of expressions is in M_Fold; here [known] says of which
    conditions the truth is known ([get_const] and [is_truthy]). *)
From Coq Require Import String List ZArith Bool.
From Verif Require Import M_Base M_Fold M_Token M_Expr M_Stmt.
Import ListNotations.

Fixpoint app_blk (a b : blk) : blk := match a with BNil => b | BCons s a => BCons s (app_blk a b) end.

(** [check_do_needed], l.538-549, on a statement of the block: a new variable (of a local, a
    local function or a label) or a jump.  Of loops and functions the insides do not count *)
Definition needs_do (s : st) : bool :=
  match s with
  | SLocal _ _ | SLocalFun _ _ _ | SLabel _ | SReturn _ | SBreak | SGoto _ => true
  | _ => false
  end.
Fixpoint do_needed (b : blk) : bool := match b with BNil => false | BCons s b => needs_do s || do_needed b end.
(** [create_do_node_if_needed], l.551-557: without "do" the block itself takes the place of the
    statement, so its statements are now in the block around *)
Definition in_place (b : blk) : blk := if do_needed b then BCons (SDo b) BNil else b.

(** What becomes of an "if" or "elseif", l.645-676: it stays, or one block is always taken, or
    nothing is left *)
Inductive branch := Keep (i : ifs) | Take (b : blk) | Drop.

Section Branch.
Context (known : ex -> option bool).

(** l.646-676: [e] is what is left of the else part *)
Definition branch_of (i : ifs) (c : ex) (b : blk) (e : els) : branch :=
  match known c with
  | Some true => Take b
  | Some false => match e with ENone => Drop | EElse b => Take b | EElif i => Keep i end
  | None => Keep i
  end.

Fixpoint b_ex (e : ex) : ex :=
  match e with
  | XConst _ | XDots | XVar _ => e
  | XFun ps b => XFun ps (b_blk b)
  | XGroup e => XGroup (b_ex e)
  | XUn op e => XUn op (b_ex e)
  | XBin op l r => XBin op (b_ex l) (b_ex r)
  | XMem e key => XMem (b_ex e) key
  | XIdx e k => XIdx (b_ex e) (b_ex k)
  | XCall f short args => XCall (b_ex f) short (b_exs args)
  | XMeth e key short args => XMeth (b_ex e) key short (b_exs args)
  | XTab i => XTab (b_its i)
  end
with b_exs (es : exs) : exs := match es with XNil => XNil | XCons e es => XCons (b_ex e) (b_exs es) end
with b_its (i : its) : its :=
  match i with
  | INil => INil
  | IIdx k v sep i => IIdx (b_ex k) (b_ex v) sep (b_its i)
  | IMem key v sep i => IMem key (b_ex v) sep (b_its i)
  | IItem e sep i => IItem (b_ex e) sep (b_its i)
  end
with b_st (s : st) : blk :=
  match s with
  | SSemi | SBreak | SGoto _ | SLabel _ => BCons s BNil
  | SDo b => BCons (SDo (b_blk b)) BNil
  | SIf i =>
      match b_ifs i with
      | Keep i => BCons (SIf i) BNil
      | Take b => in_place b
      | Drop => BNil
      end
  | SWhile c b => BCons (SWhile (b_ex c) (b_blk b)) BNil
  | SWhileShort n c b => BCons (SWhileShort n (b_ex c) (b_blk b)) BNil
  | SRepeat b c => BCons (SRepeat (b_blk b) (b_ex c)) BNil
  | SFor x a z step b => BCons (SFor x (b_ex a) (b_ex z) (b_exs step) (b_blk b)) BNil
  | SForIn xs es b => BCons (SForIn xs (b_exs es) (b_blk b)) BNil
  | SReturn es => BCons (SReturn (b_exs es)) BNil
  | SLocal xs es => BCons (SLocal xs (b_exs es)) BNil
  | SLocalFun x ps b => BCons (SLocalFun x ps (b_blk b)) BNil
  | SFun x path meth ps b => BCons (SFun x path meth ps (b_blk b)) BNil
  | SAssign targets es => BCons (SAssign (b_exs targets) (b_exs es)) BNil
  | SOp target op e => BCons (SOp (b_ex target) op (b_ex e)) BNil
  | SPrint es => BCons (SPrint (b_exs es)) BNil
  | SCall e => BCons (SCall (b_ex e)) BNil
  end
with b_blk (b : blk) : blk := match b with BNil => BNil | BCons s b => app_blk (b_st s) (b_blk b) end
with b_ifs (i : ifs) : branch :=
  match i with
  | ILong w c b e => branch_of (ILong w (b_ex c) (b_blk b) (b_els e)) (b_ex c) (b_blk b) (b_els e)
  | IShort n c b e => branch_of (IShort n (b_ex c) (b_blk b) (b_els e)) (b_ex c) (b_blk b) (b_els e)
  end
(** An "elseif" that is always taken becomes an "else" (l.655), one that is never taken gives
    way to what follows it (l.671-676) *)
with b_els (e : els) : els :=
  match e with
  | ENone => ENone
  | EElse b => EElse (b_blk b)
  | EElif i => match b_ifs i with Keep i => EElif i | Take b => EElse b | Drop => ENone end
  end.
End Branch.

(** [get_const] of a constant or of one in parentheses, l.441-450, with [is_truthy] *)
Fixpoint literal (e : ex) : option bool :=
  match e with
  | XConst (Tok TKeyword v) => Some (negb (zeqb_list v (asc "nil") || zeqb_list v (asc "false")))
  | XConst (Tok _ _) => Some true
  | XGroup e => literal e
  | _ => None
  end.
