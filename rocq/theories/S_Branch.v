(** Conditions whose truth is known, and programs that can be read back. *)
From Coq Require Import String List ZArith Bool.
From Verif Require Import M_Base M_Fold M_Token M_Expr M_Stmt S_Run S_Unmin S_Short.
Import ListNotations.

(** In a machine for Lua, of all constants only nil and false do not count as true. *)
Definition lua_truth {V Mem} (m : machine V Mem) : Prop :=
  forall ty v, m_true m (m_const m (Tok ty v)) = false <->
    ty = TKeyword /\ (v = asc "nil" \/ v = asc "false").

(** What is known is right: such an expression can be evaluated anywhere, without an error, and
    leaves everything as it is. *)
Definition right {V Mem} (m : machine V Mem) (known : ex -> option bool) : Prop :=
  forall e b, known e = Some b ->
  forall call dots r s, exists vs, r_ex m call dots e r s = Gives vs s /\ m_true m (hd (m_nil m) vs) = b.

(** No "if" or "while" shorthands, and no statement that begins with a parenthesis. *)
Fixpoint simple_ex (e : ex) : Prop :=
  match e with
  | XConst _ | XDots | XVar _ => True
  | XFun _ b => simple_blk b
  | XGroup e | XUn _ e | XMem e _ => simple_ex e
  | XBin _ l r => simple_ex l /\ simple_ex r
  | XIdx e k => simple_ex e /\ simple_ex k
  | XCall f _ args => simple_ex f /\ simple_exs args
  | XMeth e _ _ args => simple_ex e /\ simple_exs args
  | XTab i => simple_its i
  end
with simple_exs (es : exs) : Prop := match es with XNil => True | XCons e es => simple_ex e /\ simple_exs es end
with simple_its (i : its) : Prop :=
  match i with
  | INil => True
  | IIdx k v _ i => simple_ex k /\ simple_ex v /\ simple_its i
  | IMem _ v _ i => simple_ex v /\ simple_its i
  | IItem e _ i => simple_ex e /\ simple_its i
  end
with simple_st (s : st) : Prop :=
  match s with
  | SSemi | SBreak | SGoto _ | SLabel _ => True
  | SDo b | SLocalFun _ _ b | SFun _ _ _ _ b => simple_blk b
  | SIf i => simple_ifs i
  | SWhile c b | SRepeat b c => simple_ex c /\ simple_blk b
  | SWhileShort _ _ _ => False
  | SFor _ a z step b => simple_ex a /\ simple_ex z /\ simple_exs step /\ simple_blk b
  | SForIn _ es b => simple_exs es /\ simple_blk b
  | SReturn es | SLocal _ es | SPrint es => simple_exs es
  | SAssign targets es => match targets with XCons e _ => no_paren_at e | XNil => True end /\ simple_exs targets /\ simple_exs es
  | SOp target _ e => no_paren_at target /\ simple_ex target /\ simple_ex e
  | SCall e => no_paren_at e /\ simple_ex e
  end
with simple_blk (b : blk) : Prop := match b with BNil => True | BCons s b => simple_st s /\ simple_blk b end
with simple_ifs (i : ifs) : Prop :=
  match i with ILong _ c b e => simple_ex c /\ simple_blk b /\ simple_els e | IShort _ _ _ _ => False end
with simple_els (e : els) : Prop :=
  match e with ENone => True | EElse b => simple_blk b | EElif i => simple_ifs i end.
