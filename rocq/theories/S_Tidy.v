(** Programs up to spelling, and which programs are written as Lua asks. *)
From Coq Require Import String List ZArith.
From Verif Require Import M_Base M_Fold M_Token M_Expr M_Stmt S_Stmt.
Import ListNotations.
Open Scope Z_scope.

(** Two spellings of one operator. *)
Definition spell (op : list Z) : list Z :=
  if zeqb_list op (asc "!=") then asc "~=" else if zeqb_list op (asc "^^") then asc "~" else if zeqb_list op (asc "//") then asc "\"
  else if zeqb_list op (asc "//=") then asc "\=" else op.
(** A program without what does not matter: the ";" between statements, the separators in
    tables, the parentheses around the arguments of a call, which word opens the body of an "if",
    the spelling of operators, and what the parser notes on shorthands. *)
Fixpoint core_ex (e : ex) : ex :=
  match e with
  | XConst t => XConst t
  | XDots => XDots
  | XVar x => XVar x
  | XFun ps b => XFun ps (core_blk b)
  | XGroup e => XGroup (core_ex e)
  | XUn op e => XUn op (core_ex e)
  | XBin op l r => XBin (spell op) (core_ex l) (core_ex r)
  | XMem e key => XMem (core_ex e) key
  | XIdx e k => XIdx (core_ex e) (core_ex k)
  | XCall f _ args => XCall (core_ex f) false (core_exs args)
  | XMeth e key _ args => XMeth (core_ex e) key false (core_exs args)
  | XTab i => XTab (core_its i)
  end
with core_exs (es : exs) : exs := match es with XNil => XNil | XCons e es => XCons (core_ex e) (core_exs es) end
with core_its (i : its) : its :=
  match i with
  | INil => INil
  | IIdx k v _ i => IIdx (core_ex k) (core_ex v) None (core_its i)
  | IMem key v _ i => IMem key (core_ex v) None (core_its i)
  | IItem e _ i => IItem (core_ex e) None (core_its i)
  end
with core_st (s : st) : st :=
  match s with
  | SSemi => SSemi
  | SDo b => SDo (core_blk b)
  | SIf i => SIf (core_ifs i)
  | SWhile c b => SWhile (core_ex c) (core_blk b)
  | SWhileShort _ c b => SWhileShort false (core_ex c) (core_blk b)
  | SRepeat b c => SRepeat (core_blk b) (core_ex c)
  | SFor x a z step b => SFor x (core_ex a) (core_ex z) (core_exs step) (core_blk b)
  | SForIn xs es b => SForIn xs (core_exs es) (core_blk b)
  | SBreak => SBreak
  | SReturn es => SReturn (core_exs es)
  | SLocal xs es => SLocal xs (core_exs es)
  | SLocalFun x ps b => SLocalFun x ps (core_blk b)
  | SFun x path meth ps b => SFun x path meth ps (core_blk b)
  | SGoto x => SGoto x
  | SLabel x => SLabel x
  | SAssign targets es => SAssign (core_exs targets) (core_exs es)
  | SOp target op e => SOp (core_ex target) (spell op) (core_ex e)
  | SPrint es => SPrint (core_exs es)
  | SCall e => SCall (core_ex e)
  end
with core_blk (b : blk) : blk :=
  match b with
  | BNil => BNil
  | BCons SSemi b => core_blk b
  | BCons s b => BCons (core_st s) (core_blk b)
  end
with core_ifs (i : ifs) : ifs :=
  match i with
  | ILong _ c b e => ILong (asc "then") (core_ex c) (core_blk b) (core_els e)
  | IShort _ c b e => IShort false (core_ex c) (core_blk b) (core_els e)
  end
with core_els (e : els) : els :=
  match e with ENone => ENone | EElse b => EElse (core_blk b) | EElif i => EElif (core_ifs i) end.

(** What Lua asks for beyond the parser here: only variables and fields are assigned to, and a
    return is the last statement of a block but for ";". *)
Definition assignable (e : ex) : Prop := match e with XVar _ | XMem _ _ | XIdx _ _ => True | _ => False end.
Fixpoint semis (b : blk) : Prop := match b with BNil => True | BCons SSemi b => semis b | _ => False end.
(** The condition of a shorthand is in parentheses, and its body is there and does not begin
    with "do" (even behind a ";"). *)
Definition in_parens (e : ex) : Prop := match e with XGroup _ => True | _ => False end.
Fixpoint do_first (b : blk) : Prop := match b with BCons SSemi b => do_first b | BCons (SDo _) _ => True | _ => False end.
Definition body_ok (b : blk) : Prop := b <> BNil /\ ~ do_first b.

(** All of this, and no bare "return" at the end of the program ([whole]). *)
Fixpoint lua_ex (e : ex) : Prop :=
  match e with
  | XConst _ | XDots | XVar _ => True
  | XFun _ b => lua_blk false b
  | XGroup e | XUn _ e | XMem e _ => lua_ex e
  | XBin _ l r => lua_ex l /\ lua_ex r
  | XIdx e k => lua_ex e /\ lua_ex k
  | XCall f _ args => lua_ex f /\ lua_exs args
  | XMeth e _ _ args => lua_ex e /\ lua_exs args
  | XTab i => lua_its i
  end
with lua_exs (es : exs) : Prop := match es with XNil => True | XCons e es => lua_ex e /\ lua_exs es end
with lua_its (i : its) : Prop :=
  match i with
  | INil => True
  | IIdx k v _ i => lua_ex k /\ lua_ex v /\ lua_its i
  | IMem _ v _ i => lua_ex v /\ lua_its i
  | IItem e _ i => lua_ex e /\ lua_its i
  end
with lua_st (s : st) : Prop :=
  match s with
  | SSemi | SBreak | SGoto _ | SLabel _ => True
  | SDo b | SLocalFun _ _ b | SFun _ _ _ _ b => lua_blk false b
  | SIf i => lua_ifs i
  | SWhile c b | SRepeat b c => lua_ex c /\ lua_blk false b
  | SWhileShort _ c b => in_parens c /\ body_ok b /\ lua_ex c /\ lua_blk false b
  | SFor _ a z step b => lua_ex a /\ lua_ex z /\ lua_exs step /\ lua_blk false b
  | SForIn _ es b => lua_exs es /\ lua_blk false b
  | SReturn es | SLocal _ es => lua_exs es
  | SAssign targets es => match targets with XCons e _ => assignable e | XNil => True end /\ lua_exs targets /\ lua_exs es
  | SOp target _ e => assignable target /\ lua_ex target /\ lua_ex e
  | SPrint es => lua_exs es
  | SCall e => lua_ex e
  end
with lua_blk (whole : bool) (b : blk) : Prop :=
  match b with
  | BNil => True
  | BCons s b => lua_st s /\ match s with SReturn es => semis b /\ (es = XNil -> whole = false) | _ => True end /\ lua_blk whole b
  end
with lua_ifs (i : ifs) : Prop :=
  match i with
  | ILong _ c b e => lua_ex c /\ lua_blk false b /\ lua_els e
  | IShort _ c b e => in_parens c /\ body_ok b /\ lua_ex c /\ lua_blk false b /\ lua_els e
  end
with lua_els (e : els) : Prop :=
  match e with ENone => True | EElse b => lua_blk false b | EElif i => lua_ifs i end.
Definition lua (b : blk) : Prop := lua_blk true b.
