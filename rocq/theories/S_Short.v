(** Programs up to shorthands, and which programs may be changed to them. *)
From Coq Require Import String List ZArith Bool.
From Verif Require Import M_Base M_Fold M_Token M_Expr M_Stmt S_Stmt S_Tidy S_Unmin.
Import ListNotations.
Open Scope Z_scope.

(** A program with all shorthands written out: the condition of an "if" or "while" has no
    parentheses around it, and a call of "print" is the same as "?". *)
Fixpoint unparen (e : ex) : ex := match e with XGroup e => unparen e | e => e end.
Definition named_print (x : list Z) : bool := zeqb_list x (asc "print").
Fixpoint base_ex (e : ex) : ex :=
  match e with
  | XConst t => XConst t
  | XDots => XDots
  | XVar x => XVar x
  | XFun ps b => XFun ps (base_blk b)
  | XGroup e => XGroup (base_ex e)
  | XUn op e => XUn op (base_ex e)
  | XBin op l r => XBin op (base_ex l) (base_ex r)
  | XMem e key => XMem (base_ex e) key
  | XIdx e k => XIdx (base_ex e) (base_ex k)
  | XCall f short args => XCall (base_ex f) short (base_exs args)
  | XMeth e key short args => XMeth (base_ex e) key short (base_exs args)
  | XTab i => XTab (base_its i)
  end
with base_exs (es : exs) : exs := match es with XNil => XNil | XCons e es => XCons (base_ex e) (base_exs es) end
with base_its (i : its) : its :=
  match i with
  | INil => INil
  | IIdx k v sep i => IIdx (base_ex k) (base_ex v) sep (base_its i)
  | IMem key v sep i => IMem key (base_ex v) sep (base_its i)
  | IItem e sep i => IItem (base_ex e) sep (base_its i)
  end
with base_st (s : st) : st :=
  match s with
  | SSemi => SSemi
  | SDo b => SDo (base_blk b)
  | SIf i => SIf (base_ifs i)
  | SWhile c b | SWhileShort _ c b => SWhile (unparen (base_ex c)) (base_blk b)
  | SRepeat b c => SRepeat (base_blk b) (base_ex c)
  | SFor x a z step b => SFor x (base_ex a) (base_ex z) (base_exs step) (base_blk b)
  | SForIn xs es b => SForIn xs (base_exs es) (base_blk b)
  | SBreak => SBreak
  | SReturn es => SReturn (base_exs es)
  | SLocal xs es => SLocal xs (base_exs es)
  | SLocalFun x ps b => SLocalFun x ps (base_blk b)
  | SFun x path meth ps b => SFun x path meth ps (base_blk b)
  | SGoto x => SGoto x
  | SLabel x => SLabel x
  | SAssign targets es => SAssign (base_exs targets) (base_exs es)
  | SOp target op e => SOp (base_ex target) op (base_ex e)
  | SPrint es => SPrint (base_exs es)
  | SCall (XCall (XVar x) short args) => if named_print x then SPrint (base_exs args) else SCall (XCall (XVar x) short (base_exs args))
  | SCall e => SCall (base_ex e)
  end
with base_blk (b : blk) : blk := match b with BNil => BNil | BCons s b => BCons (base_st s) (base_blk b) end
with base_ifs (i : ifs) : ifs :=
  match i with
  | ILong w c b e => ILong w (unparen (base_ex c)) (base_blk b) (base_els e)
  | IShort _ c b e => ILong (asc "then") (unparen (base_ex c)) (base_blk b) (base_els e)
  end
with base_els (e : els) : els :=
  match e with ENone => ENone | EElse b => EElse (base_blk b) | EElif i => EElif (base_ifs i) end.
(** Two programs are the same but for shorthands, ";", separators, the parentheses of a single
    argument or around a condition, and the spelling of operators. *)
Definition same_program (b b' : blk) : Prop := base_blk (core_blk b) = base_blk (core_blk b').

(** How far shorthands are allowed: anywhere, at the end, or not. *)
Inductive mode := Free | AtEnd | No.
Definition inner_mode (m : mode) : mode := match m with Free => Free | _ => No end.
(** Every shorthand ends with a line; if one is inside another, then it is at its end; the first
    of the two bodies of an "if" shorthand has none.  ("?" may be anywhere.) *)
Fixpoint lined_ex (m : mode) (e : ex) : Prop :=
  match e with
  | XConst _ | XDots | XVar _ => True
  | XFun _ b => lined_blk (inner_mode m) b
  | XGroup e | XUn _ e | XMem e _ => lined_ex m e
  | XBin _ l r => lined_ex m l /\ lined_ex m r
  | XIdx e k => lined_ex m e /\ lined_ex m k
  | XCall f _ args => lined_ex m f /\ lined_exs m args
  | XMeth e _ _ args => lined_ex m e /\ lined_exs m args
  | XTab i => lined_its m i
  end
with lined_exs (m : mode) (es : exs) : Prop := match es with XNil => True | XCons e es => lined_ex m e /\ lined_exs m es end
with lined_its (m : mode) (i : its) : Prop :=
  match i with
  | INil => True
  | IIdx k v _ i => lined_ex m k /\ lined_ex m v /\ lined_its m i
  | IMem _ v _ i => lined_ex m v /\ lined_its m i
  | IItem e _ i => lined_ex m e /\ lined_its m i
  end
with lined_st (m : mode) (s : st) : Prop :=
  match s with
  | SSemi | SBreak | SGoto _ | SLabel _ => True
  | SDo b | SLocalFun _ _ b | SFun _ _ _ _ b => lined_blk (inner_mode m) b
  | SIf i => lined_ifs m i
  | SWhile c b | SRepeat b c => lined_ex (inner_mode m) c /\ lined_blk (inner_mode m) b
  | SWhileShort nested c b => m <> No /\ nested = false /\ lined_ex No c /\ lined_blk AtEnd b
  | SFor _ a z step b => lined_ex (inner_mode m) a /\ lined_ex (inner_mode m) z /\ lined_exs (inner_mode m) step /\ lined_blk (inner_mode m) b
  | SForIn _ es b => lined_exs (inner_mode m) es /\ lined_blk (inner_mode m) b
  | SReturn es | SLocal _ es => lined_exs (inner_mode m) es
  | SAssign targets es => lined_exs (inner_mode m) targets /\ lined_exs (inner_mode m) es
  | SOp target _ e => lined_ex (inner_mode m) target /\ lined_ex (inner_mode m) e
  | SPrint es => lined_exs No es
  | SCall e => lined_ex (inner_mode m) e
  end
with lined_blk (m : mode) (b : blk) : Prop :=
  match b with
  | BNil => True
  | BCons s BNil => lined_st m s
  | BCons s b => lined_st (inner_mode m) s /\ lined_blk m b
  end
with lined_ifs (m : mode) (i : ifs) : Prop :=
  match i with
  | ILong _ c b e => lined_ex (inner_mode m) c /\ lined_blk (inner_mode m) b /\ lined_els (inner_mode m) e
  | IShort nested c b e =>
      m <> No /\ nested = false /\ lined_ex No c /\
      match e with ENone => lined_blk AtEnd b | EElse b' => lined_blk No b /\ lined_blk AtEnd b' | EElif _ => False end
  end
with lined_els (m : mode) (e : els) : Prop :=
  match e with
  | ENone => True
  | EElse b => lined_blk m b
  | EElif i => match i with ILong _ _ _ _ => lined_ifs m i | IShort _ _ _ _ => False end
  end.
Definition lined (b : blk) : Prop := lined_blk Free b.

(** No statement begins with a parenthesis, no call of "print" is without arguments, and no
    body of an "if" or "while" begins with ";" and "do". *)
Definition no_late_do (b : blk) : Prop := match b with BCons SSemi b => ~ do_first b | _ => True end.
Definition no_paren_at (e : ex) : Prop := leads e <> op_tok (asc "(").
Fixpoint plain_ex (e : ex) : Prop :=
  match e with
  | XConst _ | XDots | XVar _ => True
  | XFun _ b => plain_blk b
  | XGroup e | XUn _ e | XMem e _ => plain_ex e
  | XBin _ l r => plain_ex l /\ plain_ex r
  | XIdx e k => plain_ex e /\ plain_ex k
  | XCall f _ args => plain_ex f /\ plain_exs args
  | XMeth e _ _ args => plain_ex e /\ plain_exs args
  | XTab i => plain_its i
  end
with plain_exs (es : exs) : Prop := match es with XNil => True | XCons e es => plain_ex e /\ plain_exs es end
with plain_its (i : its) : Prop :=
  match i with
  | INil => True
  | IIdx k v _ i => plain_ex k /\ plain_ex v /\ plain_its i
  | IMem _ v _ i => plain_ex v /\ plain_its i
  | IItem e _ i => plain_ex e /\ plain_its i
  end
with plain_st (s : st) : Prop :=
  match s with
  | SSemi | SBreak | SGoto _ | SLabel _ => True
  | SDo b | SLocalFun _ _ b | SFun _ _ _ _ b => plain_blk b
  | SIf i => plain_ifs i
  | SWhile c b | SWhileShort _ c b => plain_ex c /\ no_late_do b /\ plain_blk b
  | SRepeat b c => plain_ex c /\ plain_blk b
  | SFor _ a z step b => plain_ex a /\ plain_ex z /\ plain_exs step /\ plain_blk b
  | SForIn _ es b => plain_exs es /\ plain_blk b
  | SReturn es | SLocal _ es | SPrint es => plain_exs es
  | SAssign targets es => match targets with XCons e _ => no_paren_at e | XNil => True end /\ plain_exs targets /\ plain_exs es
  | SOp target _ e => no_paren_at target /\ plain_ex target /\ plain_ex e
  | SCall e => no_paren_at e /\ match e with XCall (XVar x) _ XNil => named_print x = false | _ => True end /\ plain_ex e
  end
with plain_blk (b : blk) : Prop := match b with BNil => True | BCons s b => plain_st s /\ plain_blk b end
with plain_ifs (i : ifs) : Prop :=
  match i with ILong _ c b e | IShort _ c b e => plain_ex c /\ no_late_do b /\ plain_blk b /\ plain_els e end
with plain_els (e : els) : Prop :=
  match e with ENone => True | EElse b => plain_blk b | EElif i => plain_ifs i end.

(** How many "if" and "while" shorthands there are. *)
Open Scope nat_scope.
Fixpoint shorts_ex (e : ex) : nat :=
  match e with
  | XConst _ | XDots | XVar _ => 0
  | XFun _ b => shorts_blk b
  | XGroup e | XUn _ e | XMem e _ => shorts_ex e
  | XBin _ l r => shorts_ex l + shorts_ex r
  | XIdx e k => shorts_ex e + shorts_ex k
  | XCall f _ args => shorts_ex f + shorts_exs args
  | XMeth e _ _ args => shorts_ex e + shorts_exs args
  | XTab i => shorts_its i
  end
with shorts_exs (es : exs) : nat := match es with XNil => 0 | XCons e es => shorts_ex e + shorts_exs es end
with shorts_its (i : its) : nat :=
  match i with
  | INil => 0
  | IIdx k v _ i => shorts_ex k + shorts_ex v + shorts_its i
  | IMem _ v _ i => shorts_ex v + shorts_its i
  | IItem e _ i => shorts_ex e + shorts_its i
  end
with shorts_st (s : st) : nat :=
  match s with
  | SSemi | SBreak | SGoto _ | SLabel _ => 0
  | SDo b | SLocalFun _ _ b | SFun _ _ _ _ b => shorts_blk b
  | SIf i => shorts_ifs i
  | SWhile c b | SRepeat b c => shorts_ex c + shorts_blk b
  | SWhileShort _ c b => 1 + shorts_ex c + shorts_blk b
  | SFor _ a z step b => shorts_ex a + shorts_ex z + shorts_exs step + shorts_blk b
  | SForIn _ es b => shorts_exs es + shorts_blk b
  | SReturn es | SLocal _ es | SPrint es => shorts_exs es
  | SAssign targets es => shorts_exs targets + shorts_exs es
  | SOp target _ e => shorts_ex target + shorts_ex e
  | SCall e => shorts_ex e
  end%nat
with shorts_blk (b : blk) : nat := match b with BNil => 0 | BCons s b => shorts_st s + shorts_blk b end%nat
with shorts_ifs (i : ifs) : nat :=
  match i with
  | ILong _ c b e => shorts_ex c + shorts_blk b + shorts_els e
  | IShort _ c b e => 1 + shorts_ex c + shorts_blk b + shorts_els e
  end%nat
with shorts_els (e : els) : nat := match e with ENone => 0 | EElse b => shorts_blk b | EElif i => shorts_ifs i end.

Open Scope Z_scope.

(** No shorthand (of "if", "while" or print) is inside another one. *)
Fixpoint alone_ex (inside : bool) (e : ex) : Prop :=
  match e with
  | XConst _ | XDots | XVar _ => True
  | XFun _ b => alone_blk inside b
  | XGroup e | XUn _ e | XMem e _ => alone_ex inside e
  | XBin _ l r => alone_ex inside l /\ alone_ex inside r
  | XIdx e k => alone_ex inside e /\ alone_ex inside k
  | XCall f _ args => alone_ex inside f /\ alone_exs inside args
  | XMeth e _ _ args => alone_ex inside e /\ alone_exs inside args
  | XTab i => alone_its inside i
  end
with alone_exs (inside : bool) (es : exs) : Prop := match es with XNil => True | XCons e es => alone_ex inside e /\ alone_exs inside es end
with alone_its (inside : bool) (i : its) : Prop :=
  match i with
  | INil => True
  | IIdx k v _ i => alone_ex inside k /\ alone_ex inside v /\ alone_its inside i
  | IMem _ v _ i => alone_ex inside v /\ alone_its inside i
  | IItem e _ i => alone_ex inside e /\ alone_its inside i
  end
with alone_st (inside : bool) (s : st) : Prop :=
  match s with
  | SSemi | SBreak | SGoto _ | SLabel _ => True
  | SDo b | SLocalFun _ _ b | SFun _ _ _ _ b => alone_blk inside b
  | SIf i => alone_ifs inside i
  | SWhile c b | SRepeat b c => alone_ex inside c /\ alone_blk inside b
  | SWhileShort _ c b => inside = false /\ alone_ex true c /\ alone_blk true b
  | SFor _ a z step b => alone_ex inside a /\ alone_ex inside z /\ alone_exs inside step /\ alone_blk inside b
  | SForIn _ es b => alone_exs inside es /\ alone_blk inside b
  | SReturn es | SLocal _ es => alone_exs inside es
  | SAssign targets es => alone_exs inside targets /\ alone_exs inside es
  | SOp target _ e => alone_ex inside target /\ alone_ex inside e
  | SPrint es => inside = false /\ alone_exs true es
  | SCall e => alone_ex inside e
  end
with alone_blk (inside : bool) (b : blk) : Prop := match b with BNil => True | BCons s b => alone_st inside s /\ alone_blk inside b end
with alone_ifs (inside : bool) (i : ifs) : Prop :=
  match i with
  | ILong _ c b e => alone_ex inside c /\ alone_blk inside b /\ alone_els inside e
  | IShort _ c b e => inside = false /\ alone_ex true c /\ alone_blk true b /\ match e with ENone => True | EElse b' => alone_blk true b' | EElif _ => False end
  end
with alone_els (inside : bool) (e : els) : Prop :=
  match e with ENone => True | EElse b => alone_blk inside b | EElif i => alone_ifs inside i end.
Definition alone (b : blk) : Prop := alone_blk false b.
