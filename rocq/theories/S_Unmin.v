(** Programs in long form, and which programs can be laid out anew. *)
From Coq Require Import String List ZArith.
From Verif Require Import M_Base M_Fold M_Token M_Expr M_Stmt S_Stmt.
Import ListNotations.
Open Scope Z_scope.

(** A program without shorthands and without ";" between statements: the condition of a
    shorthand, which is in parentheses, is free of them, and all bodies are opened by "then". *)
Definition without_parens (e : ex) : ex := match e with XGroup e => e | e => e end.
Fixpoint long_ex (e : ex) : ex :=
  match e with
  | XConst t => XConst t
  | XDots => XDots
  | XVar x => XVar x
  | XFun ps b => XFun ps (long_blk b)
  | XGroup e => XGroup (long_ex e)
  | XUn op e => XUn op (long_ex e)
  | XBin op l r => XBin op (long_ex l) (long_ex r)
  | XMem e key => XMem (long_ex e) key
  | XIdx e k => XIdx (long_ex e) (long_ex k)
  | XCall f short args => XCall (long_ex f) short (long_exs args)
  | XMeth e key short args => XMeth (long_ex e) key short (long_exs args)
  | XTab i => XTab (long_its i)
  end
with long_exs (es : exs) : exs := match es with XNil => XNil | XCons e es => XCons (long_ex e) (long_exs es) end
with long_its (i : its) : its :=
  match i with
  | INil => INil
  | IIdx k v sep i => IIdx (long_ex k) (long_ex v) sep (long_its i)
  | IMem key v sep i => IMem key (long_ex v) sep (long_its i)
  | IItem e sep i => IItem (long_ex e) sep (long_its i)
  end
with long_st (s : st) : st :=
  match s with
  | SSemi => SSemi
  | SDo b => SDo (long_blk b)
  | SIf i => SIf (long_ifs i)
  | SWhile c b => SWhile (long_ex c) (long_blk b)
  | SWhileShort _ c b => SWhile (without_parens (long_ex c)) (long_blk b)
  | SRepeat b c => SRepeat (long_blk b) (long_ex c)
  | SFor x a z step b => SFor x (long_ex a) (long_ex z) (long_exs step) (long_blk b)
  | SForIn xs es b => SForIn xs (long_exs es) (long_blk b)
  | SBreak => SBreak
  | SReturn es => SReturn (long_exs es)
  | SLocal xs es => SLocal xs (long_exs es)
  | SLocalFun x ps b => SLocalFun x ps (long_blk b)
  | SFun x path meth ps b => SFun x path meth ps (long_blk b)
  | SGoto x => SGoto x
  | SLabel x => SLabel x
  | SAssign targets es => SAssign (long_exs targets) (long_exs es)
  | SOp target op e => SOp (long_ex target) op (long_ex e)
  | SPrint es => SPrint (long_exs es)
  | SCall e => SCall (long_ex e)
  end
with long_blk (b : blk) : blk :=
  match b with
  | BNil => BNil
  | BCons SSemi b => long_blk b
  | BCons s b => BCons (long_st s) (long_blk b)
  end
with long_ifs (i : ifs) : ifs :=
  match i with
  | ILong _ c b e => ILong (asc "then") (long_ex c) (long_blk b) (long_els e)
  | IShort _ c b e => ILong (asc "then") (without_parens (long_ex c)) (long_blk b) (long_els e)
  end
with long_els (e : els) : els :=
  match e with ENone => ENone | EElse b => EElse (long_blk b) | EElif i => EElif (long_ifs i) end.

(** The token an expression begins with. *)
Fixpoint leads (e : ex) : tok :=
  match e with
  | XConst t => t
  | XDots => op_tok (asc "...")
  | XVar x => Tok TIdent x
  | XFun _ _ => op_tok (asc "function")
  | XGroup _ => op_tok (asc "(")
  | XUn op _ => op_tok op
  | XBin _ l _ => leads l
  | XMem e _ | XIdx e _ | XCall e _ _ | XMeth e _ _ _ => leads e
  | XTab _ => op_tok (asc "{")
  end.
(** A minus before a minus would begin a comment. *)
Definition no_comment (op : list Z) (e : ex) : Prop := ~ (op = asc "-" /\ leads e = op_tok (asc "-")).
(** A bracket before a long string would begin another one. *)
Definition no_bracket (e : ex) : Prop := match leads e with Tok _ v => hd_error v <> Some 91 | TErr => True end.
(** The next statement begins with a parenthesis: it would go on with the one before. *)
Fixpoint paren_first (b : blk) : Prop :=
  match b with
  | BNil => False
  | BCons SSemi b => paren_first b
  | BCons (SAssign (XCons e _) _) _ | BCons (SOp e _ _) _ | BCons (SCall e) _ => leads e = op_tok (asc "(")
  | _ => False
  end.
Fixpoint no_semi (b : blk) : Prop := match b with BNil => True | BCons SSemi _ => False | BCons _ b => no_semi b end.
Definition grouped (e : ex) : Prop := match e with XGroup _ => True | _ => False end.

(** Nothing of this is in the program: ";" before a statement that begins with a parenthesis,
    or in the "else" of a shorthand; a shorthand after "elseif", or with a condition that is not
    in parentheses of its own. *)
Fixpoint neat_ex (e : ex) : Prop :=
  match e with
  | XConst _ | XDots | XVar _ => True
  | XFun _ b => neat_blk b
  | XGroup e | XMem e _ => neat_ex e
  | XUn op e => no_comment op e /\ neat_ex e
  | XBin _ l r => neat_ex l /\ neat_ex r
  | XIdx e k => neat_ex e /\ no_bracket k /\ neat_ex k
  | XCall f _ args => neat_ex f /\ neat_exs args
  | XMeth e _ _ args => neat_ex e /\ neat_exs args
  | XTab i => neat_its i
  end
with neat_exs (es : exs) : Prop := match es with XNil => True | XCons e es => neat_ex e /\ neat_exs es end
with neat_its (i : its) : Prop :=
  match i with
  | INil => True
  | IIdx k v _ i => no_bracket k /\ neat_ex k /\ neat_ex v /\ neat_its i
  | IMem _ v _ i => neat_ex v /\ neat_its i
  | IItem e _ i => neat_ex e /\ neat_its i
  end
with neat_st (s : st) : Prop :=
  match s with
  | SSemi | SBreak | SGoto _ | SLabel _ => True
  | SDo b | SLocalFun _ _ b | SFun _ _ _ _ b => neat_blk b
  | SIf i => neat_ifs false i
  | SWhile c b | SRepeat b c => neat_ex c /\ neat_blk b
  | SWhileShort _ c b => grouped c /\ neat_ex c /\ neat_blk b
  | SFor _ a z step b => neat_ex a /\ neat_ex z /\ neat_exs step /\ neat_blk b
  | SForIn _ es b => neat_exs es /\ neat_blk b
  | SReturn es | SLocal _ es | SPrint es => neat_exs es
  | SAssign targets es => neat_exs targets /\ neat_exs es
  | SOp target _ e => neat_ex target /\ neat_ex e
  | SCall e => neat_ex e
  end
with neat_blk (b : blk) : Prop :=
  match b with
  | BNil => True
  | BCons s b => neat_st s /\ match s with SSemi => ~ paren_first b | _ => True end /\ neat_blk b
  end
with neat_ifs (elseif : bool) (i : ifs) : Prop :=
  match i with
  | ILong _ c b e => neat_ex c /\ neat_blk b /\ neat_els false e
  | IShort _ c b e => elseif = false /\ grouped c /\ neat_ex c /\ neat_blk b /\ neat_els true e
  end
with neat_els (short : bool) (e : els) : Prop :=
  match e with
  | ENone => True
  | EElse b => (short = true -> no_semi b) /\ neat_blk b
  | EElif i => neat_ifs true i
  end.
