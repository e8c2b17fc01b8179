(** The names of a program: how the trees of M_Stmt come down to the [syn] of M_Rename, which is
    all the renamer looks at (the calls of parse_var in pico_parse.py, in the order of the text;
    the renamer walks over the nodes in this order).

    Simplification: for each member the renamer also looks at the variable its table is in, and
    for each name at the character before it.  Both are left open here, see [bare]. *)
From Coq Require Import String List ZArith Bool.
From Verif Require Import M_Base M_Fold M_Token M_Expr M_Stmt M_Rename.
Import ListNotations.

(** parse_function (pico_parse.py l.457-538): the parameters that are names *)
Definition params (ps : list (option (list Z))) : list (list Z) :=
  flat_map (fun p => match p with Some x => [x] | None => [] end) ps.
Definition member (k : list Z) : syn := YMember false [] k.

(** parse_core_expr, parse_more_expr, parse_table (l.540-684), parse_if, parse_while, parse_repeat,
    parse_for, parse_return, parse_local, parse_goto, parse_label, parse_misc_stmt, parse_print
    (l.690-1000) *)
Fixpoint names_ex (e : ex) : list syn :=
  match e with
  | XConst _ | XDots => []
  | XVar x => [YName false x]
  | XFun ps b => [YFun false (params ps) (names_blk b)]
  | XGroup e | XUn _ e => names_ex e
  | XBin _ a b | XIdx a b => names_ex a ++ names_ex b
  | XMem e k => names_ex e ++ [member k]
  | XCall f _ args => names_ex f ++ names_exs args
  | XMeth e k _ args => names_ex e ++ member k :: names_exs args
  | XTab i => names_its i
  end
with names_exs (es : exs) : list syn :=
  match es with XNil => [] | XCons e es => names_ex e ++ names_exs es end
with names_its (i : its) : list syn :=
  match i with
  | INil => []
  | IIdx k v _ i => names_ex k ++ names_ex v ++ names_its i
  | IMem k v _ i => member k :: names_ex v ++ names_its i
  | IItem e _ i => names_ex e ++ names_its i
  end
with names_st (s : st) : list syn :=
  match s with
  | SSemi | SBreak => []
  | SDo b => [YBlock (names_blk b)]
  | SIf i => names_ifs i
  | SWhile c b | SWhileShort _ c b => names_ex c ++ [YBlock (names_blk b)]
  | SRepeat b c => [YRepeat (names_blk b) (names_ex c)]
  | SFor x a z step b => [YFor [x] (names_ex a ++ names_ex z ++ names_exs step) (names_blk b)]
  | SForIn xs es b => [YFor xs (names_exs es) (names_blk b)]
  | SReturn es => names_exs es
  | SLocal xs es => [YLocal (map fst xs) (names_exs es)]
  | SLocalFun x ps b => [YLocalFun x (params ps) (names_blk b)]
  | SFun x path meth ps b =>
      YName false x :: map member (path ++ match meth with Some k => [k] | None => [] end) ++
      [YFun (match meth with Some _ => true | None => false end) (params ps) (names_blk b)]
  | SGoto l => [YGoto l]
  | SLabel l => [YLabel l]
  | SAssign ts es => names_exs ts ++ names_exs es
  | SOp t _ e => names_ex t ++ names_ex e
  | SPrint es => YPrint :: names_exs es
  | SCall e => names_ex e
  end
with names_blk (b : blk) : list syn :=
  match b with BNil => [] | BCons s b => names_st s ++ names_blk b end
with names_ifs (i : ifs) : list syn :=
  match i with
  | ILong _ c b e | IShort _ c b e => names_ex c ++ YBlock (names_blk b) :: names_els e
  end
with names_els (e : els) : list syn :=
  match e with ENone => [] | EElse b => [YBlock (names_blk b)] | EElif i => names_ifs i end.

(** without what else the renamer looks at *)
Fixpoint bare (t : syn) : syn :=
  match t with
  | YName _ n => YName false n
  | YMember _ _ n => YMember false [] n
  | YPrint => YPrint
  | YLocal ns es => YLocal ns (map bare es)
  | YLocalFun f ps b => YLocalFun f ps (map bare b)
  | YFun me ps b => YFun me ps (map bare b)
  | YFor ns es b => YFor ns (map bare es) (map bare b)
  | YBlock b => YBlock (map bare b)
  | YRepeat b c => YRepeat (map bare b) (map bare c)
  | YLabel n => YLabel n
  | YGoto n => YGoto n
  end.

(** * The same program but for its names *)
Fixpoint shape_ex (e : ex) : ex :=
  match e with
  | XConst t => XConst t
  | XDots => XDots
  | XVar _ => XVar []
  | XFun ps b => XFun (map (option_map (fun _ => [])) ps) (shape_blk b)
  | XGroup e => XGroup (shape_ex e)
  | XUn op e => XUn op (shape_ex e)
  | XBin op a b => XBin op (shape_ex a) (shape_ex b)
  | XMem e _ => XMem (shape_ex e) []
  | XIdx e k => XIdx (shape_ex e) (shape_ex k)
  | XCall f s args => XCall (shape_ex f) s (shape_exs args)
  | XMeth e _ s args => XMeth (shape_ex e) [] s (shape_exs args)
  | XTab i => XTab (shape_its i)
  end
with shape_exs (es : exs) : exs :=
  match es with XNil => XNil | XCons e es => XCons (shape_ex e) (shape_exs es) end
with shape_its (i : its) : its :=
  match i with
  | INil => INil
  | IIdx k v s i => IIdx (shape_ex k) (shape_ex v) s (shape_its i)
  | IMem _ v s i => IMem [] (shape_ex v) s (shape_its i)
  | IItem e s i => IItem (shape_ex e) s (shape_its i)
  end
with shape_st (s : st) : st :=
  match s with
  | SSemi => SSemi
  | SBreak => SBreak
  | SDo b => SDo (shape_blk b)
  | SIf i => SIf (shape_ifs i)
  | SWhile c b => SWhile (shape_ex c) (shape_blk b)
  | SWhileShort n c b => SWhileShort n (shape_ex c) (shape_blk b)
  | SRepeat b c => SRepeat (shape_blk b) (shape_ex c)
  | SFor _ a z step b => SFor [] (shape_ex a) (shape_ex z) (shape_exs step) (shape_blk b)
  | SForIn xs es b => SForIn (map (fun _ => []) xs) (shape_exs es) (shape_blk b)
  | SReturn es => SReturn (shape_exs es)
  | SLocal xs es => SLocal (map (fun x => ([], snd x)) xs) (shape_exs es)
  | SLocalFun _ ps b => SLocalFun [] (map (option_map (fun _ => [])) ps) (shape_blk b)
  | SFun _ path meth ps b =>
      SFun [] (map (fun _ => []) path) (option_map (fun _ => []) meth) (map (option_map (fun _ => [])) ps) (shape_blk b)
  | SGoto _ => SGoto []
  | SLabel _ => SLabel []
  | SAssign ts es => SAssign (shape_exs ts) (shape_exs es)
  | SOp t op e => SOp (shape_ex t) op (shape_ex e)
  | SPrint es => SPrint (shape_exs es)
  | SCall e => SCall (shape_ex e)
  end
with shape_blk (b : blk) : blk :=
  match b with BNil => BNil | BCons s b => BCons (shape_st s) (shape_blk b) end
with shape_ifs (i : ifs) : ifs :=
  match i with
  | ILong w c b e => ILong w (shape_ex c) (shape_blk b) (shape_els e)
  | IShort n c b e => IShort n (shape_ex c) (shape_blk b) (shape_els e)
  end
with shape_els (e : els) : els :=
  match e with ENone => ENone | EElse b => EElse (shape_blk b) | EElif i => EElif (shape_ifs i) end.
