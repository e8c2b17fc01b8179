(** Model of the clean-up of tokens: [fixup_tokens] of /repo/pico_minify.py l.434-482, under
    [minify_tokens] (the default).

    The code walks the tokens of the tree in order and erases or changes them; here the tree is
    rebuilt.  Left out: the spelling of strings and numbers (M_Str, M_Num), strings of
    other languages (M_Split), and what the same walk does to nodes: the parentheses of
    [fixup_nodes_pre] (M_Expr), the merging of assignments (M_Merge), and the change to or from
    shorthands. *)
From Coq Require Import String List ZArith Bool.
From Verif Require Import M_Base M_Fold M_Token M_Expr M_Stmt M_Emit.
Import ListNotations.
Open Scope Z_scope.

(** The first token of what is walked, [_find_token] of /repo/pico_tokenize.py l.77-86 *)
Fixpoint first (m : list item) : option tok := match m with [] => None | T t :: _ => Some t | _ :: m => first m end.
(** [next_token] behind which the statements [b] come, and behind them the token [k]; None is
    [Token.none] *)
Definition next (b : blk) (k : option tok) : option tok := match first (m_blk b) with Some t => Some t | None => k end.
Definition opens (t : option tok) : bool := match t with Some (Tok _ v) => zeqb_list v (asc "(") | _ => false end.
(** [not block.stmts] *)
Fixpoint no_stmts (b : blk) : bool := match b with BNil => true | BCons SSemi b => no_stmts b | _ => false end.

(** l.468-482; no unary operator is among them *)
Definition tidy_op (lang : language) (ver : Z) (op : list Z) : list Z :=
  if zeqb_list op (asc "!=") then asc "~="
  else if zeqb_list op (asc "^^") && (37 <=? ver) then asc "~"
  else if zeqb_list op (asc "//") && negb (is_pico8 lang) then asc "\"
  else op.
Definition tidy_eq (lang : language) (op : list Z) : list Z :=
  if zeqb_list op (asc "//=") && negb (is_pico8 lang) then asc "\=" else op.
Definition tidy_then (lang : language) (ver : Z) (w : list Z) : list Z :=
  if zeqb_list w (asc "then") && is_pico8 lang && (42 <=? ver) then asc "do" else w.
(** The separator before [i], l.452-454 and l.465-466 *)
Definition tidy_sep (sep : option (list Z)) (i : its) : option (list Z) :=
  match sep, i with
  | Some v, INil => None
  | Some v, _ => Some (if zeqb_list v (asc ";") then asc "," else v)
  | None, _ => None
  end.
(** A single argument that needs no parentheses, l.456-461 *)
Definition lone (args : exs) : bool :=
  match args with
  | XCons (XTab _) XNil => true
  | XCons (XConst (Tok TString _)) XNil => true
  | _ => false
  end.

(** [k] is the token behind a statement or block. *)
Fixpoint tidy_ex (lang : language) (ver : Z) (e : ex) {struct e} : ex :=
  match e with
  | XConst t => XConst t
  | XDots => XDots
  | XVar x => XVar x
  | XFun ps b => XFun ps (tidy_blk lang ver false (Some (kw "end")) b)
  | XGroup e => XGroup (tidy_ex lang ver e)
  | XUn op e => XUn op (tidy_ex lang ver e)
  | XBin op l r => XBin (tidy_op lang ver op) (tidy_ex lang ver l) (tidy_ex lang ver r)
  | XMem e key => XMem (tidy_ex lang ver e) key
  | XIdx e k => XIdx (tidy_ex lang ver e) (tidy_ex lang ver k)
  | XCall f short args => XCall (tidy_ex lang ver f) (short || lone args) (tidy_exs lang ver args)
  | XMeth e key short args => XMeth (tidy_ex lang ver e) key short (tidy_exs lang ver args)  (* the method's name is one of [args] *)
  | XTab i => XTab (tidy_its lang ver i)
  end
with tidy_exs (lang : language) (ver : Z) (es : exs) {struct es} : exs :=
  match es with XNil => XNil | XCons e es => XCons (tidy_ex lang ver e) (tidy_exs lang ver es) end
with tidy_its (lang : language) (ver : Z) (i : its) {struct i} : its :=
  match i with
  | INil => INil
  | IIdx k v sep i => IIdx (tidy_ex lang ver k) (tidy_ex lang ver v) (tidy_sep sep i) (tidy_its lang ver i)
  | IMem key v sep i => IMem key (tidy_ex lang ver v) (tidy_sep sep i) (tidy_its lang ver i)
  | IItem e sep i => IItem (tidy_ex lang ver e) (tidy_sep sep i) (tidy_its lang ver i)
  end
with tidy_st (lang : language) (ver : Z) (k : option tok) (s : st) {struct s} : st :=
  match s with
  | SSemi => SSemi
  | SDo b => SDo (tidy_blk lang ver false (Some (kw "end")) b)
  | SIf i => SIf (tidy_ifs lang ver k i)
  | SWhile c b => SWhile (tidy_ex lang ver c) (tidy_blk lang ver false (Some (kw "end")) b)
  | SWhileShort nested c b => SWhileShort nested (tidy_ex lang ver c) (tidy_blk lang ver (no_stmts b) k b)
  | SRepeat b c => SRepeat (tidy_blk lang ver false (Some (kw "until")) b) (tidy_ex lang ver c)
  | SFor x a z step b => SFor x (tidy_ex lang ver a) (tidy_ex lang ver z) (tidy_exs lang ver step) (tidy_blk lang ver false (Some (kw "end")) b)
  | SForIn xs es b => SForIn xs (tidy_exs lang ver es) (tidy_blk lang ver false (Some (kw "end")) b)
  | SBreak => SBreak
  | SReturn es => SReturn (tidy_exs lang ver es)
  | SLocal xs es => SLocal xs (tidy_exs lang ver es)
  | SLocalFun x ps b => SLocalFun x ps (tidy_blk lang ver false (Some (kw "end")) b)
  | SFun x path meth ps b => SFun x path meth ps (tidy_blk lang ver false (Some (kw "end")) b)
  | SGoto x => SGoto x
  | SLabel x => SLabel x
  | SAssign targets es => SAssign (tidy_exs lang ver targets) (tidy_exs lang ver es)
  | SOp target op e => SOp (tidy_ex lang ver target) (tidy_eq lang op) (tidy_ex lang ver e)
  | SPrint es => SPrint (tidy_exs lang ver es)
  | SCall e => SCall (tidy_ex lang ver e)
  end
(** A ";" goes unless a "(" comes next, or it stands for the body of a shorthand that has no
    statements ([keep]), l.446-450. *)
with tidy_blk (lang : language) (ver : Z) (keep : bool) (k : option tok) (b : blk) {struct b} : blk :=
  match b with
  | BNil => BNil
  | BCons SSemi b =>
      if opens (next b k) || keep then BCons SSemi (tidy_blk lang ver keep k b) else tidy_blk lang ver keep k b
  | BCons s b => BCons (tidy_st lang ver (next b k) s) (tidy_blk lang ver keep k b)
  end
with tidy_ifs (lang : language) (ver : Z) (k : option tok) (i : ifs) {struct i} : ifs :=
  match i with
  | ILong w c b e => ILong (tidy_then lang ver w) (tidy_ex lang ver c) (tidy_blk lang ver false (first (m_els e)) b) (tidy_els lang ver false k e)
  | IShort nested c b e => IShort nested (tidy_ex lang ver c)
      (tidy_blk lang ver (no_stmts b) (match e with EElse _ => Some (kw "else") | _ => k end) b) (tidy_els lang ver true k e)
  end
with tidy_els (lang : language) (ver : Z) (short : bool) (k : option tok) (e : els) {struct e} : els :=
  match e with
  | ENone => ENone
  | EElse b => EElse (if short then tidy_blk lang ver (no_stmts b) k b else tidy_blk lang ver false (Some (kw "end")) b)
  | EElif i => EElif (tidy_ifs lang ver k i)
  end.
(** The whole program *)
Definition tidy (lang : language) (ver : Z) (b : blk) : blk := tidy_blk lang ver false None b.
