(** The number of tokens of a program, by its parts: every name, number, string, operator and
    keyword counts but "local" and "end", every pair of brackets counts once, and commas, points,
    colons and semicolons do not count.  A sign counts with the number it is before, but not if it
    is behind a ";" in a table. *)
From Coq Require Import String List ZArith Bool.
From Verif Require Import M_Base M_Fold M_Token M_Expr M_Stmt S_Stmt S_Unmin.
Import ListNotations.
Open Scope nat_scope.

Definition is_sign (op : list Z) : bool := zeqb_list op (asc "-") || zeqb_list op (asc "~").
Definition number_first (e : ex) : bool := match leads e with Tok TNumber _ => true | _ => false end.
Fixpoint signed_first (e : ex) : bool :=
  match e with
  | XUn op e => is_sign op && number_first e
  | XBin _ e _ | XMem e _ | XIdx e _ | XCall e _ _ | XMeth e _ _ _ => signed_first e
  | _ => false
  end.
Definition if_ (b : bool) (n : nat) : nat := if b then n else 0.
Definition var_size (x : list Z * option (list Z)) : nat := match snd x with Some _ => 4 | None => 1 end.
Definition by_semi (sep : option (list Z)) : bool := match sep with Some v => zeqb_list v (asc ";") | None => false end.
Fixpoint size_ex (e : ex) : nat :=
  match e with
  | XConst _ | XDots | XVar _ => 1
  | XFun ps b => 2 + length ps + size_blk b
  | XGroup e => 1 + size_ex e
  | XUn op e => if_ (negb (is_sign op && number_first e)) 1 + size_ex e
  | XBin _ l r => 1 + size_ex l + size_ex r
  | XMem e _ => size_ex e + 1
  | XIdx e k => size_ex e + 1 + size_ex k
  | XCall f short args => size_ex f + if_ (negb short) 1 + size_exs args
  | XMeth e _ short args => size_ex e + 1 + if_ (negb short) 1 + size_exs args
  | XTab i => 1 + size_its false i
  end
with size_exs (es : exs) : nat := match es with XNil => 0 | XCons e es => size_ex e + size_exs es end
with size_its (semi : bool) (i : its) : nat :=
  match i with
  | INil => 0
  | IIdx k v sep i => 2 + size_ex k + size_ex v + size_its (by_semi sep) i
  | IMem _ v sep i => 2 + size_ex v + size_its (by_semi sep) i
  | IItem e sep i => if_ (semi && signed_first e) 1 + size_ex e + size_its (by_semi sep) i
  end
with size_st (s : st) : nat :=
  match s with
  | SSemi => 0
  | SDo b => 1 + size_blk b
  | SIf i => size_ifs i
  | SWhile c b => 2 + size_ex c + size_blk b
  | SWhileShort _ c b => 1 + size_ex c + size_blk b
  | SRepeat b c => 2 + size_blk b + size_ex c
  | SFor _ a z step b => 4 + size_ex a + size_ex z + size_exs step + size_blk b
  | SForIn xs es b => 3 + length xs + size_exs es + size_blk b
  | SBreak => 1
  | SReturn es => 1 + size_exs es
  | SLocal xs es => list_sum (map var_size xs) + match es with XNil => 0 | _ => 1 end + size_exs es
  | SLocalFun _ ps b => 3 + length ps + size_blk b
  | SFun _ path meth ps b => 3 + length path + match meth with Some _ => 1 | None => 0 end + length ps + size_blk b
  | SGoto _ => 2
  | SLabel _ => 1
  | SAssign targets es => size_exs targets + 1 + size_exs es
  | SOp target _ e => size_ex target + 1 + size_ex e
  | SPrint es => 1 + size_exs es
  | SCall e => size_ex e
  end
with size_blk (b : blk) : nat := match b with BNil => 0 | BCons s b => size_st s + size_blk b end
with size_ifs (i : ifs) : nat :=
  match i with
  | ILong _ c b e => 2 + size_ex c + size_blk b + size_els e
  | IShort _ c b e => 1 + size_ex c + size_blk b + size_els e
  end
with size_els (e : els) : nat :=
  match e with ENone => 0 | EElse b => 1 + size_blk b | EElif i => size_ifs i end.

(** No minus or "~" (or "^^", which may be written "~") is between a word ("...", "nil", "true" or
    "false") and a number, and no statement begins with a sign. *)
Fixpoint word_last (e : ex) : bool :=
  match e with
  | XConst (Tok TKeyword _) | XDots => true
  | XUn _ e => word_last e
  | XBin _ _ e => word_last e
  | _ => false
  end.
Definition sign_like (op : list Z) : bool := is_sign op || zeqb_list op (asc "^^").
Fixpoint even_ex (e : ex) : Prop :=
  match e with
  | XConst _ | XDots | XVar _ => True
  | XFun _ b => even_blk b
  | XGroup e | XUn _ e | XMem e _ => even_ex e
  | XBin op l r => sign_like op && word_last l && number_first r = false /\ even_ex l /\ even_ex r
  | XIdx e k => even_ex e /\ even_ex k
  | XCall f _ args => even_ex f /\ even_exs args
  | XMeth e _ _ args => even_ex e /\ even_exs args
  | XTab i => even_its i
  end
with even_exs (es : exs) : Prop := match es with XNil => True | XCons e es => even_ex e /\ even_exs es end
with even_its (i : its) : Prop :=
  match i with
  | INil => True
  | IIdx k v _ i => even_ex k /\ even_ex v /\ even_its i
  | IMem _ v _ i => even_ex v /\ even_its i
  | IItem e _ i => even_ex e /\ even_its i
  end
with even_st (s : st) : Prop :=
  match s with
  | SSemi | SBreak | SGoto _ | SLabel _ => True
  | SDo b | SLocalFun _ _ b | SFun _ _ _ _ b => even_blk b
  | SIf i => even_ifs i
  | SWhile c b | SWhileShort _ c b | SRepeat b c => even_ex c /\ even_blk b
  | SFor _ a z step b => even_ex a /\ even_ex z /\ even_exs step /\ even_blk b
  | SForIn _ es b => even_exs es /\ even_blk b
  | SReturn es | SLocal _ es | SPrint es => even_exs es
  | SAssign targets es => match targets with XCons e _ => signed_first e = false | XNil => True end /\ even_exs targets /\ even_exs es
  | SOp target _ e => signed_first target = false /\ even_ex target /\ even_ex e
  | SCall e => even_ex e
  end
with even_blk (b : blk) : Prop := match b with BNil => True | BCons s b => even_st s /\ even_blk b end
with even_ifs (i : ifs) : Prop :=
  match i with ILong _ c b e | IShort _ c b e => even_ex c /\ even_blk b /\ even_els e end
with even_els (e : els) : Prop :=
  match e with ENone => True | EElse b => even_blk b | EElif i => even_ifs i end.

(** The tokens of a text, each with whether the next one is right behind it.  Every sign of a
    number, one that is not behind an operand or a bracket, is right before it. *)
Definition operand_end (t : tok) : bool :=
  match t with
  | Tok (TNumber | TString | TIdent) _ => true
  | t => existsb (zeqb_list (tok_value t)) (map asc [")"; "]"; "}"; ";"; "end"]%string)
  end.
Definition signs_close (l : list (tok * bool)) : Prop :=
  forall a p t g n g' b, l = a ++ (p, g') :: (t, g) :: n :: b -> is_sign (tok_value t) = true -> (exists v, fst n = Tok TNumber v) -> operand_end p = false -> g = true.
