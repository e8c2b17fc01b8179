(** Which programs keep their shorthands when all other line breaks are dropped. *)
From Coq Require Import String List ZArith.
From Verif Require Import M_Base M_Fold M_Token M_Expr M_Stmt S_Stmt.
Import ListNotations.
Open Scope Z_scope.

(** A tree without what the parser notes on shorthands: two programs are the same if they
    are equal but for it. *)
Fixpoint un_ex (e : ex) : ex :=
  match e with
  | XConst t => XConst t
  | XDots => XDots
  | XVar x => XVar x
  | XFun ps b => XFun ps (un_blk b)
  | XGroup e => XGroup (un_ex e)
  | XUn op e => XUn op (un_ex e)
  | XBin op l r => XBin op (un_ex l) (un_ex r)
  | XMem e key => XMem (un_ex e) key
  | XIdx e k => XIdx (un_ex e) (un_ex k)
  | XCall f short args => XCall (un_ex f) short (un_exs args)
  | XMeth e key short args => XMeth (un_ex e) key short (un_exs args)
  | XTab i => XTab (un_its i)
  end
with un_exs (es : exs) : exs := match es with XNil => XNil | XCons e es => XCons (un_ex e) (un_exs es) end
with un_its (i : its) : its :=
  match i with
  | INil => INil
  | IIdx k v sep i => IIdx (un_ex k) (un_ex v) sep (un_its i)
  | IMem key v sep i => IMem key (un_ex v) sep (un_its i)
  | IItem e sep i => IItem (un_ex e) sep (un_its i)
  end
with un_st (s : st) : st :=
  match s with
  | SSemi => SSemi
  | SDo b => SDo (un_blk b)
  | SIf i => SIf (un_ifs i)
  | SWhile c b => SWhile (un_ex c) (un_blk b)
  | SWhileShort _ c b => SWhileShort false (un_ex c) (un_blk b)
  | SRepeat b c => SRepeat (un_blk b) (un_ex c)
  | SFor x a z step b => SFor x (un_ex a) (un_ex z) (un_exs step) (un_blk b)
  | SForIn xs es b => SForIn xs (un_exs es) (un_blk b)
  | SBreak => SBreak
  | SReturn es => SReturn (un_exs es)
  | SLocal xs es => SLocal xs (un_exs es)
  | SLocalFun x ps b => SLocalFun x ps (un_blk b)
  | SFun x path meth ps b => SFun x path meth ps (un_blk b)
  | SGoto x => SGoto x
  | SLabel x => SLabel x
  | SAssign targets es => SAssign (un_exs targets) (un_exs es)
  | SOp target op e => SOp (un_ex target) op (un_ex e)
  | SPrint es => SPrint (un_exs es)
  | SCall e => SCall (un_ex e)
  end
with un_blk (b : blk) : blk := match b with BNil => BNil | BCons s b => BCons (un_st s) (un_blk b) end
with un_ifs (i : ifs) : ifs :=
  match i with
  | ILong w c b e => ILong w (un_ex c) (un_blk b) (un_els e)
  | IShort _ c b e => IShort false (un_ex c) (un_blk b) (un_els e)
  end
with un_els (e : els) : els :=
  match e with ENone => ENone | EElse b => EElse (un_blk b) | EElif i => EElif (un_ifs i) end.

(** Where a part of a program is: outside of shorthands ([Top]), in one that ends with a line
    ([Within]), or in one outside of these that ends within a line, before a closing word: at its
    end or not ([Nest]). *)
Inductive place := Top | Within | Nest (last : bool).
Definition calm (m : place) : place := match m with Nest _ => Nest false | m => m end.
Definition enter (m : place) (nested : bool) : option place :=
  match nested, m with
  | true, Top => Some (Nest true)
  | true, m => Some m
  | false, Nest _ => None
  | false, _ => Some Within
  end.
(** What follows: the end of a line, an "else", another closing word, or a statement. *)
Inductive behind := Break | Else | Closer | More.
(** Outside of all shorthands, one that ends with a line is followed by a line break. *)
Definition short_behind (m : place) (nested : bool) (k : behind) : behind :=
  match m, nested with Top, false => Break | _, _ => k end.

(** All shorthands can be told from what follows them: a shorthand is followed by the end of
    the line or by a closing word, and by an "else" only if it has one itself.  Between the
    words of a shorthand that ends within a line nothing ends a line. *)
Fixpoint fits_ex (m : place) (e : ex) : Prop :=
  match e with
  | XConst _ | XDots | XVar _ => True
  | XFun _ b => fits_blk m Closer b
  | XGroup e | XUn _ e | XMem e _ => fits_ex m e
  | XBin _ l r => fits_ex m l /\ fits_ex m r
  | XIdx e k => fits_ex m e /\ fits_ex m k
  | XCall f _ args => fits_ex m f /\ fits_exs m args
  | XMeth e _ _ args => fits_ex m e /\ fits_exs m args
  | XTab i => fits_its m i
  end
with fits_exs (m : place) (es : exs) : Prop := match es with XNil => True | XCons e es => fits_ex m e /\ fits_exs m es end
with fits_its (m : place) (i : its) : Prop :=
  match i with
  | INil => True
  | IIdx k v _ i => fits_ex m k /\ fits_ex m v /\ fits_its m i
  | IMem _ v _ i => fits_ex m v /\ fits_its m i
  | IItem e _ i => fits_ex m e /\ fits_its m i
  end
with fits_st (m : place) (k : behind) (s : st) : Prop :=
  match s with
  | SSemi | SBreak | SGoto _ | SLabel _ => True
  | SDo b => fits_blk (calm m) Closer b
  | SIf i => fits_ifs m k i
  | SWhile c b => fits_ex (calm m) c /\ fits_blk (calm m) Closer b
  | SWhileShort nested c b =>
      match enter m nested with
      | Some m' => fits_ex (if nested then calm m else m') c /\ short_behind m nested k <> More /\ fits_blk m' (short_behind m nested k) b
      | None => False
      end
  | SRepeat b c => fits_blk (calm m) Closer b /\ fits_ex (calm m) c
  | SFor _ a z step b => fits_ex (calm m) a /\ fits_ex (calm m) z /\ fits_exs (calm m) step /\ fits_blk (calm m) Closer b
  | SForIn _ es b => fits_exs (calm m) es /\ fits_blk (calm m) Closer b
  | SReturn es | SLocal _ es => fits_exs (calm m) es
  | SLocalFun _ _ b | SFun _ _ _ _ b => fits_blk (calm m) Closer b
  | SAssign targets es => fits_exs (calm m) targets /\ fits_exs (calm m) es
  | SOp target _ e => fits_ex (calm m) target /\ fits_ex (calm m) e
  | SPrint es => m <> Nest false /\ fits_exs Within es
  | SCall e => fits_ex (calm m) e
  end
with fits_blk (m : place) (k : behind) (b : blk) : Prop :=
  match b with
  | BNil => True
  | BCons s BNil => fits_st m k s
  | BCons s b => fits_st (calm m) More s /\ fits_blk m k b
  end
with fits_ifs (m : place) (k : behind) (i : ifs) : Prop :=
  match i with
  | ILong _ c b e => fits_ex (calm m) c /\ fits_blk (calm m) (match e with EElse _ => Else | _ => Closer end) b /\ fits_els m k e
  | IShort nested c b e =>
      match enter m nested with
      | Some m' =>
          fits_ex (if nested then calm m else m') c /\ short_behind m nested k <> More /\
          match e with
          | EElse b' => fits_blk (calm m') Else b /\ fits_blk m' (short_behind m nested k) b'
          | _ => fits_blk m' (short_behind m nested k) b /\ short_behind m nested k <> Else
          end
      | None => False
      end
  end
with fits_els (m : place) (k : behind) (e : els) : Prop :=
  match e with
  | ENone => True
  | EElse b => fits_blk (calm m) Closer b
  | EElif i => fits_ifs m k i
  end.
(** A program ends with a line. *)
Definition fits (b : blk) : Prop := fits_blk Top Break b.

(** A simple case: every shorthand ends with a line, and has no other one inside but print
    shorthands. *)
Fixpoint flat_ex (inside : bool) (e : ex) : Prop :=
  match e with
  | XConst _ | XDots | XVar _ => True
  | XFun _ b => flat_blk inside b
  | XGroup e | XUn _ e | XMem e _ => flat_ex inside e
  | XBin _ l r => flat_ex inside l /\ flat_ex inside r
  | XIdx e k => flat_ex inside e /\ flat_ex inside k
  | XCall f _ args => flat_ex inside f /\ flat_exs inside args
  | XMeth e _ _ args => flat_ex inside e /\ flat_exs inside args
  | XTab i => flat_its inside i
  end
with flat_exs (inside : bool) (es : exs) : Prop := match es with XNil => True | XCons e es => flat_ex inside e /\ flat_exs inside es end
with flat_its (inside : bool) (i : its) : Prop :=
  match i with
  | INil => True
  | IIdx k v _ i => flat_ex inside k /\ flat_ex inside v /\ flat_its inside i
  | IMem _ v _ i => flat_ex inside v /\ flat_its inside i
  | IItem e _ i => flat_ex inside e /\ flat_its inside i
  end
with flat_st (inside : bool) (s : st) : Prop :=
  match s with
  | SSemi | SBreak | SGoto _ | SLabel _ => True
  | SDo b | SLocalFun _ _ b | SFun _ _ _ _ b => flat_blk inside b
  | SIf i => flat_ifs inside i
  | SWhile c b | SRepeat b c => flat_ex inside c /\ flat_blk inside b
  | SWhileShort nested c b => inside = false /\ nested = false /\ flat_ex true c /\ flat_blk true b
  | SFor _ a z step b => flat_ex inside a /\ flat_ex inside z /\ flat_exs inside step /\ flat_blk inside b
  | SForIn _ es b => flat_exs inside es /\ flat_blk inside b
  | SReturn es | SLocal _ es => flat_exs inside es
  | SAssign targets es => flat_exs inside targets /\ flat_exs inside es
  | SOp target _ e => flat_ex inside target /\ flat_ex inside e
  | SPrint es => flat_exs true es
  | SCall e => flat_ex inside e
  end
with flat_blk (inside : bool) (b : blk) : Prop := match b with BNil => True | BCons s b => flat_st inside s /\ flat_blk inside b end
with flat_ifs (inside : bool) (i : ifs) : Prop :=
  match i with
  | ILong _ c b e => flat_ex inside c /\ flat_blk inside b /\ flat_els inside e
  | IShort nested c b e => inside = false /\ nested = false /\ flat_ex true c /\ flat_blk true b /\ flat_els true e
  end
with flat_els (inside : bool) (e : els) : Prop :=
  match e with ENone => True | EElse b => flat_blk inside b | EElif i => flat_ifs inside i end.
Definition flat (b : blk) : Prop := flat_blk false b.
