(** Model of changing between shorthands and long forms: [analyze_code_for_minify] of
    /repo/pico_minify.py l.32-146, [minify_change_block_shorthand] and
    [minify_change_print_shorthand] l.157-205, and where they are called, l.367-369 and l.413-422.

    The code first collects which nodes may become shorthands, then changes some of them: which
    types it changes depends on counts and on the focus ([new_shorts], l.130-144), here it is
    given.  Whether a call of "print" is one of the builtin (l.118-120) is not told by the tree:
    here it is one answer for the whole program.  Parentheses around a condition that is not a
    shorthand's are removed on the way (l.409-410); others are left alone here. *)
From Coq Require Import String List ZArith Bool.
From Verif Require Import M_Base M_Fold M_Token M_Expr M_Stmt.
Import ListNotations.
Open Scope Z_scope.

(** [shorthands_can_nest], [focus.chars], is "print" the builtin; [new_shorts] for "if",
    "while" and calls *)
Record opts := { can_nest : bool; focus_chars : bool; print_builtin : bool; new_if : option bool; new_while : option bool; new_print : bool }.

(** An "if" with an "else" is treated apart, l.42-45. *)
Inductive kind := IfElse | Other.
Definition is_ifelse (k : kind) : bool := match k with IfElse => true | Other => false end.
(** A shorthand (or a node that may become one) in a body, with whether [body.next_token() is
    child.next_token()], l.48. *)
Definition found : Type := (kind * bool)%type.
Definition hidden (l : list found) : list found := map (fun x => (fst x, false)) l.
(** The shorthands around a node: is its next token theirs, and is it in the "then" of one with
    an "else"? *)
Definition ctx : Type := option (bool * bool)%type.
Definition hide (c : ctx) : ctx := match c with Some (_, te) => Some (false, te) | None => None end.
Definition into (te : bool) (c : ctx) : ctx := match c with Some (ok, t) => Some (ok, t || te) | None => Some (true, te) end.

(** [allow_shorthand_nesting], l.38-54 *)
Definition may_nest (o : opts) (te : bool) (x : found) : bool := can_nest o && (negb te || is_ifelse (fst x)) && snd x.
(** [allow_parent_shorthands], l.56-66 *)
Definition parents_ok (o : opts) (c : ctx) (k : kind) : bool := match c with Some (ok, te) => may_nest o te (k, ok) | None => true end.
(** [allow_child_shorthands], l.68-77 *)
Definition children_ok (o : opts) (te : bool) (l : list found) : bool := forallb (may_nest o te) l.
Definition empty (b : blk) : bool := match b with BNil => true | _ => false end.
Definition starts_with_do (b : blk) : bool := match b with BCons (SDo _) _ => true | _ => false end.
(** l.88-111; the bodies are given with what is found in them *)
Definition may_while (o : opts) (c : ctx) (cond : list found) (b : blk) (l : list found) : bool :=
  parents_ok o c Other && children_ok o false cond && children_ok o false l && negb (empty b && negb (focus_chars o)) && negb (starts_with_do b).
Definition may_if (o : opts) (c : ctx) (cond : list found) (b : blk) (l : list found) (e : els) (l' : list found) : bool :=
  match e with
  | EElif _ => false
  | ENone => may_while o c cond b l
  | EElse b' =>
      parents_ok o c IfElse && children_ok o false cond && children_ok o true l && children_ok o false l' &&
      negb ((empty b || empty b') && negb (focus_chars o)) && negb (starts_with_do b)
  end.
Definition if_kind (e : els) : kind := match e with ENone => Other | _ => IfElse end.
Definition is_print (x : list Z) : bool := zeqb_list x (asc "print").
(** l.116-126 *)
Definition may_print (o : opts) (c : ctx) (x : list Z) (l : list found) : bool :=
  print_builtin o && is_print x && parents_ok o c Other && children_ok o false l.

(** What is found in a part of a program, in the context of the shorthands around it.  The
    "else" of a shorthand is a short node, too. *)
Fixpoint sh_ex (o : opts) (c : ctx) (e : ex) {struct e} : list found :=
  match e with
  | XConst _ | XDots | XVar _ => []
  | XFun _ b => hidden (sh_blk o (hide c) b)
  | XGroup e | XUn _ e | XMem e _ => sh_ex o c e
  | XBin _ l r => sh_ex o c l ++ sh_ex o c r
  | XIdx e k => sh_ex o c e ++ sh_ex o c k
  | XCall f _ args => sh_ex o c f ++ sh_exs o c args
  | XMeth e _ _ args => sh_ex o c e ++ sh_exs o c args
  | XTab i => sh_its o c i
  end
with sh_exs (o : opts) (c : ctx) (es : exs) {struct es} : list found :=
  match es with XNil => [] | XCons e es => sh_ex o c e ++ sh_exs o c es end
with sh_its (o : opts) (c : ctx) (i : its) {struct i} : list found :=
  match i with
  | INil => []
  | IIdx k v _ i => sh_ex o c k ++ sh_ex o c v ++ sh_its o c i
  | IMem _ v _ i => sh_ex o c v ++ sh_its o c i
  | IItem e _ i => sh_ex o c e ++ sh_its o c i
  end
with sh_st (o : opts) (c : ctx) (s : st) {struct s} : list found :=
  match s with
  | SSemi | SBreak | SGoto _ | SLabel _ => []
  | SDo b | SLocalFun _ _ b | SFun _ _ _ _ b => hidden (sh_blk o (hide c) b)
  | SIf i => sh_ifs o c false i
  | SWhile e b =>
      let l := sh_blk o (hide c) b in
      (if may_while o c (sh_ex o c e) b l then [(Other, true)] else []) ++ sh_ex o c e ++ hidden l
  | SWhileShort _ e b => [(Other, true)] ++ sh_ex o (into false c) e ++ sh_blk o (into false c) b
  | SRepeat b e => hidden (sh_blk o (hide c) b) ++ sh_ex o c e
  | SFor _ a z step b => sh_ex o c a ++ sh_ex o c z ++ sh_exs o c step ++ hidden (sh_blk o (hide c) b)
  | SForIn _ es b => sh_exs o c es ++ hidden (sh_blk o (hide c) b)
  | SReturn es | SLocal _ es => sh_exs o c es
  | SAssign targets es => sh_exs o c targets ++ sh_exs o c es
  | SOp target _ e => sh_ex o c target ++ sh_ex o c e
  | SPrint es => [(Other, true)] ++ sh_exs o (into false c) es
  | SCall (XCall (XVar x) _ args) => (if may_print o c x (sh_exs o c args) then [(Other, true)] else []) ++ sh_exs o c args
  | SCall e => sh_ex o c e
  end
with sh_blk (o : opts) (c : ctx) (b : blk) {struct b} : list found :=
  match b with
  | BNil => []
  | BCons s BNil => sh_st o c s
  | BCons s b => hidden (sh_st o (hide c) s) ++ sh_blk o c b
  end
with sh_ifs (o : opts) (c : ctx) (elif : bool) (i : ifs) {struct i} : list found :=
  match i with
  | ILong _ e b el =>
      let l := sh_blk o (hide c) b in
      let l' := sh_els o c el in
      (if negb elif && may_if o c (sh_ex o c e) b l el l' then [(if_kind el, true)] else []) ++ sh_ex o c e ++ hidden l ++ hidden l'
  | IShort _ e b el =>
      match el with
      | EElse b' => [(if elif then Other else IfElse, true)] ++ sh_ex o (into false c) e ++ hidden (sh_blk o (into (negb elif) (hide c)) b) ++ [(Other, true)] ++ sh_blk o (into false c) b'
      | _ => [(Other, true)] ++ sh_ex o (into false c) e ++ sh_blk o (into false c) b
      end
  end
with sh_els (o : opts) (c : ctx) (e : els) {struct e} : list found :=
  match e with
  | ENone => []
  | EElse b => sh_blk o (hide c) b
  | EElif i => sh_ifs o c true i
  end.

(** Parentheses around a condition, l.409-410: all of them. *)
Fixpoint strip (e : ex) : ex := match e with XGroup e => strip e | e => e end.
(** An empty body gets a ";", l.174-176. *)
Definition fill (b : blk) : blk := match b with BNil => BCons SSemi BNil | b => b end.
Definition is_true (b : option bool) : bool := match b with Some b => b | None => false end.
Definition is_false (b : option bool) : bool := match b with Some b => negb b | None => false end.

(** The changed program. *)
Fixpoint sw_ex (o : opts) (c : ctx) (e : ex) {struct e} : ex :=
  match e with
  | XConst t => XConst t
  | XDots => XDots
  | XVar x => XVar x
  | XFun ps b => XFun ps (sw_blk o (hide c) b)
  | XGroup e => XGroup (sw_ex o c e)
  | XUn op e => XUn op (sw_ex o c e)
  | XBin op l r => XBin op (sw_ex o c l) (sw_ex o c r)
  | XMem e key => XMem (sw_ex o c e) key
  | XIdx e k => XIdx (sw_ex o c e) (sw_ex o c k)
  | XCall f short args => XCall (sw_ex o c f) short (sw_exs o c args)
  | XMeth e key short args => XMeth (sw_ex o c e) key short (sw_exs o c args)
  | XTab i => XTab (sw_its o c i)
  end
with sw_exs (o : opts) (c : ctx) (es : exs) {struct es} : exs :=
  match es with XNil => XNil | XCons e es => XCons (sw_ex o c e) (sw_exs o c es) end
with sw_its (o : opts) (c : ctx) (i : its) {struct i} : its :=
  match i with
  | INil => INil
  | IIdx k v sep i => IIdx (sw_ex o c k) (sw_ex o c v) sep (sw_its o c i)
  | IMem key v sep i => IMem key (sw_ex o c v) sep (sw_its o c i)
  | IItem e sep i => IItem (sw_ex o c e) sep (sw_its o c i)
  end
with sw_st (o : opts) (c : ctx) (s : st) {struct s} : st :=
  match s with
  | SSemi => SSemi
  | SDo b => SDo (sw_blk o (hide c) b)
  | SIf i => SIf (sw_ifs o c false i)
  | SWhile e b =>
      if is_true (new_while o) && may_while o c (sh_ex o c e) b (sh_blk o (hide c) b)
      then SWhileShort false (XGroup (strip (sw_ex o c e))) (fill (sw_blk o (hide c) b))
      else SWhile (strip (sw_ex o c e)) (sw_blk o (hide c) b)
  | SWhileShort nested e b =>
      if is_false (new_while o) then SWhile (strip (sw_ex o (into false c) e)) (sw_blk o (into false c) b)
      else SWhileShort nested (sw_ex o (into false c) e) (sw_blk o (into false c) b)
  | SRepeat b e => SRepeat (sw_blk o (hide c) b) (sw_ex o c e)
  | SFor x a z step b => SFor x (sw_ex o c a) (sw_ex o c z) (sw_exs o c step) (sw_blk o (hide c) b)
  | SForIn xs es b => SForIn xs (sw_exs o c es) (sw_blk o (hide c) b)
  | SBreak => SBreak
  | SReturn es => SReturn (sw_exs o c es)
  | SLocal xs es => SLocal xs (sw_exs o c es)
  | SLocalFun x ps b => SLocalFun x ps (sw_blk o (hide c) b)
  | SFun x path meth ps b => SFun x path meth ps (sw_blk o (hide c) b)
  | SGoto x => SGoto x
  | SLabel x => SLabel x
  | SAssign targets es => SAssign (sw_exs o c targets) (sw_exs o c es)
  | SOp target op e => SOp (sw_ex o c target) op (sw_ex o c e)
  | SPrint es => SPrint (sw_exs o (into false c) es)
  | SCall (XCall (XVar x) short args) =>
      if new_print o && may_print o c x (sh_exs o c args) then SPrint (sw_exs o c args) else SCall (XCall (XVar x) short (sw_exs o c args))
  | SCall e => SCall (sw_ex o c e)
  end
with sw_blk (o : opts) (c : ctx) (b : blk) {struct b} : blk :=
  match b with
  | BNil => BNil
  | BCons s BNil => BCons (sw_st o c s) BNil
  | BCons s b => BCons (sw_st o (hide c) s) (sw_blk o c b)
  end
with sw_ifs (o : opts) (c : ctx) (elif : bool) (i : ifs) {struct i} : ifs :=
  match i with
  | ILong w e b el =>
      if is_true (new_if o) && negb elif && may_if o c (sh_ex o c e) b (sh_blk o (hide c) b) el (sh_els o c el)
      then IShort false (XGroup (strip (sw_ex o c e))) (fill (sw_blk o (hide c) b)) (match el with EElse b' => EElse (fill (sw_blk o (hide c) b')) | el => el end)
      else ILong w (strip (sw_ex o c e)) (sw_blk o (hide c) b) (sw_els o c el)
  | IShort nested e b el =>
      let '(b1, el1) := match el with
                        | EElse b' => (sw_blk o (into (negb elif) (hide c)) b, EElse (sw_blk o (into false c) b'))
                        | el => (sw_blk o (into false c) b, el)
                        end in
      if is_false (new_if o) && negb elif then ILong (asc "then") (strip (sw_ex o (into false c) e)) b1 el1
      else IShort nested (sw_ex o (into false c) e) b1 el1
  end
with sw_els (o : opts) (c : ctx) (e : els) {struct e} : els :=
  match e with
  | ENone => ENone
  | EElse b => EElse (sw_blk o (hide c) b)
  | EElif i => EElif (sw_ifs o c true i)
  end.
(** A program: no shorthands are around it. *)
Definition switch (o : opts) (b : blk) : blk := sw_blk o None b.
