(** What the linter should say, without the linter: which names of a program are globals, and
    which locals are used or assigned where they can be seen. *)
From Coq Require Import String List ZArith Bool.
From Verif Require Import M_Base M_Fold M_Token M_Expr M_Stmt M_Rename M_Lint.
Import ListNotations.

(** the locals a statement brings for the rest of its block *)
Definition brings (s : st) : list name :=
  match s with SLocal xs _ => map fst xs | SLocalFun x _ _ => [x] | _ => [] end.
Fixpoint brought (b : blk) : list name := match b with BNil => [] | BCons s b => brought b ++ brings s end.
(** the parameters that are names *)
Definition named (ps : list (option name)) : list name :=
  flat_map (fun p => match p with Some x => [x] | None => [] end) ps.
Definition self_of (meth : option name) : list name := match meth with Some _ => [str "self"] | None => [] end.
(** does a function statement assign the variable itself? *)
Definition plain_fun (path : list name) (meth : option name) : bool :=
  match path, meth with [], None => true | _, _ => false end.

(* ------------------------------------------------------------------ *)
(** * Globals *)
(** A place of a global in a program: its name, how it stands there, in which function. *)
Definition mention : Type := (name * how * inside)%type.

(** [sc]: the locals that can be seen.  A name is a global if it is none of them; but not of the
    global table if there is a local "_ENV", unless it is a builtin that is a local. *)
Definition global (lb : list name) (sc : list name) (h : how) (f : inside) (x : name) : list mention :=
  if mem x sc || zeqb_list x env_name || (mem env_name sc && negb (mem x lb)) then [] else [(x, h, f)].
(** inside a function [x] *)
Definition into (f : inside) (x : option name) : inside :=
  match f, x with NoFun, Some x => if zeqb_list x (str "_init") then InInit else InFun | _, _ => InFun end.

Fixpoint g_ex (lb : list name) (sc : list name) (f : inside) (e : ex) {struct e} : list mention :=
  match e with
  | XConst _ | XDots => []
  | XVar x => global lb sc Use f x
  | XFun ps b => g_blk lb (named ps ++ sc) (into f None) b
  | XGroup e | XUn _ e | XMem e _ => g_ex lb sc f e
  | XBin _ x y | XIdx x y => g_ex lb sc f x ++ g_ex lb sc f y
  | XCall e _ args | XMeth e _ _ args => g_ex lb sc f e ++ g_exs lb sc f args
  | XTab i => g_its lb sc f i
  end
with g_exs (lb : list name) (sc : list name) (f : inside) (es : exs) {struct es} : list mention :=
  match es with XNil => [] | XCons e es => g_ex lb sc f e ++ g_exs lb sc f es end
with g_tgts (lb : list name) (sc : list name) (f : inside) (es : exs) {struct es} : list mention :=
  match es with
  | XNil => []
  | XCons e es => match e with XVar x => global lb sc Assign f x | e => g_ex lb sc f e end ++ g_tgts lb sc f es
  end
with g_its (lb : list name) (sc : list name) (f : inside) (i : its) {struct i} : list mention :=
  match i with
  | INil => []
  | IIdx x y _ i => g_ex lb sc f x ++ g_ex lb sc f y ++ g_its lb sc f i
  | IMem _ v _ i | IItem v _ i => g_ex lb sc f v ++ g_its lb sc f i
  end
with g_st (lb : list name) (sc : list name) (f : inside) (s : st) {struct s} : list mention :=
  match s with
  | SSemi | SBreak | SGoto _ | SLabel _ => []
  | SDo b => g_blk lb sc f b
  | SIf i => g_ifs lb sc f i
  | SWhile c b | SWhileShort _ c b => g_ex lb sc f c ++ g_blk lb sc f b
  | SRepeat b c => g_blk lb sc f b ++ g_ex lb (brought b ++ sc) f c
  | SFor x e1 e2 step b => g_ex lb sc f e1 ++ g_ex lb sc f e2 ++ g_exs lb sc f step ++ g_blk lb (x :: sc) f b
  | SForIn xs es b => g_exs lb sc f es ++ g_blk lb (xs ++ sc) f b
  | SReturn es | SLocal _ es => g_exs lb sc f es
  | SLocalFun x ps b => g_blk lb (named ps ++ x :: sc) (into f (Some x)) b
  | SFun x path meth ps b =>
      global lb sc (if plain_fun path meth then FunAssign else Use) f x ++
      g_blk lb (self_of meth ++ named ps ++ sc) (into f (if plain_fun path meth then Some x else None)) b
  | SAssign ts es => g_tgts lb sc f ts ++ g_exs lb sc f es
  | SOp t _ e => match t with XVar x => global lb sc OpAssign f x | t => g_ex lb sc f t end ++ g_ex lb sc f e
  | SPrint es => global lb sc Use f (str "print") ++ g_exs lb sc f es
  | SCall e => g_ex lb sc f e
  end
with g_blk (lb : list name) (sc : list name) (f : inside) (b : blk) {struct b} : list mention :=
  match b with BNil => [] | BCons s b => g_st lb sc f s ++ g_blk lb (brings s ++ sc) f b end
with g_ifs (lb : list name) (sc : list name) (f : inside) (i : ifs) {struct i} : list mention :=
  match i with ILong _ c b e | IShort _ c b e => g_ex lb sc f c ++ g_blk lb sc f b ++ g_els lb sc f e end
with g_els (lb : list name) (sc : list name) (f : inside) (e : els) {struct e} : list mention :=
  match e with ENone => [] | EElse b => g_blk lb sc f b | EElif i => g_ifs lb sc f i end.

(** the globals of a program *)
Definition globals (lb : list name) (b : blk) : list mention := g_blk lb [] NoFun b.
(** The program defines a global: it assigns it, or a function statement does, outside of
    all functions or in the outermost function "_init". *)
Definition defines (lb : list name) (b : blk) (x : name) : Prop :=
  exists h f, In (x, h, f) (globals lb b) /\ (h = Assign \/ h = FunAssign) /\ f <> InFun.
Definition reads_global (lb : list name) (b : blk) (x : name) : Prop := exists f, In (x, Use, f) (globals lb b).
Definition sets_global (lb : list name) (b : blk) (x : name) : Prop := exists h f, In (x, h, f) (globals lb b) /\ h <> Use.

(* ------------------------------------------------------------------ *)
(** * Locals *)
(** Does the variable that is called [x] around this code stand in it, as a target ([t]) or else as
    something used? [tail]: in what follows a block in the same scope. *)
Definition is_in (x : name) (xs : list name) : bool := existsb (zeqb_list x) xs.
Definition use_of (t : bool) (x y : name) : bool := negb t && zeqb_list x y.
Definition target (t : bool) (x y : name) : bool := t && zeqb_list x y.
Fixpoint on_ex (t : bool) (x : name) (e : ex) : bool :=
  match e with
  | XConst _ | XDots => false
  | XVar y => use_of t x y
  | XFun ps b => negb (is_in x (named ps)) && on_blk t x b false
  | XGroup e | XUn _ e | XMem e _ => on_ex t x e
  | XBin _ a b | XIdx a b => on_ex t x a || on_ex t x b
  | XCall f _ args | XMeth f _ _ args => on_ex t x f || on_exs t x args
  | XTab i => on_its t x i
  end
with on_exs (t : bool) (x : name) (es : exs) : bool := match es with XNil => false | XCons e es => on_ex t x e || on_exs t x es end
with on_tgts (t : bool) (x : name) (es : exs) : bool :=
  match es with XNil => false | XCons e es => match e with XVar y => target t x y | e => on_ex t x e end || on_tgts t x es end
with on_its (t : bool) (x : name) (i : its) : bool :=
  match i with
  | INil => false
  | IIdx k v _ i => on_ex t x k || on_ex t x v || on_its t x i
  | IMem _ v _ i | IItem v _ i => on_ex t x v || on_its t x i
  end
with on_st (t : bool) (x : name) (s : st) : bool :=
  match s with
  | SSemi | SBreak | SGoto _ | SLabel _ => false
  | SDo b => on_blk t x b false
  | SIf i => on_ifs t x i
  | SWhile c b | SWhileShort _ c b => on_ex t x c || on_blk t x b false
  | SRepeat b c => on_blk t x b (on_ex t x c)
  | SFor y a z step b => on_ex t x a || on_ex t x z || on_exs t x step || (negb (zeqb_list x y) && on_blk t x b false)
  | SForIn ys es b => on_exs t x es || (negb (is_in x ys) && on_blk t x b false)
  | SReturn es | SLocal _ es => on_exs t x es
  | SPrint es => use_of t x (str "print") || on_exs t x es
  | SLocalFun y ps b => negb (zeqb_list x y) && negb (is_in x (named ps)) && on_blk t x b false
  | SFun y path meth ps b =>
      (if plain_fun path meth then target t x y else use_of t x y) ||
      (negb (is_in x (self_of meth ++ named ps)) && on_blk t x b false)
  | SAssign ts es => on_tgts t x ts || on_exs t x es
  | SOp a _ e => match a with XVar y => target t x y | a => on_ex t x a end || on_ex t x e
  | SCall e => on_ex t x e
  end
with on_blk (t : bool) (x : name) (b : blk) (tail : bool) : bool :=
  match b with BNil => tail | BCons s b => on_st t x s || (negb (is_in x (brings s)) && on_blk t x b tail) end
with on_ifs (t : bool) (x : name) (i : ifs) : bool :=
  match i with ILong _ c b e | IShort _ c b e => on_ex t x c || on_blk t x b false || on_els t x e end
with on_els (t : bool) (x : name) (e : els) : bool :=
  match e with ENone => false | EElse b => on_blk t x b false | EElif i => on_ifs t x i end.

(** What should be said of a new local [x]: nothing if its name starts with "_" or if it is used;
    else that it is only assigned, if it is; else, unless this is a parameter that others follow, that it is not used.
    [on t x]: whether it stands, as a target or not, in the code where it can be seen. *)
Definition say_unused (on : bool -> name -> bool) (quiet : bool) (x : name) : list message :=
  if under x || on false x then [] else if on true x then [MLocalAssigned x] else if quiet then [] else [MLocalUnused x].
(** of several new locals; the last with a name hides the others.  [quiet]: how many at the front are not spoken of *)
Fixpoint say_all (on : bool -> name -> bool) (quiet : nat) (xs : list name) : list message :=
  match xs with
  | [] => []
  | x :: xs => say_unused (fun t x => negb (is_in x xs) && on t x) (Nat.ltb 0 quiet) x ++ say_all on (pred quiet) xs
  end.
(** of the parameters: all but the last, or all if the last is "..." *)
Definition all_but_last (ps : list (option name)) : nat :=
  match last ps None with Some _ => pred (length (named ps)) | None => length (named ps) end.
Definition body (b : blk) : bool -> name -> bool := fun t x => on_blk t x b false.
Definition none (_ : bool) (_ : name) : bool := false.

Fixpoint u_ex (e : ex) : list message :=
  match e with
  | XConst _ | XDots | XVar _ => []
  | XFun ps b => say_all (body b) (all_but_last ps) (named ps) ++ u_blk b none
  | XGroup e | XUn _ e | XMem e _ => u_ex e
  | XBin _ a b | XIdx a b => u_ex a ++ u_ex b
  | XCall f _ args | XMeth f _ _ args => u_ex f ++ u_exs args
  | XTab i => u_its i
  end
with u_exs (es : exs) : list message := match es with XNil => [] | XCons e es => u_ex e ++ u_exs es end
with u_its (i : its) : list message :=
  match i with
  | INil => []
  | IIdx k v _ i => u_ex k ++ u_ex v ++ u_its i
  | IMem _ v _ i | IItem v _ i => u_ex v ++ u_its i
  end
(** [rest]: the rest of the block *)
with u_st (s : st) (rest : bool -> name -> bool) : list message :=
  match s with
  | SSemi | SBreak | SGoto _ | SLabel _ => []
  | SDo b => u_blk b none
  | SIf i => u_ifs i
  | SWhile c b | SWhileShort _ c b => u_ex c ++ u_blk b none
  | SRepeat b c => u_blk b (fun t x => on_ex t x c) ++ u_ex c
  | SFor y a z step b => say_all (body b) 0 [y] ++ u_ex a ++ u_ex z ++ u_exs step ++ u_blk b none
  | SForIn ys es b => say_all (body b) 0 ys ++ u_exs es ++ u_blk b none
  | SReturn es | SPrint es => u_exs es
  | SLocal xs es => say_all rest 0 (map fst xs) ++ u_exs es
  | SLocalFun y ps b =>
      say_all (fun t x => (negb (is_in x (named ps)) && body b t x) || rest t x) 0 [y] ++
      say_all (body b) (all_but_last ps) (named ps) ++ u_blk b none
  | SFun y path meth ps b =>
      say_all (body b) (length (self_of meth) + all_but_last ps) (self_of meth ++ named ps) ++ u_blk b none
  | SAssign ts es => u_exs ts ++ u_exs es
  | SOp a _ e => u_ex a ++ u_ex e
  | SCall e => u_ex e
  end
with u_blk (b : blk) (tail : bool -> name -> bool) : list message :=
  match b with BNil => [] | BCons s b => u_st s (fun t x => on_blk t x b (tail t x)) ++ u_blk b tail end
with u_ifs (i : ifs) : list message :=
  match i with ILong _ c b e | IShort _ c b e => u_ex c ++ u_blk b none ++ u_els e end
with u_els (e : els) : list message :=
  match e with ENone => [] | EElse b => u_blk b none | EElif i => u_ifs i end.

(** the messages about locals that are not used, in the order of the text *)
Definition unused_locals (b : blk) : list message := u_blk b none.
Definition about_unused (m : message) : bool := match m with MLocalUnused _ | MLocalAssigned _ => true | _ => false end.

(* ------------------------------------------------------------------ *)
(** * Locals with the names of others *)
(** The new locals of a program that are picked, in the order of the text.  [pick sc xs]: those of the new locals [xs] that are, where
    the locals [sc] can be seen *)
Section New.
Context (pick : list name -> list name -> list name).
Fixpoint h_ex (sc : list name) (e : ex) {struct e} : list name :=
  match e with
  | XConst _ | XDots | XVar _ => []
  | XFun ps b => pick sc (named ps) ++ h_blk (named ps ++ sc) b
  | XGroup e | XUn _ e | XMem e _ => h_ex sc e
  | XBin _ x y | XIdx x y => h_ex sc x ++ h_ex sc y
  | XCall e _ args | XMeth e _ _ args => h_ex sc e ++ h_exs sc args
  | XTab i => h_its sc i
  end
with h_exs (sc : list name) (es : exs) {struct es} : list name :=
  match es with XNil => [] | XCons e es => h_ex sc e ++ h_exs sc es end
with h_its (sc : list name) (i : its) {struct i} : list name :=
  match i with
  | INil => []
  | IIdx x y _ i => h_ex sc x ++ h_ex sc y ++ h_its sc i
  | IMem _ v _ i | IItem v _ i => h_ex sc v ++ h_its sc i
  end
with h_st (sc : list name) (s : st) {struct s} : list name :=
  match s with
  | SSemi | SBreak | SGoto _ | SLabel _ => []
  | SDo b => h_blk sc b
  | SIf i => h_ifs sc i
  | SWhile c b | SWhileShort _ c b => h_ex sc c ++ h_blk sc b
  | SRepeat b c => h_blk sc b ++ h_ex (brought b ++ sc) c
  | SFor x e1 e2 step b => pick sc [x] ++ h_ex sc e1 ++ h_ex sc e2 ++ h_exs sc step ++ h_blk (x :: sc) b
  | SForIn xs es b => pick sc xs ++ h_exs sc es ++ h_blk (xs ++ sc) b
  | SReturn es | SPrint es => h_exs sc es
  | SLocal xs es => pick sc (map fst xs) ++ h_exs sc es
  | SLocalFun x ps b => pick sc [x] ++ pick (x :: sc) (named ps) ++ h_blk (named ps ++ x :: sc) b
  | SFun x path meth ps b => pick sc (self_of meth ++ named ps) ++ h_blk (self_of meth ++ named ps ++ sc) b
  | SAssign ts es => h_exs sc ts ++ h_exs sc es
  | SOp t _ e => h_ex sc t ++ h_ex sc e
  | SCall e => h_ex sc e
  end
with h_blk (sc : list name) (b : blk) {struct b} : list name :=
  match b with BNil => [] | BCons s b => h_st sc s ++ h_blk (brings s ++ sc) b end
with h_ifs (sc : list name) (i : ifs) {struct i} : list name :=
  match i with ILong _ c b e | IShort _ c b e => h_ex sc c ++ h_blk sc b ++ h_els sc e end
with h_els (sc : list name) (e : els) {struct e} : list name :=
  match e with ENone => [] | EElse b => h_blk sc b | EElif i => h_ifs sc i end.
End New.
(** The locals of a program that hide another of its locals, but for "_" and "_ENV" *)
Definition no_name (x : name) : bool := zeqb_list x (str "_") || zeqb_list x (str "_ENV").
Definition hiding (sc xs : list name) : list name := filter (fun x => is_in x sc && negb (no_name x)) xs.
Definition hiding_locals (b : blk) : list name := h_blk hiding [] b.
(** and those that do not *)
Definition fresh (sc xs : list name) : list name := filter (fun x => negb (is_in x sc) && negb (no_name x)) xs.
Definition fresh_locals (b : blk) : list name := h_blk fresh [] b.
Definition said_hiding (m : message) : list name := match m with MLocalDup _ n => [n] | _ => [] end.

(* ------------------------------------------------------------------ *)
(** * Labels *)
Fixpoint own_labels (b : blk) : list name :=
  match b with BNil => [] | BCons s b => match s with SLabel l => [l] | _ => [] end ++ own_labels b end.
(** Does a goto to the label [x] of the block around this code stand in it?  It may be in an inner block that has no label of this
    name, but not in a function. *)
Fixpoint to_st (x : name) (s : st) : bool :=
  match s with
  | SGoto y => zeqb_list x y
  | SDo b | SWhile _ b | SWhileShort _ _ b | SRepeat b _ | SFor _ _ _ _ b | SForIn _ _ b => negb (is_in x (own_labels b)) && to_blk x b
  | SIf i => to_ifs x i
  | _ => false
  end
with to_blk (x : name) (b : blk) : bool := match b with BNil => false | BCons s b => to_st x s || to_blk x b end
with to_ifs (x : name) (i : ifs) : bool :=
  match i with ILong _ _ b e | IShort _ _ b e => (negb (is_in x (own_labels b)) && to_blk x b) || to_els x e end
with to_els (x : name) (e : els) : bool :=
  match e with ENone => false | EElse b => negb (is_in x (own_labels b)) && to_blk x b | EElif i => to_ifs x i end.

(** The labels that no goto goes to, in the order of the text; but for those that start with "_".  [goes]: where the gotos of the block go *)
Fixpoint l_ex (e : ex) : list name :=
  match e with
  | XConst _ | XDots | XVar _ => []
  | XFun _ b => l_blk (fun x => to_blk x b) b
  | XGroup e | XUn _ e | XMem e _ => l_ex e
  | XBin _ x y | XIdx x y => l_ex x ++ l_ex y
  | XCall e _ args | XMeth e _ _ args => l_ex e ++ l_exs args
  | XTab i => l_its i
  end
with l_exs (es : exs) : list name := match es with XNil => [] | XCons e es => l_ex e ++ l_exs es end
with l_its (i : its) : list name :=
  match i with
  | INil => []
  | IIdx x y _ i => l_ex x ++ l_ex y ++ l_its i
  | IMem _ v _ i | IItem v _ i => l_ex v ++ l_its i
  end
with l_st (goes : name -> bool) (s : st) : list name :=
  match s with
  | SSemi | SBreak | SGoto _ => []
  | SLabel l => if under l || goes l then [] else [l]
  | SDo b => l_blk (fun x => to_blk x b) b
  | SIf i => l_ifs i
  | SWhile c b | SWhileShort _ c b => l_ex c ++ l_blk (fun x => to_blk x b) b
  | SRepeat b c => l_blk (fun x => to_blk x b) b ++ l_ex c
  | SFor _ e1 e2 step b => l_ex e1 ++ l_ex e2 ++ l_exs step ++ l_blk (fun x => to_blk x b) b
  | SForIn _ es b => l_exs es ++ l_blk (fun x => to_blk x b) b
  | SReturn es | SPrint es | SLocal _ es => l_exs es
  | SLocalFun _ _ b | SFun _ _ _ _ b => l_blk (fun x => to_blk x b) b
  | SAssign ts es => l_exs ts ++ l_exs es
  | SOp t _ e => l_ex t ++ l_ex e
  | SCall e => l_ex e
  end
with l_blk (goes : name -> bool) (b : blk) : list name :=
  match b with BNil => [] | BCons s b => l_st goes s ++ l_blk goes b end
with l_ifs (i : ifs) : list name :=
  match i with ILong _ c b e | IShort _ c b e => l_ex c ++ l_blk (fun x => to_blk x b) b ++ l_els e end
with l_els (e : els) : list name :=
  match e with ENone => [] | EElse b => l_blk (fun x => to_blk x b) b | EElif i => l_ifs i end.
Definition unused_labels (b : blk) : list name := l_blk (fun x => to_blk x b) b.
Definition said_label (m : message) : list name := match m with MLabelUnused n => [n] | _ => [] end.
