(** Model of constant folding on whole programs: [fold_consts], /repo/pico_constfold.py l.571-735,
    with [get_const] and [set_const] l.441-474, [erase_assign_targets] l.498-530 and the counting
    of assignments [mark_reassign], /repo/pico_parse.py l.862-865.

    Simplifications: there are no hints ("--[[const]]") and no constants given on the command
    line, so [is_const] is None everywhere; the names of the Picotron builtins that are locals are
    globals here; comments are left out; where folding an operator exceeds the recursion limit
    (C28) the model does not fold it. *)
From Coq Require Import String List ZArith Bool.
From Verif Require Import M_Base M_Fold M_Token M_Expr M_Stmt M_Branch.
Import ListNotations.

Definition one_of (x : list Z) (l : list string) : bool := existsb (fun s => zeqb_list x (asc s)) l.
(** [k_const_unary_ops], l.370-375 *)
Definition un_of (op : list Z) : option unop :=
  if one_of op ["-"]%string then Some UNeg else if one_of op ["~"]%string then Some UBnot
  else if one_of op ["not"]%string then Some UNot else if one_of op ["#"]%string then Some ULen else None.
(** [k_const_binary_ops], l.377-402 *)
Fixpoint op_in (op : list Z) (l : list (string * binop)) : option binop :=
  match l with [] => None | (s, o) :: l => if zeqb_list op (asc s) then Some o else op_in op l end.
Definition bin_of (op : list Z) : option binop :=
  op_in op [("or", BOr); ("and", BAnd); ("!=", BNe); ("~=", BNe); ("==", BEq); ("<", BLt); ("<=", BLe); (">", BGt); (">=", BGe);
    ("|", BBor); ("^^", BBxor); ("~", BBxor); ("&", BBand); ("<<", BShl); (">>", BShr); (">>>", BLshr); ("<<>", BRotl); (">><", BRotr);
    ("..", BCat); ("+", BAdd); ("-", BSub); ("*", BMul); ("/", BDiv); ("\", BIdiv); ("%", BMod)]%string.
(** [k_const_globals], l.404-420 *)
Fixpoint fun_in (x : list Z) (l : list (string * cfun)) : option cfun :=
  match l with [] => None | (s, o) :: l => if zeqb_list x (asc s) then Some o else fun_in x l end.
Definition fun_of (x : list Z) : option cfun :=
  fun_in x [("abs", FAbs); ("band", FBand); ("bnot", FBnot); ("bor", FBor); ("bxor", FBxor); ("ceil", FCeil); ("flr", FFlr); ("lshr", FLshr);
    ("max", FMax); ("mid", FMid); ("min", FMin); ("rotl", FRotl); ("rotr", FRotr); ("shl", FShl); ("shr", FShr)]%string.

(* ------------------------------------------------------------------ *)
(** * Which variables are assigned *)
(** [var.reassigned] > 0, pico_parse.py l.862-865 with l.503, l.878, l.887: the variable that is
    called [x] around this code is a target in it.  [tail]: it is one in what follows a block in the same scope
    (the condition of a repeat). *)
Definition has (x : list Z) (xs : list (list Z)) : bool := existsb (zeqb_list x) xs.
Definition pnames (ps : list (option (list Z))) : list (list Z) :=
  flat_map (fun p => match p with Some x => [x] | None => [] end) ps.
Definition is_var (x : list Z) (e : ex) : bool := match e with XVar y => zeqb_list x y | _ => false end.
Definition self_of (meth : option (list Z)) : list (option (list Z)) := match meth with Some _ => [Some (asc "self")] | None => [] end.
Definition keys_of (path : list (list Z)) (meth : option (list Z)) : list (list Z) := path ++ match meth with Some k => [k] | None => [] end.

Section Sets.
Context (x : list Z).
Fixpoint sets_ex (e : ex) : bool :=
  match e with
  | XConst _ | XDots | XVar _ => false
  | XFun ps b => if has x (pnames ps) then false else sets_blk b false
  | XGroup e | XUn _ e | XMem e _ => sets_ex e
  | XBin _ a b | XIdx a b => sets_ex a || sets_ex b
  | XCall f _ args | XMeth f _ _ args => sets_ex f || sets_exs args
  | XTab i => sets_its i
  end
with sets_exs (es : exs) : bool := match es with XNil => false | XCons e es => sets_ex e || sets_exs es end
with sets_tgts (es : exs) : bool := match es with XNil => false | XCons e es => is_var x e || sets_ex e || sets_tgts es end
with sets_its (i : its) : bool :=
  match i with
  | INil => false
  | IIdx k v _ i => sets_ex k || sets_ex v || sets_its i
  | IMem _ v _ i | IItem v _ i => sets_ex v || sets_its i
  end
with sets_st (s : st) : bool :=
  match s with
  | SSemi | SBreak | SGoto _ | SLabel _ => false
  | SDo b => sets_blk b false
  | SIf i => sets_ifs i
  | SWhile c b | SWhileShort _ c b => sets_ex c || sets_blk b false
  | SRepeat b c => sets_blk b (sets_ex c)
  | SFor y a z step b => sets_ex a || sets_ex z || sets_exs step || (if zeqb_list x y then false else sets_blk b false)
  | SForIn ys es b => sets_exs es || (if has x ys then false else sets_blk b false)
  | SReturn es | SLocal _ es | SPrint es => sets_exs es
  | SLocalFun y ps b => if zeqb_list x y then false else if has x (pnames ps) then false else sets_blk b false
  | SFun y path meth ps b =>
      (match keys_of path meth with [] => zeqb_list x y | _ => false end) ||
      (if has x (pnames (self_of meth ++ ps)) then false else sets_blk b false)
  | SAssign ts es => sets_tgts ts || sets_exs es
  | SOp t _ e => is_var x t || sets_ex t || sets_ex e
  | SCall e => sets_ex e
  end
with sets_blk (b : blk) (tail : bool) : bool :=
  match b with
  | BNil => tail
  | BCons (SLocal ys es) b => sets_exs es || (if has x (map fst ys) then false else sets_blk b tail)
  | BCons (SLocalFun y ps f) b => if zeqb_list x y then false else (if has x (pnames ps) then false else sets_blk f false) || sets_blk b tail
  | BCons s b => sets_st s || sets_blk b tail
  end
with sets_ifs (i : ifs) : bool :=
  match i with ILong _ c b e | IShort _ c b e => sets_ex c || sets_blk b false || sets_els e end
with sets_els (e : els) : bool :=
  match e with ENone => false | EElse b => sets_blk b false | EElif i => sets_ifs i end.
End Sets.

(* ------------------------------------------------------------------ *)
(** * Erasing constant locals *)
(** [is_vararg_expr], pico_parse.py l.1083-1084 *)
Definition many (e : ex) : bool := match e with XCall _ _ _ | XMeth _ _ _ _ | XDots => true | _ => false end.
Fixpoint last_many (es : exs) : bool :=
  match es with XNil => false | XCons e XNil => many e | XCons _ es => last_many es end.
Fixpoint len_exs (es : exs) : nat := match es with XNil => O | XCons _ es => S (len_exs es) end.
(** The indices of l.498-500: if nothing would be left before the values that have no variable,
    the last variable stays *)
Fixpoint all_some {A} (l : list (option A)) : bool := match l with [] => true | Some _ :: l => all_some l | None :: _ => false end.
Definition erased (short : bool) (cs : list (option lval)) : list bool :=
  let fl := map (fun c => match c with Some _ => true | None => false end) cs in
  if short && all_some cs then removelast fl ++ [false] else fl.
(** l.517-520: what is not erased *)
Fixpoint kept {A} (fl : list bool) (l : list A) : list A :=
  match fl, l with f :: fl, a :: l => if f then kept fl l else a :: kept fl l | _, _ => l end.
Fixpoint kept_exs (fl : list bool) (es : exs) : exs :=
  match fl, es with f :: fl, XCons e es => if f then kept_exs fl es else XCons e (kept_exs fl es) | _, _ => es end.

(** What becomes of a statement: another statement, a block that takes its place
    ([create_do_node_if_needed]), or nothing. *)
Inductive becomes := Stmt (s : st) | Block (b : blk) | Gone.
Definition put (o : becomes) (rest : blk) : blk :=
  match o with Stmt s => BCons s rest | Block b => app_blk (in_place b) rest | Gone => rest end.

(** The locals that can be seen, the latest first, with their values if they are constants. *)
Definition scope : Type := list (list Z * option lval).
Fixpoint look (x : list Z) (sc : scope) : option (option lval) :=
  match sc with [] => None | (y, c) :: sc => if zeqb_list y x then Some c else look x sc end.
Definition plain (xs : list (list Z)) (sc : scope) : scope := rev (map (fun x => (x, None)) xs) ++ sc.

(** the target of a function statement as an expression *)
Fixpoint members (e : ex) (keys : list (list Z)) : ex := match keys with [] => e | k :: keys => members (XMem e k) keys end.

Section Const.
Context (lang : language).
Context (value : tok -> option lval).                 (* [const_from_token], l.422-439 *)
Context (token : lval -> tok).                        (* the token [set_const] makes, l.453-463 *)
Context (chars : bool).                               (* focus on characters *)
Context (longer : lval -> ex -> bool).                (* the test of l.465-468, then; any test is allowed *)
Context (calls : bool).                               (* "not root.has_env or not safe_builtins", l.630 *)
Context (assigned : list Z -> bool).                  (* of the globals *)

(** An expression and the constant it is known to be ([get_const]) *)
Definition known_ex : Type := (ex * option lval)%type.
(** [set_const], l.452-474 *)
Definition set_const (e : ex) (v : lval) : known_ex := if chars && longer v e then (e, Some v) else (XConst (token v), Some v).
Definition fold_to (e : ex) (r : res (option lval)) : known_ex :=
  match r with Ok (Some v) => set_const e v | _ => (e, None) end.
Fixpoint all_known (l : list (option lval)) : option (list lval) :=
  match l with
  | [] => Some []
  | Some v :: l => match all_known l with Some vs => Some (v :: vs) | None => None end
  | None :: _ => None
  end.
(** l.588-596 *)
Definition fold_un (op : list Z) (e : known_ex) : known_ex :=
  match un_of op, snd e with
  | Some o, Some v => fold_to (XUn op (fst e)) (const_unary lang o v)
  | _, _ => (XUn op (fst e), None)
  end.
(** l.598-617 *)
Definition fold_bin (op : list Z) (l r : known_ex) : known_ex :=
  let e := XBin op (fst l) (fst r) in
  match bin_of op, snd l with
  | Some o, Some a =>
      match snd r with
      | Some b => fold_to e (const_binary o a b)
      | None =>
          match o with
          | BAnd => if is_truthy a then (fst r, None) else set_const e a
          | BOr => if is_truthy a then set_const e a else (fst r, None)
          | _ => (e, None)
          end
      end
  | _, _ => (e, None)
  end.
(** l.628-642 *)
Definition fold_call (sc : scope) (f : ex) (short : bool) (args : exs) (cs : list (option lval)) (f' : ex) : known_ex :=
  let e := XCall f' short args in
  match f with
  | XVar x =>
      match look x sc, look (asc "_ENV") sc, fun_of x, all_known cs with
      | None, None, Some o, Some vs => if negb (assigned x) && calls then fold_to e (const_call lang o vs) else (e, None)
      | _, _, _, _ => (e, None)
      end
  | _ => (e, None)
  end.
(** l.619-621 *)
Definition fold_var (sc : scope) (x : list Z) : known_ex :=
  match look x sc with Some (Some v) => set_const (XVar x) v | _ => (XVar x, None) end.

(** l.686-719: the constants among new locals; [ends]: the last value may be several.  Strings, and all
    constants when focusing on characters, are not wanted (l.713-714). *)
Definition wanted (c : option lval) : option lval :=
  match c with Some (VStr _) => None | Some v => if chars then None else Some v | None => None end.
Fixpoint local_consts (xs : list (list Z)) (cs : list (option lval)) (ends : bool) (set : list Z -> bool) : list (option lval) :=
  match xs with
  | [] => []
  | x :: xs =>
      (if negb (has x xs) && set x then None
       else wanted (match cs with c :: _ => c | [] => if ends then None else Some VNil end))
      :: local_consts xs (tl cs) ends set
  end.
(** [erase_assign_targets], l.498-530, on a local *)
Definition fold_local (xs : list (list Z * option (list Z))) (es : exs) (cs : list (option lval)) : becomes :=
  let fl := erased (Nat.ltb (length xs) (len_exs es)) cs in
  match kept fl xs, kept_exs fl es with
  | [], XNil => Gone
  | xs, es => Stmt (SLocal xs es)
  end.
Definition locals (xs : list (list Z)) (cs : list (option lval)) (sc : scope) : scope := rev (combine xs cs) ++ sc.

(** [branch_of] in M_Branch, with the condition's constant *)
Definition resolve (i : ifs) (c : option lval) (b : blk) (e : els) : branch :=
  branch_of (fun _ => option_map is_truthy c) i (XConst TErr) b e.

(** [update_node_constval] and [visit_assign], in post-order, l.585-735.  In a block [tail] says
    which variables are assigned behind it in the same scope. *)
Fixpoint c_ex (sc : scope) (e : ex) : known_ex :=
  match e with
  | XConst t => (e, value t)
  | XDots => (e, None)
  | XVar x => fold_var sc x
  | XFun ps b => (XFun ps (fst (c_blk (plain (pnames ps) sc) b (fun _ => false))), None)
  | XGroup e => let e' := c_ex sc e in (XGroup (fst e'), snd e')
  | XUn op e => fold_un op (c_ex sc e)
  | XBin op l r => fold_bin op (c_ex sc l) (c_ex sc r)
  | XMem e key => (XMem (fst (c_ex sc e)) key, None)
  | XIdx e k => (XIdx (fst (c_ex sc e)) (fst (c_ex sc k)), None)
  | XCall f short args => let a := c_exs sc args in fold_call sc f short (fst a) (snd a) (fst (c_ex sc f))
  | XMeth e key short args => (XMeth (fst (c_ex sc e)) key short (fst (c_exs sc args)), None)
  | XTab i => (XTab (c_its sc i), None)
  end
with c_exs (sc : scope) (es : exs) : exs * list (option lval) :=
  match es with
  | XNil => (XNil, [])
  | XCons e es => (XCons (fst (c_ex sc e)) (fst (c_exs sc es)), snd (c_ex sc e) :: snd (c_exs sc es))
  end
(** targets; a variable that is one is no use of its value (l.619) *)
with c_tgts (sc : scope) (es : exs) : exs :=
  match es with XNil => XNil | XCons e es => XCons (match e with XVar x => XVar x | e => fst (c_ex sc e) end) (c_tgts sc es) end
with c_its (sc : scope) (i : its) : its :=
  match i with
  | INil => INil
  | IIdx k v sep i => IIdx (fst (c_ex sc k)) (fst (c_ex sc v)) sep (c_its sc i)
  | IMem key v sep i => IMem key (fst (c_ex sc v)) sep (c_its sc i)
  | IItem e sep i => IItem (fst (c_ex sc e)) sep (c_its sc i)
  end
(** Statements that bring no locals *)
with c_st (sc : scope) (s : st) : becomes :=
  match s with
  | SSemi | SBreak | SGoto _ | SLabel _ => Stmt s
  | SDo b => Stmt (SDo (fst (c_blk sc b (fun _ => false))))
  | SIf i => match c_ifs sc i with Keep i => Stmt (SIf i) | Take b => Block b | Drop => Gone end
  | SWhile c b => Stmt (SWhile (fst (c_ex sc c)) (fst (c_blk sc b (fun _ => false))))
  | SWhileShort n c b => Stmt (SWhileShort n (fst (c_ex sc c)) (fst (c_blk sc b (fun _ => false))))
  | SRepeat b c => let b' := c_blk sc b (fun x => sets_ex x c) in Stmt (SRepeat (fst b') (fst (c_ex (snd b') c)))
  | SFor x a z step b =>
      Stmt (SFor x (fst (c_ex sc a)) (fst (c_ex sc z)) (fst (c_exs sc step)) (fst (c_blk (plain [x] sc) b (fun _ => false))))
  | SForIn xs es b => Stmt (SForIn xs (fst (c_exs sc es)) (fst (c_blk (plain xs sc) b (fun _ => false))))
  | SReturn es => Stmt (SReturn (fst (c_exs sc es)))
  | SLocal xs es => Stmt (SLocal xs (fst (c_exs sc es)))                 (* see [c_blk] *)
  | SLocalFun x ps b => Stmt (SLocalFun x ps (fst (c_blk (plain (pnames ps) (plain [x] sc)) b (fun _ => false))))
  | SFun x path meth ps b =>
      let b' := fst (c_blk (plain (pnames (self_of meth ++ ps)) sc) b (fun _ => false)) in
      match look x sc, keys_of path meth with
      (* the code writes the constant before the keys; trees have no such statement: it is
         the assignment of the function *)
      | Some (Some v), k :: keys =>
          Stmt (SAssign (XCons (members (fst (set_const (XVar x) v)) (k :: keys)) XNil) (XCons (XFun (self_of meth ++ ps) b') XNil))
      | _, _ => Stmt (SFun x path meth ps b')
      end
  | SAssign ts es => Stmt (SAssign (c_tgts sc ts) (fst (c_exs sc es)))
  | SOp t op e => Stmt (SOp (match t with XVar x => XVar x | t => fst (c_ex sc t) end) op (fst (c_ex sc e)))
  | SPrint es => Stmt (SPrint (fst (c_exs sc es)))
  | SCall e => Stmt (SCall (fst (c_ex sc e)))
  end
(** A block, and the locals behind it *)
with c_blk (sc : scope) (b : blk) (tail : list Z -> bool) : blk * scope :=
  match b with
  | BNil => (BNil, sc)
  | BCons (SLocal xs es) b =>
      let es' := c_exs sc es in
      let cs := local_consts (map fst xs) (snd es') (last_many (fst es')) (fun x => sets_blk x b (tail x)) in
      let b' := c_blk (locals (map fst xs) cs sc) b tail in
      (put (fold_local xs (fst es') cs) (fst b'), snd b')
  | BCons (SLocalFun x ps f) b =>
      let b' := c_blk (plain [x] sc) b tail in
      (BCons (SLocalFun x ps (fst (c_blk (plain (pnames ps) (plain [x] sc)) f (fun _ => false)))) (fst b'), snd b')
  | BCons s b =>
      let b' := c_blk sc b tail in (put (c_st sc s) (fst b'), snd b')
  end
with c_ifs (sc : scope) (i : ifs) : branch :=
  match i with
  | ILong w c b e =>
      let c' := c_ex sc c in let b' := fst (c_blk sc b (fun _ => false)) in let e' := c_els sc e in
      resolve (ILong w (fst c') b' e') (snd c') b' e'
  | IShort n c b e =>
      let c' := c_ex sc c in let b' := fst (c_blk sc b (fun _ => false)) in let e' := c_els sc e in
      resolve (IShort n (fst c') b' e') (snd c') b' e'
  end
with c_els (sc : scope) (e : els) : els :=
  match e with
  | ENone => ENone
  | EElse b => EElse (fst (c_blk sc b (fun _ => false)))
  | EElif i => match c_ifs sc i with Keep i => EElif i | Take b => EElse b | Drop => ENone end
  end.
End Const.

(** [fold_consts], l.571-735: of the whole program *)
Definition fold_consts (lang : language) (value : tok -> option lval) (token : lval -> tok) (chars : bool) (longer : lval -> ex -> bool) (calls : bool) (b : blk) : blk :=
  fst (c_blk lang value token chars longer calls (fun x => sets_blk x b false) [] b (fun _ => false)).
