(** Model of the linter: [lint_code], /repo/pico_lint.py l.6-154, on the trees of M_Stmt, with the
    scopes the parser gives it (/repo/pico_parse.py: [Scope] l.50-92, [LabelScope] l.94-126, [parse_var] l.372-455, [parse_function]
    l.457-538, [parse_for] l.772-818, [parse_local] l.844-860, [parse_block] l.970-1003, [parse_print] l.833-842).

    Simplifications: there are no compiler switches, no sublanguages and no function kinds given by
    hints; a message is given without its place in the file, and they come in the order of the
    text (the code's own traversal has "print" behind the arguments of "?"); two labels with the
    same name in one block, an error in Lua, are taken as one, as in M_Rename. *)
From Coq Require Import String List ZArith Bool.
From Verif Require Import M_Base M_Fold M_Token M_Expr M_Stmt M_Rename.
Import ListNotations.
Open Scope Z_scope.

(** [Local] with the [depth] and [funcdepth] of its [Scope].  It is known by the number of its declaration and its
    place there; 0 is the outermost scope, with "_ENV" and the builtins that are locals. *)
Record local := Local { lid : nat * nat; ldepth : Z; lfdepth : Z }.
(** [Label] with the [funcdepth] of its [LabelScope] *)
Record label := Label { bid : nat * nat; bfdepth : Z }.
(** [LabelScope]: number, funcdepth, names *)
Record lscope := LScope { s_num : nat; s_fdepth : Z; s_names : list name }.

(** How a variable stands there: [is_assign_target], [is_function_target], [is_op_assign_target], pico_parse.py l.1066-1073 *)
Inductive how := Use | Assign | FunAssign | OpAssign.
(** [node.find_parent(NodeType.function)] as l.48-52 look at it: there is none; it is the outermost function
    "_init"; another *)
Inductive inside := NoFun | InInit | InFun.
Definition init_name : name := str "_init".

(** The nodes of type var, but for members *)
Inductive vnode :=
| NNew (n : name) (v : local) (prev : option local) (quiet : bool)  (* a new local; [node.scope.parent.find]; l.109-110 *)
| NLocal (n : name) (v : local) (h : how) (f : inside)              (* another name of a local *)
| NGlobal (n : name) (root : bool) (h : how) (f : inside)           (* root: "_ENV" is the real one, l.1075-1077 *)
| NLabel (n : name) (v : label) (prev : option label)
| NGoto (n : name) (v : option label).

(** [Scope.find] *)
Fixpoint lookup (env : list (name * local)) (n : name) : option local :=
  match env with [] => None | (x, v) :: env => if zeqb_list x n then Some v else lookup env n end.
(** [LabelScope.find], /repo/pico_parse.py l.106-111: [crossfunc] is not passed on *)
Fixpoint lookup_label (ls : list lscope) (n : name) (crossfunc : bool) : option label :=
  match ls with
  | [] => None
  | s :: up =>
      match index_of n (s_names s) with
      | Some i => Some (Label (s_num s, i) (s_fdepth s))
      | None =>
          match up with
          | s' :: _ => if crossfunc || (s_fdepth s' =? s_fdepth s) then lookup_label up n false else None
          | [] => None
          end
      end
  end.

(** Where the parser is *)
Record at_ := At { env : list (name * local); labs : list lscope; depth : Z; fdepth : Z; fn : inside }.
Definition numbers : Type := (nat * nat)%type.             (* the next declaration and the next block *)
Definition with_env (a : at_) (e : list (name * local)) : at_ := At e (labs a) (depth a) (fdepth a) (fn a).

(** the locals of a new scope *)
Definition locals_of (num : nat) (d fd : Z) (ns : list name) : list (name * local) :=
  map (fun '(n, v) => (n, Local v d fd)) (places num 0 ns).
Definition new_nodes (up : list (name * local)) (quiet : nat -> bool) (ls : list (name * local)) : list vnode :=
  map (fun '(n, v) => NNew n v (lookup up n) (quiet (snd (lid v)))) ls.
Definition loud (_ : nat) : bool := false.
Definition param_names (ps : list (option name)) : list name :=
  flat_map (fun p => match p with Some x => [x] | None => [] end) ps.
(** l.109-110: all parameters but the last, and it too if it is "..." or the self of a method *)
Definition quiet_param (implicit : bool) (ps : list (option name)) (i : nat) : bool :=
  (implicit && Nat.eqb i 0) || negb (match last ps None with Some _ => Nat.eqb (S i) (length (param_names ps) + if implicit then 1 else 0) | None => false end).

(** [parse_var] on a name that is not new *)
Definition var (a : at_) (h : how) (n : name) : list vnode :=
  match lookup (env a) n with
  | Some v => [NLocal n v h (fn a)]
  | None =>
      let e := lookup (env a) env_name in
      NGlobal n (match e with Some v => lfdepth v <? 0 | None => false end) h (fn a)
      :: match e with Some v => [NLocal env_name v Use (fn a)] | None => [] end
  end.

(** [parse_block]: a new label scope; it knows all labels of the block before they are looked up *)
Fixpoint labels_in (b : blk) : list name :=
  match b with BNil => [] | BCons (SLabel l) b => l :: labels_in b | BCons _ b => labels_in b end.
Definition enter (a : at_) (k : numbers) (b : blk) : at_ :=
  At (env a) (LScope (snd k) (fdepth a) (labels_in b) :: labs a) (depth a + 1) (fdepth a) (fn a).
Definition next_block (k : numbers) : numbers := (fst k, S (snd k)).
Definition next_decl (k : numbers) : numbers := (S (fst k), snd k).

(** [parse_function]: the body, but for its block *)
Definition enter_fun (a : at_) (k : numbers) (fname : option name) (ps : list name) : at_ :=
  At (rev (locals_of (fst k) (depth a + 1) (fdepth a + 1) ps) ++ env a) (labs a) (depth a) (fdepth a + 1)
     (match fn a, fname with NoFun, Some x => if zeqb_list x init_name then InInit else InFun | _, _ => InFun end).
Definition fun_params (a : at_) (k : numbers) (implicit : bool) (ps : list (option name)) : list vnode :=
  new_nodes (env a) (quiet_param implicit ps)
    (locals_of (fst k) (depth a + 1) (fdepth a + 1) ((if implicit then [self_name] else []) ++ param_names ps)).
Definition self_params (implicit : bool) (ps : list (option name)) : list name :=
  (if implicit then [self_name] else []) ++ param_names ps.

Definition app_nodes (x : list vnode * numbers) (f : numbers -> list vnode * numbers) : list vnode * numbers :=
  let (n1, k) := x in let (n2, k) := f k in (n1 ++ n2, k).
Definition is_some {A} (o : option A) : bool := match o with Some _ => true | None => false end.

(** The nodes of a piece of a program *)
Fixpoint w_ex (a : at_) (k : numbers) (e : ex) {struct e} : list vnode * numbers :=
  match e with
  | XConst _ | XDots => ([], k)
  | XVar x => (var a Use x, k)
  | XFun ps b =>
      let a' := enter_fun a k None (param_names ps) in
      let r := w_blk (enter a' k b) (next_block (next_decl k)) b in (fun_params a k false ps ++ fst (fst r), snd (fst r))
  | XGroup e | XUn _ e | XMem e _ => w_ex a k e
  | XBin _ x y | XIdx x y => app_nodes (w_ex a k x) (fun k => w_ex a k y)
  | XCall f _ args | XMeth f _ _ args => app_nodes (w_ex a k f) (fun k => w_exs a k args)
  | XTab i => w_its a k i
  end
with w_exs (a : at_) (k : numbers) (es : exs) {struct es} : list vnode * numbers :=
  match es with XNil => ([], k) | XCons e es => app_nodes (w_ex a k e) (fun k => w_exs a k es) end
(** the targets of an assignment *)
with w_tgts (a : at_) (k : numbers) (es : exs) {struct es} : list vnode * numbers :=
  match es with
  | XNil => ([], k)
  | XCons e es => app_nodes (match e with XVar x => (var a Assign x, k) | e => w_ex a k e end) (fun k => w_tgts a k es)
  end
with w_its (a : at_) (k : numbers) (i : its) {struct i} : list vnode * numbers :=
  match i with
  | INil => ([], k)
  | IIdx x y _ i => app_nodes (w_ex a k x) (fun k => app_nodes (w_ex a k y) (fun k => w_its a k i))
  | IMem _ v _ i | IItem v _ i => app_nodes (w_ex a k v) (fun k => w_its a k i)
  end
(** a statement, and the locals behind it *)
with w_st (a : at_) (k : numbers) (s : st) {struct s} : list vnode * numbers * list (name * local) :=
  match s with
  | SSemi | SBreak => ([], k, env a)
  | SDo b => (fst (w_blk (enter a k b) (next_block k) b), env a)
  | SIf i => (w_ifs a k i, env a)
  | SWhile c b | SWhileShort _ c b =>
      (app_nodes (w_ex a k c) (fun k => fst (w_blk (enter a k b) (next_block k) b)), env a)
  | SRepeat b c =>
      let a' := enter a k b in
      let r := w_blk a' (next_block k) b in
      (app_nodes (fst r) (fun k => w_ex (with_env a' (snd r)) k c), env a)
  | SFor x e1 e2 step b =>
      let new := locals_of (fst k) (depth a + 1) (fdepth a) [x] in
      (app_nodes (new_nodes (env a) loud new, next_decl k) (fun k =>
       app_nodes (w_ex a k e1) (fun k => app_nodes (w_ex a k e2) (fun k => app_nodes (w_exs a k step) (fun k =>
       fst (w_blk (enter (with_env a (rev new ++ env a)) k b) (next_block k) b))))), env a)
  | SForIn xs es b =>
      let new := locals_of (fst k) (depth a + 1) (fdepth a) xs in
      (app_nodes (new_nodes (env a) loud new, next_decl k) (fun k => app_nodes (w_exs a k es) (fun k =>
       fst (w_blk (enter (with_env a (rev new ++ env a)) k b) (next_block k) b))), env a)
  | SReturn es => (w_exs a k es, env a)
  | SLocal xs es =>
      let new := locals_of (fst k) (depth a) (fdepth a) (map fst xs) in
      (app_nodes (new_nodes (env a) loud new, next_decl k) (fun k => w_exs a k es), rev new ++ env a)
  | SLocalFun x ps b =>
      let new := locals_of (fst k) (depth a) (fdepth a) [x] in
      let a1 := with_env a (rev new ++ env a) in
      let k1 := next_decl k in
      let a2 := enter_fun a1 k1 (Some x) (param_names ps) in
      let r := w_blk (enter a2 k1 b) (next_block (next_decl k1)) b in
      (new_nodes (env a) loud new ++ fun_params a1 k1 false ps ++ fst (fst r), snd (fst r), rev new ++ env a)
  | SFun x path meth ps b =>
      let plain := match path, meth with [], None => true | _, _ => false end in
      let a' := enter_fun a k (if plain then Some x else None) (self_params (is_some meth) ps) in
      let r := w_blk (enter a' k b) (next_block (next_decl k)) b in
      (var a (if plain then FunAssign else Use) x ++ fun_params a k (is_some meth) ps ++ fst (fst r), snd (fst r), env a)
  | SGoto l => ([NGoto l (lookup_label (labs a) l false)], k, env a)
  | SLabel l =>
      (match lookup_label (labs a) l false with Some v => [NLabel l v (lookup_label (tl (labs a)) l true)] | None => [] end, k, env a)
  | SAssign ts es => (app_nodes (w_tgts a k ts) (fun k => w_exs a k es), env a)
  | SOp t _ e => (app_nodes (match t with XVar x => (var a OpAssign x, k) | t => w_ex a k t end) (fun k => w_ex a k e), env a)
  | SPrint es => (app_nodes (var a Use print_name, k) (fun k => w_exs a k es), env a)
  | SCall e => (w_ex a k e, env a)
  end
with w_blk (a : at_) (k : numbers) (b : blk) {struct b} : list vnode * numbers * list (name * local) :=
  match b with
  | BNil => ([], k, env a)
  | BCons s b =>
      let r := w_st a k s in
      let r' := w_blk (with_env a (snd r)) (snd (fst r)) b in (fst (fst r) ++ fst (fst r'), snd (fst r'), snd r')
  end
with w_ifs (a : at_) (k : numbers) (i : ifs) {struct i} : list vnode * numbers :=
  match i with
  | ILong _ c b e | IShort _ c b e =>
      app_nodes (w_ex a k c) (fun k => app_nodes (fst (w_blk (enter a k b) (next_block k) b)) (fun k => w_els a k e))
  end
with w_els (a : at_) (k : numbers) (e : els) {struct e} : list vnode * numbers :=
  match e with
  | ENone => ([], k)
  | EElse b => fst (w_blk (enter a k b) (next_block k) b)
  | EElif i => w_ifs a k i
  end.

(** [parse], l.302-327: around the program *)
Definition outermost (builtins : list name) : at_ :=
  At (rev (locals_of 0 (-1) (-1) (env_name :: builtins))) [LScope 0 (-1) []] (-1) 0 NoFun.
Definition nodes (builtins : list name) (b : blk) : list vnode :=
  fst (fst (w_blk (enter (outermost builtins) (1, 0)%nat b) (1, 1)%nat b)).

(* ------------------------------------------------------------------ *)
(** * The linter *)
Record lint_opts := {
  o_undefined : bool; o_unused : bool; o_unused_global : bool; o_duplicate : bool; o_duplicate_global : bool;
  o_globals : list name;         (* "globals" and the names in "--lint:" comments, l.17, l.33-36 *)
  o_used : list name             (* "used::" in comments, l.37-38 *)
}.
Definition no_lint_opts : lint_opts := {| o_undefined := true; o_unused := true; o_unused_global := true; o_duplicate := true;
  o_duplicate_global := true; o_globals := []; o_used := [] |}.

Inductive where_ := SameScope | ParentScope | ParentFun | TopLevel.
Inductive message :=
| MNotFound (h : how) (n : name)         (* "Identifier .. not found", with its "did you mean" *)
| MBuiltinAssigned (h : how) (n : name)  (* "Built-in global .. assigned outside _init" *)
| MGlobalUnused (n : name)               (* "Global .. isn't used" *)
| MGlobalAssigned (n : name)             (* "Global .. is only ever assigned to, never used" *)
| MLocalUnused (n : name)
| MLocalAssigned (n : name)
| MLabelUnused (n : name)
| MLocalDup (w : where_) (n : name)      (* "Local .. has the same name as a local declared in .." *)
| MLocalGlobal (n : name)                (* "Local .. has the same name as a global" *)
| MLocalBuiltin (n : name)               (* ".. a built-in global used elsewhere in the cart" *)
| MLabelDup (w : where_) (n : name).

Definition same_id (a b : nat * nat) : bool := Nat.eqb (fst a) (fst b) && Nat.eqb (snd a) (snd b).
Definition id_in (v : nat * nat) (l : list (nat * nat)) : bool := existsb (same_id v) l.
(** [var.builtin]: of the outermost scope, but not "_ENV" *)
Definition builtin_local (v : local) : bool := Nat.eqb (fst (lid v)) 0 && negb (Nat.eqb (snd (lid v)) 0).
(** [is_root_global_or_builtin_local], l.1075-1081 *)
Definition root_name (d : vnode) : option (name * how * inside) :=
  match d with
  | NGlobal n true h f => Some (n, h, f)
  | NLocal n v h f => if builtin_local v then Some (n, h, f) else None
  | _ => None
  end.
Definition any_target (h : how) : bool := match h with Use => false | _ => true end.
Definition not_inside (f : inside) : bool := match f with InFun => false | _ => true end.
Definition under (n : name) : bool := match n with c :: _ => c =? 95 | [] => false end.   (* startswith "_" *)

Section Lint.
Context (o : lint_opts) (builtins : list name) (ds : list vnode).

(** [preprocess_vars], l.40-76 *)
Definition custom_globals : list name :=
  o_globals o ++ flat_map (fun d => match root_name d with
    | Some (n, (Assign | FunAssign), f) => if not_inside f then [n] else []
    | _ => [] end) ds.
Definition assigned_globals : list name :=
  flat_map (fun d => match root_name d with Some (n, h, _) => if any_target h then [n] else [] | None => [] end) ds.
Definition used_globals : list name :=
  o_used o ++ flat_map (fun d => match root_name d with Some (n, h, _) => if any_target h then [] else [n] | None => [] end) ds.
Definition assigned_locals : list (nat * nat) :=
  flat_map (fun d => match d with NLocal _ v h _ => if any_target h then [lid v] else [] | _ => [] end) ds.
Definition used_locals : list (nat * nat) :=
  flat_map (fun d => match d with NLocal _ v h _ => if any_target h then [] else [lid v] | _ => [] end) ds.
Definition used_labels : list (nat * nat) :=
  flat_map (fun d => match d with NGoto _ (Some v) => [bid v] | _ => [] end) ds.

(** l.84-102 *)
Definition duplicate_local (n : name) (v : local) (prev : option local) : list message :=
  if o_duplicate o && negb (zeqb_list n (str "_") || zeqb_list n env_name) then
    match prev with
    | Some p =>
        if builtin_local p then
          if o_duplicate_global o then
            if mem n custom_globals then [MLocalGlobal n]
            else if mem n used_globals || mem n assigned_globals then [MLocalBuiltin n] else []
          else []
        else if lfdepth p <? lfdepth v then
          if lfdepth p <? 0 then [] else if lfdepth p =? 0 then [MLocalDup TopLevel n] else [MLocalDup ParentFun n]
        else if ldepth p <? ldepth v then [MLocalDup ParentScope n]
        else [MLocalDup SameScope n]
    | None =>
        if o_duplicate_global o then
          if mem n custom_globals then [MLocalGlobal n]
          else if mem n used_globals || mem n assigned_globals then [MLocalBuiltin n] else []
        else []
    end
  else [].
(** l.104-110 *)
Definition unused_local (n : name) (v : local) (quiet : bool) : list message :=
  if o_unused o && negb (id_in (lid v) used_locals) && negb (under n) then
    if id_in (lid v) assigned_locals then [MLocalAssigned n]
    else if quiet then [] else [MLocalUnused n]
  else [].
(** l.113-126 *)
Definition lint_label (n : name) (v : label) (prev : option label) : list message :=
  (if o_duplicate o && negb (zeqb_list n (str "_")) then
     match prev with
     | Some p => if bfdepth p <? bfdepth v then if bfdepth p <=? 0 then [MLabelDup TopLevel n] else [MLabelDup ParentFun n]
                 else [MLabelDup ParentScope n]
     | None => []
     end
   else []) ++
  (if o_unused o && negb (id_in (bid v) used_labels) && negb (under n) then [MLabelUnused n] else []).
(** l.128-146 *)
Definition lint_global (n : name) (h : how) : list message :=
  (if o_undefined o && negb (mem n custom_globals) then
     if mem n builtins then match h with Assign | FunAssign => [MBuiltinAssigned h n] | _ => [] end
     else [MNotFound (match h with OpAssign => Use | h => h end) n]
   else []) ++
  (if o_unused o && o_unused_global o && negb (mem n used_globals) && negb (under n) then
     if mem n assigned_globals then [MGlobalAssigned n] else [MGlobalUnused n]
   else []).
(** [lint_pre], l.82-152 *)
Definition lint_node (d : vnode) : list message :=
  match d with
  | NNew n v prev quiet => duplicate_local n v prev ++ unused_local n v quiet
  | NLabel n v prev => lint_label n v prev
  | _ => match root_name d with Some (n, h, _) => lint_global n h | None => [] end
  end.
End Lint.

(** [lint_code], l.6-154; [builtins]: ctxt.builtins, [local_builtins]: ctxt.local_builtins *)
Definition lint_code (o : lint_opts) (builtins local_builtins : list name) (b : blk) : list message :=
  let ds := nodes local_builtins b in flat_map (lint_node o builtins ds) ds.
