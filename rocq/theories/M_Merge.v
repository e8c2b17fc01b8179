(** Model of merging neighbouring assignments, /repo/pico_minify.py l.201-338, and of when it is
    tried, l.421-429.

    A statement is "local targets = sources" or "targets = sources".  Expressions keep the
    variables they name as the parser resolved them (/repo/pico_parse.py l.375-444): the name
    that is printed and the variable it stands for.  Left out: the tokens between the parts
    (commas and "=" are put where the lists need them) and the hint that forbids one merge,
    which is a parameter. *)
From Coq Require Import List ZArith Bool PArith.
Import ListNotations.
Open Scope Z_scope.

Definition name := positive.
(** [VarBase] and its kinds, /repo/pico_parse.py l.8-50: locals are objects, globals and
    members are one per name *)
Inductive vid := VLocal (i : Z) | VGlobal (n : name) | VMember (n : name).
Definition vid_eqb (a b : vid) : bool :=
  match a, b with
  | VLocal i, VLocal j => i =? j
  | VGlobal n, VGlobal m | VMember n, VMember m => Pos.eqb n m
  | _, _ => false
  end.
Inductive attr := AConst | AClose.
(** A var node, l.426-444.  [v_env]: the variable "_ENV" a global is looked up in (an extra
    child, l.438-442); [v_builtin]: [is_root_global_or_builtin_local], never reassigned, and not
    one of [builtins_with_callbacks] *)
Record vnode := { v_name : name; v_id : vid; v_captured : bool; v_attr : option attr; v_env : vid; v_builtin : bool }.
Definition is_global (x : vnode) : bool := match v_id x with VGlobal _ => true | _ => false end.

Inductive expr :=
| EConst (c : Z) (names : list vid)       (* a constant, and the members or globals a hint says it names *)
| EVarargs
| EVar (x : vnode)
| EFun (f : Z) (free : list vnode)        (* a function, and the nodes inside it of variables from outside *)
| EGroup (e : expr)
| ENot (e : expr)
| EAnd (l r : expr)
| EOr (l r : expr)
| EUnary (op : Z) (e : expr)
| EBinary (op : Z) (l r : expr)
| EMember (e : expr) (key : name)
| EIndex (e k : expr)
| ECall (f : expr) (args : exprs)
| EMethod (e : expr) (key : name) (args : exprs)
| ETable (its : items)
with exprs := XNil | XCons (e : expr) (es : exprs)
with items := TNil | TIndex (k v : expr) (its : items) | TMember (key : name) (v : expr) (its : items) | TItem (e : expr) (its : items).

Record stmt := { s_local : bool; s_targets : list expr; s_sources : list expr }.

(** [is_vararg_expr], /repo/pico_parse.py l.1077-1078 *)
Definition is_vararg (e : expr) : bool := match e with ECall _ _ | EMethod _ _ _ | EVarargs => true | _ => false end.

(** the variables of the var nodes of an expression, extra children included *)
Definition node_ids (x : vnode) : list vid := v_id x :: if is_global x then [v_env x] else [].
Fixpoint ids (e : expr) : list vid :=
  match e with
  | EConst _ names => names
  | EVarargs => []
  | EVar x => node_ids x
  | EFun _ free => flat_map node_ids free
  | EGroup e | ENot e | EUnary _ e => ids e
  | EAnd l r | EOr l r | EBinary _ l r | EIndex l r => ids l ++ ids r
  | EMember e key => ids e ++ [VMember key]
  | ECall f args => ids f ++ ids_args args
  | EMethod e key args => ids e ++ VMember key :: ids_args args
  | ETable its => ids_items its
  end
with ids_args (es : exprs) : list vid := match es with XNil => [] | XCons e es => ids e ++ ids_args es end
with ids_items (its : items) : list vid :=
  match its with
  | TNil => []
  | TIndex k v its => ids k ++ ids v ++ ids_items its
  | TMember key v its => VMember key :: ids v ++ ids_items its
  | TItem e its => ids e ++ ids_items its
  end.
(** [node_contains_vars], l.201-210 *)
Definition contains (vars : list vid) (e : expr) : bool := existsb (fun i => existsb (vid_eqb i) vars) (ids e).

(** [expr_is_trivial], l.212-247 *)
Section Trivial.
Context (safe_only allow_member allow_index allow_call has_env : bool).
Fixpoint trivial (e : expr) : bool :=
  match e with
  | EConst _ _ | EVarargs | EFun _ _ => true
  | EVar x => negb (is_global x) || negb has_env || negb safe_only
  | EGroup e | ENot e => trivial e
  | EAnd l r | EOr l r => trivial l && trivial r
  | EUnary _ e => negb safe_only && trivial e
  | EBinary _ l r => negb safe_only && trivial l && trivial r
  | EMember e _ => allow_member && negb safe_only && trivial e
  | EIndex e k => allow_index && negb safe_only && trivial e && trivial k
  | ECall f args =>
      negb safe_only && allow_call && match f with EVar x => v_builtin x | _ => false end && trivial f && trivial_args args
  | EMethod _ _ _ => false
  | ETable its => trivial_items its
  end
with trivial_args (es : exprs) : bool := match es with XNil => true | XCons e es => trivial e && trivial_args es end
with trivial_items (its : items) : bool :=
  match its with
  | TNil => true
  | TIndex k v its => trivial k && trivial v && trivial_items its
  | TMember _ v its => trivial v && trivial_items its
  | TItem e its => trivial e && trivial_items its
  end.
End Trivial.

(** What l.262-283 find out about the targets: [target_vars], [require_trivial], [allow_member]
    and [allow_index]; [None] is the "just in case" return *)
Record found := { f_vars : list vid; f_require : bool; f_member : bool; f_index : bool }.
Fixpoint targets_found (is_local : bool) (ts : list expr) (s : found) : option found :=
  match ts with
  | [] => Some s
  | EVar x :: ts =>
      targets_found is_local ts
        {| f_vars := f_vars s ++ [v_id x];
           f_require := f_require s || is_global x || (negb is_local && v_captured x);
           f_member := f_member s; f_index := f_index s |}
  | EMember _ key :: ts =>
      targets_found is_local ts {| f_vars := f_vars s ++ [VMember key]; f_require := true; f_member := f_member s; f_index := false |}
  | EIndex _ _ :: ts =>
      targets_found is_local ts {| f_vars := f_vars s; f_require := true; f_member := false; f_index := false |}
  | _ => None
  end.

Definition last_vararg (es : list expr) : bool := match rev es with e :: _ => is_vararg e | [] => false end.
Definition target_name (e : expr) : option name := match e with EVar x => Some (v_name x) | _ => None end.
Definition same_name (a b : expr) : bool :=
  match target_name a, target_name b with Some n, Some m => Pos.eqb n m | _, _ => false end.

(** [minify_merge_assignments], l.249-338: [None] where it returns without merging, else what
    the first statement becomes (the second is erased).  [forbidden]: the hint, l.257-259. *)
Definition merge (safe_only has_env forbidden : bool) (prev next : stmt) : option stmt :=
  let np := length (s_sources prev) in
  if Nat.ltb (length (s_targets prev)) np then None
  else if Nat.ltb np (length (s_targets prev)) &&
          (last_vararg (s_sources prev) || last_vararg (s_sources next) ||
           Nat.ltb (length (s_targets next)) (length (s_sources next))) then None
  else if forbidden then None
  else
    match targets_found (s_local prev) (s_targets prev) {| f_vars := []; f_require := false; f_member := true; f_index := true |} with
    | None => None
    | Some s =>
        let bad allow_call e :=
          contains (f_vars s) e || (f_require s && negb (trivial safe_only (f_member s) (f_index s) allow_call has_env e)) in
        if existsb (bad true) (s_sources next) || existsb (bad false) (s_targets next) then None
        else if Nat.ltb np (length (s_targets prev)) && s_local prev &&
                existsb (fun t => existsb (same_name t) (s_targets next)) (skipn np (s_targets prev)) then None
        else Some {| s_local := s_local prev;
                     s_targets := firstn np (s_targets prev) ++ s_targets next ++ skipn np (s_targets prev);
                     s_sources := s_sources prev ++ s_sources next |}
    end.

(** l.421-429: neighbours of the same kind; assignments that are not declarations only when
    tokens matter most.  [safe_reorder], l.358-359, is on when they do not. *)
Definition try_merge (focus_tokens safe_reorder has_env forbidden : bool) (prev next : stmt) : option stmt :=
  if (s_local next || focus_tokens) && Bool.eqb (s_local prev) (s_local next)
  then merge (safe_reorder || negb focus_tokens) has_env forbidden prev next
  else None.
