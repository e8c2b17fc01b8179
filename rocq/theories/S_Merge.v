(** What assignments do, said without the merger. *)
From Coq Require Import List ZArith Bool PArith.
From Verif Require Import M_Merge.
Import ListNotations.
Open Scope Z_scope.

(** The result of running something: a value, or an error; the world outside is changed in
    either case. *)
Inductive out (W A : Type) := Done (a : A) (w : W) | Fail (w : W).
Arguments Done {W A}. Arguments Fail {W A}.
Definition bind {W A B} (x : out W A) (k : A -> W -> out W B) : out W B :=
  match x with Done a w => k a w | Fail w => Fail w end.
Notation "x <~ e ; k" := (bind e (fun x w => k w)) (at level 61, e at next level, right associativity).

(** A way to run Lua.  [V]: values; [C]: the cells of variables that functions share; [W]: the
    world (tables, globals, cells, the screen).  Operators, calls, indexing and even globals can
    run any code (metatables), change the world and fail. *)
Inductive slot (V C : Type) := Val (v : V) | Cell (c : C).
Arguments Val {V C}. Arguments Cell {V C}.
Record lua := {
  V : Type; C : Type; W : Type;
  nil : V; truth : bool -> V; truthy : V -> bool; const : Z -> V; str : name -> V;
  op1 : Z -> V -> W -> out W V; op2 : Z -> V -> V -> W -> out W V;
  index : V -> V -> W -> out W V; newindex : V -> V -> V -> W -> out W unit;
  call : V -> list V -> W -> out W (list V);
  gget : name -> W -> out W V; gset : name -> V -> W -> out W unit;
  cget : C -> W -> V; cset : C -> V -> W -> W;
  table : list (option V * V) -> W -> out W V;
  closure : Z -> list (option (slot V C)) -> W -> V * W }.

(** the name "_ENV", and the names a variable node uses: a global is looked up in "_ENV" *)
Definition n_env : name := 1%positive.
Definition node_occ (x : vnode) : list (name * vid) := (v_name x, v_id x) :: if is_global x then [(n_env, v_env x)] else [].

Section Run.
Context (L : lua).
(** The locals in scope, the newest first; one that no function shares is just a value. *)
Definition env := list (name * slot (V L) (C L)).
Fixpoint look (n : name) (e : env) : option (slot (V L) (C L)) :=
  match e with [] => None | (m, s) :: e => if Pos.eqb n m then Some s else look n e end.
Fixpoint put (n : name) (v : V L) (e : env) : env :=
  match e with [] => [] | (m, s) :: e => if Pos.eqb n m then (m, Val v) :: e else (m, s) :: put n v e end.
Definition read (s : slot (V L) (C L)) (w : W L) : V L := match s with Val v => v | Cell c => cget L c w end.
Definition getvar (e : env) (n : name) (w : W L) : out (W L) (V L) :=
  match look n e with
  | Some s => Done (read s w) w
  | None => match look n_env e with Some s => index L (read s w) (str L n) w | None => gget L n w end
  end.
Definition first (vs : list (V L)) : V L := hd (nil L) vs.

(** The values of an expression: one, or any number for a call and for "...". *)
Section Expr.
Context (e : env) (va : list (V L)).
Fixpoint vals (x : expr) (w : W L) : out (W L) (list (V L)) :=
  match x with
  | EConst c _ => Done [const L c] w
  | EVarargs => Done va w
  | EVar x => bind (getvar e (v_name x) w) (fun v w => Done [v] w)
  | EFun f free =>
      let (v, w) := closure L f (map (fun n => look n e) (map fst (flat_map node_occ free))) w in Done [v] w
  | EGroup x => bind (vals x w) (fun v w => Done [first v] w)
  | ENot x => bind (vals x w) (fun v w => Done [truth L (negb (truthy L (first v)))] w)
  | EAnd l r => bind (vals l w) (fun v w => if truthy L (first v) then bind (vals r w) (fun v w => Done [first v] w) else Done [first v] w)
  | EOr l r => bind (vals l w) (fun v w => if truthy L (first v) then Done [first v] w else bind (vals r w) (fun v w => Done [first v] w))
  | EUnary op x => bind (vals x w) (fun v w => bind (op1 L op (first v) w) (fun v w => Done [v] w))
  | EBinary op l r =>
      bind (vals l w) (fun a w => bind (vals r w) (fun b w => bind (op2 L op (first a) (first b) w) (fun v w => Done [v] w)))
  | EMember x key => bind (vals x w) (fun v w => bind (index L (first v) (str L key) w) (fun v w => Done [v] w))
  | EIndex x k =>
      bind (vals x w) (fun a w => bind (vals k w) (fun b w => bind (index L (first a) (first b) w) (fun v w => Done [v] w)))
  | ECall f args => bind (vals f w) (fun v w => bind (vals_args args w) (fun vs w => call L (first v) vs w))
  | EMethod x key args =>
      bind (vals x w) (fun o w => bind (index L (first o) (str L key) w) (fun f w =>
      bind (vals_args args w) (fun vs w => call L f (first o :: vs) w)))
  | ETable its => bind (vals_items its w) (fun kvs w => bind (table L kvs w) (fun v w => Done [v] w))
  end
with vals_args (es : exprs) (w : W L) : out (W L) (list (V L)) :=
  match es with
  | XNil => Done [] w
  | XCons x XNil => vals x w
  | XCons x es => bind (vals x w) (fun v w => bind (vals_args es w) (fun vs w => Done (first v :: vs) w))
  end
with vals_items (its : items) (w : W L) : out (W L) (list (option (V L) * V L)) :=
  match its with
  | TNil => Done [] w
  | TIndex k x its =>
      bind (vals k w) (fun k w => bind (vals x w) (fun v w => bind (vals_items its w) (fun kvs w => Done ((Some (first k), first v) :: kvs) w)))
  | TMember key x its =>
      bind (vals x w) (fun v w => bind (vals_items its w) (fun kvs w => Done ((Some (str L key), first v) :: kvs) w))
  | TItem x TNil => bind (vals x w) (fun vs w => Done (map (fun v => (None, v)) vs) w)
  | TItem x its => bind (vals x w) (fun v w => bind (vals_items its w) (fun kvs w => Done ((None, first v) :: kvs) w))
  end.

(** The values of a list of expressions: only the last can give more or less than one. *)
Fixpoint list_vals (xs : list expr) (w : W L) : out (W L) (list (V L)) :=
  match xs with
  | [] => Done [] w
  | [x] => vals x w
  | x :: xs => bind (vals x w) (fun v w => bind (list_vals xs w) (fun vs w => Done (first v :: vs) w))
  end.

(** Where an assignment goes: what a table target indexes is worked out first. *)
Inductive place := PVar (n : name) | PIndex (t k : V L).
Definition find_place (x : expr) (w : W L) : out (W L) place :=
  match x with
  | EVar x => Done (PVar (v_name x)) w
  | EMember x key => bind (vals x w) (fun t w => Done (PIndex (first t) (str L key)) w)
  | EIndex x k => bind (vals x w) (fun t w => bind (vals k w) (fun k w => Done (PIndex (first t) (first k)) w))
  | _ => Fail w                                  (* not a Lua program *)
  end.
Fixpoint find_places (xs : list expr) (w : W L) : out (W L) (list place) :=
  match xs with
  | [] => Done [] w
  | x :: xs => bind (find_place x w) (fun p w => bind (find_places xs w) (fun ps w => Done (p :: ps) w))
  end.
End Expr.

Definition adjust (n : nat) (vs : list (V L)) : list (V L) := firstn n (vs ++ repeat (nil L) n).

Definition store (p : place) (v : V L) (e : env) (w : W L) : out (W L) env :=
  match p with
  | PVar n =>
      match look n e with
      | Some (Val _) => Done (put n v e) w
      | Some (Cell c) => Done e (cset L c v w)
      | None =>
          bind match look n_env e with Some s => newindex L (read s w) (str L n) v w | None => gset L n v w end
               (fun _ w => Done e w)
      end
  | PIndex t k => bind (newindex L t k v w) (fun _ w => Done e w)
  end.
Fixpoint stores (pvs : list (place * V L)) (e : env) (w : W L) : out (W L) env :=
  match pvs with
  | [] => Done e w
  | (p, v) :: pvs => bind (store p v e w) (fun e w => stores pvs e w)
  end.

(** New locals.  [cell]: the cell a shared variable gets. *)
Fixpoint declare (cell : vid -> C L) (xvs : list (vnode * V L)) (e : env) (w : W L) : env * W L :=
  match xvs with
  | [] => (e, w)
  | (x, v) :: xvs =>
      if v_captured x then declare cell xvs ((v_name x, Cell (cell (v_id x))) :: e) (cset L (cell (v_id x)) v w)
      else declare cell xvs ((v_name x, Val v) :: e) w
  end.
Fixpoint nodes (xs : list expr) : list vnode :=
  match xs with [] => [] | EVar x :: xs => x :: nodes xs | _ :: xs => nodes xs end.

(** Running a statement.  Lua leaves open in which order the values are stored; it is from
    right to left in practice. *)
Definition run (cell : vid -> C L) (va : list (V L)) (s : stmt) (e : env) (w : W L) : out (W L) env :=
  if s_local s then
    bind (list_vals e va (s_sources s) w) (fun vs w =>
      let (e, w) := declare cell (combine (nodes (s_targets s)) (adjust (length (s_targets s)) vs)) e w in Done e w)
  else
    bind (find_places e va (s_targets s) w) (fun ps w =>
    bind (list_vals e va (s_sources s) w) (fun vs w =>
      stores (rev (combine ps (adjust (length ps) vs))) e w)).
End Run.
Arguments PVar {L}. Arguments PIndex {L}.

(* ------------------------------------------------------------------ *)
(** * What is true of Lua *)

(** Which cells can be got at, from a value and from the world.  New cells cannot, and what
    cannot be got at is neither seen nor changed by code that runs. *)
Section Laws.
Context (L : lua) (sees : V L -> C L -> Prop) (wsees : W L -> C L -> Prop).
Definition blind (c : C L) (vs : list (V L)) (w : W L) : Prop := (forall v, In v vs -> ~ sees v c) /\ ~ wsees w c.
(** a step that gets the values [vs] and gives the values [res a] *)
Definition unseen {A} (c : C L) (vs : list (V L)) (res : A -> list (V L)) (step : W L -> out (W L) A) : Prop :=
  forall w, blind c vs w ->
  match step w with
  | Done a w' => blind c (res a) w' /\ forall u, ~ sees u c -> step (cset L c u w) = Done a (cset L c u w')
  | Fail w' => ~ wsees w' c /\ forall u, ~ sees u c -> step (cset L c u w) = Fail (cset L c u w')
  end.
Definition slot_values (s : option (slot (V L) (C L))) : list (V L) := match s with Some (Val v) => [v] | _ => [] end.
Definition slot_not (c : C L) (s : option (slot (V L) (C L))) : Prop := s <> Some (Cell c).
Record cells_hidden : Prop := {
  h_nil : forall c, ~ sees (nil L) c;
  h_truth : forall b c, ~ sees (truth L b) c;
  h_const : forall z c, ~ sees (const L z) c;
  h_str : forall n c, ~ sees (str L n) c;
  h_op1 : forall c op v, unseen c [v] (fun v => [v]) (op1 L op v);
  h_op2 : forall c op a b, unseen c [a; b] (fun v => [v]) (op2 L op a b);
  h_index : forall c t k, unseen c [t; k] (fun v => [v]) (index L t k);
  h_call : forall c f vs, unseen c (f :: vs) (fun vs => vs) (call L f vs);
  h_gget : forall c n, unseen c [] (fun v => [v]) (gget L n);
  h_table : forall c kvs, unseen c (map snd kvs ++ flat_map (fun kv => match fst kv with Some k => [k] | None => [] end) kvs) (fun v => [v]) (table L kvs);
  h_closure : forall c f ss, (forall s, In s ss -> slot_not c s) ->
    unseen c (flat_map slot_values ss) (fun v => [v]) (fun w => let (v, w) := closure L f ss w in Done v w);
  h_cget : forall c d w, c <> d -> ~ wsees w c -> ~ sees (cget L d w) c /\ forall u, cget L d (cset L c u w) = cget L d w;
  h_cset : forall c d u w, ~ wsees w c -> ~ sees u c -> ~ wsees (cset L d u w) c;
  h_comm : forall c d u v w, c <> d -> cset L c u (cset L d v w) = cset L d v (cset L c u w) }.

(** Without "_ENV" in the program, globals are a plain store; other cells, globals and new tables and
    functions are independent of each other.  [gv] and [gs] read and write a global. *)
Record plain (gv : name -> W L -> V L) (gs : name -> V L -> W L -> W L) : Prop := {
  p_gget : forall n w, gget L n w = Done (gv n w) w;
  p_gset : forall n v w, gset L n v w = Done tt (gs n v w);
  p_gg : forall n m v w, n <> m -> gv n (gs m v w) = gv n w;
  p_gc : forall n c v w, gv n (cset L c v w) = gv n w;
  p_cg : forall n c v w, cget L c (gs n v w) = cget L c w;
  p_cc : forall c d v w, c <> d -> cget L c (cset L d v w) = cget L c w;
  p_sgg : forall n m u v w, n <> m -> gs n u (gs m v w) = gs m v (gs n u w);
  p_sgc : forall n c u v w, gs n u (cset L c v w) = cset L c v (gs n u w);
  p_scc : forall c d u v w, c <> d -> cset L c u (cset L d v w) = cset L d v (cset L c u w);
  (* a table without computed keys can always be made, and making it changes no variable *)
  p_table : forall kvs w, Forall (fun kv => match fst kv with Some k => exists n, k = str L n | None => True end) kvs ->
    exists v w', table L kvs w = Done v w' /\ (forall n, gv n w' = gv n w) /\ (forall c, cget L c w' = cget L c w) /\
      (forall n u, table L kvs (gs n u w) = Done v (gs n u w')) /\ (forall c u, table L kvs (cset L c u w) = Done v (cset L c u w'));
  p_closure : forall f ss w v w', closure L f ss w = (v, w') -> (forall n, gv n w' = gv n w) /\ (forall c, cget L c w' = cget L c w) /\
      (forall n u, closure L f ss (gs n u w) = (v, gs n u w')) /\ (forall c u, closure L f ss (cset L c u w) = (v, cset L c u w')) }.
End Laws.

(* ------------------------------------------------------------------ *)
(** * Well-formed programs *)

(** The occurrences of variables in an expression. *)
Fixpoint occ (e : expr) : list vnode :=
  match e with
  | EConst _ _ | EVarargs => []
  | EVar x => [x]
  | EFun _ free => free
  | EGroup e | ENot e | EUnary _ e | EMember e _ => occ e
  | EAnd l r | EOr l r | EBinary _ l r | EIndex l r => occ l ++ occ r
  | ECall f args | EMethod f _ args => occ f ++ occ_args args
  | ETable its => occ_items its
  end
with occ_args (es : exprs) : list vnode := match es with XNil => [] | XCons e es => occ e ++ occ_args es end
with occ_items (its : items) : list vnode :=
  match its with
  | TNil => []
  | TIndex k v its => occ k ++ occ v ++ occ_items its
  | TMember _ v its => occ v ++ occ_items its
  | TItem e its => occ e ++ occ_items its
  end.
(** No variable's occurrence in [es] is caught by a target of another variable: what has the
    name of a target is one of the targets. *)
Definition names_right (targets es : list expr) : Prop :=
  forall x y n i, In x (nodes targets) -> In y (flat_map occ es) -> In (n, i) (node_occ y) -> n = v_name x ->
  exists x', In x' (nodes targets) /\ v_id x' = i.

(** A local is in scope, or is one of the targets. *)
Definition in_scope (L : lua) (e : env L) (targets es : list expr) : Prop :=
  forall y, In y (flat_map occ es) -> is_global y = false ->
  look L (v_name y) e <> None \/ exists x, In x (nodes targets) /\ v_name x = v_name y.

Definition is_var (e : expr) : Prop := match e with EVar _ => True | _ => False end.
Definition uncaptured_local (e : expr) : Prop := match e with EVar x => is_global x = false /\ v_captured x = false | _ => False end.
Definition not_closed (e : expr) : Prop := match e with EVar x => v_attr x <> Some AClose | _ => True end.

(** An occurrence is what the scope says: a global has no local of its name, a local has a
    cell if functions share it. *)
Definition scoped (L : lua) (e : env L) (x : vnode) : Prop :=
  match v_id x with
  | VGlobal n => n = v_name x /\ look L n e = None
  | VLocal _ => if v_captured x then exists c, look L (v_name x) e = Some (Cell c) else exists v, look L (v_name x) e = Some (Val v)
  | VMember _ => False
  end.
(** Different names in scope have different cells. *)
Definition own_cells (L : lua) (e : env L) : Prop :=
  forall n m c, look L n e = Some (Cell c) -> look L m e = Some (Cell c) -> n = m.

(** Tables without computed keys, "[k] = v". *)
Fixpoint no_keys (e : expr) : bool :=
  match e with
  | EConst _ _ | EVarargs | EVar _ | EFun _ _ => true
  | EGroup e | ENot e | EUnary _ e | EMember e _ => no_keys e
  | EAnd l r | EOr l r | EBinary _ l r | EIndex l r => no_keys l && no_keys r
  | ECall f args | EMethod f _ args => no_keys f && no_keys_args args
  | ETable its => no_keys_items its
  end
with no_keys_args (es : exprs) : bool := match es with XNil => true | XCons e es => no_keys e && no_keys_args es end
with no_keys_items (its : items) : bool :=
  match its with
  | TNil => true
  | TIndex _ _ _ => false
  | TMember _ v its => no_keys v && no_keys_items its
  | TItem e its => no_keys e && no_keys_items its
  end.

(** Two runs end alike: the same world and the same meaning of every name; if they fail, the
    worlds may differ in cells [new] that nothing can get at. *)
Definition same_end (L : lua) (wsees : W L -> C L -> Prop) (new : list (C L)) (a b : out (W L) (env L)) : Prop :=
  match a, b with
  | Done e w, Done e' w' => w = w' /\ forall n, look L n e = look L n e'
  | Fail w, Fail w' => exists cvs, w = fold_left (fun w cv => cset L (fst cv) (snd cv) w) cvs w' /\
                         incl (map fst cvs) new /\ forall c, In c (map fst cvs) -> ~ wsees w c
  | _, _ => False
  end.
