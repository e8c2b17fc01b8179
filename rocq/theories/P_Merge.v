(** C70: merging neighbouring assignments keeps what the program does. *)
From Coq Require Import List ZArith Bool PArith Lia.
From Verif Require Import M_Merge S_Merge L_Merge L_Merge2 L_Merge3 L_Merge4.
Import ListNotations.
Open Scope Z_scope.

Lemma try_merge_kinds focus reorder has_env forb prev next m : try_merge focus reorder has_env forb prev next = Some m ->
  s_local next = s_local prev /\ (s_local prev = false -> focus = true) /\ merge (reorder || negb focus) has_env forb prev next = Some m.
Proof.
  unfold try_merge. destruct (_ && _) eqn:E; [|discriminate]. intros M. apply andb_prop in E as (E1 & E2). apply eqb_prop in E2.
  split; [now symmetry|]. split; [|exact M]. intros F. rewrite <- E2, F in E1. exact E1.
Qed.

(** Declarations.  In every mode, and however little is known of what operators, calls and
    globals do: the two declarations and the one they are merged into end in the same world with
    the same meaning of every name, or both fail in worlds that differ only in new cells that
    nothing can get at.  Left out: a second declaration without values after a call or "..."
    (false, see below), and closed variables (false, see below). *)
Theorem C70_locals_partial (L : lua) (sees : V L -> C L -> Prop) (wsees : W L -> C L -> Prop) (cell : vid -> C L) :
  cells_hidden L sees wsees -> forall focus reorder has_env forb va prev next m e w,
  try_merge focus reorder has_env forb prev next = Some m -> s_local prev = true ->
  Forall is_var (s_targets prev) -> Forall is_var (s_targets next) ->
  Forall not_closed (s_targets prev ++ s_targets next) ->
  names_right (s_targets prev) (s_sources next) -> in_scope L e (s_targets prev) (s_sources next) ->
  let new := map (fun x => cell (v_id x)) (nodes (s_targets prev ++ s_targets next)) in
  NoDup new ->
  (forall c, In c new -> (forall n s, look L n e = Some s -> s <> Cell c /\ forall v, s = Val v -> ~ sees v c) /\ (forall v, In v va -> ~ sees v c) /\ ~ wsees w c) ->
  s_sources next <> [] \/ last_vararg (s_sources prev) = false ->
  same_end L wsees new (bind (run L cell va prev e w) (fun e w => run L cell va next e w)) (run L cell va m e w).
Proof.
  intros H focus reorder has_env forb va prev next m e w M Lp Tp Tn _ NR IS new ND New Sh. destruct (try_merge_kinds _ _ _ _ _ _ _ M) as (Ln & _ & M').
  rewrite Lp in Ln. apply (locals_same L sees wsees H cell (reorder || negb focus) has_env forb va prev next m e w); try assumption.
  intros c I. destruct (New c I) as (A & B & Cc). split; [|split; assumption]. intros n. specialize (A n). destruct (look L n e) as [s|]; cbn.
  - destruct (A s eq_refl) as (A1 & A2). split; [intros F; injection F as F; now apply A1|]. intros v Iv. destruct s; cbn in Iv; [|destruct Iv]. destruct Iv as [<-|[]]. now apply A2.
  - split; [discriminate|intros v []].
Qed.
Print Assumptions C70_locals_partial.

(** Assignments to variables, when the first statement's targets are locals that no function
    shares: in every mode, whatever operators, calls and globals do, the same world and the
    same values of all variables, or the same failure in the same world. *)
Theorem C70_assign_locals_partial (L : lua) (cell : vid -> C L) focus reorder has_env forb va prev next m e w :
  try_merge focus reorder has_env forb prev next = Some m -> s_local prev = false ->
  Forall uncaptured_local (s_targets prev) -> Forall is_var (s_targets next) -> s_sources next <> [] ->
  names_right (s_targets prev) (s_sources next ++ s_targets next) -> in_scope L e (s_targets prev) (s_sources next ++ s_targets next) ->
  Forall (scoped L e) (nodes (s_targets prev)) ->
  bind (run L cell va prev e w) (fun e w => run L cell va next e w) = run L cell va m e w.
Proof.
  intros M Lp. destruct (try_merge_kinds _ _ _ _ _ _ _ M) as (Ln & _ & M'). rewrite Lp in Ln. intros. eapply assign_locals; eauto.
Qed.
Print Assumptions C70_assign_locals_partial.

(** Assignments to any variables, when reordering has to be safe, in a program that does not
    name "_ENV" and whose globals are a plain store.  Left out: targets that are not variables,
    and new tables with computed keys (false, see below). *)
Theorem C70_assign_safe_partial (L : lua) (cell : vid -> C L) gv gs forb va prev next m e w :
  plain L gv gs -> look L n_env e = None -> own_cells L e ->
  try_merge true true false forb prev next = Some m -> s_local prev = false ->
  Forall is_var (s_targets prev) -> Forall is_var (s_targets next) -> s_sources next <> [] -> Forall (fun x => no_keys x = true) (s_sources next) ->
  names_right (s_targets prev) (s_sources next ++ s_targets next) -> in_scope L e (s_targets prev) (s_sources next ++ s_targets next) ->
  Forall (scoped L e) (nodes (s_targets prev)) ->
  bind (run L cell va prev e w) (fun e w => run L cell va next e w) = run L cell va m e w.
Proof.
  intros P Ne Own M Lp. destruct (try_merge_kinds _ _ _ _ _ _ _ M) as (Ln & _ & M'). rewrite Lp in Ln. intros. eapply assign_plain; eauto.
Qed.
Print Assumptions C70_assign_safe_partial.

(* ------------------------------------------------------------------ *)
(** * A small Lua, lawful in the sense above

    Two globals and two cells; calls log what is called, change the table slot and give two
    values; one table slot, which indexing and unary operators read; a table with a key "nil" cannot be made; an
    assignment to a table logs its index and the first global (a "__newindex"). *)
Record world := { w_a : Z; w_b : Z; w_c : Z; w_d : Z; w_heap : Z; w_log : list Z }.
Definition toy_cset (c : bool) (v : Z) (w : world) : world :=
  if c then {| w_a := w_a w; w_b := w_b w; w_c := v; w_d := w_d w; w_heap := w_heap w; w_log := w_log w |}
  else {| w_a := w_a w; w_b := w_b w; w_c := w_c w; w_d := v; w_heap := w_heap w; w_log := w_log w |}.
Definition toy_gv (n : name) (w : world) : Z := match n with 2%positive => w_a w | 3%positive => w_b w | _ => Z.pos n end.
Definition toy_gs (n : name) (v : Z) (w : world) : world :=
  match n with
  | 2%positive => {| w_a := v; w_b := w_b w; w_c := w_c w; w_d := w_d w; w_heap := w_heap w; w_log := w_log w |}
  | 3%positive => {| w_a := w_a w; w_b := v; w_c := w_c w; w_d := w_d w; w_heap := w_heap w; w_log := w_log w |}
  | _ => w
  end.
Definition toy_heap (h x : Z) (w : world) : world :=
  {| w_a := w_a w; w_b := w_b w; w_c := w_c w; w_d := w_d w; w_heap := h; w_log := x :: w_log w |}.
Definition nil_key (kvs : list (option Z * Z)) : bool := existsb (fun kv => match fst kv with Some k => k =? 0 | None => false end) kvs.
Definition toy : lua := {|
  V := Z; C := bool; W := world; nil := 0; truth := fun b => if b then 1 else 0; truthy := fun v => negb (v =? 0);
  const := fun z => z; str := fun n => Z.pos n;
  op1 := fun _ _ w => Done (w_heap w) w; op2 := fun _ a b w => Done (a + b) w;
  index := fun _ _ w => Done (w_heap w) w; newindex := fun _ i v w => Done tt (toy_heap v (w_a w + 1000 * i) w);
  call := fun f _ w => Done [f + 100; f + 200] (toy_heap (w_heap w + 1) f w);
  gget := fun n w => Done (toy_gv n w) w; gset := fun n v w => Done tt (toy_gs n v w);
  cget := fun c w => if c : bool then w_c w else w_d w; cset := toy_cset;
  table := fun kvs w => if nil_key kvs then Fail w
                        else Done (w_heap w) (toy_heap (w_heap w + 1) 0 w);
  closure := fun f _ w => (f, w) |}.
Definition lawful (L : lua) : Prop := exists sees wsees gv gs, cells_hidden L sees wsees /\ plain L gv gs.
Lemma toy_hidden : cells_hidden toy (fun _ _ => False) (fun _ _ => False).
Proof.
  constructor; try easy; try (intros c; intros; intros w _; cbn; split; [split; [intros ? _ []|intros []]|]; intros u _; destruct c; reflexivity).
  - intros c kvs w _. cbn. destruct (nil_key kvs); [split; [easy|reflexivity]|]. split; [split; easy|]. intros u _. now destruct c.
  - intros [] [] w N _; try contradiction; split; try easy.
  - intros [] [] u v w N; try contradiction; reflexivity.
Qed.
Lemma toy_plain : plain toy toy_gv toy_gs.
Proof.
  constructor; cbn [W V C toy gget gset cget cset table closure].
  - reflexivity.
  - reflexivity.
  - intros n m v w N. destruct n as [[]|[]|]; destruct m as [[]|[]|]; try reflexivity; now destruct N.
  - intros n c v w. destruct n as [[]|[]|]; destruct c; reflexivity.
  - intros n c v w. destruct n as [[]|[]|]; destruct c; reflexivity.
  - intros [] [] v w N; try reflexivity; now destruct N.
  - intros n m u v w N. destruct n as [[]|[]|]; destruct m as [[]|[]|]; try reflexivity; now destruct N.
  - intros n c u v w. destruct n as [[]|[]|]; destruct c; reflexivity.
  - intros [] [] u v w N; try reflexivity; now destruct N.
  - intros kvs w K. assert (nil_key kvs = false) as E.
    { induction K as [|kv kvs Hk _ IH]; [reflexivity|]. unfold nil_key in *. cbn [existsb]. rewrite IH. destruct (fst kv); [|reflexivity]. destruct Hk as (n & ->). reflexivity. }
    exists (w_heap w), (toy_heap (w_heap w + 1) 0 w). rewrite E. split; [reflexivity|].
    split; [intros n; destruct n as [[]|[]|]; reflexivity|]. split; [intros []; reflexivity|]. split.
    + intros n u. destruct n as [[]|[]|]; reflexivity.
    + intros c u. destruct c; reflexivity.
  - intros f ss w v w' E. injection E as <- <-. easy.
Qed.
Lemma toy_lawful : lawful toy.
Proof. exists (fun _ _ => False), (fun _ _ => False), toy_gv, toy_gs. split; [apply toy_hidden|apply toy_plain]. Qed.

Definition w0 : world := {| w_a := 11; w_b := 12; w_c := 13; w_d := 14; w_heap := 15; w_log := [] |}.
Definition cell0 (i : vid) : bool := match i with VLocal 1 => true | _ => false end.
Definition glob (n : name) (builtin : bool) : expr :=
  EVar {| v_name := n; v_id := VGlobal n; v_captured := false; v_attr := None; v_env := VGlobal n_env; v_builtin := builtin |}.
Definition loc (n : name) (i : Z) (captured : bool) (a : option attr) : expr :=
  EVar {| v_name := n; v_id := VLocal i; v_captured := captured; v_attr := a; v_env := VGlobal n_env; v_builtin := false |}.
Arguments glob n%positive_scope _. Arguments loc n%positive_scope _%Z_scope _ _.
Definition k (c : Z) : expr := EConst c [].
Definition f0 : expr := ECall (glob 4 false) XNil.       (* f() *)
Definition i0 : expr := ECall (glob 5 false) XNil.       (* i() *)
Definition decl ts ss := {| s_local := true; s_targets := ts; s_sources := ss |}.
Definition asgn ts ss := {| s_local := false; s_targets := ts; s_sources := ss |}.
Definition differ (a b : out world (env toy)) : Prop :=
  match a, b with
  | Done e w, Done e' w' => w <> w' \/ exists n, look toy n e <> look toy n e'
  | Fail w, Fail w' => w <> w'
  | _, _ => True
  end.

(** the theorems' cases *)
Example C70_locals_example :    (* local x = f() + 1 ; local z, u = f() *)
  let x := loc 6 1 true None in let z := loc 8 3 false None in let u := loc 9 4 false None in
  let prev := decl [x] [EBinary 0 f0 (k 1)] in let next := decl [z; u] [f0] in
  exists m, try_merge false false true false prev next = Some m /\ Forall is_var (s_targets prev) /\ Forall is_var (s_targets next) /\
    Forall not_closed (s_targets prev ++ s_targets next) /\ names_right (s_targets prev) (s_sources next) /\ in_scope toy [(7%positive, Val 5)] (s_targets prev) (s_sources next) /\
    run toy cell0 [] m [(7%positive, Val 5)] w0 = Done [(9%positive, Val 204); (8%positive, Val 104); (6%positive, Cell true); (7%positive, Val 5)]
      {| w_a := 11; w_b := 12; w_c := 105; w_d := 14; w_heap := 17; w_log := [4; 4] |}.
Proof.
  cbv zeta. eexists. split; [reflexivity|]. split; [repeat constructor|]. split; [repeat constructor|]. split; [repeat constructor; discriminate|].
  split; [|split].
  - intros x y n i [<-|[]] [<-|[]] [E|[E|[]]]; injection E as <- <-; discriminate.
  - intros y [<-|[]] G. discriminate.
  - reflexivity.
Qed.
Example C70_assign_locals_example :    (* x = f() ; y, a = i(), 3 *)
  let x := loc 6 1 false None in let y := loc 7 2 false None in
  let prev := asgn [x] [f0] in let next := asgn [y; glob 2 false] [i0; k 3] in
  let e : env toy := [(6%positive, Val 1); (7%positive, Val 2)] in
  exists m, try_merge true false true false prev next = Some m /\ Forall uncaptured_local (s_targets prev) /\ Forall is_var (s_targets next) /\
    names_right (s_targets prev) (s_sources next ++ s_targets next) /\ in_scope toy e (s_targets prev) (s_sources next ++ s_targets next) /\
    Forall (scoped toy e) (nodes (s_targets prev)) /\
    run toy cell0 [] m e w0 = Done [(6%positive, Val 104); (7%positive, Val 105)] {| w_a := 3; w_b := 12; w_c := 13; w_d := 14; w_heap := 17; w_log := [5; 4] |}.
Proof.
  cbv zeta. eexists. split; [reflexivity|]. split; [repeat constructor|]. split; [repeat constructor|].
  split; [|split; [|split]].
  - intros x y n i [<-|[]] Iy In1. cbn in Iy. destruct Iy as [<-|[<-|[<-|[]]]]; cbn in In1; repeat (destruct In1 as [E|In1]; [injection E as <- <-; discriminate|]); destruct In1.
  - intros y Iy G. cbn in Iy. destruct Iy as [<-|[<-|[<-|[]]]]; try discriminate G. left. discriminate.
  - constructor; [|constructor]. cbn. eauto.
  - reflexivity.
Qed.
Example C70_assign_safe_example :    (* a, x = f(), 1 ; b, y = {k = 1}, function() end *)
  let x := loc 6 1 true None in let y := loc 7 2 false None in
  let prev := asgn [glob 2 false; x] [f0; k 1] in let next := asgn [glob 3 false; y] [ETable (TMember 9%positive (k 1) TNil); EFun 20 []] in
  let e : env toy := [(6%positive, Cell true); (7%positive, Val 2)] in
  exists m, try_merge true true false false prev next = Some m /\ look toy n_env e = None /\ own_cells toy e /\
    Forall is_var (s_targets prev) /\ Forall is_var (s_targets next) /\ Forall (fun x => no_keys x = true) (s_sources next) /\
    names_right (s_targets prev) (s_sources next ++ s_targets next) /\ in_scope toy e (s_targets prev) (s_sources next ++ s_targets next) /\
    Forall (scoped toy e) (nodes (s_targets prev)) /\
    run toy cell0 [] m e w0 = Done [(6%positive, Cell true); (7%positive, Val 20)] {| w_a := 104; w_b := 16; w_c := 1; w_d := 14; w_heap := 17; w_log := [0; 4] |}.
Proof.
  cbv zeta. eexists. split; [reflexivity|]. split; [reflexivity|]. split.
  { assert (A : forall n c, look toy n [(6%positive, Cell true); (7%positive, Val 2)] = Some (Cell c) -> n = 6%positive).
    { intros n c. cbn [look]. destruct (Pos.eqb_spec n 6); [easy|]. destruct (Pos.eqb_spec n 7); discriminate. }
    intros n m c Hn Hm. now rewrite (A n c Hn), (A m c Hm). }
  split; [repeat constructor|]. split; [repeat constructor|]. split; [repeat constructor|].
  split; [|split; [|split]].
  - intros x y n i Ix Iy In1. cbn in Ix, Iy. destruct Iy as [<-|[<-|[]]]; cbn in In1; repeat (destruct In1 as [E|In1]; [injection E as <- <-; destruct Ix as [<-|[<-|[]]]; discriminate|]); destruct In1.
  - intros y Iy G. cbn in Iy. destruct Iy as [<-|[<-|[]]]; try discriminate G. left. discriminate.
  - constructor; [cbn; auto|]. constructor; [|constructor]. cbn. eauto.
  - reflexivity.
Qed.

(* ------------------------------------------------------------------ *)
(** * Where it fails *)

(** local x = f() ; local y   becomes   local x, y = f() *)
Theorem C70_locals_refuted : exists L cell prev next m e w, lawful L /\
  try_merge false true false false prev next = Some m /\ s_local prev = true /\
  exists e1 w1 e2 w2, bind (run L cell [] prev e w) (fun e w => run L cell [] next e w) = Done e1 w1 /\ run L cell [] m e w = Done e2 w2 /\
    exists n v, look L n e1 = Some (Val (nil L)) /\ look L n e2 = Some (Val v) /\ v <> nil L.
Proof.
  exists toy, cell0, (decl [loc 6 1 false None] [f0]), (decl [loc 7 2 false None] []). eexists. exists [], w0.
  split; [apply toy_lawful|]. split; [reflexivity|]. split; [reflexivity|]. eexists. eexists. eexists. eexists.
  split; [reflexivity|]. split; [reflexivity|]. exists 7%positive, 204. split; [reflexivity|]. split; [reflexivity|discriminate].
Qed.
Print Assumptions C70_locals_refuted.

(** local x <close> = f() ; local y <close> = i()   become one declaration with two closed
    variables, which Lua does not accept *)
Definition closes (s : stmt) : nat := length (filter (fun x => match v_attr x with Some AClose => true | _ => false end) (nodes (s_targets s))).
Theorem C70_close_refuted : exists prev next m, try_merge false true false false prev next = Some m /\ s_local prev = true /\
  (closes prev <= 1)%nat /\ (closes next <= 1)%nat /\ (closes m > 1)%nat.
Proof.
  exists (decl [loc 6 1 false (Some AClose)] [f0]), (decl [loc 7 2 false (Some AClose)] [i0]). eexists. split; [reflexivity|].
  split; [reflexivity|]. cbn. lia.
Qed.
Print Assumptions C70_close_refuted.

(** with safe reordering *)
Definition safe_differs (prev next : stmt) (e : env toy) : Prop := exists m,
  try_merge true true false false prev next = Some m /\ differ (bind (run toy cell0 [] prev e w0) (fun e w => run toy cell0 [] next e w)) (run toy cell0 [] m e w0).
Theorem C70_assign_safe_refuted : lawful toy /\
  (* t.x = 1 ; a = 2: what the first one runs sees the new value of a *)
  safe_differs (asgn [EMember (glob 6 false) 7%positive] [k 1]) (asgn [glob 2 false] [k 2]) [] /\
  (* x = f() ; t[i()] = 2: i is called before f *)
  safe_differs (asgn [loc 6 1 false None] [f0]) (asgn [EIndex (glob 7 false) i0] [k 2]) [(6%positive, Val 1)] /\
  (* a = 1 ; b = {[nil] = 2}: the error comes before a is set *)
  safe_differs (asgn [glob 2 false] [k 1]) (asgn [glob 3 false] [ETable (TIndex (k 0) (k 2) TNil)]) [].
Proof.
  split; [apply toy_lawful|]. split; [|split]; (eexists; split; [reflexivity|]); cbn; try left; discriminate.
Qed.
Print Assumptions C70_assign_safe_refuted.

(** without *)
Definition unsafe_differs (prev next : stmt) : Prop := exists m,
  try_merge true false false false prev next = Some m /\ differ (bind (run toy cell0 [] prev [] w0) (fun e w => run toy cell0 [] next e w)) (run toy cell0 [] m [] w0).
Theorem C70_assign_unsafe_refuted : lawful toy /\
  (* t[1] = 5 ; a = #t: the length is taken before the element is there *)
  unsafe_differs (asgn [EIndex (glob 6 false) (k 1)] [k 5]) (asgn [glob 2 false] [EUnary 0 (glob 6 false)]) /\
  (* a = f() ; t[u.x] = 5: the index is read before f is called *)
  unsafe_differs (asgn [glob 2 false] [f0]) (asgn [EIndex (glob 6 false) (EUnary 0 (glob 7 false))] [k 5]).
Proof.
  split; [apply toy_lawful|]. split; (eexists; split; [reflexivity|]); cbn; left; discriminate.
Qed.
Print Assumptions C70_assign_unsafe_refuted.
