(** Programs that differ in names only, said without the renamer: two trees in which every name
    means the same local, label, global or key. *)
From Coq Require Import String List ZArith Bool.
From Verif Require Import M_Base M_Fold M_Token M_Expr M_Stmt S_Run.
Import ListNotations.
Open Scope Z_scope.

(** Names that stand for each other, the latest first. *)
Definition pairs : Type := list (list Z * list Z).

Definition env_var : list Z := asc "_ENV".

(** The labels of a block, but not those of the blocks in it. *)
Fixpoint labels (b : blk) : list (list Z) :=
  match b with BNil => [] | BCons (SLabel l) b => l :: labels b | BCons _ b => labels b end.
Definition frame (b b' : blk) : pairs := combine (labels b) (labels b').

(** New locals: as many on both sides, and none of them called "_ENV". *)
Definition locals_ok (xs xs' : list (list Z)) : Prop :=
  length xs = length xs' /\ ~ In env_var xs /\ ~ In env_var xs'.
Definition more (xs xs' : list (list Z)) (env : pairs) : pairs := rev (combine xs xs') ++ env.
(** Parameters: names and "..." at the same places. *)
Definition params_ok (ps ps' : list (option (list Z))) : Prop :=
  map (fun p => match p with Some _ => true | None => false end) ps = map (fun p => match p with Some _ => true | None => false end) ps' /\
  locals_ok (names_of ps) (names_of ps').

(** The locals behind a statement, and behind a block. *)
Definition env_st (env : pairs) (s s' : st) : pairs :=
  match s, s' with
  | SLocal xs _, SLocal xs' _ => more (map fst xs) (map fst xs') env
  | SLocalFun x _ _, SLocalFun x' _ _ => (x, x') :: env
  | _, _ => env
  end.
Fixpoint env_blk (env : pairs) (b b' : blk) : pairs :=
  match b, b' with BCons s b, BCons s' b' => env_blk (env_st env s s') b b' | _, _ => env end.

Definition with_self (meth : option (list Z)) (ps : list (option (list Z))) : list (option (list Z)) :=
  (match meth with Some _ => [Some (asc "self")] | None => [] end) ++ ps.

Section Alpha.
(** [G x x']: the global x is now called x'; [K k k']: so is the key k. *)
Context (G K : list Z -> list Z -> Prop).

(** The two names mean the same local, or the same global. *)
Fixpoint same_var (env : pairs) (x x' : list Z) : Prop :=
  match env with
  | [] => G x x'
  | (y, y') :: env => (x = y /\ x' = y') \/ (x <> y /\ x' <> y' /\ same_var env x x')
  end.
(** The two names mean the same label; there must be one. *)
Fixpoint same_label (lab : pairs) (x x' : list Z) : Prop :=
  match lab with
  | [] => False
  | (y, y') :: lab => (x = y /\ x' = y') \/ (x <> y /\ x' <> y' /\ same_label lab x x')
  end.

(** [env], [lab]: the locals and labels that can be seen. *)
Fixpoint alpha_ex (env : pairs) (e e' : ex) {struct e} : Prop :=
  match e, e' with
  | XConst t, XConst t' => t = t'
  | XDots, XDots => True
  | XVar x, XVar x' => same_var env x x'
  | XFun ps b, XFun ps' b' =>
      params_ok ps ps' /\ alpha_blk (more (names_of ps) (names_of ps') env) (frame b b') b b'
  | XGroup e, XGroup e' => alpha_ex env e e'
  | XUn op e, XUn op' e' => op = op' /\ alpha_ex env e e'
  | XBin op a b, XBin op' a' b' => op = op' /\ alpha_ex env a a' /\ alpha_ex env b b'
  | XMem e k, XMem e' k' => alpha_ex env e e' /\ K k k'
  | XIdx e k, XIdx e' k' => alpha_ex env e e' /\ alpha_ex env k k'
  | XCall f _ args, XCall f' _ args' => alpha_ex env f f' /\ alpha_exs env args args'
  | XMeth e k _ args, XMeth e' k' _ args' => alpha_ex env e e' /\ K k k' /\ alpha_exs env args args'
  | XTab i, XTab i' => alpha_its env i i'
  | _, _ => False
  end
with alpha_exs (env : pairs) (es es' : exs) {struct es} : Prop :=
  match es, es' with
  | XNil, XNil => True
  | XCons e es, XCons e' es' => alpha_ex env e e' /\ alpha_exs env es es'
  | _, _ => False
  end
with alpha_its (env : pairs) (i i' : its) {struct i} : Prop :=
  match i, i' with
  | INil, INil => True
  | IIdx k v _ i, IIdx k' v' _ i' => alpha_ex env k k' /\ alpha_ex env v v' /\ alpha_its env i i'
  | IMem k v _ i, IMem k' v' _ i' => K k k' /\ alpha_ex env v v' /\ alpha_its env i i'
  | IItem e _ i, IItem e' _ i' => alpha_ex env e e' /\ alpha_its env i i'
  | _, _ => False
  end
with alpha_st (env lab : pairs) (s s' : st) {struct s} : Prop :=
  match s, s' with
  | SSemi, SSemi | SBreak, SBreak => True
  | SDo b, SDo b' => alpha_blk env (frame b b' ++ lab) b b'
  | SIf i, SIf i' => alpha_ifs env lab i i'
  | SWhile c b, SWhile c' b' | SWhileShort _ c b, SWhileShort _ c' b' =>
      alpha_ex env c c' /\ alpha_blk env (frame b b' ++ lab) b b'
  | SRepeat b c, SRepeat b' c' =>
      alpha_blk env (frame b b' ++ lab) b b' /\ alpha_ex (env_blk env b b') c c'
  | SFor x a z step b, SFor x' a' z' step' b' =>
      alpha_ex env a a' /\ alpha_ex env z z' /\ alpha_exs env step step' /\ locals_ok [x] [x'] /\
      alpha_blk (more [x] [x'] env) (frame b b' ++ lab) b b'
  | SForIn xs es b, SForIn xs' es' b' =>
      alpha_exs env es es' /\ locals_ok xs xs' /\ alpha_blk (more xs xs' env) (frame b b' ++ lab) b b'
  | SReturn es, SReturn es' => alpha_exs env es es'
  | SLocal xs es, SLocal xs' es' =>
      alpha_exs env es es' /\ map snd xs = map snd xs' /\ locals_ok (map fst xs) (map fst xs')
  | SLocalFun x ps b, SLocalFun x' ps' b' =>
      locals_ok [x] [x'] /\ params_ok ps ps' /\
      alpha_blk (more (names_of ps) (names_of ps') ((x, x') :: env)) (frame b b') b b'
  | SFun x path meth ps b, SFun x' path' meth' ps' b' =>
      same_var env x x' /\ Forall2 K path path' /\
      match meth, meth' with Some k, Some k' => K k k' | None, None => True | _, _ => False end /\
      params_ok (with_self meth ps) (with_self meth' ps') /\
      alpha_blk (more (names_of (with_self meth ps)) (names_of (with_self meth' ps')) env) (frame b b') b b'
  | SGoto l, SGoto l' | SLabel l, SLabel l' => same_label lab l l'
  | SAssign ts es, SAssign ts' es' => alpha_exs env ts ts' /\ alpha_exs env es es'
  | SOp t op e, SOp t' op' e' => alpha_ex env t t' /\ op = op' /\ alpha_ex env e e'
  | SPrint es, SPrint es' => same_var env (asc "print") (asc "print") /\ alpha_exs env es es'
  | SCall e, SCall e' => alpha_ex env e e'
  | _, _ => False
  end
with alpha_blk (env lab : pairs) (b b' : blk) {struct b} : Prop :=
  match b, b' with
  | BNil, BNil => True
  | BCons s b, BCons s' b' => alpha_st env lab s s' /\ alpha_blk (env_st env s s') lab b b'
  | _, _ => False
  end
with alpha_ifs (env lab : pairs) (i i' : ifs) {struct i} : Prop :=
  match i, i' with
  | ILong _ c b e, ILong _ c' b' e' | IShort _ c b e, IShort _ c' b' e' =>
      alpha_ex env c c' /\ alpha_blk env (frame b b' ++ lab) b b' /\ alpha_els env lab e e'
  | _, _ => False
  end
with alpha_els (env lab : pairs) (e e' : els) {struct e} : Prop :=
  match e, e' with
  | ENone, ENone => True
  | EElse b, EElse b' => alpha_blk env (frame b b' ++ lab) b b'
  | EElif i, EElif i' => alpha_ifs env lab i i'
  | _, _ => False
  end.

Definition renaming (b b' : blk) : Prop := alpha_blk [] (frame b b') b b'.
End Alpha.

(* ------------------------------------------------------------------ *)
(** * Jumps *)
(** Lua rejects a jump into the scope of a local; behind a label at the end of a block the locals
    of the block are gone, except for the condition of a repeat. *)

Definition void_st (s : st) : bool := match s with SSemi | SLabel _ => true | _ => false end.
Fixpoint void (b : blk) : bool := match b with BNil => true | BCons s b => void_st s && void b end.
Definition outside (b : blk) (ls : list (list Z)) : list (list Z) :=
  filter (fun l => negb (existsb (zeqb_list l) (labels b))) ls.

(** The labels that jumps in a statement look for behind it. *)
Fixpoint gotos_st (s : st) : list (list Z) :=
  match s with
  | SGoto l => [l]
  | SDo b | SWhile _ b | SWhileShort _ _ b | SRepeat b _ | SFor _ _ _ _ b | SForIn _ _ b => outside b (gotos b)
  | SIf i => gotos_ifs i
  | _ => []
  end
with gotos (b : blk) : list (list Z) := match b with BNil => [] | BCons s b => gotos_st s ++ gotos b end
with gotos_ifs (i : ifs) : list (list Z) :=
  match i with ILong _ _ b e | IShort _ _ b e => outside b (gotos b) ++ gotos_els e end
with gotos_els (e : els) : list (list Z) :=
  match e with ENone => [] | EElse b => outside b (gotos b) | EElif i => gotos_ifs i end.

(** A jump to [l] over the block [b]; [over]: over a local; [until]: in a repeat. *)
Fixpoint reach (until : bool) (l : list Z) (over : bool) (b : blk) : Prop :=
  match b with
  | BNil => True
  | BCons (SLabel l') b => if zeqb_list l l' then over = false \/ (until = false /\ void b = true) else reach until l over b
  | BCons (SLocal _ _) b | BCons (SLocalFun _ _ _) b => reach until l true b
  | BCons _ b => reach until l over b
  end.

Fixpoint legal_ex (e : ex) : Prop :=
  match e with
  | XConst _ | XDots | XVar _ => True
  | XFun _ b => legal false b
  | XGroup e | XUn _ e | XMem e _ => legal_ex e
  | XBin _ a b | XIdx a b => legal_ex a /\ legal_ex b
  | XCall f _ args | XMeth f _ _ args => legal_ex f /\ legal_exs args
  | XTab i => legal_its i
  end
with legal_exs (es : exs) : Prop := match es with XNil => True | XCons e es => legal_ex e /\ legal_exs es end
with legal_its (i : its) : Prop :=
  match i with
  | INil => True
  | IIdx k v _ i => legal_ex k /\ legal_ex v /\ legal_its i
  | IMem _ v _ i | IItem v _ i => legal_ex v /\ legal_its i
  end
with legal_st (s : st) : Prop :=
  match s with
  | SSemi | SBreak | SGoto _ | SLabel _ => True
  | SDo b | SLocalFun _ _ b | SFun _ _ _ _ b => legal false b
  | SIf i => legal_ifs i
  | SWhile c b | SWhileShort _ c b => legal_ex c /\ legal false b
  | SRepeat b c => legal true b /\ legal_ex c
  | SFor _ a z step b => legal_ex a /\ legal_ex z /\ legal_exs step /\ legal false b
  | SForIn _ es b => legal_exs es /\ legal false b
  | SReturn es | SLocal _ es | SPrint es => legal_exs es
  | SAssign ts es => legal_exs ts /\ legal_exs es
  | SOp t _ e => legal_ex t /\ legal_ex e
  | SCall e => legal_ex e
  end
with legal (until : bool) (b : blk) : Prop :=
  match b with
  | BNil => True
  | BCons s b => Forall (fun l => reach until l false b) (gotos_st s) /\ legal_st s /\ legal until b
  end
with legal_ifs (i : ifs) : Prop :=
  match i with ILong _ c b e | IShort _ c b e => legal_ex c /\ legal false b /\ legal_els e end
with legal_els (e : els) : Prop :=
  match e with ENone => True | EElse b => legal false b | EElif i => legal_ifs i end.

(* ------------------------------------------------------------------ *)
(** * A machine with other names *)

(** [g] and [k] give the old names of globals and keys. *)
Definition old_ask (g : list Z -> list Z) (a : ask) : ask :=
  match a with AGlobal x => AGlobal (g x) | ASetGlobal x => ASetGlobal (g x) | a => a end.
Definition renamed {V Mem} (g k : list Z -> list Z) (m : machine V Mem) : machine V Mem :=
  {| m_nil := m_nil m; m_true := m_true m; m_is_nil := m_is_nil m; m_const := m_const m;
     m_str := fun x => m_str m (k x); m_fun := m_fun m; m_is_fun := m_is_fun m;
     m_do := fun a => m_do m (old_ask g a) |}.
