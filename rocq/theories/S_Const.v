(** What constant folding may rely on, said without the code: a machine that computes with constants as it
    should, and programs that do not do what folding is known not to keep. *)
From Coq Require Import String List ZArith Bool.
From Verif Require Import M_Base M_Fold M_Token M_Expr M_Stmt S_Fold S_Run.
Import ListNotations.

(** The operators and builtin functions and what they are called. *)
Definition unary_names : list (string * unop) := [("-", UNeg); ("~", UBnot); ("not", UNot); ("#", ULen)]%string.
Definition binary_names : list (string * binop) :=
  [("==", BEq); ("~=", BNe); ("!=", BNe); ("<", BLt); (">", BGt); ("<=", BLe); (">=", BGe); ("..", BCat);
   ("+", BAdd); ("-", BSub); ("*", BMul); ("/", BDiv); ("\", BIdiv); ("%", BMod);
   ("&", BBand); ("|", BBor); ("^^", BBxor); ("~", BBxor); ("<<", BShl); (">>", BShr); (">>>", BLshr); ("<<>", BRotl); (">><", BRotr)]%string.
Definition builtin_names : list (string * cfun) :=
  [("abs", FAbs); ("flr", FFlr); ("ceil", FCeil); ("min", FMin); ("max", FMax); ("mid", FMid);
   ("band", FBand); ("bor", FBor); ("bxor", FBxor); ("bnot", FBnot); ("shl", FShl); ("shr", FShr); ("lshr", FLshr); ("rotl", FRotl); ("rotr", FRotr)]%string.

(** While a task is done, the memory stays one of these. *)
Inductive within {V Mem} (P : Mem -> Prop) : steps V Mem -> Prop :=
| within_done vs me : P me -> within P (Done vs me)
| within_fail v me : P me -> within P (Fail v me)
| within_calls f args me k : P me -> (forall a me', P me' -> within P (k a me')) -> within P (Calls f args me k).

(** [value]: the values of the tokens of constants; [val]: values as the machine has them;
    [whole x]: the memories in which the builtin called [x] is what it was. *)
Record computes {V Mem} (lang : language) (value : tok -> option lval) (val : lval -> V) (whole : string -> Mem -> Prop) (m : machine V Mem) : Prop := {
  c_nil : m_nil m = val VNil;
  c_true : forall v, m_true m (val v) = true <-> truthy v;
  c_const : forall t v, value t = Some v -> S_Fold.value_of lang v /\ m_const m t = val v;
  c_unary : forall s op a c me, In (s, op) unary_names -> S_Fold.value_of lang a -> unary_means lang op a c ->
    m_do m (AUn (asc s)) [val a] me = Done [val c] me;
  c_binary : forall s op a b c me, In (s, op) binary_names -> S_Fold.value_of lang a -> S_Fold.value_of lang b -> binary_means lang op a b c ->
    m_do m (ABin (asc s)) [val a; val b] me = Done [val c] me;
  c_builtin : forall s f args c me, In (s, f) builtin_names -> whole s me -> Forall (S_Fold.value_of lang) args -> call_means lang f args c ->
    exists fv, m_do m (AGlobal (asc s)) [] me = Done [fv] me /\ m_is_fun m fv = None /\ m_do m ACall (fv :: map val args) me = Done [val c] me;
  (* only an assignment to the global touches the builtin *)
  c_whole : forall s f a vs me, In (s, f) builtin_names -> whole s me -> a <> ASetGlobal (asc s) -> within (whole s) (m_do m a vs me)
}.

(* ------------------------------------------------------------------ *)
(** * Programs *)
(** May give a number of values other than one. *)
Definition several (e : ex) : bool := match e with XCall _ _ _ | XMeth _ _ _ _ | XDots => true | _ => false end.
Definition and_or (op : list Z) : bool := zeqb_list op (asc "and") || zeqb_list op (asc "or").
Definition is_target (e : ex) : Prop := match e with XVar _ | XMem _ _ | XIdx _ _ => True | _ => False end.
Definition no_env (xs : list (list Z)) : Prop := ~ In (asc "_ENV") xs.
Fixpoint count_exs (es : exs) : nat := match es with XNil => O | XCons _ es => S (count_exs es) end.
Fixpoint names (ps : list (option (list Z))) : list (list Z) := match ps with [] => [] | Some x :: ps => x :: names ps | None :: ps => names ps end.

(** No local is called "_ENV", none by a local statement "print" (shorthands use it); targets are
    variables or members.  [all]: the expression stands where all its values are taken; there no "and" or
    "or" ends with a call or "..." (C29).  If a local statement has more variables than values, only the last value may be a
    call or "...". *)
Fixpoint fine_ex (all : bool) (e : ex) : Prop :=
  match e with
  | XConst _ | XDots | XVar _ => True
  | XFun ps b => no_env (names ps) /\ fine b
  | XGroup e | XUn _ e | XMem e _ => fine_ex false e
  | XBin op a b => fine_ex false a /\ (if and_or op then (all = true -> several b = false) /\ fine_ex all b else fine_ex false b)
  | XIdx a b => fine_ex false a /\ fine_ex false b
  | XCall f _ args | XMeth f _ _ args => fine_ex false f /\ fine_exs args
  | XTab i => fine_its i
  end
with fine_exs (es : exs) : Prop :=
  match es with XNil => True | XCons e XNil => fine_ex true e | XCons e es => fine_ex false e /\ fine_exs es end
with fine_its (i : its) : Prop :=
  match i with
  | INil => True
  | IIdx k v _ i => fine_ex false k /\ fine_ex false v /\ fine_its i
  | IMem _ v _ i => fine_ex false v /\ fine_its i
  | IItem e _ INil => fine_ex true e
  | IItem e _ i => fine_ex false e /\ fine_its i
  end
with fine_st (s : st) : Prop :=
  match s with
  | SSemi | SBreak | SGoto _ | SLabel _ => True
  | SDo b => fine b
  | SIf i => fine_ifs i
  | SWhile c b | SWhileShort _ c b => fine_ex false c /\ fine b
  | SRepeat b c => fine b /\ fine_ex false c
  | SFor x a z step b => fine_ex false a /\ fine_ex false z /\ fine_exs step /\ no_env [x] /\ fine b
  | SForIn xs es b => fine_exs es /\ no_env xs /\ fine b
  | SReturn es | SPrint es => fine_exs es
  | SLocal xs es => fine_exs es /\ no_env (map fst xs) /\ ~ In (asc "print") (map fst xs) /\
      (length xs <= count_exs es \/ only_last es)%nat
  | SLocalFun x ps b => no_env [x] /\ no_env (names ps) /\ fine b
  | SFun _ _ _ ps b => no_env (names ps) /\ fine b
  | SAssign ts es => fine_targets ts /\ fine_exs es
  | SOp t _ e => is_target t /\ fine_ex false t /\ fine_ex false e
  | SCall e => fine_ex false e
  end
with fine_targets (ts : exs) : Prop := match ts with XNil => True | XCons t ts => is_target t /\ fine_ex false t /\ fine_targets ts end
with only_last (es : exs) : Prop :=
  match es with XNil | XCons _ XNil => True | XCons e es => several e = false /\ fine_ex true e /\ only_last es end
with fine (b : blk) : Prop := match b with BNil => True | BCons s b => fine_st s /\ fine b end
with fine_ifs (i : ifs) : Prop :=
  match i with ILong _ c b e | IShort _ c b e => fine_ex false c /\ fine b /\ fine_els e end
with fine_els (e : els) : Prop :=
  match e with ENone => True | EElse b => fine b | EElif i => fine_ifs i end.
