(** What programs do, said without the code: an interpreter for the trees of M_Stmt.

    The machine below the programs (numbers, strings, tables, operators, builtins, the
    globals) is any machine.  What it does on an operator, an index or a call of a builtin is a
    tree of steps: it ends with values or an error, or calls a function of the program and goes
    on with the answer.  Functions of the program are known to it by their number only, so it
    cannot look into their code.  Locals live in boxes, as closures share them.

    Left out: coroutines, and what "<const>" and "<close>" do. *)
From Coq Require Import String List ZArith Bool.
From Verif Require Import M_Base M_Fold M_Token M_Expr M_Stmt.
Import ListNotations.
Open Scope Z_scope.

(** What a program asks of the machine. *)
Inductive ask :=
| AUn (op : list Z)                 (* an operator *)
| ABin (op : list Z)
| AIndex                            (* table, key *)
| ASetIndex                         (* table, key, value *)
| ACall                             (* a call of something that is no function of the program *)
| ATable                            (* a new table *)
| AItem (n : nat)                   (* table, value: as the item with this number *)
| AGlobal (x : list Z)
| ASetGlobal (x : list Z)           (* value *)
| AForTest                          (* counter, limit, step: go on? *)
| AForNext.                         (* counter, step: the next counter *)

Section Machine.
Context (V Mem : Type).

Inductive answer := Returned (vs : list V) | Raised (v : V).
Inductive steps :=
| Done (vs : list V) (m : Mem)
| Fail (v : V) (m : Mem)
| Calls (f : nat) (args : list V) (m : Mem) (k : answer -> Mem -> steps).

Record machine := {
  m_nil : V;
  m_true : V -> bool;               (* does it count as true? *)
  m_is_nil : V -> bool;
  m_const : tok -> V;               (* the value of a constant *)
  m_str : list Z -> V;
  m_fun : nat -> V;                 (* the function of the program with this number *)
  m_is_fun : V -> option nat;
  m_do : ask -> list V -> Mem -> steps
}.

(** Names of locals with their boxes, the latest first. *)
Definition vars : Type := list (list Z * nat).
(** A function: parameters, body and the locals around it. *)
Definition closure : Type := (list (option (list Z)) * blk * vars)%type.
Record state := St { boxes : list V; funs : list closure; mem : Mem }.

(** What running something gives, if it ends. *)
Inductive out (A : Type) := Gives (a : A) (s : state) | Raises (v : V) (s : state) | Unfinished.
Arguments Gives {A}. Arguments Raises {A}. Arguments Unfinished {A}.
Definition M (A : Type) : Type := state -> out A.
Definition ret {A} (a : A) : M A := fun s => Gives a s.
Definition bind {A B} (x : M A) (f : A -> M B) : M B := fun s =>
  match x s with Gives a s => f a s | Raises v s => Raises v s | Unfinished => Unfinished end.
Definition never {A} : M A := fun _ => Unfinished.

(** How a statement or block ends. *)
Inductive sig := Next (r : vars) | Break | Return (vs : list V) | Goto (l : list Z).
(** Where an assignment goes to. *)
Inductive place := PBox (a : nat) | PGlobal (x : list Z) | PIndex (t k : V).
End Machine.

Arguments Returned {V}. Arguments Raised {V}. Arguments Done {V Mem}. Arguments Fail {V Mem}. Arguments Calls {V Mem}.
Arguments m_nil {V Mem}. Arguments m_true {V Mem}. Arguments m_is_nil {V Mem}. Arguments m_const {V Mem}.
Arguments m_str {V Mem}. Arguments m_fun {V Mem}. Arguments m_is_fun {V Mem}. Arguments m_do {V Mem}.
Arguments St {V Mem}. Arguments boxes {V Mem}. Arguments funs {V Mem}. Arguments mem {V Mem}.
Arguments Gives {V Mem A}. Arguments Raises {V Mem A}. Arguments Unfinished {V Mem A}.
Arguments ret {V Mem A}. Arguments bind {V Mem A B}. Arguments never {V Mem A}.
Arguments Next {V}. Arguments Break {V}. Arguments Return {V}. Arguments Goto {V}.
Arguments PBox {V}. Arguments PGlobal {V}. Arguments PIndex {V}.

Declare Scope run_scope.
Delimit Scope run_scope with run.
Notation "x <-- e ; k" := (bind e (fun x => k)) (at level 60, e at next level, right associativity) : run_scope.
Open Scope run_scope.

Section Run.
Context {V Mem : Type} (m : machine V Mem).
Notation M := (M V Mem).
Notation sig := (sig V).

(** ** The state *)
Fixpoint find (x : list Z) (r : vars) : option nat :=
  match r with [] => None | (y, a) :: r => if zeqb_list y x then Some a else find x r end.
Fixpoint set_nth {A} (n : nat) (a : A) (l : list A) : list A :=
  match l, n with [], _ => [] | _ :: l, O => a :: l | b :: l, S n => b :: set_nth n a l end.
Definition get_box (a : nat) : M V := fun s => Gives (nth a (boxes s) (m_nil m)) s.
Definition set_box (a : nat) (v : V) : M unit := fun s => Gives tt (St (set_nth a v (boxes s)) (funs s) (mem s)).
Definition new_box (v : V) : M nat := fun s => Gives (length (boxes s)) (St (boxes s ++ [v]) (funs s) (mem s)).
Definition new_fun (c : closure) : M V := fun s =>
  Gives (m_fun m (length (funs s))) (St (boxes s) (funs s ++ [c]) (mem s)).
(** New locals with values; missing values are nil, more values are dropped. *)
Fixpoint declare (xs : list (list Z)) (vs : list V) (r : vars) : M vars :=
  match xs with
  | [] => ret r
  | x :: xs => a <-- new_box (hd (m_nil m) vs) ; declare xs (tl vs) ((x, a) :: r)
  end.
Definition first (vs : list V) : V := hd (m_nil m) vs.

(** ** Calls *)
Section Calls.
Context (call : nat -> list V -> M (list V)).          (* of functions of the program *)
Context (fuel : nat).                                   (* for loops *)

Fixpoint follow (t : steps V Mem) (s : state V Mem) : out V Mem (list V) :=
  match t with
  | Done vs me => Gives vs (St (boxes s) (funs s) me)
  | Fail v me => Raises v (St (boxes s) (funs s) me)
  | Calls f args me k =>
      match call f args (St (boxes s) (funs s) me) with
      | Gives vs s => follow (k (Returned vs) (mem s)) s
      | Raises v s => follow (k (Raised v) (mem s)) s
      | Unfinished => Unfinished
      end
  end.
Definition do_ (a : ask) (vs : list V) : M (list V) := fun s => follow (m_do m a vs (mem s)) s.
Definition do1 (a : ask) (vs : list V) : M V := vs <-- do_ a vs ; ret (first vs).
Definition apply (f : V) (args : list V) : M (list V) :=
  match m_is_fun m f with Some a => call a args | None => do_ ACall (f :: args) end.

(** A global is a member of the local "_ENV", if there is one. *)
Definition read (r : vars) (x : list Z) : M V :=
  match find x r with
  | Some a => get_box a
  | None =>
      match find (asc "_ENV") r with
      | Some a => t <-- get_box a ; do1 AIndex [t; m_str m x]
      | None => do1 (AGlobal x) []
      end
  end.
Definition place_of (r : vars) (x : list Z) : M (place V) :=
  match find x r with
  | Some a => ret (PBox a)
  | None =>
      match find (asc "_ENV") r with
      | Some a => t <-- get_box a ; ret (PIndex t (m_str m x))
      | None => ret (PGlobal x)
      end
  end.
Definition fetch (p : place V) : M V :=
  match p with
  | PBox a => get_box a
  | PGlobal x => do1 (AGlobal x) []
  | PIndex t k => do1 AIndex [t; k]
  end.
Definition store (p : place V) (v : V) : M unit :=
  match p with
  | PBox a => set_box a v
  | PGlobal x => _ <-- do_ (ASetGlobal x) [v] ; ret tt
  | PIndex t k => _ <-- do_ ASetIndex [t; k; v] ; ret tt
  end.
(** Of several places the last is assigned first. *)
Fixpoint stores (ps : list (place V)) (vs : list V) : M unit :=
  match ps with
  | [] => ret tt
  | p :: ps => _ <-- stores ps (tl vs) ; store p (hd (m_nil m) vs)
  end.

(** ** Loops *)
(** The body says whether to go on. *)
Fixpoint loop {A} (n : nat) (body : M (option A)) : M A :=
  match n with
  | O => never
  | S n => x <-- body ; match x with Some a => ret a | None => loop n body end
  end.
(** Behind the body of a loop. *)
Definition after (r : vars) (g : sig) : option sig :=
  match g with Next _ => None | Break => Some (Next r) | g => Some g end.
Fixpoint for_num (n : nat) (r : vars) (i z step : V) (body : V -> M sig) : M sig :=
  match n with
  | O => never
  | S n =>
      t <-- do1 AForTest [i; z; step] ;
      if m_true m t then
        g <-- body i ;
        match after r g with
        | Some g => ret g
        | None => i <-- do1 AForNext [i; step] ; for_num n r i z step body
        end
      else ret (Next r)
  end.
Fixpoint for_in (n : nat) (r : vars) (f s c : V) (body : list V -> M sig) : M sig :=
  match n with
  | O => never
  | S n =>
      vs <-- apply f [s; c] ;
      if m_is_nil m (first vs) then ret (Next r)
      else
        g <-- body vs ;
        match after r g with Some g => ret g | None => for_in n r f s (first vs) body end
  end.
(** Behind a label: as long as the rest ends with a jump to it, once more. *)
Definition labelled (l : list Z) (rest : M sig) : M sig :=
  loop fuel (g <-- rest ; ret (match g with Goto l' => if zeqb_list l' l then None else Some g | g => Some g end)).

(** Behind a block: its locals are gone. *)
Definition leave (r : vars) (g : sig) : sig := match g with Next _ => Next r | g => g end.
(** The values of the last item of a table. *)
Fixpoint items (t : V) (n : nat) (vs : list V) : M unit :=
  match vs with [] => ret tt | v :: vs => _ <-- do_ (AItem n) [t; v] ; items t (S n) vs end.
(** Where a function statement goes to. *)
Fixpoint walk (v : V) (key : list Z) (keys : list (list Z)) : M (place V) :=
  match keys with
  | [] => ret (PIndex v (m_str m key))
  | k :: keys => v <-- do1 AIndex [v; m_str m key] ; walk v k keys
  end.
Definition path_of (r : vars) (x : list Z) (keys : list (list Z)) : M (place V) :=
  match keys with [] => place_of r x | k :: keys => v <-- read r x ; walk v k keys end.

(** ** Programs *)
(** A condition. *)
Definition test (vs : list V) : bool := m_true m (first vs).
Definition is_op (op : list Z) (s : string) : bool := zeqb_list op (asc s).

(** The operator of a compound assignment. *)
Definition compound (op : list Z) : option (list Z) :=
  if existsb (is_op op) ["+="; "-="; "*="; "/="; "//="; "\="; "%="; "^="; "..="; "|="; "&="; "^^="; "<<="; ">>="; ">>>="; "<<>="; ">><="]%string
  then Some (removelast op) else None.

Section Body.
Context (dots : list V).                                (* the values of "..." *)

Fixpoint r_ex (e : ex) (r : vars) {struct e} : M (list V) :=
  match e with
  | XConst t => ret [m_const m t]
  | XDots => ret dots
  | XVar x => v <-- read r x ; ret [v]
  | XFun ps b => v <-- new_fun (ps, b, r) ; ret [v]
  | XGroup e => vs <-- r_ex e r ; ret [first vs]
  | XUn op e => vs <-- r_ex e r ; v <-- do1 (AUn op) [first vs] ; ret [v]
  | XBin op a b =>
      vs <-- r_ex a r ;
      if is_op op "and" then
        if test vs then ws <-- r_ex b r ; ret [first ws] else ret [first vs]
      else if is_op op "or" then
        if test vs then ret [first vs] else ws <-- r_ex b r ; ret [first ws]
      else ws <-- r_ex b r ; v <-- do1 (ABin op) [first vs; first ws] ; ret [v]
  | XMem e key => vs <-- r_ex e r ; v <-- do1 AIndex [first vs; m_str m key] ; ret [v]
  | XIdx e k => vs <-- r_ex e r ; ws <-- r_ex k r ; v <-- do1 AIndex [first vs; first ws] ; ret [v]
  | XCall f _ args => vs <-- r_ex f r ; ws <-- r_exs args r ; apply (first vs) ws
  | XMeth e key _ args =>
      vs <-- r_ex e r ; f <-- do1 AIndex [first vs; m_str m key] ; ws <-- r_exs args r ; apply f (first vs :: ws)
  | XTab i => t <-- do1 ATable [] ; _ <-- r_its i r t 1 ; ret [t]
  end
(** The values of a list: all of the last, one of the others. *)
with r_exs (es : exs) (r : vars) {struct es} : M (list V) :=
  match es with
  | XNil => ret []
  | XCons e XNil => r_ex e r
  | XCons e es => vs <-- r_ex e r ; ws <-- r_exs es r ; ret (first vs :: ws)
  end
with r_its (i : its) (r : vars) (t : V) (n : nat) {struct i} : M unit :=
  match i with
  | INil => ret tt
  | IIdx k v _ i => ks <-- r_ex k r ; vs <-- r_ex v r ; _ <-- do_ ASetIndex [t; first ks; first vs] ; r_its i r t n
  | IMem key v _ i => vs <-- r_ex v r ; _ <-- do_ ASetIndex [t; m_str m key; first vs] ; r_its i r t n
  | IItem e _ INil => vs <-- r_ex e r ; items t n vs
  | IItem e _ i => vs <-- r_ex e r ; _ <-- do_ (AItem n) [t; first vs] ; r_its i r t (S n)
  end.
(** Targets; what is no variable or member cannot be assigned. *)
Definition r_place (e : ex) (r : vars) : M (place V) :=
  match e with
  | XVar x => place_of r x
  | XMem e key => vs <-- r_ex e r ; ret (PIndex (first vs) (m_str m key))
  | XIdx e k => vs <-- r_ex e r ; ws <-- r_ex k r ; ret (PIndex (first vs) (first ws))
  | _ => never
  end.
Fixpoint r_places (es : exs) (r : vars) : M (list (place V)) :=
  match es with XNil => ret [] | XCons e es => p <-- r_place e r ; ps <-- r_places es r ; ret (p :: ps) end.
Fixpoint r_st (s : st) (r : vars) {struct s} : M sig :=
  match s with
  | SSemi => ret (Next r)
  | SDo b => g <-- r_blk b None r ; ret (leave r g)
  | SIf i => r_ifs i r
  | SWhile c b | SWhileShort _ c b =>
      loop fuel (vs <-- r_ex c r ;
                 if test vs then g <-- r_blk b None r ; ret (after r g) else ret (Some (Next r)))
  | SRepeat b c =>
      loop fuel (g <-- r_blk b None r ;
                 match g with
                 | Next r' => vs <-- r_ex c r' ; ret (if test vs then Some (Next r) else None)
                 | g => ret (after r g)
                 end)
  | SFor x a z step b =>
      vs <-- r_ex a r ; ws <-- r_ex z r ; us <-- r_exs step r ;
      for_num fuel r (first vs) (first ws) (first us) (fun v => r' <-- declare [x] [v] r ; r_blk b None r')
  | SForIn xs es b =>
      vs <-- r_exs es r ;
      for_in fuel r (nth 0 vs (m_nil m)) (nth 1 vs (m_nil m)) (nth 2 vs (m_nil m))
        (fun vs => r' <-- declare xs vs r ; r_blk b None r')
  | SBreak => ret Break
  | SReturn es => vs <-- r_exs es r ; ret (Return vs)
  | SLocal xs es => vs <-- r_exs es r ; r' <-- declare (map fst xs) vs r ; ret (Next r')
  | SLocalFun x ps b =>
      a <-- new_box (m_nil m) ; v <-- new_fun (ps, b, (x, a) :: r) ; _ <-- set_box a v ; ret (Next ((x, a) :: r))
  | SFun x path meth ps b =>
      p <-- path_of r x (path ++ match meth with Some k => [k] | None => [] end) ;
      v <-- new_fun ((match meth with Some _ => [Some (asc "self")] | None => [] end) ++ ps, b, r) ;
      _ <-- store p v ; ret (Next r)
  | SGoto l => ret (Goto l)
  | SLabel _ => ret (Next r)                            (* see [r_blk] *)
  | SAssign ts es => ps <-- r_places ts r ; vs <-- r_exs es r ; _ <-- stores ps vs ; ret (Next r)
  | SOp t op e =>
      match compound op with
      | None => never
      | Some op =>
          p <-- r_place t r ; v <-- fetch p ; ws <-- r_ex e r ;
          v <-- do1 (ABin op) [v; first ws] ; _ <-- store p v ; ret (Next r)
      end
  | SPrint es => f <-- read r (asc "print") ; vs <-- r_exs es r ; _ <-- apply f vs ; ret (Next r)  (* a call of print *)
  | SCall e => _ <-- r_ex e r ; ret (Next r)
  end
(** A block; with a label, only from this label on.  A jump goes to a label further on in the
    block, else to one before, else it leaves the block. *)
with r_blk (b : blk) (skip : option (list Z)) (r : vars) {struct b} : M sig :=
  match b with
  | BNil => ret (match skip with None => Next r | Some l => Goto l end)
  | BCons (SLabel l) b =>
      match skip with
      | Some l' =>
          if zeqb_list l' l then labelled l (r_blk b None r)
          else g <-- r_blk b skip r ;
               match g with Goto l' => if zeqb_list l' l then labelled l (r_blk b None r) else ret g | g => ret g end
      | None => labelled l (r_blk b None r)
      end
  | BCons s b =>
      match skip with
      | Some _ => r_blk b skip r
      | None =>
          g <-- r_st s r ;
          match g with Next r' => r_blk b None r' | Goto l => r_blk b (Some l) r | g => ret g end
      end
  end
with r_ifs (i : ifs) (r : vars) {struct i} : M sig :=
  match i with
  | ILong _ c b e | IShort _ c b e =>
      vs <-- r_ex c r ;
      if test vs then g <-- r_blk b None r ; ret (leave r g) else r_els e r
  end
with r_els (e : els) (r : vars) {struct e} : M sig :=
  match e with
  | ENone => ret (Next r)
  | EElse b => g <-- r_blk b None r ; ret (leave r g)
  | EElif i => r_ifs i r
  end.
End Body.
End Calls.

(** The values behind the parameters are those of "...", if the function has it. *)
Definition names_of (ps : list (option (list Z))) : list (list Z) :=
  flat_map (fun p => match p with Some x => [x] | None => [] end) ps.
Definition values (g : sig) : list V := match g with Return vs => vs | _ => [] end.
(** A function of the program: at most [n] calls inside each other, and loops of [n] rounds. *)
Fixpoint call (n : nat) (f : nat) (args : list V) : M (list V) :=
  match n with
  | O => never
  | S n => fun s =>
      match nth_error (funs s) f with
      | None => Gives [] s
      | Some (ps, b, r) =>
          (r <-- declare (names_of ps) args r ;
           g <-- r_blk (call n) n (skipn (length (names_of ps)) args) b None r ; ret (values g)) s
      end
  end.
(** A program: its values or error and the memory behind it. *)
Definition run (n : nat) (b : blk) (me : Mem) : option ((list V + V) * Mem) :=
  match r_blk (call n) n [] b None [] (St [] [] me) with
  | Gives g s => Some (inl (values g), mem s)
  | Raises v s => Some (inr v, mem s)
  | Unfinished => None
  end.
End Run.
