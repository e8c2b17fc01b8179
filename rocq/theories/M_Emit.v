(** Model of writing a program: [output_node] of /repo/pico_output.py l.297-385, when spaces,
    line breaks and comments are minified (the default).

    What is modelled is on which line each token is put; whether a space goes between two
    tokens is M_Token.  A shorthand counts its level up before its tokens and down behind them
    (l.374-384), and at level zero a line break is due before the next token.  In the code a
    break that is due is put where there was something between the tokens in the source; after
    an "if" or "while" shorthand there always was, after "?" there may not have been: this
    difference is left out. *)
From Coq Require Import String List ZArith.
From Verif Require Import M_Base M_Fold M_Token M_Expr M_Stmt.
Import ListNotations.
Open Scope Z_scope.

(** What [traverse_nodes] comes by: tokens, and the begin and end of shorthands that are not
    nested ([is_non_nested_short], l.262-264). *)
Inductive item := T (t : tok) | Open | Close.
Definition tw (s : string) : list item := [T (op_tok (asc s))].
Definition tn (x : list Z) : list item := [T (Tok TIdent x)].
Definition short (nested : bool) (m : list item) : list item := if nested then m else Open :: m ++ [Close].

Definition m_param (p : option (list Z)) : list item := match p with Some x => tn x | None => tw "..." end.
Fixpoint m_params (ps : list (option (list Z))) : list item :=
  match ps with
  | [] => []
  | [p] => m_param p
  | p :: ps => m_param p ++ tw "," ++ m_params ps
  end.
Definition m_var (x : list Z * option (list Z)) : list item :=
  match snd x with
  | Some a => tn (fst x) ++ tw "<" ++ tn a ++ tw ">"
  | None => tn (fst x)
  end.
Fixpoint m_vars (xs : list (list Z * option (list Z))) : list item :=
  match xs with
  | [] => []
  | [x] => m_var x
  | x :: xs => m_var x ++ tw "," ++ m_vars xs
  end.
Fixpoint m_names (xs : list (list Z)) : list item :=
  match xs with
  | [] => []
  | [x] => tn x
  | x :: xs => tn x ++ tw "," ++ m_names xs
  end.
Fixpoint m_dotted (xs : list (list Z)) : list item :=
  match xs with
  | [] => []
  | x :: xs => tw "." ++ tn x ++ m_dotted xs
  end.
Definition m_sep (sep : option (list Z)) : list item := match sep with Some v => [T (Tok TPunct v)] | None => [] end.

(** The children of each node as the parser made them (pico_parse.py l.453-1005), in order;
    the node of a print shorthand is always short (l.834-842), that of an "else" is as its
    "if" is (l.727). *)
Fixpoint m_ex (e : ex) : list item :=
  match e with
  | XConst t => [T t]
  | XDots => tw "..."
  | XVar x => tn x
  | XFun ps b => tw "function" ++ tw "(" ++ m_params ps ++ tw ")" ++ m_blk b ++ tw "end"
  | XGroup e => tw "(" ++ m_ex e ++ tw ")"
  | XUn op e => [T (op_tok op)] ++ m_ex e
  | XBin op l r => m_ex l ++ [T (op_tok op)] ++ m_ex r
  | XMem e key => m_ex e ++ tw "." ++ tn key
  | XIdx e k => m_ex e ++ tw "[" ++ m_ex k ++ tw "]"
  | XCall f short args => m_ex f ++ (if short then m_exs args else tw "(" ++ m_exs args ++ tw ")")
  | XMeth e key short args => m_ex e ++ tw ":" ++ tn key ++ (if short then m_exs args else tw "(" ++ m_exs args ++ tw ")")
  | XTab i => tw "{" ++ m_its i ++ tw "}"
  end
with m_exs (es : exs) : list item :=
  match es with
  | XNil => []
  | XCons e XNil => m_ex e
  | XCons e es => m_ex e ++ tw "," ++ m_exs es
  end
with m_its (i : its) : list item :=
  match i with
  | INil => []
  | IIdx k v sep i => tw "[" ++ m_ex k ++ tw "]" ++ tw "=" ++ m_ex v ++ m_sep sep ++ m_its i
  | IMem key v sep i => tn key ++ tw "=" ++ m_ex v ++ m_sep sep ++ m_its i
  | IItem e sep i => m_ex e ++ m_sep sep ++ m_its i
  end
with m_st (s : st) : list item :=
  match s with
  | SSemi => tw ";"
  | SDo b => tw "do" ++ m_blk b ++ tw "end"
  | SIf i => m_ifs "if" i
  | SWhile c b => tw "while" ++ m_ex c ++ tw "do" ++ m_blk b ++ tw "end"
  | SWhileShort nested c b => short nested (tw "while" ++ m_ex c ++ m_blk b)
  | SRepeat b c => tw "repeat" ++ m_blk b ++ tw "until" ++ m_ex c
  | SFor x a z step b => tw "for" ++ tn x ++ tw "=" ++ m_ex a ++ tw "," ++ m_ex z ++
      match step with XNil => [] | step => tw "," ++ m_exs step end ++ tw "do" ++ m_blk b ++ tw "end"
  | SForIn xs es b => tw "for" ++ m_names xs ++ tw "in" ++ m_exs es ++ tw "do" ++ m_blk b ++ tw "end"
  | SBreak => tw "break"
  | SReturn es => tw "return" ++ m_exs es
  | SLocal xs XNil => tw "local" ++ m_vars xs
  | SLocal xs es => tw "local" ++ m_vars xs ++ tw "=" ++ m_exs es
  | SLocalFun x ps b => tw "local" ++ tw "function" ++ tn x ++ tw "(" ++ m_params ps ++ tw ")" ++ m_blk b ++ tw "end"
  | SFun x path meth ps b => tw "function" ++ tn x ++ m_dotted path ++ match meth with Some m => tw ":" ++ tn m | None => [] end ++
      tw "(" ++ m_params ps ++ tw ")" ++ m_blk b ++ tw "end"
  | SGoto x => tw "goto" ++ tn x
  | SLabel x => tw "::" ++ tn x ++ tw "::"
  | SAssign targets es => m_exs targets ++ tw "=" ++ m_exs es
  | SOp target op e => m_ex target ++ [T (Tok TPunct op)] ++ m_ex e
  | SPrint es => short false (tw "?" ++ m_exs es)
  | SCall e => m_ex e
  end
with m_blk (b : blk) : list item :=
  match b with
  | BNil => []
  | BCons s b => m_st s ++ m_blk b
  end
with m_ifs (w : string) (i : ifs) : list item :=
  match i with
  | ILong th c b e => tw w ++ m_ex c ++ [T (op_tok th)] ++ m_blk b ++ m_els e
  | IShort nested c b e => short nested (tw w ++ m_ex c ++ m_blk b ++
      match e with EElse b => short nested (tw "else" ++ m_blk b) | _ => [] end)
  end
with m_els (e : els) : list item :=
  match e with
  | ENone => tw "end"
  | EElse b => tw "else" ++ m_blk b ++ tw "end"
  | EElif i => m_ifs "elseif" i
  end.

(** [short_level], [need_linebreak] and the line *)
Definition estate : Type := (nat * bool * Z)%type.
(** [pre_node_output], [post_node_output], [token_output] with [wspace_output], l.318-331 and
    l.363-384 *)
Definition step (s : estate) (i : item) : estate :=
  let '(level, due, l) := s in
  match i with
  | T _ => (level, false, if due then l + 1 else l)
  | Open => (S level, due, l)
  | Close => (pred level, due || Nat.eqb (pred level) 0, l)
  end.
Fixpoint run (s : estate) (m : list item) : list ltok :=
  match m with
  | [] => []
  | i :: m =>
      let s' := step s i in
      match i with T t => (t, snd s') :: run s' m | _ => run s' m end
  end.
Definition after (s : estate) (m : list item) : estate := fold_left step m s.
(** [output_node] *)
Definition emit (b : blk) : list ltok := run (0%nat, false, 1) (m_blk b).
