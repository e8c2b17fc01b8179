(** Model of laying a program out for reading: [unminify_code] of /repo/pico_unminify.py
    l.5-115, for a program without comments.

    The walk over the tree appends texts to the output; here it gives what is appended, and the
    state [prev_token] and [prev_tight] is run over it.  Left out: comments (l.22-36), tokens
    erased before, sublanguages and the switch to another compiler. *)
From Coq Require Import String List ZArith Bool.
From Verif Require Import M_Base M_Fold M_Token M_Expr M_Stmt M_Emit.
Import ListNotations.
Open Scope Z_scope.

(** A token, with whether it stands in a unary operation itself ([prev_token.parent.type],
    l.58); whitespace, behind which nothing is tight; a word added for a shorthand; and the
    error at l.43: the "else" of a shorthand has no [cond] (AttributeError, here [EType]). *)
Inductive ev := ETok (t : tok) (un : bool) | EGap (s : list Z) | EWord (s : list Z) | ECrash.
Definition ew (s : string) : list ev := [ETok (op_tok (asc s)) false].
Definition en (x : list Z) : list ev := [ETok (Tok TIdent x) false].
(** "\n" and [indent_str * indent] *)
Definition newline : list ev := [EGap [10]].
Definition indented (ind : list Z) (n : nat) : list ev := [EGap (concat (repeat ind n))].

(** l.15-16 *)
Definition tight_prefix (t : tok) : bool := existsb (zeqb_list (tok_value t)) (map asc ["("; "["; "{"; "?"; "."; ":"; "::"]%string).
Definition tight_suffix (t : tok) : bool := existsb (zeqb_list (tok_value t)) (map asc [")"; "]"; "}"; ","; ";"; "."; ":"; "::"]%string).
(** Are two tokens put next to each other?  l.54-58 *)
Definition glued (p : tok) (un : bool) (t : tok) : bool :=
  tight_prefix p || tight_suffix t ||
  (existsb (zeqb_list (tok_value t)) (map asc ["("; "["]%string) &&
   (match p with Tok TIdent _ => true | _ => false end || existsb (zeqb_list (tok_value p)) (map asc ["function"; ")"; "]"; "}"]%string))) ||
  (match p with Tok TPunct _ => true | _ => false end && un).
(** The output; [prev] is [prev_token], if [prev_tight]. *)
Fixpoint put (prev : option (tok * bool)) (l : list ev) : res (list Z) :=
  match l with
  | [] => Ok []
  | ETok t un :: l =>
      r <- put (Some (t, un)) l ;;
      Ok (match prev with Some (p, u) => if glued p u t then [] else [32] | None => [] end ++ tok_value t ++ r)
  | EGap s :: l => r <- put None l ;; Ok (s ++ r)
  | EWord s :: l => r <- put prev l ;; Ok (s ++ r)
  | ECrash :: l => Err EType
  end.

Definition e_param (p : option (list Z)) : list ev := match p with Some x => en x | None => ew "..." end.
Fixpoint e_params (ps : list (option (list Z))) : list ev :=
  match ps with
  | [] => []
  | [p] => e_param p
  | p :: ps => e_param p ++ ew "," ++ e_params ps
  end.
Definition e_var (x : list Z * option (list Z)) : list ev :=
  match snd x with
  | Some a => en (fst x) ++ ew "<" ++ en a ++ ew ">"
  | None => en (fst x)
  end.
Fixpoint e_vars (xs : list (list Z * option (list Z))) : list ev :=
  match xs with
  | [] => []
  | [x] => e_var x
  | x :: xs => e_var x ++ ew "," ++ e_vars xs
  end.
Fixpoint e_names (xs : list (list Z)) : list ev :=
  match xs with
  | [] => []
  | [x] => en x
  | x :: xs => en x ++ ew "," ++ e_names xs
  end.
Fixpoint e_dotted (xs : list (list Z)) : list ev :=
  match xs with
  | [] => []
  | x :: xs => ew "." ++ en x ++ e_dotted xs
  end.
Definition e_sep (sep : option (list Z)) : list ev := match sep with Some v => [ETok (Tok TPunct v) false] | None => [] end.
(** [is_function_stmt], pico_parse.py l.1087-1088 *)
Definition is_fun_stmt (s : st) : bool := match s with SFun _ _ _ _ _ | SLocalFun _ _ _ => true | _ => false end.
(** A block, l.68-78 and l.93-99: [before] is what is added for a shorthand before it. *)
Definition enclosed (ind : list Z) (n : nat) (before : list ev) (b : list ev) : list ev := before ++ newline ++ b ++ indented ind n.
(** l.102: the "end" of a shorthand *)
Definition e_end : list ev := [EWord (asc "end")].

Definition par (bare : bool) (s : string) : list ev := if bare then [] else ew s.

(** [n] is [indent]; [bare]: this is the condition of a shorthand.  A ";" of a block is not put out (l.46-48), nor are the parentheses of a
    shorthand's condition (l.42-44), whatever they are: a group's, or those of a call; the "do"
    of an "if" becomes "then" (l.50-52). *)
Fixpoint u_ex (ind : list Z) (n : nat) (bare : bool) (e : ex) {struct e} : list ev :=
  match e with
  | XConst t => [ETok t false]
  | XDots => ew "..."
  | XVar x => en x
  | XFun ps b => ew "function" ++ ew "(" ++ e_params ps ++ ew ")" ++ enclosed ind n [] (u_blk ind (S n) false None b) ++ ew "end"
  | XGroup e => par bare "(" ++ u_ex ind n false e ++ par bare ")"
  | XUn op e => [ETok (op_tok op) true] ++ u_ex ind n false e
  | XBin op l r => u_ex ind n false l ++ [ETok (op_tok op) false] ++ u_ex ind n false r
  | XMem e key => u_ex ind n false e ++ ew "." ++ en key
  | XIdx e k => u_ex ind n false e ++ ew "[" ++ u_ex ind n false k ++ ew "]"
  | XCall f short args => u_ex ind n false f ++ (if short then u_exs ind n args else par bare "(" ++ u_exs ind n args ++ par bare ")")
  | XMeth e key short args => u_ex ind n false e ++ ew ":" ++ en key ++ (if short then u_exs ind n args else par bare "(" ++ u_exs ind n args ++ par bare ")")
  | XTab i => ew "{" ++ u_its ind n i ++ ew "}"
  end
with u_exs (ind : list Z) (n : nat) (es : exs) {struct es} : list ev :=
  match es with
  | XNil => []
  | XCons e XNil => u_ex ind n false e
  | XCons e es => u_ex ind n false e ++ ew "," ++ u_exs ind n es
  end
with u_its (ind : list Z) (n : nat) (i : its) {struct i} : list ev :=
  match i with
  | INil => []
  | IIdx k v sep i => ew "[" ++ u_ex ind n false k ++ ew "]" ++ ew "=" ++ u_ex ind n false v ++ e_sep sep ++ u_its ind n i
  | IMem key v sep i => en key ++ ew "=" ++ u_ex ind n false v ++ e_sep sep ++ u_its ind n i
  | IItem e sep i => u_ex ind n false e ++ e_sep sep ++ u_its ind n i
  end
with u_st (ind : list Z) (n : nat) (s : st) {struct s} : list ev :=
  match s with
  | SSemi => []
  | SDo b => ew "do" ++ enclosed ind n [] (u_blk ind (S n) false None b) ++ ew "end"
  | SIf i => u_ifs ind n "if" i
  | SWhile c b => ew "while" ++ u_ex ind n false c ++ ew "do" ++ enclosed ind n [] (u_blk ind (S n) false None b) ++ ew "end"
  | SWhileShort _ c b => ew "while" ++ u_ex ind n true c ++ enclosed ind n [EWord (asc " do")] (u_blk ind (S n) false None b) ++ e_end
  | SRepeat b c => ew "repeat" ++ enclosed ind n [] (u_blk ind (S n) false None b) ++ ew "until" ++ u_ex ind n false c
  | SFor x a z step b => ew "for" ++ en x ++ ew "=" ++ u_ex ind n false a ++ ew "," ++ u_ex ind n false z ++
      match step with XNil => [] | step => ew "," ++ u_exs ind n step end ++ ew "do" ++ enclosed ind n [] (u_blk ind (S n) false None b) ++ ew "end"
  | SForIn xs es b => ew "for" ++ e_names xs ++ ew "in" ++ u_exs ind n es ++ ew "do" ++ enclosed ind n [] (u_blk ind (S n) false None b) ++ ew "end"
  | SBreak => ew "break"
  | SReturn es => ew "return" ++ u_exs ind n es
  | SLocal xs XNil => ew "local" ++ e_vars xs
  | SLocal xs es => ew "local" ++ e_vars xs ++ ew "=" ++ u_exs ind n es
  | SLocalFun x ps b => ew "local" ++ ew "function" ++ en x ++ ew "(" ++ e_params ps ++ ew ")" ++ enclosed ind n [] (u_blk ind (S n) false None b) ++ ew "end"
  | SFun x path meth ps b => ew "function" ++ en x ++ e_dotted path ++ match meth with Some m => ew ":" ++ en m | None => [] end ++
      ew "(" ++ e_params ps ++ ew ")" ++ enclosed ind n [] (u_blk ind (S n) false None b) ++ ew "end"
  | SGoto x => ew "goto" ++ en x
  | SLabel x => ew "::" ++ en x ++ ew "::"
  | SAssign targets es => u_exs ind n targets ++ ew "=" ++ u_exs ind n es
  | SOp target op e => u_ex ind n false target ++ [ETok (Tok TPunct op) false] ++ u_ex ind n false e
  | SPrint es => ew "?" ++ u_exs ind n es
  | SCall e => u_ex ind n false e
  end
(** The children of a block, each on its own line, l.80-88 and l.105-111; [prev] is the child
    before, [crash] is set in the "else" of a shorthand. *)
with u_blk (ind : list Z) (n : nat) (crash : bool) (prev : option st) (b : blk) {struct b} : list ev :=
  match b with
  | BNil => []
  | BCons SSemi b => (if crash then [ECrash] else []) ++ u_blk ind n crash (Some SSemi) b
  | BCons s b =>
      (if is_fun_stmt s && match prev with Some p => negb (is_fun_stmt p) | None => false end then newline else []) ++
      indented ind n ++ u_st ind n s ++ newline ++ (if is_fun_stmt s then newline else []) ++
      u_blk ind n crash (Some s) b
  end
with u_ifs (ind : list Z) (n : nat) (w : string) (i : ifs) {struct i} : list ev :=
  match i with
  | ILong th c b e => ew w ++ u_ex ind n false c ++ ew "then" ++ enclosed ind n [] (u_blk ind (S n) false None b) ++ u_els ind n e
  | IShort _ c b e =>
      (* an "elseif" is no [is_short_block_stmt] *)
      let elif := zeqb_list (asc w) (asc "elseif") in
      ew w ++ (if elif then u_ex ind n false c else u_ex ind n true c) ++ enclosed ind n (if elif then [] else [EWord (asc " then")]) (u_blk ind (S n) false None b) ++
      match e with
      | EElse b => ew "else" ++ enclosed ind n [] (u_blk ind (S n) true None b) ++ e_end
      | _ => if elif then [] else e_end
      end
  end
with u_els (ind : list Z) (n : nat) (e : els) {struct e} : list ev :=
  match e with
  | ENone => ew "end"
  | EElse b => ew "else" ++ enclosed ind n [] (u_blk ind (S n) false None b) ++ ew "end"
  | EElif i => u_ifs ind n "elseif" i
  end.
(** [unminify_code].  A program of several files has a common root above theirs ([sub]), so that
    everything is a level deeper. *)
Definition unminify (ind : list Z) (sub : bool) (b : blk) : res (list Z) :=
  put None (enclosed ind 0 [] (u_blk ind (if sub then 1%nat else 0%nat) false None b)).
