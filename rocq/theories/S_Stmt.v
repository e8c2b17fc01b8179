(** Programs as token sequences, said without the parser. *)
From Coq Require Import String List ZArith.
From Verif Require Import M_Base M_Fold M_Token M_Expr S_Expr M_Stmt.
Import ListNotations.
Open Scope Z_scope.

(* ------------------------------------------------------------------ *)
(** * Trees *)

(** As for expressions alone, see [S_Expr]. *)
Definition tight_ex (e : ex) (k : nat) : Prop :=
  match e with
  | XBin op _ _ => exists n, level_of op n /\ (k <= n)%nat
  | XUn _ _ => (k <= 11)%nat
  | _ => True
  end.
Definition is_un (e : ex) : Prop := match e with XUn _ _ => True | _ => False end.
Definition callable_ex (e : ex) : Prop :=
  match e with XVar _ | XMem _ _ | XIdx _ _ | XCall _ _ _ | XMeth _ _ _ _ | XGroup _ => True | _ => False end.
Definition is_call (e : ex) : Prop := match e with XCall _ _ _ | XMeth _ _ _ _ => True | _ => False end.
Definition short_exs (args : exs) : Prop :=
  match args with
  | XCons (XTab _) XNil => True
  | XCons (XConst (Tok TString _)) XNil => True
  | _ => False
  end.
Definition sep_ok (sep : option (list Z)) (i : its) : Prop :=
  match sep with
  | Some v => v = asc "," \/ v = asc ";"
  | None => i = INil
  end.
Definition param_ok (p : option (list Z)) : Prop := match p with Some x => plain_word x | None => True end.
(** Does an expression begin with a function?  Then it cannot begin a statement. *)
Fixpoint fun_first (e : ex) : Prop :=
  match e with
  | XFun _ _ => True
  | XBin _ l _ => fun_first l
  | _ => False
  end.

Section Trees.
Context (lang : language).

Definition attr_ok (x : list Z * option (list Z)) : Prop :=
  plain_word (fst x) /\
  match snd x with Some a => (a = asc "const" \/ a = asc "close") /\ lang = Picotron | None => True end.
(** An assignment operator such as "+=". *)
Definition op_ok (op : list Z) : Prop :=
  (exists o, op = o ++ asc "=") /\ op <> asc "=" /\ forall k, level_of op k -> ~ in_lang lang op.

(** The trees that need no more parentheses than they have, and whose statements are
    complete. *)
Fixpoint wf (e : ex) : Prop :=
  match e with
  | XConst t => constant t
  | XDots => True
  | XVar name => plain_word name
  | XFun ps b => Forall param_ok ps /\ wf_blk b
  | XGroup e => wf e
  | XUn op e => unary lang op /\ wf e /\ tight_ex e 11
  | XBin op l r =>
      in_lang lang op /\ wf l /\ wf r /\
      exists k, level_of op k /\
        ((~ right_assoc op /\ tight_ex l k /\ (tight_ex r (k + 1) \/ is_un r)) \/
         (right_assoc op /\ tight_ex l (k + 1) /\ (tight_ex r k \/ is_un r)))
  | XMem e key => callable_ex e /\ wf e /\ plain_word key
  | XIdx e k => callable_ex e /\ wf e /\ wf k
  | XCall f short args => callable_ex f /\ wf f /\ wf_exs args /\ (short = true -> short_exs args)
  | XMeth e key short args => callable_ex e /\ wf e /\ plain_word key /\ wf_exs args /\ (short = true -> short_exs args)
  | XTab i => wf_its i
  end
with wf_exs (es : exs) : Prop :=
  match es with XNil => True | XCons e es => wf e /\ wf_exs es end
with wf_its (i : its) : Prop :=
  match i with
  | INil => True
  | IIdx k v sep i => wf k /\ wf v /\ sep_ok sep i /\ wf_its i
  | IMem key v sep i => plain_word key /\ wf v /\ sep_ok sep i /\ wf_its i
  | IItem e sep i => wf e /\ sep_ok sep i /\ wf_its i
  end
with wf_st (s : st) : Prop :=
  match s with
  | SSemi | SBreak => True
  | SDo b => wf_blk b
  | SIf i => wf_ifs i
  | SWhile c b | SWhileShort _ c b | SRepeat b c => wf c /\ wf_blk b
  | SFor x a z step b => plain_word x /\ wf a /\ wf z /\ wf_exs step /\ match step with XNil | XCons _ XNil => True | _ => False end /\ wf_blk b
  | SForIn xs es b => xs <> [] /\ Forall plain_word xs /\ es <> XNil /\ wf_exs es /\ wf_blk b
  | SReturn es => wf_exs es
  | SLocal xs es => xs <> [] /\ Forall attr_ok xs /\ wf_exs es
  | SLocalFun x ps b => plain_word x /\ Forall param_ok ps /\ wf_blk b
  | SFun x path meth ps b => plain_word x /\ Forall plain_word path /\ param_ok meth /\ Forall param_ok ps /\ wf_blk b
  | SGoto x | SLabel x => plain_word x
  | SAssign targets es => match targets with XNil => False | XCons e _ => ~ fun_first e end /\ wf_exs targets /\ es <> XNil /\ wf_exs es
  | SOp target op e => wf target /\ ~ fun_first target /\ op_ok op /\ wf e
  | SPrint es => es <> XNil /\ wf_exs es
  | SCall e => is_call e /\ wf e
  end
with wf_blk (b : blk) : Prop :=
  match b with BNil => True | BCons s b => wf_st s /\ wf_blk b end
with wf_ifs (i : ifs) : Prop :=
  match i with
  | ILong w c b e => (w = asc "then" \/ w = asc "do" /\ lang = Pico8) /\ wf c /\ wf_blk b /\ wf_els e
  | IShort _ c b e => wf c /\ wf_blk b /\ wf_els e /\ match e with EElif _ => False | _ => True end
  end
with wf_els (e : els) : Prop :=
  match e with ENone => True | EElse b => wf_blk b | EElif i => wf_ifs i end.
End Trees.

(* ------------------------------------------------------------------ *)
(** * Tokens *)

(** A rule says which tokens, with which tokens behind them, are something. *)
Definition rule : Type := list ltok -> list ltok -> Prop.
Definition tk (t : tok) : rule := fun ts _ => exists l, ts = [(t, l)].
(** A symbol or keyword, and a name. *)
Definition word (s : string) : rule := tk (op_tok (asc s)).
Definition name (x : list Z) : rule := tk (Tok TIdent x).
Definition seq (A B : rule) : rule := fun ts rest => exists a b, ts = a ++ b /\ A a (b ++ rest) /\ B b rest.
Infix ">>" := seq (at level 61, right associativity).
Definition nothing : rule := fun ts _ => ts = [].
(** Nothing, but what follows is as said. *)
Definition ahead (P : list ltok -> Prop) : rule := fun ts rest => ts = [] /\ P rest.

Definition next_is (l : list string) (rest : list ltok) : Prop :=
  match rest with (Tok _ v, _) :: _ => In v (map asc l) | _ => False end.
(** Behind the line, if there is one that counts; the end of the program is. *)
Definition past (vl : option Z) (rest : list ltok) : Prop :=
  match vl with
  | Some l => match rest with (_, l') :: _ => l < l' | [] => True end
  | None => False
  end.
Definition same_line (l : Z) (rest : list ltok) : Prop := match rest with (_, l') :: _ => l' = l | [] => False end.
Definition closers : list string := ["end"; "else"; "elseif"; "until"]%string.
Definition suffixes : list string := ["."; "["; "("; "{"; ":"]%string.

(** Does an expression end with something that can be called or indexed? *)
Fixpoint open_end (e : ex) : Prop :=
  match e with
  | XBin _ _ r => open_end r
  | XUn _ e => open_end e
  | e => callable_ex e
  end.

Section Tokens.
Context (lang : language).

(** What follows an expression does not belong to it. *)
Definition follow (e : ex) (rest : list ltok) : Prop :=
  match rest with
  | (Tok ty v, _) :: _ => (forall k, level_of v k -> ~ in_lang lang v) /\ (open_end e -> ~ In v (map asc suffixes) /\ ty <> TString)
  | _ => True
  end.
Fixpoint follow_list (es : exs) (rest : list ltok) : Prop :=
  match es with
  | XNil => True
  | XCons e XNil => follow e rest /\ ~ next_is [","]%string rest
  | XCons _ es => follow_list es rest
  end.

Definition param (p : option (list Z)) : rule := match p with Some x => name x | None => word "..." end.
Fixpoint params (ps : list (option (list Z))) : rule :=
  match ps with
  | [] => nothing
  | [p] => param p
  | p :: ps => param p >> word "," >> params ps
  end.
Definition var (x : list Z * option (list Z)) : rule :=
  match snd x with
  | Some a => name (fst x) >> word "<" >> name a >> word ">"
  | None => name (fst x)
  end.
Fixpoint vars (xs : list (list Z * option (list Z))) : rule :=
  match xs with
  | [] => nothing
  | [x] => var x
  | x :: xs => var x >> word "," >> vars xs
  end.
Fixpoint names (xs : list (list Z)) : rule :=
  match xs with
  | [] => nothing
  | [x] => name x
  | x :: xs => name x >> word "," >> names xs
  end.
Fixpoint dotted (xs : list (list Z)) : rule :=
  match xs with
  | [] => nothing
  | x :: xs => word "." >> name x >> dotted xs
  end.
Definition separated (sep : option (list Z)) : rule := match sep with Some v => tk (Tok TPunct v) | None => nothing end.
(** What follows a call that is a statement, or a print shorthand. *)
Definition stands_alone (rest : list ltok) : Prop :=
  ~ next_is [","; "="]%string rest /\ match rest with (Tok TPunct v, _) :: _ => ~ exists o, v = o ++ asc "=" | _ => True end.
(** Where a return has nothing to return. *)
Definition bare_return (vl : option Z) (rest : list ltok) : Prop := next_is (";" :: closers)%string rest \/ past vl rest.

(** The tokens of each construct.  A block has a line [vl] if it is the body of a shorthand:
    its statements begin on that line, and it ends with it. *)
Fixpoint lay (e : ex) : rule :=
  match e with
  | XConst t => tk t
  | XDots => word "..."
  | XVar x => name x
  | XFun ps b => word "function" >> word "(" >> params ps >> word ")" >> lay_blk None b >> word "end"
  | XGroup e => word "(" >> lay e >> word ")"
  | XUn op e => tk (op_tok op) >> lay e
  | XBin op l r => lay l >> tk (op_tok op) >> lay r
  | XMem e key => lay e >> word "." >> name key
  | XIdx e k => lay e >> word "[" >> lay k >> word "]"
  | XCall f short args => lay f >> (if short then lay_list args else word "(" >> lay_list args >> word ")")
  | XMeth e key short args => lay e >> word ":" >> name key >> (if short then lay_list args else word "(" >> lay_list args >> word ")")
  | XTab i => word "{" >> lay_its i >> word "}"
  end
with lay_list (es : exs) : rule :=
  match es with
  | XNil => nothing
  | XCons e XNil => lay e
  | XCons e es => lay e >> word "," >> lay_list es
  end
with lay_its (i : its) : rule :=
  match i with
  | INil => nothing
  | IIdx k v sep i => word "[" >> lay k >> word "]" >> word "=" >> lay v >> separated sep >> lay_its i
  | IMem key v sep i => name key >> word "=" >> lay v >> separated sep >> lay_its i
  | IItem e sep i => lay e >> separated sep >> lay_its i
  end
with lay_st (vl : option Z) (s : st) : rule :=
  match s with
  | SSemi => word ";"
  | SDo b => word "do" >> lay_blk None b >> word "end"
  | SIf i => word "if" >> lay_ifs i
  | SWhile c b => word "while" >> lay c >> word "do" >> lay_blk None b >> word "end"
  | SWhileShort nested c b => fun ts rest => exists l,
      (word "while" >> (fun ts rest => lay c ts rest /\ exists ts', ts = ts' ++ [(pt ")", l)]) >>
        ahead (fun r => follow c r /\ ~ next_is ["do"]%string r) >> lay_blk (Some l) b >>
        ahead (fun r => nested = true <-> same_line l r)) ts rest
  | SRepeat b c => word "repeat" >> lay_blk None b >> word "until" >> lay c >> ahead (follow c)
  | SFor x a z step b => word "for" >> name x >> word "=" >> lay a >> word "," >> lay z >>
      match step with XNil => nothing | step => word "," >> lay_list step end >> word "do" >> lay_blk None b >> word "end"
  | SForIn xs es b => word "for" >> names xs >> word "in" >> lay_list es >> word "do" >> lay_blk None b >> word "end"
  | SBreak => word "break"
  | SReturn XNil => word "return" >> ahead (bare_return vl)
  | SReturn es => word "return" >> ahead (fun r => ~ past vl r) >> lay_list es >> ahead (follow_list es)
  | SLocal xs XNil => word "local" >> vars xs >>
      ahead (fun r => ~ next_is [","; "="]%string r /\ (lang = Picotron -> snd (last xs ([], None)) = None -> ~ next_is ["<"]%string r))
  | SLocal xs es => word "local" >> vars xs >> word "=" >> lay_list es >> ahead (follow_list es)
  | SLocalFun x ps b => word "local" >> word "function" >> name x >> word "(" >> params ps >> word ")" >> lay_blk None b >> word "end"
  | SFun x path meth ps b => word "function" >> name x >> dotted path >> match meth with Some m => word ":" >> name m | None => nothing end >>
      word "(" >> params ps >> word ")" >> lay_blk None b >> word "end"
  | SGoto x => word "goto" >> name x
  | SLabel x => word "::" >> name x >> word "::"
  | SAssign targets es => lay_list targets >> word "=" >> lay_list es >> ahead (follow_list es)
  | SOp target op e => lay target >> tk (Tok TPunct op) >> lay e >> ahead (follow e)
  | SPrint es => word "?" >> lay_list es >>
      ahead (fun r => follow_list es r /\ stands_alone r /\ ~ next_is suffixes r /\ match r with (Tok ty _, _) :: _ => ty <> TString | _ => True end)
  | SCall e => lay e >> ahead (fun r => follow e r /\ stands_alone r)
  end
with lay_blk (vl : option Z) (b : blk) : rule :=
  match b with
  | BNil => ahead (fun r => r = [] \/ next_is closers r \/ past vl r)
  | BCons s b => ahead (fun r => ~ past vl r) >> lay_st vl s >> lay_blk vl b
  end
with lay_ifs (i : ifs) : rule :=
  match i with
  | ILong w c b e => lay c >> tk (op_tok w) >> lay_blk None b >> lay_els e
  | IShort nested c b e => fun ts rest => exists l,
      ((fun ts rest => lay c ts rest /\ exists ts', ts = ts' ++ [(pt ")", l)]) >>
        ahead (fun r => follow c r /\ ~ next_is ["then"]%string r /\ (lang = Pico8 -> ~ next_is ["do"]%string r)) >> lay_blk (Some l) b >>
        match e with
        | EElse b => (fun ts _ => ts = [(kw "else", l)]) >> lay_blk (Some l) b
        | _ => ahead (fun r => ~ (same_line l r /\ next_is ["else"]%string r))
        end >>
        ahead (fun r => nested = true <-> same_line l r)) ts rest
  end
with lay_els (e : els) : rule :=
  match e with
  | ENone => word "end"
  | EElse b => word "else" >> lay_blk None b >> word "end"
  | EElif i => word "elseif" >> lay_ifs i
  end.
End Tokens.

(** The tokens of a program. *)
Definition program (lang : language) (b : blk) (ts : list ltok) : Prop := wf_blk lang b /\ lay_blk lang None b ts [].
