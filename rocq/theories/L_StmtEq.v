(** One step of the definitions of [S_Stmt]. *)
From Coq Require Import String List ZArith.
From Verif Require Import M_Base M_Fold M_Token M_Expr S_Expr M_Stmt S_Stmt.
Import ListNotations.
Open Scope Z_scope.

Section Eq.
Context (lang : language).
Notation wf := (wf lang).
Notation wf_exs := (wf_exs lang).
Notation wf_its := (wf_its lang).
Notation wf_st := (wf_st lang).
Notation wf_blk := (wf_blk lang).
Notation wf_ifs := (wf_ifs lang).
Notation wf_els := (wf_els lang).
Notation lay := (lay lang).
Notation lay_list := (lay_list lang).
Notation lay_its := (lay_its lang).
Notation lay_st := (lay_st lang).
Notation lay_blk := (lay_blk lang).
Notation lay_ifs := (lay_ifs lang).
Notation lay_els := (lay_els lang).
Notation attr_ok := (attr_ok lang).
Notation op_ok := (op_ok lang).
Notation follow := (follow lang).
Notation follow_list := (follow_list lang).
Lemma eq_wf_l (e : ex) : wf e =
  match e with
  | XConst t => constant t
  | XDots => True
  | XVar name => plain_word name
  | XFun ps b => Forall param_ok ps /\ wf_blk b
  | XGroup e => wf e
  | XUn op e => unary lang op /\ wf e /\ tight_ex e 11
  | XBin op l r =>
      in_lang lang op /\ wf l /\ wf r /\
      exists k, level_of op k /\
        ((~ right_assoc op /\ tight_ex l k /\ (tight_ex r (k + 1) \/ is_un r)) \/
         (right_assoc op /\ tight_ex l (k + 1) /\ (tight_ex r k \/ is_un r)))
  | XMem e key => callable_ex e /\ wf e /\ plain_word key
  | XIdx e k => callable_ex e /\ wf e /\ wf k
  | XCall f short args => callable_ex f /\ wf f /\ wf_exs args /\ (short = true -> short_exs args)
  | XMeth e key short args => callable_ex e /\ wf e /\ plain_word key /\ wf_exs args /\ (short = true -> short_exs args)
  | XTab i => wf_its i
  end.
Proof. destruct e; reflexivity. Qed.
Lemma eq_wf_exs_l (es : exs) : wf_exs es =
  match es with XNil => True | XCons e es => wf e /\ wf_exs es end.
Proof. destruct es; reflexivity. Qed.
Lemma eq_wf_its_l (i : its) : wf_its i =
  match i with
  | INil => True
  | IIdx k v sep i => wf k /\ wf v /\ sep_ok sep i /\ wf_its i
  | IMem key v sep i => plain_word key /\ wf v /\ sep_ok sep i /\ wf_its i
  | IItem e sep i => wf e /\ sep_ok sep i /\ wf_its i
  end.
Proof. destruct i; reflexivity. Qed.
Lemma eq_wf_st_l (s : st) : wf_st s =
  match s with
  | SSemi | SBreak => True
  | SDo b => wf_blk b
  | SIf i => wf_ifs i
  | SWhile c b | SWhileShort _ c b | SRepeat b c => wf c /\ wf_blk b
  | SFor x a z step b => plain_word x /\ wf a /\ wf z /\ wf_exs step /\ match step with XNil | XCons _ XNil => True | _ => False end /\ wf_blk b
  | SForIn xs es b => xs <> [] /\ Forall plain_word xs /\ es <> XNil /\ wf_exs es /\ wf_blk b
  | SReturn es => wf_exs es
  | SLocal xs es => xs <> [] /\ Forall attr_ok xs /\ wf_exs es
  | SLocalFun x ps b => plain_word x /\ Forall param_ok ps /\ wf_blk b
  | SFun x path meth ps b => plain_word x /\ Forall plain_word path /\ param_ok meth /\ Forall param_ok ps /\ wf_blk b
  | SGoto x | SLabel x => plain_word x
  | SAssign targets es => match targets with XNil => False | XCons e _ => ~ fun_first e end /\ wf_exs targets /\ es <> XNil /\ wf_exs es
  | SOp target op e => wf target /\ ~ fun_first target /\ op_ok op /\ wf e
  | SPrint es => es <> XNil /\ wf_exs es
  | SCall e => is_call e /\ wf e
  end.
Proof. destruct s; reflexivity. Qed.
Lemma eq_wf_blk_l (b : blk) : wf_blk b =
  match b with BNil => True | BCons s b => wf_st s /\ wf_blk b end.
Proof. destruct b; reflexivity. Qed.
Lemma eq_wf_ifs_l (i : ifs) : wf_ifs i =
  match i with
  | ILong w c b e => (w = asc "then" \/ w = asc "do" /\ lang = Pico8) /\ wf c /\ wf_blk b /\ wf_els e
  | IShort _ c b e => wf c /\ wf_blk b /\ wf_els e /\ match e with EElif _ => False | _ => True end
  end.
Proof. destruct i; reflexivity. Qed.
Lemma eq_wf_els_l (e : els) : wf_els e =
  match e with ENone => True | EElse b => wf_blk b | EElif i => wf_ifs i end.
Proof. destruct e; reflexivity. Qed.
Lemma eq_lay_l (e : ex) : lay e =
  match e with
  | XConst t => tk t
  | XDots => word "..."
  | XVar x => name x
  | XFun ps b => word "function" >> word "(" >> params ps >> word ")" >> lay_blk None b >> word "end"
  | XGroup e => word "(" >> lay e >> word ")"
  | XUn op e => tk (op_tok op) >> lay e
  | XBin op l r => lay l >> tk (op_tok op) >> lay r
  | XMem e key => lay e >> word "." >> name key
  | XIdx e k => lay e >> word "[" >> lay k >> word "]"
  | XCall f short args => lay f >> (if short then lay_list args else word "(" >> lay_list args >> word ")")
  | XMeth e key short args => lay e >> word ":" >> name key >> (if short then lay_list args else word "(" >> lay_list args >> word ")")
  | XTab i => word "{" >> lay_its i >> word "}"
  end.
Proof. destruct e; reflexivity. Qed.
Lemma eq_lay_list_l (es : exs) : lay_list es =
  match es with
  | XNil => nothing
  | XCons e XNil => lay e
  | XCons e es => lay e >> word "," >> lay_list es
  end.
Proof. destruct es; reflexivity. Qed.
Lemma eq_lay_its_l (i : its) : lay_its i =
  match i with
  | INil => nothing
  | IIdx k v sep i => word "[" >> lay k >> word "]" >> word "=" >> lay v >> separated sep >> lay_its i
  | IMem key v sep i => name key >> word "=" >> lay v >> separated sep >> lay_its i
  | IItem e sep i => lay e >> separated sep >> lay_its i
  end.
Proof. destruct i; reflexivity. Qed.
Lemma eq_lay_st_l (vl : option Z) (s : st) : lay_st vl s =
  match s with
  | SSemi => word ";"
  | SDo b => word "do" >> lay_blk None b >> word "end"
  | SIf i => word "if" >> lay_ifs i
  | SWhile c b => word "while" >> lay c >> word "do" >> lay_blk None b >> word "end"
  | SWhileShort nested c b => fun ts rest => exists l,
      (word "while" >> (fun ts rest => lay c ts rest /\ exists ts', ts = ts' ++ [(pt ")", l)]) >>
        ahead (fun r => follow c r /\ ~ next_is ["do"]%string r) >> lay_blk (Some l) b >>
        ahead (fun r => nested = true <-> same_line l r)) ts rest
  | SRepeat b c => word "repeat" >> lay_blk None b >> word "until" >> lay c >> ahead (follow c)
  | SFor x a z step b => word "for" >> name x >> word "=" >> lay a >> word "," >> lay z >>
      match step with XNil => nothing | step => word "," >> lay_list step end >> word "do" >> lay_blk None b >> word "end"
  | SForIn xs es b => word "for" >> names xs >> word "in" >> lay_list es >> word "do" >> lay_blk None b >> word "end"
  | SBreak => word "break"
  | SReturn XNil => word "return" >> ahead (bare_return vl)
  | SReturn es => word "return" >> ahead (fun r => ~ past vl r) >> lay_list es >> ahead (follow_list es)
  | SLocal xs XNil => word "local" >> vars xs >>
      ahead (fun r => ~ next_is [","; "="]%string r /\ (lang = Picotron -> snd (last xs ([], None)) = None -> ~ next_is ["<"]%string r))
  | SLocal xs es => word "local" >> vars xs >> word "=" >> lay_list es >> ahead (follow_list es)
  | SLocalFun x ps b => word "local" >> word "function" >> name x >> word "(" >> params ps >> word ")" >> lay_blk None b >> word "end"
  | SFun x path meth ps b => word "function" >> name x >> dotted path >> match meth with Some m => word ":" >> name m | None => nothing end >>
      word "(" >> params ps >> word ")" >> lay_blk None b >> word "end"
  | SGoto x => word "goto" >> name x
  | SLabel x => word "::" >> name x >> word "::"
  | SAssign targets es => lay_list targets >> word "=" >> lay_list es >> ahead (follow_list es)
  | SOp target op e => lay target >> tk (Tok TPunct op) >> lay e >> ahead (follow e)
  | SPrint es => word "?" >> lay_list es >>
      ahead (fun r => follow_list es r /\ stands_alone r /\ ~ next_is suffixes r /\ match r with (Tok ty _, _) :: _ => ty <> TString | _ => True end)
  | SCall e => lay e >> ahead (fun r => follow e r /\ stands_alone r)
  end.
Proof. destruct s; reflexivity. Qed.
Lemma eq_lay_blk_l (vl : option Z) (b : blk) : lay_blk vl b =
  match b with
  | BNil => ahead (fun r => r = [] \/ next_is closers r \/ past vl r)
  | BCons s b => ahead (fun r => ~ past vl r) >> lay_st vl s >> lay_blk vl b
  end.
Proof. destruct b; reflexivity. Qed.
Lemma eq_lay_ifs_l (i : ifs) : lay_ifs i =
  match i with
  | ILong w c b e => lay c >> tk (op_tok w) >> lay_blk None b >> lay_els e
  | IShort nested c b e => fun ts rest => exists l,
      ((fun ts rest => lay c ts rest /\ exists ts', ts = ts' ++ [(pt ")", l)]) >>
        ahead (fun r => follow c r /\ ~ next_is ["then"]%string r /\ (lang = Pico8 -> ~ next_is ["do"]%string r)) >> lay_blk (Some l) b >>
        match e with
        | EElse b => (fun ts _ => ts = [(kw "else", l)]) >> lay_blk (Some l) b
        | _ => ahead (fun r => ~ (same_line l r /\ next_is ["else"]%string r))
        end >>
        ahead (fun r => nested = true <-> same_line l r)) ts rest
  end.
Proof. destruct i; reflexivity. Qed.
Lemma eq_lay_els_l (e : els) : lay_els e =
  match e with
  | ENone => word "end"
  | EElse b => word "else" >> lay_blk None b >> word "end"
  | EElif i => word "elseif" >> lay_ifs i
  end.
Proof. destruct e; reflexivity. Qed.
End Eq.
