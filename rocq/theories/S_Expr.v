(** Expressions as Lua means them, said without the parser. *)
From Coq Require Import String List ZArith.
From Verif Require Import M_Base M_Fold M_Num M_Token M_Expr.
Import ListNotations.
Open Scope Z_scope.

(* ------------------------------------------------------------------ *)
(** * The grammar *)

(** The binary operators from the loosest to the tightest, as in the manual (level 11 is
    that of the unary operators). *)
Definition levels : list (list string) :=
  [["or"]; ["and"]; ["<"; ">"; "<="; ">="; "~="; "!="; "=="]; ["|"]; ["~"; "^^"]; ["&"];
   ["<<"; ">>"; ">>>"; ">><"; "<<>"]; [".."]; ["+"; "-"]; ["*"; "/"; "\"; "//"; "%"]; []; ["^"]]%string.
Definition level_of (op : list Z) (k : nat) : Prop := exists ops s, nth_error levels (k - 1) = Some ops /\ In s ops /\ op = asc s /\ (1 <= k)%nat.
(** Operators of only one of the languages. *)
Definition in_lang (lang : language) (op : list Z) : Prop :=
  (In op (map asc [">>>"; ">><"; "<<>"]%string) -> lang = Pico8) /\ (op = asc "//" -> lang = Picotron).
Definition right_assoc (op : list Z) : Prop := op = asc "^" \/ op = asc "..".
Definition unary (lang : language) (op : list Z) : Prop :=
  In op (map asc ["-"; "~"; "not"; "#"; "@"; "%"; "$"]%string) \/ (op = asc "*" /\ lang = Picotron).

(** The words that are not names, numbers or strings. *)
Definition symbols : list (list Z) :=
  map asc ["or"; "and"; "<"; ">"; "<="; ">="; "~="; "!="; "=="; "|"; "~"; "^^"; "&"; "<<"; ">>"; ">>>"; ">><"; "<<>"; ".."; "+"; "-";
           "*"; "/"; "\"; "//"; "%"; "^"; "not"; "#"; "@"; "$"; "?"; "("; ")"; "{"; "}"; "["; "]"; ";"; ","; "."; ":"; "="; "..."; "::";
           "function"; "nil"; "true"; "false"]%string.
Definition plain_word (v : list Z) : Prop := ~ In v symbols /\ is_keyword v = false.
(** What the tokenizer makes of a word. *)
Definition proper (t : tok) : Prop :=
  match t with
  | Tok TKeyword v => is_keyword v = true
  | Tok TPunct v => is_keyword v = false
  | Tok _ v => plain_word v
  | TErr => False
  end.

(** How tightly an expression holds together: the level of its operator; 13 is anything
    that is not an operation. *)
Definition tight (e : expr) (k : nat) : Prop :=
  match e with
  | Binary op _ _ => exists n, level_of op n /\ (k <= n)%nat
  | Unary _ _ => (k <= 11)%nat
  | _ => True
  end.
Definition is_unary (e : expr) : Prop := match e with Unary _ _ => True | _ => False end.
(** What can be called or indexed. *)
Definition callable (e : expr) : Prop :=
  match e with Var _ | Member _ _ | Index _ _ | Call _ _ _ | Method _ _ _ _ | Group _ => True | _ => False end.
Definition constant (t : tok) : Prop :=
  match t with
  | Tok TNumber v | Tok TString v => plain_word v
  | Tok TKeyword v => v = asc "nil" \/ v = asc "true" \/ v = asc "false"
  | _ => False
  end.

(** A single table or string, which needs no parentheses behind a function. *)
Definition short_args (args : exprs) : Prop :=
  match args with
  | ACons (Table _) ANil => True
  | ACons (Const (Tok TString _)) ANil => True
  | _ => False
  end.
(** Only the last item of a table may be without a separator. *)
Definition separator (sep : option (list Z)) (its : items) : Prop :=
  match sep with
  | Some v => v = asc "," \/ v = asc ";"
  | None => its = TNil
  end.

Section Grammar.
Context (lang : language) (read_function : list tok -> res (list tok * list tok)).

(** The trees that need no more parentheses than they have.  Operators of one level group
    to the left, except "^" and ".."; a unary operator may stand behind any operator. *)
Fixpoint grammar (e : expr) : Prop :=
  match e with
  | Const t => constant t
  | Varargs => True
  | Var name => plain_word name
  | Fun body => forall rest, read_function (body ++ rest) = Ok (body, rest)
  | Group e => grammar e
  | Unary op e => unary lang op /\ grammar e /\ tight e 11
  | Binary op l r =>
      in_lang lang op /\ grammar l /\ grammar r /\
      exists k, level_of op k /\
        ((~ right_assoc op /\ tight l k /\ (tight r (k + 1) \/ is_unary r)) \/
         (right_assoc op /\ tight l (k + 1) /\ (tight r k \/ is_unary r)))
  | Member e key => callable e /\ grammar e /\ plain_word key
  | Index e k => callable e /\ grammar e /\ grammar k
  | Call f short args => callable f /\ grammar f /\ grammar_args args /\ (short = true -> short_args args)
  | Method e key short args => callable e /\ grammar e /\ plain_word key /\ grammar_args args /\ (short = true -> short_args args)
  | Table its => grammar_items its
  end
with grammar_args (args : exprs) : Prop :=
  match args with ANil => True | ACons e args => grammar e /\ grammar_args args end
with grammar_items (its : items) : Prop :=
  match its with
  | TNil => True
  | TIndex k v sep its => grammar k /\ grammar v /\ separator sep its /\ grammar_items its
  | TMember key v sep its => plain_word key /\ grammar v /\ separator sep its /\ grammar_items its
  | TItem e sep its => grammar e /\ separator sep its /\ grammar_items its
  end.
End Grammar.

(** What ends an expression: nothing, or a token that neither continues it (an operator of
    the language) nor can be applied to it. *)
Definition ends (lang : language) (rest : list tok) : Prop :=
  match rest with
  | Tok ty v :: _ => (forall k, level_of v k -> ~ in_lang lang v) /\ ~ In v (map asc ["."; "["; "("; "{"; ":"]%string) /\ ty <> TString
  | _ => True
  end.

(** What is asked of the reader of functions: it takes tokens from the front, beginning with
    "(", it does not depend on what follows them, and it always comes to an end. *)
Record function_reader (read_function : list tok -> res (list tok * list tok)) : Prop := {
  fr_front : forall ts body rest, read_function ts = Ok (body, rest) -> ts = body ++ rest;
  fr_local : forall ts body rest, read_function ts = Ok (body, rest) -> forall rest', read_function (body ++ rest') = Ok (body, rest');
  fr_paren : forall ts body rest, read_function ts = Ok (body, rest) -> exists body', body = pt "(" :: body';
  fr_total : forall ts, read_function ts <> Err EFuel }.

(* ------------------------------------------------------------------ *)
(** * What expressions mean *)

(** Any way to give meaning to the constructs of Lua.  [V] is what an expression means where
    one value is wanted, [W] where any number of values is wanted (the last argument of a
    call, the last item of a table), [T] what the items of a table mean. *)
Record meaning := {
  V : Type; W : Type; T : Type;
  m_const : tok -> V; m_var : list Z -> V; m_fun : list tok -> V; m_varargs : W;
  m_unary : list Z -> V -> V; m_binary : list Z -> V -> V -> V;
  m_member : V -> list Z -> V; m_index : V -> V -> V;
  m_call : V -> W -> W; m_method : V -> list Z -> W -> W;
  m_first : W -> V;                       (* the first of many values *)
  m_one : V -> W; m_none : W; m_more : V -> W -> W;
  m_table : T -> V; m_end : T; m_pair : V -> V -> T -> T; m_named : list Z -> V -> T -> T; m_item : V -> T -> T; m_last : W -> T }.

Section Meaning.
Context (m : meaning).

(** Used as one value, and as many. *)
Definition single (x : V m + W m) : V m := match x with inl v => v | inr w => m_first m w end.
Definition many (x : V m + W m) : W m := match x with inl v => m_one m v | inr w => w end.

(** An expression means one value, or many if it is a call or "...".  Parentheses only make
    one value out of many.  How a call or a table is written makes no difference. *)
Fixpoint mean (e : expr) : V m + W m :=
  match e with
  | Const t => inl (m_const m t)
  | Varargs => inr (m_varargs m)
  | Var name => inl (m_var m name)
  | Fun body => inl (m_fun m body)
  | Group e => inl (single (mean e))
  | Unary op e => inl (m_unary m op (single (mean e)))
  | Binary op l r => inl (m_binary m op (single (mean l)) (single (mean r)))
  | Member e key => inl (m_member m (single (mean e)) key)
  | Index e k => inl (m_index m (single (mean e)) (single (mean k)))
  | Call f _ args => inr (m_call m (single (mean f)) (arguments args))
  | Method e key _ args => inr (m_method m (single (mean e)) key (arguments args))
  | Table its => inl (m_table m (contents its))
  end
with arguments (args : exprs) : W m :=
  match args with
  | ANil => m_none m
  | ACons e ANil => many (mean e)
  | ACons e args => m_more m (single (mean e)) (arguments args)
  end
with contents (its : items) : T m :=
  match its with
  | TNil => m_end m
  | TIndex k v _ its => m_pair m (single (mean k)) (single (mean v)) (contents its)
  | TMember key v _ its => m_named m key (single (mean v)) (contents its)
  | TItem e _ TNil => m_last m (many (mean e))
  | TItem e _ its => m_item m (single (mean e)) (contents its)
  end.

(** Operators that have two spellings. *)
Definition same_operators (lang : language) (version : Z) : Prop :=
  m_binary m (asc "!=") = m_binary m (asc "~=") /\
  (37 <= version -> m_binary m (asc "^^") = m_binary m (asc "~")) /\
  (lang = Picotron -> m_binary m (asc "//") = m_binary m (asc "\")).
(** The printed form of every number means the same number, and a sign is printed only where
    it is allowed or inside parentheses. *)
Definition same_numbers (lang : language) (num : bool -> list Z -> numform) : Prop :=
  forall allowed v, plain_word v ->
    match num allowed v with
    | NPlain w => plain_word w /\ m_const m (Tok TNumber w) = m_const m (Tok TNumber v)
    | NSigned sign w => allowed = true /\ unary lang sign /\ plain_word w /\ m_unary m sign (m_const m (Tok TNumber w)) = m_const m (Tok TNumber v)
    | NParens sign w => unary lang sign /\ plain_word w /\ m_unary m sign (m_const m (Tok TNumber w)) = m_const m (Tok TNumber v)
    end.
(** The numbers of PICO-8: a literal means its value of 32 bits, - and ~ compute with it. *)
Definition fixed_point : Prop := exists val : Z -> V m,
  (forall v x, parse_fixnum v = Ok x -> m_const m (Tok TNumber v) = val x) /\
  (forall x, 0 <= x < 2 ^ 32 -> m_unary m (asc "-") (val x) = val ((- x) mod 2 ^ 32) /\ m_unary m (asc "~") (val x) = val (2 ^ 32 - 1 - x)).
Definition same_strings (str : list Z -> list Z) : Prop :=
  forall v, plain_word v -> plain_word (str v) /\ m_const m (Tok TString (str v)) = m_const m (Tok TString v).
End Meaning.

(** An expression behaves like another where one value is wanted, or where many are. *)
Definition same_value (m : meaning) (e e' : expr) : Prop := single m (mean m e) = single m (mean m e').
Definition same_values (m : meaning) (e e' : expr) : Prop := many m (mean m e) = many m (mean m e').

(** What the grammar asks of an expression in a context. *)
Definition stands (c : ctx) (e : expr) : Prop :=
  match c with
  | CUnary => tight e 11
  | CLeft op => exists k, level_of op k /\ (if right_binary op then tight e (k + 1) else tight e k)
  | CRight op => exists k, level_of op k /\ ((if right_binary op then tight e k else tight e (k + 1)) \/ is_unary e)
  | CPrefix => callable e
  | _ => True
  end.
