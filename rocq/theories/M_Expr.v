(** Model of expressions: the parser, /repo/pico_parse.py l.266-310 and l.531-677, and what
    minifying does to an expression, /repo/pico_minify.py l.364-510.

    Nodes are trees that hold the tokens they are printed as, like the nodes of the code
    ([Node.children]).  Left out: scopes (M_Rename), hints in comments, sublanguages and the
    print shorthand "?" inside an expression.  The text of a function expression is one leaf. *)
From Coq Require Import String Ascii List ZArith.
From Verif Require Import M_Base M_Fold M_Num M_Token.
Import ListNotations.
Open Scope Z_scope.

Definition asc (s : string) : list Z := map (fun c => Z.of_nat (nat_of_ascii c)) (list_ascii_of_string s).

Inductive expr :=
| Const (t : tok)
| Varargs
| Var (name : list Z)
| Fun (body : list tok)                               (* the tokens after "function" *)
| Group (e : expr)
| Unary (op : list Z) (e : expr)
| Binary (op : list Z) (l r : expr)
| Member (e : expr) (key : list Z)
| Index (e k : expr)
| Call (f : expr) (short : bool) (args : exprs)       (* short: one argument without parentheses *)
| Method (e : expr) (key : list Z) (short : bool) (args : exprs)   (* a member node with [method] inside a call node *)
| Table (its : items)
with exprs := ANil | ACons (e : expr) (args : exprs)
with items :=                                         (* sep: the separator behind the item *)
| TNil
| TIndex (k v : expr) (sep : option (list Z)) (its : items)
| TMember (key : list Z) (v : expr) (sep : option (list Z)) (its : items)
| TItem (e : expr) (sep : option (list Z)) (its : items).

(* ------------------------------------------------------------------ *)
(** * The parser *)

(** l.266-308 *)
Definition k_unary_ops : list (list Z) := map asc ["-"; "~"; "not"; "#"; "@"; "%"; "$"; "*"]%string.
Definition k_unary_ops_prec : Z := 11.
Definition unary_op (lang : language) (v : list Z) : bool :=
  existsb (zeqb_list v) k_unary_ops && (negb (zeqb_list v (asc "*")) || negb (is_pico8 lang)).
Definition k_binary_op_precs : list (list Z * Z) :=
  map (fun '(s, p) => (asc s, p))
  [("or"%string, 1); ("and"%string, 2);
   ("!="%string, 3); ("~="%string, 3); ("=="%string, 3); ("<"%string, 3); ("<="%string, 3); (">"%string, 3); (">="%string, 3);
   ("|"%string, 4); ("^^"%string, 5); ("~"%string, 5); ("&"%string, 6);
   ("<<"%string, 7); (">>"%string, 7); (">>>"%string, 7); (">><"%string, 7); ("<<>"%string, 7);
   (".."%string, 8);
   ("+"%string, 9); ("-"%string, 9);
   ("*"%string, 10); ("/"%string, 10); ("//"%string, 10); ("\"%string, 10); ("%"%string, 10);
   ("^"%string, 12)].
Fixpoint prec_get (l : list (list Z * Z)) (v : list Z) : option Z :=
  match l with
  | [] => None
  | (k, p) :: l => if zeqb_list k v then Some p else prec_get l v
  end.
Definition binary_prec (v : list Z) : option Z := prec_get k_binary_op_precs v.
Definition right_binary (v : list Z) : bool := zeqb_list v (asc "^") || zeqb_list v (asc "..").
Definition binary_lang (lang : language) (v : list Z) : bool :=
  if existsb (zeqb_list v) (map asc [">>>"; ">><"; "<<>"]%string) then is_pico8 lang
  else if zeqb_list v (asc "//") then negb (is_pico8 lang)
  else true.

(** [k_prefix_types], l.310 *)
Definition prefix_type (e : expr) : bool :=
  match e with Var _ | Member _ _ | Index _ _ | Call _ _ _ | Method _ _ _ _ | Group _ => true | _ => false end.

(** [compare_prec], l.640-641 *)
Definition compare_prec (op : list Z) (p : Z) (prec : option Z) : bool :=
  match prec with
  | None => true
  | Some prec => if right_binary op then prec <=? p else prec <? p
  end.

(** [accept] and [require] of a value, l.342-363 (an error is raised at once, and only counted) *)
Definition accept_value (v : list Z) (ts : list tok) : option (list tok) :=
  match ts with
  | Tok _ w :: ts' => if zeqb_list w v then Some ts' else None
  | _ => None
  end.
Definition require_value (v : list Z) (ts : list tok) : res (list tok) :=
  match accept_value v ts with Some ts' => Ok ts' | None => Err ECheck end.
(** [require_ident], l.365-373 *)
Definition require_ident (ts : list tok) : res (list Z * list tok) :=
  match ts with Tok TIdent w :: ts' => Ok (w, ts') | _ => Err ECheck end.

Definition is_string (t : tok) : bool := match t with Tok TString _ => true | _ => false end.
Definition const_tok (t : tok) : bool :=
  match t with
  | Tok ty v => existsb (zeqb_list v) (map asc ["nil"; "true"; "false"]%string) || match ty with TNumber | TString => true | _ => false end
  | TErr => false
  end.
(** Does [{..}] or a string, an argument without parentheses, come next?  l.656 and l.663 *)
Definition short_arg (ts : list tok) : bool :=
  match ts with Tok ty v :: _ => zeqb_list v (asc "{") || is_string (Tok ty v) | _ => false end.

Section Parse.
(** [parse_function], l.453-520, seen from an expression: it takes some of the tokens *)
Context (lang : language) (read_function : list tok -> res (list tok * list tok)).

(** [parse_expr] l.643-677 (with its loop), [parse_core_expr] l.611-638, [parse_table]
    l.522-554, [parse_call] l.556-573 behind the "(" *)
Fixpoint p_expr (fuel : nat) (prec : option Z) (ts : list tok) {struct fuel} : res (expr * list tok) :=
  match fuel with
  | O => Err EFuel
  | S fuel => '(e, ts) <- p_core fuel ts ;; p_loop fuel prec e ts
  end
with p_core (fuel : nat) (ts : list tok) {struct fuel} : res (expr * list tok) :=
  match fuel with
  | O => Err EFuel
  | S fuel =>
      match ts with
      | Tok ty v :: ts =>
          if const_tok (Tok ty v) then Ok (Const (Tok ty v), ts)
          else if zeqb_list v (asc "{") then '(its, ts) <- p_items fuel ts ;; Ok (Table its, ts)
          else if zeqb_list v (asc "(") then
            '(e, ts) <- p_expr fuel None ts ;;
            ts <- require_value (asc ")") ts ;;
            Ok (Group e, ts)
          else if unary_op lang v then '(e, ts) <- p_expr fuel (Some k_unary_ops_prec) ts ;; Ok (Unary v e, ts)
          else if zeqb_list v (asc "?") then Err ECheck
          else if zeqb_list v (asc "function") then '(body, ts) <- read_function ts ;; Ok (Fun body, ts)
          else if zeqb_list v (asc "...") then Ok (Varargs, ts)
          else match ty with TIdent => Ok (Var v, ts) | _ => Err ECheck end
      | _ => Err ECheck
      end
  end
with p_loop (fuel : nat) (prec : option Z) (e : expr) (ts : list tok) {struct fuel} : res (expr * list tok) :=
  match fuel with
  | O => Err EFuel
  | S fuel =>
      match ts with
      | Tok ty v :: ts' =>
          if zeqb_list v (asc ".") && prefix_type e then
            '(key, ts) <- require_ident ts' ;; p_loop fuel prec (Member e key) ts
          else if zeqb_list v (asc "[") && prefix_type e then
            '(k, ts) <- p_expr fuel None ts' ;; ts <- require_value (asc "]") ts ;; p_loop fuel prec (Index e k) ts
          else if zeqb_list v (asc "(") && prefix_type e then
            '(args, ts) <- p_args fuel ts' ;; p_loop fuel prec (Call e false args) ts
          else if short_arg ts && prefix_type e then
            '(arg, ts) <- p_core fuel ts ;; p_loop fuel prec (Call e true (ACons arg ANil)) ts
          else if zeqb_list v (asc ":") && prefix_type e then
            '(key, ts) <- require_ident ts' ;;
            if short_arg ts then
              '(arg, ts) <- p_core fuel ts ;; p_loop fuel prec (Method e key true (ACons arg ANil)) ts
            else
              ts <- require_value (asc "(") ts ;;
              '(args, ts) <- p_args fuel ts ;; p_loop fuel prec (Method e key false args) ts
          else
            match binary_prec v with
            | Some p =>
                if binary_lang lang v && compare_prec v p prec then
                  '(other, ts) <- p_expr fuel (Some p) ts' ;; p_loop fuel prec (Binary v e other) ts
                else Ok (e, ts)
            | None => Ok (e, ts)
            end
      | _ => Ok (e, ts)
      end
  end
with p_args (fuel : nat) (ts : list tok) {struct fuel} : res (exprs * list tok) :=
  match fuel with
  | O => Err EFuel
  | S fuel =>
      match accept_value (asc ")") ts with
      | Some ts => Ok (ANil, ts)
      | None => p_more_args fuel ts
      end
  end
with p_more_args (fuel : nat) (ts : list tok) {struct fuel} : res (exprs * list tok) :=
  match fuel with
  | O => Err EFuel
  | S fuel =>
      '(e, ts) <- p_expr fuel None ts ;;
      match accept_value (asc ")") ts with
      | Some ts => Ok (ACons e ANil, ts)
      | None =>
          ts <- require_value (asc ",") ts ;;
          '(args, ts) <- p_more_args fuel ts ;; Ok (ACons e args, ts)
      end
  end
with p_items (fuel : nat) (ts : list tok) {struct fuel} : res (items * list tok) :=
  match fuel with
  | O => Err EFuel
  | S fuel =>
      match accept_value (asc "}") ts with
      | Some ts => Ok (TNil, ts)
      | None =>
          '(mk, ts) <-
            match accept_value (asc "[") ts with
            | Some ts =>
                '(k, ts) <- p_expr fuel None ts ;;
                ts <- require_value (asc "]") ts ;; ts <- require_value (asc "=") ts ;;
                '(v, ts) <- p_expr fuel None ts ;; Ok (TIndex k v, ts)
            | None =>
                match ts with
                | _ :: Tok _ w :: _ =>
                    if zeqb_list w (asc "=") then
                      '(key, ts) <- require_ident ts ;; ts <- require_value (asc "=") ts ;;
                      '(v, ts) <- p_expr fuel None ts ;; Ok (TMember key v, ts)
                    else '(e, ts) <- p_expr fuel None ts ;; Ok (TItem e, ts)
                | _ => '(e, ts) <- p_expr fuel None ts ;; Ok (TItem e, ts)
                end
            end ;;
          match accept_value (asc "}") ts with
          | Some ts => Ok (mk None TNil, ts)
          | None =>
              '(sep, ts) <- match accept_value (asc ";") ts with
                            | Some ts => Ok (asc ";", ts)
                            | None => ts <- require_value (asc ",") ts ;; Ok (asc ",", ts)
                            end ;;
              '(its, ts) <- p_items fuel ts ;; Ok (mk (Some sep) its, ts)
          end
      end
  end.

(** Parsing an expression out of tokens; the fuel is enough, see [fuel_enough]. *)
Definition parse_expr (ts : list tok) : res (expr * list tok) := p_expr (3 * length ts + 3) None ts.
End Parse.

(* ------------------------------------------------------------------ *)
(** * The tokens of a node *)
Definition pt (s : string) : tok := Tok TPunct (asc s).
Definition kw (s : string) : tok := Tok TKeyword (asc s).
Definition op_tok (v : list Z) : tok := Tok (if is_keyword v then TKeyword else TPunct) v.
Definition sep_toks (sep : option (list Z)) : list tok := match sep with Some v => [Tok TPunct v] | None => [] end.

(** [Node.get_tokens], /repo/pico_parse.py l.110-150: the children of each node in order *)
Fixpoint print (e : expr) : list tok :=
  match e with
  | Const t => [t]
  | Varargs => [pt "..."]
  | Var name => [Tok TIdent name]
  | Fun body => kw "function" :: body
  | Group e => pt "(" :: print e ++ [pt ")"]
  | Unary op e => op_tok op :: print e
  | Binary op l r => print l ++ op_tok op :: print r
  | Member e key => print e ++ [pt "."; Tok TIdent key]
  | Index e k => print e ++ pt "[" :: print k ++ [pt "]"]
  | Call f short args => print f ++ (if short then print_args args else pt "(" :: print_args args ++ [pt ")"])
  | Method e key short args =>
      print e ++ pt ":" :: Tok TIdent key :: (if short then print_args args else pt "(" :: print_args args ++ [pt ")"])
  | Table its => pt "{" :: print_items its ++ [pt "}"]
  end
with print_args (args : exprs) : list tok :=
  match args with
  | ANil => []
  | ACons e ANil => print e
  | ACons e args => print e ++ pt "," :: print_args args
  end
with print_items (its : items) : list tok :=
  match its with
  | TNil => []
  | TIndex k v sep its => pt "[" :: print k ++ pt "]" :: pt "=" :: print v ++ sep_toks sep ++ print_items its
  | TMember key v sep its => Tok TIdent key :: pt "=" :: print v ++ sep_toks sep ++ print_items its
  | TItem e sep its => print e ++ sep_toks sep ++ print_items its
  end.

(* ------------------------------------------------------------------ *)
(** * Minifying *)

(** Where a node stands in its parent, as far as [fixup_nodes_pre] asks.  [CFull]: in a
    position where one value is used and any expression fits (a group, a key or value of a
    table, an index, an op-assignment, a condition); [CItem last]: an item of a list whose
    last item may stand for many values; [CKeep]: a condition of a short if. *)
Inductive ctx := CUnary | CLeft (op : list Z) | CRight (op : list Z) | CPrefix | CFull | CItem (last : bool) | CKeep.

(** [get_precedence], [is_vararg_expr], /repo/pico_parse.py l.1083-1094 *)
Definition get_precedence (e : expr) : option Z :=
  match e with Binary op _ _ => binary_prec op | Unary _ _ => Some k_unary_ops_prec | _ => None end.
Definition is_vararg_expr (e : expr) : bool :=
  match e with Call _ _ _ | Method _ _ _ _ | Varargs => true | _ => false end.
Definition ctx_prec (c : ctx) : option Z :=
  match c with CUnary => Some k_unary_ops_prec | CLeft op | CRight op => binary_prec op | _ => None end.
(** [can_replace_with_unary], l.1102-1108 *)
Definition can_replace_with_unary (c : ctx) : bool :=
  match c with
  | CRight _ => true
  | _ => match ctx_prec c with None => true | Some p => p <? k_unary_ops_prec end
  end.

(** What a number is printed as: alone, with a sign, or with a sign in parentheses; told
    apart by the first character, l.502-513 *)
Inductive numform := NPlain (v : list Z) | NSigned (sign v : list Z) | NParens (sign v : list Z).
Definition num_form (s : list Z) : numform :=
  match s with
  | 45 :: w => NSigned [45] w
  | 126 :: w => NSigned [126] w
  | 40 :: c :: w => NParens [c] (removelast w)
  | _ => NPlain s
  end.
(** l.497-500 for PICO-8: the value read by the tokenizer, printed again *)
Definition pico8_num (allow_unary : bool) (v : list Z) : numform :=
  match (x <- parse_fixnum v ;; format_fixnum (if allow_unary then SNone else SEmpty) BNone x) with
  | Ok s => num_form s
  | Err _ => NPlain v
  end.

Section Minify.
(** [negative]: whether a number token's value is negative; [num allow_unary]: what a number
    token is printed as; [str]: [minify_string_literal] of a token *)
Context (lang : language) (version : Z) (focus_tokens : bool).
Context (negative : list Z -> bool) (num : bool -> list Z -> numform) (str : list Z -> list Z).

(** the test of l.374-411 *)
Definition remove (c : ctx) (inner : expr) : bool :=
  match ctx_prec c with
  | Some outer_prec =>
      match get_precedence inner with
      | Some inner_prec =>
          (outer_prec <? inner_prec) ||
          ((inner_prec =? outer_prec) &&
           ((outer_prec =? k_unary_ops_prec) ||
            match c with CLeft op => negb (right_binary op) | CRight op => right_binary op | _ => false end))
      | None =>
          match inner with
          | Group _ | Var _ | Index _ _ | Member _ _ | Call _ _ _ | Method _ _ _ _ | Varargs => true
          | Const t =>
              focus_tokens || can_replace_with_unary c ||
              negb match t with Tok TNumber v => negative v | _ => false end
          | _ => false
          end
      end
  | None =>
      match c with
      | CPrefix => match inner with Group _ | Var _ | Index _ _ | Member _ _ | Call _ _ _ | Method _ _ _ _ => true | _ => false end
      | CFull => true
      | CItem last => negb last || negb (is_vararg_expr inner)
      | _ => false
      end
  end.

(** tokens that are respelled, l.459-476 *)
Definition respell (v : list Z) : list Z :=
  if zeqb_list v (asc "!=") then asc "~="
  else if zeqb_list v (asc "^^") && (37 <=? version) then asc "~"
  else if zeqb_list v (asc "//") && negb (is_pico8 lang) then asc "\"
  else v.
(** numbers and strings, l.478-500: a sign becomes a token of its own *)
Definition fix_const (c : ctx) (t : tok) : expr :=
  match t with
  | Tok TNumber v =>
      match num (can_replace_with_unary c) v with
      | NPlain v => Const (Tok TNumber v)
      | NSigned sign v => Unary sign (Const (Tok TNumber v))
      | NParens sign v => Group (Unary sign (Const (Tok TNumber v)))
      end
  | Tok TString v => Const (Tok TString (str v))
  | _ => Const t
  end.
(** l.447-452: the parentheses of a call with one table or string are dropped; the argument
    is looked at before its own groups are removed *)
Definition drop_parens (args : exprs) : bool :=
  match args with
  | ACons (Table _) ANil => true
  | ACons (Const t) ANil => is_string t
  | _ => false
  end.
(** l.443-445 and l.456-457 *)
Definition fix_sep (sep : option (list Z)) (its : items) : option (list Z) :=
  match its with TNil => None | _ => match sep with Some _ => Some (asc ",") | None => None end end.

(** [root.traverse_nodes(fixup_nodes_pre, .., tokens=fixup_tokens)] on an expression: a node
    (the arguments of a method call count its name, so that its parentheses stay)
    before its children, a group again after it has been replaced by its child *)
Fixpoint strip (c : ctx) (e : expr) : expr :=
  match e with
  | Group inner => if remove c inner then strip c inner else Group (strip CFull inner)
  | Const t => fix_const c t
  | Varargs => Varargs
  | Var name => Var name
  | Fun body => Fun body
  | Unary op e => Unary (respell op) (strip CUnary e)
  | Binary op l r => Binary (respell op) (strip (CLeft op) l) (strip (CRight op) r)
  | Member e key => Member (strip CPrefix e) key
  | Index e k => Index (strip CPrefix e) (strip CFull k)
  | Call f short args => Call (strip CPrefix f) (short || drop_parens args) (strip_args args)
  | Method e key short args => Method (strip CPrefix e) key short (strip_args args)
  | Table its => Table (strip_items its)
  end
with strip_args (args : exprs) : exprs :=
  match args with
  | ANil => ANil
  | ACons e args => ACons (strip (CItem (match args with ANil => true | _ => false end)) e) (strip_args args)
  end
with strip_items (its : items) : items :=
  match its with
  | TNil => TNil
  | TIndex k v sep its => TIndex (strip CFull k) (strip CFull v) (fix_sep sep its) (strip_items its)
  | TMember key v sep its => TMember key (strip CFull v) (fix_sep sep its) (strip_items its)
  | TItem e sep its => TItem (strip (CItem (match its with TNil => true | _ => false end)) e) (fix_sep sep its) (strip_items its)
  end.
End Minify.
