(** Model of whole programs: the statements of /repo/pico_parse.py l.453-520 and l.679-1005
    with the expressions of l.522-677 inside them, over tokens that know their line.

    Nodes are trees like those of M_Expr, with the bodies of functions as trees.  A token's
    line is its [vline], the count of line ends outside of strings and long comments before
    it.  Left out: scopes (M_Rename), hints in comments, sublanguages, the switch to another
    compiler.  An error of any kind is [Err ECheck]: a program with errors is not processed.
    A print shorthand "?" is a statement here; what would go on behind it as an operand or a
    target is an error (the code takes it for a call, which is no program of any Lua). *)
From Coq Require Import String List ZArith.
From Verif Require Import M_Base M_Fold M_Token M_Expr.
Import ListNotations.
Open Scope Z_scope.

(** A token and its line. *)
Notation ltok := (tok * Z)%type.

Inductive ex :=
| XConst (t : tok)
| XDots
| XVar (name : list Z)
| XFun (ps : list (option (list Z))) (body : blk)     (* None: "..." *)
| XGroup (e : ex)
| XUn (op : list Z) (e : ex)
| XBin (op : list Z) (l r : ex)
| XMem (e : ex) (key : list Z)
| XIdx (e k : ex)
| XCall (f : ex) (short : bool) (args : exs)
| XMeth (e : ex) (key : list Z) (short : bool) (args : exs)
| XTab (its : its)
with exs := XNil | XCons (e : ex) (args : exs)
with its :=
| INil
| IIdx (k v : ex) (sep : option (list Z)) (i : its)
| IMem (key : list Z) (v : ex) (sep : option (list Z)) (i : its)
| IItem (e : ex) (sep : option (list Z)) (i : its)
with st :=
| SSemi                                               (* a ";" between statements *)
| SDo (b : blk)
| SIf (i : ifs)
| SWhile (c : ex) (b : blk)
| SWhileShort (nested : bool) (c : ex) (b : blk)      (* nested: [k_nested], see [on_line] *)
| SRepeat (b : blk) (c : ex)
| SFor (x : list Z) (a z : ex) (step : exs) (b : blk) (* step: none or one *)
| SForIn (xs : list (list Z)) (es : exs) (b : blk)
| SBreak
| SReturn (es : exs)
| SLocal (xs : list (list Z * option (list Z))) (es : exs)   (* names with attributes *)
| SLocalFun (x : list Z) (ps : list (option (list Z))) (b : blk)
| SFun (x : list Z) (path : list (list Z)) (meth : option (list Z)) (ps : list (option (list Z))) (b : blk)
| SGoto (x : list Z)
| SLabel (x : list Z)
| SAssign (targets : exs) (es : exs)
| SOp (target : ex) (op : list Z) (e : ex)            (* op: with its "=" *)
| SPrint (es : exs)                                   (* "?" *)
| SCall (e : ex)
with blk := BNil | BCons (s : st) (b : blk)
with ifs :=
| ILong (w : list Z) (c : ex) (b : blk) (e : els)     (* w: "then" or "do" *)
| IShort (nested : bool) (c : ex) (b : blk) (e : els)
with els := ENone | EElse (b : blk) | EElif (i : ifs).

(* ------------------------------------------------------------------ *)
(** * Taking tokens *)

(** [accept], [require] and [require_ident], l.342-373 *)
Definition acc (s : string) (ts : list ltok) : option (list ltok) :=
  match ts with
  | (Tok _ w, _) :: ts' => if zeqb_list w (asc s) then Some ts' else None
  | _ => None
  end.
Definition req (s : string) (ts : list ltok) : res (list ltok) :=
  match acc s ts with Some ts' => Ok ts' | None => Err ECheck end.
Definition idt (ts : list ltok) : res (list Z * list ltok) :=
  match ts with (Tok TIdent w, _) :: ts' => Ok (w, ts') | _ => Err ECheck end.
(** [peek(-1)] behind something that was read from [ts] up to [rest] *)
Definition prev_tok (ts rest : list ltok) : option ltok := nth_error ts (length ts - length rest - 1).
(** [k_block_ends], l.297 *)
Definition block_end (v : list Z) : bool := existsb (zeqb_list v) (map asc ["end"; "else"; "elseif"; "until"]%string).
(** [peek().vline > vline] if there is a [vline]; the end of the text is behind all lines *)
Definition beyond (vl : option Z) (ts : list ltok) : bool :=
  match vl, ts with
  | Some l, (_, l') :: _ => l <? l'
  | Some l, [] => true
  | None, _ => false
  end.
(** [short_state], l.687-688: does the next token stand on the line?  Then a block end must
    come, and the shorthand is called nested *)
Definition on_line (l : Z) (ts : list ltok) : bool :=
  match ts with (_, l') :: _ => l' =? l | [] => false end.
(** [k_prefix_types], l.299 *)
Definition prefix_ex (e : ex) : bool :=
  match e with XVar _ | XMem _ _ | XIdx _ _ | XCall _ _ _ | XMeth _ _ _ _ | XGroup _ => true | _ => false end.
Definition short_ahead (ts : list ltok) : bool :=
  match ts with (Tok ty v, _) :: _ => zeqb_list v (asc "{") || is_string (Tok ty v) | _ => false end.
(** What would continue a call: a suffix, a "=" or an operator with "=" *)
Definition ends_eq (v : list Z) : bool := last v 0 =? 61.
Definition goes_on (ts : list ltok) : bool :=
  match ts with
  | (Tok ty v, _) :: _ => existsb (zeqb_list v) (map asc ["."; "["; "("; "{"; ":"; ","; "="]%string) || is_string (Tok ty v) ||
      match ty with TPunct => ends_eq v | _ => false end
  | _ => false
  end.
(** [parse_return]'s test for an empty list, l.828 *)
Definition returns_nothing (vl : option Z) (ts : list ltok) : bool :=
  match ts with (Tok _ v, _) :: _ => block_end v || zeqb_list v (asc ";") | _ => false end || beyond vl ts.

(** A name with its attribute (a word, as only words are spelled so), [parse_var] l.425-431 *)
Definition p_var (attrs : bool) (ts : list ltok) : res ((list Z * option (list Z)) * list ltok) :=
  '(x, ts) <- idt ts ;;
  match (if attrs then acc "<" ts else None) with
  | Some ((Tok TIdent a, _) :: ts) =>
      if zeqb_list a (asc "const") || zeqb_list a (asc "close") then ts <- req ">" ts ;; Ok ((x, Some a), ts) else Err ECheck
  | Some _ => Err ECheck
  | None => Ok ((x, None), ts)
  end.
(** [parse_list] of names, l.679-685 *)
Fixpoint p_vars (fuel : nat) (attrs : bool) (ts : list ltok) : res (list (list Z * option (list Z)) * list ltok) :=
  match fuel with
  | O => Err EFuel
  | S fuel =>
      '(x, ts) <- p_var attrs ts ;;
      match acc "," ts with
      | Some ts => '(xs, ts) <- p_vars fuel attrs ts ;; Ok (x :: xs, ts)
      | None => Ok ([x], ts)
      end
  end.
(** The parameters behind "(", l.502-513 *)
Definition p_param (ts : list ltok) : res (option (list Z) * list ltok) :=
  match acc "..." ts with
  | Some ts => Ok (None, ts)
  | None => '(x, ts) <- idt ts ;; Ok (Some x, ts)
  end.
Fixpoint p_more_params (fuel : nat) (ts : list ltok) : res (list (option (list Z)) * list ltok) :=
  match fuel with
  | O => Err EFuel
  | S fuel =>
      '(p, ts) <- p_param ts ;;
      match acc ")" ts with
      | Some ts => Ok ([p], ts)
      | None => ts <- req "," ts ;; '(ps, ts) <- p_more_params fuel ts ;; Ok (p :: ps, ts)
      end
  end.
Definition p_params (fuel : nat) (ts : list ltok) : res (list (option (list Z)) * list ltok) :=
  ts <- req "(" ts ;;
  match acc ")" ts with
  | Some ts => Ok ([], ts)
  | None => p_more_params fuel ts
  end.
(** The members of the target of a function statement, l.479-484 *)
Fixpoint p_path (fuel : nat) (ts : list ltok) : res (list (list Z) * list ltok) :=
  match fuel with
  | O => Err EFuel
  | S fuel =>
      match acc "." ts with
      | Some ts => '(x, ts) <- idt ts ;; '(xs, ts) <- p_path fuel ts ;; Ok (x :: xs, ts)
      | None => Ok ([], ts)
      end
  end.
Definition p_meth (ts : list ltok) : res (option (list Z) * list ltok) :=
  match acc ":" ts with
  | Some ts => '(x, ts) <- idt ts ;; Ok (Some x, ts)
  | None => Ok (None, ts)
  end.

(* ------------------------------------------------------------------ *)
(** * The parser *)
Section Parse.
Context (lang : language).

(** "then", or "do" in PICO-8, l.705 *)
Definition acc_then (ts : list ltok) : option (list Z * list ltok) :=
  match acc "then" ts with
  | Some ts => Some (asc "then", ts)
  | None => if is_pico8 lang then match acc "do" ts with Some ts => Some (asc "do", ts) | None => None end else None
  end.

(** [parse_expr] l.643-677, [parse_core_expr] l.611-638, [parse_call] l.556-573,
    [parse_table] l.522-554, [parse_list] l.679-685 of expressions (with which the arguments of
    a call are read, too), [parse_function] behind
    its target l.502-528, [parse_if] l.698-740, [parse_stmt] l.912-951 with the functions it
    calls, [parse_block] l.953-990 *)
Fixpoint p_ex (fuel : nat) (prec : option Z) (ts : list ltok) {struct fuel} : res (ex * list ltok) :=
  match fuel with
  | O => Err EFuel
  | S fuel => '(e, ts) <- p_core fuel ts ;; p_loop fuel prec e ts
  end
with p_core (fuel : nat) (ts : list ltok) {struct fuel} : res (ex * list ltok) :=
  match fuel with
  | O => Err EFuel
  | S fuel =>
      match ts with
      | (Tok ty v, _) :: ts =>
          if const_tok (Tok ty v) then Ok (XConst (Tok ty v), ts)
          else if zeqb_list v (asc "{") then '(i, ts) <- p_its fuel ts ;; Ok (XTab i, ts)
          else if zeqb_list v (asc "(") then
            '(e, ts) <- p_ex fuel None ts ;;
            ts <- req ")" ts ;;
            Ok (XGroup e, ts)
          else if unary_op lang v then '(e, ts) <- p_ex fuel (Some k_unary_ops_prec) ts ;; Ok (XUn v e, ts)
          else if zeqb_list v (asc "?") then Err ECheck
          else if zeqb_list v (asc "function") then '((ps, b), ts) <- p_fun fuel ts ;; Ok (XFun ps b, ts)
          else if zeqb_list v (asc "...") then Ok (XDots, ts)
          else match ty with TIdent => Ok (XVar v, ts) | _ => Err ECheck end
      | _ => Err ECheck
      end
  end
with p_loop (fuel : nat) (prec : option Z) (e : ex) (ts : list ltok) {struct fuel} : res (ex * list ltok) :=
  match fuel with
  | O => Err EFuel
  | S fuel =>
      match ts with
      | (Tok ty v, _) :: ts' =>
          if zeqb_list v (asc ".") && prefix_ex e then
            '(key, ts) <- idt ts' ;; p_loop fuel prec (XMem e key) ts
          else if zeqb_list v (asc "[") && prefix_ex e then
            '(k, ts) <- p_ex fuel None ts' ;; ts <- req "]" ts ;; p_loop fuel prec (XIdx e k) ts
          else if zeqb_list v (asc "(") && prefix_ex e then
            '(args, ts) <- p_args fuel ts' ;; p_loop fuel prec (XCall e false args) ts
          else if short_ahead ts && prefix_ex e then
            '(arg, ts) <- p_core fuel ts ;; p_loop fuel prec (XCall e true (XCons arg XNil)) ts
          else if zeqb_list v (asc ":") && prefix_ex e then
            '(key, ts) <- idt ts' ;;
            if short_ahead ts then
              '(arg, ts) <- p_core fuel ts ;; p_loop fuel prec (XMeth e key true (XCons arg XNil)) ts
            else
              ts <- req "(" ts ;;
              '(args, ts) <- p_args fuel ts ;; p_loop fuel prec (XMeth e key false args) ts
          else
            match binary_prec v with
            | Some p =>
                if binary_lang lang v && compare_prec v p prec then
                  '(other, ts) <- p_ex fuel (Some p) ts' ;; p_loop fuel prec (XBin v e other) ts
                else Ok (e, ts)
            | None => Ok (e, ts)
            end
      | _ => Ok (e, ts)
      end
  end
with p_args (fuel : nat) (ts : list ltok) {struct fuel} : res (exs * list ltok) :=
  match fuel with
  | O => Err EFuel
  | S fuel =>
      match acc ")" ts with
      | Some ts => Ok (XNil, ts)
      | None => '(es, ts) <- p_list fuel ts ;; ts <- req ")" ts ;; Ok (es, ts)
      end
  end
with p_list (fuel : nat) (ts : list ltok) {struct fuel} : res (exs * list ltok) :=
  match fuel with
  | O => Err EFuel
  | S fuel =>
      '(e, ts) <- p_ex fuel None ts ;;
      match acc "," ts with
      | Some ts => '(es, ts) <- p_list fuel ts ;; Ok (XCons e es, ts)
      | None => Ok (XCons e XNil, ts)
      end
  end
with p_its (fuel : nat) (ts : list ltok) {struct fuel} : res (its * list ltok) :=
  match fuel with
  | O => Err EFuel
  | S fuel =>
      match acc "}" ts with
      | Some ts => Ok (INil, ts)
      | None =>
          '(mk, ts) <-
            match acc "[" ts with
            | Some ts =>
                '(k, ts) <- p_ex fuel None ts ;;
                ts <- req "]" ts ;; ts <- req "=" ts ;;
                '(v, ts) <- p_ex fuel None ts ;; Ok (IIdx k v, ts)
            | None =>
                match ts with
                | _ :: (Tok _ w, _) :: _ =>
                    if zeqb_list w (asc "=") then
                      '(key, ts) <- idt ts ;; ts <- req "=" ts ;;
                      '(v, ts) <- p_ex fuel None ts ;; Ok (IMem key v, ts)
                    else '(e, ts) <- p_ex fuel None ts ;; Ok (IItem e, ts)
                | _ => '(e, ts) <- p_ex fuel None ts ;; Ok (IItem e, ts)
                end
            end ;;
          match acc "}" ts with
          | Some ts => Ok (mk None INil, ts)
          | None =>
              '(sep, ts) <- match acc ";" ts with
                            | Some ts => Ok (asc ";", ts)
                            | None => ts <- req "," ts ;; Ok (asc ",", ts)
                            end ;;
              '(i, ts) <- p_its fuel ts ;; Ok (mk (Some sep) i, ts)
          end
      end
  end
with p_fun (fuel : nat) (ts : list ltok) {struct fuel} : res ((list (option (list Z)) * blk) * list ltok) :=
  match fuel with
  | O => Err EFuel
  | S fuel =>
      '(ps, ts) <- p_params fuel ts ;;
      '(b, ts) <- p_blk fuel None ts ;;
      ts <- req "end" ts ;;
      Ok ((ps, b), ts)
  end
with p_if (fuel : nat) (ts : list ltok) {struct fuel} : res (ifs * list ltok) :=
  match fuel with
  | O => Err EFuel
  | S fuel =>
      '(c, ts1) <- p_ex fuel None ts ;;
      match acc_then ts1 with
      | Some (w, ts) =>
          '(b, ts) <- p_blk fuel None ts ;;
          match acc "else" ts with
          | Some ts => '(b', ts) <- p_blk fuel None ts ;; ts <- req "end" ts ;; Ok (ILong w c b (EElse b'), ts)
          | None =>
              match acc "elseif" ts with
              | Some ts => '(i, ts) <- p_if fuel ts ;; Ok (ILong w c b (EElif i), ts)
              | None => ts <- req "end" ts ;; Ok (ILong w c b ENone, ts)
              end
          end
      | None =>
          match prev_tok ts ts1 with
          | Some (Tok _ v, l) =>
              if zeqb_list v (asc ")") then
                '(b, ts) <- p_blk fuel (Some l) ts1 ;;
                match (if on_line l ts then acc "else" ts else None) with
                | Some ts => '(b', ts) <- p_blk fuel (Some l) ts ;; Ok (IShort (on_line l ts) c b (EElse b'), ts)
                | None => Ok (IShort (on_line l ts) c b ENone, ts)
                end
              else Err ECheck
          | _ => Err ECheck
          end
      end
  end
with p_stmt (fuel : nat) (vl : option Z) (ts : list ltok) {struct fuel} : res (st * list ltok) :=
  match fuel with
  | O => Err EFuel
  | S fuel =>
      match ts with
      | (Tok _ v, _) :: ts' =>
          if zeqb_list v (asc ";") then Ok (SSemi, ts')
          else if zeqb_list v (asc "do") then
            '(b, ts) <- p_blk fuel None ts' ;; ts <- req "end" ts ;; Ok (SDo b, ts)
          else if zeqb_list v (asc "if") then '(i, ts) <- p_if fuel ts' ;; Ok (SIf i, ts)
          else if zeqb_list v (asc "while") then
            '(c, ts1) <- p_ex fuel None ts' ;;
            match acc "do" ts1 with
            | Some ts => '(b, ts) <- p_blk fuel None ts ;; ts <- req "end" ts ;; Ok (SWhile c b, ts)
            | None =>
                match prev_tok ts' ts1 with
                | Some (Tok _ v, l) =>
                    if zeqb_list v (asc ")") then
                      '(b, ts) <- p_blk fuel (Some l) ts1 ;; Ok (SWhileShort (on_line l ts) c b, ts)
                    else Err ECheck
                | _ => Err ECheck
                end
            end
          else if zeqb_list v (asc "repeat") then
            '(b, ts) <- p_blk fuel None ts' ;; ts <- req "until" ts ;;
            '(c, ts) <- p_ex fuel None ts ;; Ok (SRepeat b c, ts)
          else if zeqb_list v (asc "for") then
            if match ts' with _ :: (Tok _ w, _) :: _ => zeqb_list w (asc "=") | _ => false end then
              '(x, ts) <- idt ts' ;; ts <- req "=" ts ;;
              '(a, ts) <- p_ex fuel None ts ;; ts <- req "," ts ;;
              '(z, ts) <- p_ex fuel None ts ;;
              '(step, ts) <- match acc "," ts with
                             | Some ts => '(e, ts) <- p_ex fuel None ts ;; Ok (XCons e XNil, ts)
                             | None => Ok (XNil, ts)
                             end ;;
              ts <- req "do" ts ;; '(b, ts) <- p_blk fuel None ts ;; ts <- req "end" ts ;;
              Ok (SFor x a z step b, ts)
            else
              '(xs, ts) <- p_vars fuel false ts' ;; ts <- req "in" ts ;;
              '(es, ts) <- p_list fuel ts ;;
              ts <- req "do" ts ;; '(b, ts) <- p_blk fuel None ts ;; ts <- req "end" ts ;;
              Ok (SForIn (map fst xs) es b, ts)
          else if zeqb_list v (asc "break") then Ok (SBreak, ts')
          else if zeqb_list v (asc "return") then
            if returns_nothing vl ts' then Ok (SReturn XNil, ts')
            else '(es, ts) <- p_list fuel ts' ;; Ok (SReturn es, ts)
          else if zeqb_list v (asc "local") then
            match acc "function" ts' with
            | Some ts => '(x, ts) <- idt ts ;; '((ps, b), ts) <- p_fun fuel ts ;; Ok (SLocalFun x ps b, ts)
            | None =>
                '(xs, ts) <- p_vars fuel (negb (is_pico8 lang)) ts' ;;
                match acc "=" ts with
                | Some ts => '(es, ts) <- p_list fuel ts ;; Ok (SLocal xs es, ts)
                | None => Ok (SLocal xs XNil, ts)
                end
            end
          else if zeqb_list v (asc "goto") then '(x, ts) <- idt ts' ;; Ok (SGoto x, ts)
          else if zeqb_list v (asc "::") then '(x, ts) <- idt ts' ;; ts <- req "::" ts ;; Ok (SLabel x, ts)
          else if zeqb_list v (asc "function") then
            '(x, ts) <- idt ts' ;; '(path, ts) <- p_path fuel ts ;; '(m, ts) <- p_meth ts ;;
            '((ps, b), ts) <- p_fun fuel ts ;; Ok (SFun x path m ps b, ts)
          else if zeqb_list v (asc "?") then
            '(es, ts) <- p_list fuel ts' ;; if goes_on ts then Err ECheck else Ok (SPrint es, ts)
          else
            '(e, ts) <- p_ex fuel None ts ;;
            match ts with
            | (Tok ty w, _) :: ts' =>
                if zeqb_list w (asc ",") then
                  '(more, ts) <- p_list fuel ts' ;; ts <- req "=" ts ;;
                  '(es, ts) <- p_list fuel ts ;; Ok (SAssign (XCons e more) es, ts)
                else if zeqb_list w (asc "=") then
                  '(es, ts) <- p_list fuel ts' ;; Ok (SAssign (XCons e XNil) es, ts)
                else if match ty with TPunct => ends_eq w | _ => false end then
                  '(e', ts) <- p_ex fuel None ts' ;; Ok (SOp e w e', ts)
                else match e with XCall _ _ _ | XMeth _ _ _ _ => Ok (SCall e, ts) | _ => Err ECheck end
            | _ => match e with XCall _ _ _ | XMeth _ _ _ _ => Ok (SCall e, ts) | _ => Err ECheck end
            end
      | _ => Err ECheck
      end
  end
with p_blk (fuel : nat) (vl : option Z) (ts : list ltok) {struct fuel} : res (blk * list ltok) :=
  match fuel with
  | O => Err EFuel
  | S fuel =>
      match ts with
      | [] => Ok (BNil, ts)
      | (t, _) :: _ =>
          if beyond vl ts then Ok (BNil, ts)
          else if match t with Tok _ v => block_end v | TErr => false end then Ok (BNil, ts)
          else '(s, ts) <- p_stmt fuel vl ts ;; '(b, ts) <- p_blk fuel vl ts ;; Ok (BCons s b, ts)
      end
  end.

(** [parse_root], l.1000-1012: the block must take all tokens.  The fuel is enough. *)
Definition parse_prog (ts : list ltok) : res blk :=
  '(b, rest) <- p_blk (6 * length ts + 6) None ts ;;
  match rest with [] => Ok b | _ => Err ECheck end.
End Parse.
