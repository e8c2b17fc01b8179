(** C66, C35: how expressions are read, and which parentheses minifying drops. *)
From Coq Require Import String List ZArith Lia Bool.
From Verif Require Import M_Base L_Util M_Fold M_Num M_Token M_Expr S_Expr L_Expr L_ExprSound L_ExprPrint L_ExprTok L_Strip.
Import ListNotations.
Open Scope Z_scope.

Lemma ends_stops lang rest : ends lang rest -> op_stops lang None rest /\ nosuffix rest.
Proof.
  destruct rest as [|[ty v|] rest]; try easy. intros (A & B & C). split.
  - intros p Ep Lp. destruct (prec_nat _ _ Ep) as (k & _ & Lk). exfalso. apply (A k Lk). now apply lang_spec.
  - split; [|destruct ty; easy]. destruct (suffix_sym v) eqn:E; [|easy]. exfalso. apply B. now apply existsb_in in E.
Qed.

(** C66: an expression of the grammar, followed by something that ends it, is read as itself. *)
Theorem C66_read : forall lang rf e rest, function_reader rf -> grammar lang rf e -> ends lang rest ->
  parse_expr lang rf (print e ++ rest) = Ok (e, rest).
Proof.
  intros lang rf e rest [F1 F2 F3 F4] G En. destruct (ends_stops _ _ En) as (St & Ns). destruct (all_reads lang rf F3) as (R & _).
  destruct (whole_reads lang rf e rest G (R e G) St Ns) as (n & H). apply (parse_enough lang rf F1 F4 n). now apply H.
Qed.
(** Whatever is read is an expression of the grammar with these tokens, and no operator follows it. *)
Theorem C66_sound : forall lang rf ts e rest, function_reader rf -> Forall proper ts -> parse_expr lang rf ts = Ok (e, rest) ->
  ts = print e ++ rest /\ grammar lang rf e /\ match rest with Tok _ v :: _ => forall k, level_of v k -> ~ in_lang lang v | _ => True end.
Proof.
  intros lang rf ts e rest [F1 F2 F3 F4] P E.
  destruct (parse_sound lang rf (fun ts b r H => conj (F1 ts b r H) (F2 ts b r H)) (3 * length ts + 3)) as (S & _).
  destruct (S None ts e rest E P) as (A & _ & B & _ & C). split; [easy|]. split; [easy|]. destruct rest as [|[ty v|] rest]; try exact I.
  intros k Lk Il. apply level_prec in Lk. apply lang_spec in Il. specialize (C _ Lk Il). discriminate C.
Qed.
(** The parser and the grammar agree, the parser always answers, and no token sequence can be
    read in two ways. *)
Theorem C66_exact : forall lang rf ts, function_reader rf -> Forall proper ts ->
  (forall e, parse_expr lang rf ts = Ok (e, []) <-> grammar lang rf e /\ print e = ts) /\ parse_expr lang rf ts <> Err EFuel.
Proof.
  intros lang rf ts F P. split.
  - intros e. split.
    + intros E. destruct (C66_sound _ _ _ _ _ F P E) as (-> & G & _). now rewrite app_nil_r.
    + intros (G & <-). rewrite <- (app_nil_r (print e)) at 1. now apply C66_read.
  - destruct F as [F1 F2 F3 F4]. destruct (fuel_fits lang rf F1 F4 (3 * length ts + 3)) as (H & _). specialize (H None ts ltac:(lia)).
    unfold parse_expr. destruct (p_expr lang rf _ None ts) as [[? ?]|]; [easy|]. intros [= ->]. now apply H.
Qed.
Theorem C66_unambiguous : forall lang rf e e', function_reader rf -> grammar lang rf e -> grammar lang rf e' -> print e = print e' -> e = e'.
Proof.
  intros lang rf e e' F G G' E. pose proof (C66_read lang rf e [] F G I) as H. pose proof (C66_read lang rf e' [] F G' I) as H'. congruence.
Qed.
(** The tokens of a text without errors are as the parser needs them. *)
Theorem C66_tokens : forall lang src ts, tokenize lang src = Ok ts -> ~ In TErr ts -> Forall proper ts.
Proof. exact tokens_proper. Qed.

(** C35: an expression that stands where one value is used ([CFull]), in a list
    ([CItem false]) or at the end of a list ([CItem true]) is minified to tokens that are
    read back as the minified tree, and that means the same for every meaning of the
    operators, names, calls and tables. *)
Theorem C35_meaning : forall lang version focus_tokens negative num str rf m,
  function_reader rf -> same_operators m lang version -> same_numbers m lang num -> same_strings m str ->
  forall src ts e, tokenize lang src = Ok ts -> ~ In TErr ts -> parse_expr lang rf ts = Ok (e, []) ->
  forall c, c = CFull \/ c = CItem false \/ c = CItem true ->
  let e' := strip lang version focus_tokens negative num str c e in
  (forall rest, ends lang rest -> parse_expr lang rf (print e' ++ rest) = Ok (e', rest)) /\
  same_value m e e' /\ (c = CItem true -> same_values m e e').
Proof.
  intros lang version focus negative num str rf m F Ho Hn Hs src ts e T N E c Hc e'.
  destruct (C66_sound _ _ _ _ _ F (tokens_proper _ _ _ T N) E) as (_ & G & _).
  destruct (strip_keeps lang version focus negative num str rf m Ho Hn Hs) as (K & _).
  destruct (K e G c) as (G' & _ & V & Vs); [destruct Hc as [->|[->| ->]]; exact I|]. split; [|easy]. intros rest En. now apply C66_read.
Qed.
(** The same for any part of an expression, e.g. an operand: what it is minified to fits in
    its place. *)
Theorem C35_parts : forall lang version focus_tokens negative num str rf m,
  same_operators m lang version -> same_numbers m lang num -> same_strings m str ->
  forall c e, grammar lang rf e -> stands c e ->
  let e' := strip lang version focus_tokens negative num str c e in grammar lang rf e' /\ stands c e' /\ same_value m e e'.
Proof.
  intros lang version focus negative num str rf m Ho Hn Hs c e G St e'.
  destruct (strip_keeps lang version focus negative num str rf m Ho Hn Hs) as (K & _). destruct (K e G c St) as (A & B & C & _). easy.
Qed.
(** In PICO-8 the numbers need no assumption: printing them as the tool does is safe. *)
Theorem C35_numbers : forall lang m, fixed_point m -> same_numbers m lang pico8_num.
Proof. exact pico8_numbers. Qed.

(* ------------------------------------------------------------------ *)
(** Concrete cases: functions that end at the first "end" ... *)
Fixpoint to_end (ts : list tok) : res (list tok * list tok) :=
  match ts with
  | [] => Err ECheck
  | t :: ts => if tok_eqb t (kw "end") then Ok ([t], ts) else '(body, rest) <- to_end ts ;; Ok (t :: body, rest)
  end.
Definition ex_function (ts : list tok) : res (list tok * list tok) :=
  match ts with
  | t :: ts => if tok_eqb t (pt "(") then '(body, rest) <- to_end ts ;; Ok (t :: body, rest) else Err ECheck
  | [] => Err ECheck
  end.
Lemma tok_eqb_sound t t' : tok_eqb t t' = true -> t = t'.
Proof.
  destruct t as [ty v|], t' as [ty' v'|]; cbn; try easy. intros H. apply andb_prop in H as (A & B). apply zeqb_sound in B. subst. now destruct ty, ty'.
Qed.
Lemma to_end_ok ts : match to_end ts with
  | Ok (body, rest) => ts = body ++ rest /\ forall rest', to_end (body ++ rest') = Ok (body, rest')
  | Err e => e = ECheck end.
Proof.
  induction ts as [|t ts IH]; [reflexivity|]. cbn [to_end]. destruct (tok_eqb t (kw "end")) eqn:E; [cbn [app to_end]; rewrite E; easy|].
  destruct (to_end ts) as [(body, rest)|e]; cbn [bind]; [|easy]. destruct IH as (-> & H). split; [reflexivity|]. intros rest'. cbn [app to_end]. rewrite E, H. reflexivity.
Qed.
Example ex_reader : function_reader ex_function.
Proof.
  split; intros [|t ts]; try discriminate; unfold ex_function; destruct (tok_eqb t (pt "(")) eqn:E; try discriminate; intros *;
    pose proof (to_end_ok ts) as H; destruct (to_end ts) as [(b, r)|e]; cbn [bind]; try discriminate.
  - intros [= <- <-]. destruct H as (-> & _). reflexivity.
  - intros [= <- <-]. destruct H as (-> & H). intros rest'. cbn [app]. rewrite E, H. reflexivity.
  - intros [= <- <-]. exists b. now rewrite <- (tok_eqb_sound _ _ E).
  - rewrite H. discriminate.
Qed.

(** ... and a language of numbers, in which names are worth their length, a call returns its
    function and its arguments, and a table the sum of its items. *)
Definition ex_meaning : meaning := {|
  V := Z; W := list Z; T := Z;
  m_const := fun t => match t with Tok TNumber v => match parse_fixnum v with Ok x => x | Err _ => 0 end | Tok _ v => zlen v | TErr => 0 end;
  m_var := fun v => zlen v; m_fun := fun b => zlen b; m_varargs := [1; 2];
  m_unary := fun op x => if zeqb_list op (asc "-") then (- x) mod 2 ^ 32 else 2 ^ 32 - 1 - x;
  m_binary := fun op x y => if zeqb_list op (asc "*") then x * y else if zeqb_list op (asc "+") then x + y else if zeqb_list op (asc "^") then x ^ y else 0;
  m_member := fun x k => x + zlen k; m_index := Z.mul; m_call := fun f args => f :: args; m_method := fun x k args => x :: args;
  m_first := fun w => hd 0 w; m_one := fun x => [x]; m_none := []; m_more := cons;
  m_table := fun x => x; m_end := 0; m_pair := fun k v t => k * v + t; m_named := fun k v t => v + t; m_item := Z.add; m_last := fold_right Z.add 0 |}.
Example ex_meaning_ok : same_operators ex_meaning Pico8 42 /\ fixed_point ex_meaning /\ same_strings ex_meaning (fun v => v).
Proof.
  split; [easy|]. split; [|easy]. exists (fun x => x). split; [intros v x E; cbn; now rewrite E|]. intros x Hx. split; reflexivity.
Qed.
Definition source (s : string) : list tok := match tokenize Pico8 (asc s) with Ok ts => ts | Err _ => [] end.
Definition ex_strip (c : ctx) (s : string) : res (list tok) :=
  '(e, _) <- parse_expr Pico8 ex_function (source s) ;; Ok (print (strip Pico8 42 false (fun v => match parse_fixnum v with Ok x => 2 ^ 31 <=? x | Err _ => false end) pico8_num (fun v => v) c e)).
(** parentheses that are dropped, and those that are needed *)
Example C35_case :
  ex_strip CFull "(((a+b)*(c^(d^e))))!=(-(x^2))..(((f)(y)).z)" = Ok (source "(a+b)*c^d^e~=-x^2 ..f(y).z") /\
  ex_strip CFull "(a^b)^(c)-(d-(e*f))" = Ok (source "(a^b)^c-(d-e*f)") /\
  ex_strip (CItem true) "((...))" = Ok (source "(...)") /\
  ex_strip (CItem false) "((...))" = Ok (source "...") /\
  ex_strip CFull "f((g()),(g()))(({}))({(...);(...);})" = Ok (source "f(g(),(g()))({}){...,(...)}") /\
  ex_strip CFull "(0xffff)^2+(0xffff)" = Ok (source "(-1)^2+-1").
Proof. vm_compute. repeat split; reflexivity. Qed.
Example C66_case : parse_expr Pico8 ex_function (source "-a^-b^c*d..e..f<g or function() end{}")
  = Ok (Binary (asc "or") (Binary (asc "<") (Binary (asc "..") (Binary (asc "*")
          (Unary (asc "-") (Binary (asc "^") (Var (asc "a")) (Unary (asc "-") (Binary (asc "^") (Var (asc "b")) (Var (asc "c")))))) (Var (asc "d")))
          (Binary (asc "..") (Var (asc "e")) (Var (asc "f")))) (Var (asc "g"))) (Fun [pt "("; pt ")"; kw "end"]), [pt "{"; pt "}"]).
Proof. vm_compute. reflexivity. Qed.

Print Assumptions C66_read.
Print Assumptions C66_sound.
Print Assumptions C66_exact.
Print Assumptions C66_unambiguous.
Print Assumptions C66_tokens.
Print Assumptions C35_meaning.
Print Assumptions C35_parts.
Print Assumptions C35_numbers.
