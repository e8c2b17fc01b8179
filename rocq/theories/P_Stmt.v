(** C71: how whole programs are read. *)
From Coq Require Import String List ZArith Lia Bool.
From Verif Require Import M_Base L_Util M_Fold M_Token M_Expr S_Expr L_ExprTok M_Stmt S_Stmt L_Stmt L_StmtRead2 L_StmtSound2.
Import ListNotations.
Open Scope Z_scope.

(** C71: the parser and the grammar agree: a tree is read from tokens exactly if these are the
    tokens of the tree, with shorthands that end with their lines. *)
Theorem C71_exact : forall lang ts b, Forall proper (map fst ts) -> (parse_prog lang ts = Ok b <-> program lang b ts).
Proof. intros lang ts b F. now apply program_exact. Qed.
(** The tokens of a text without errors are [proper], whatever their lines are. *)
Theorem C71_text : forall lang src toks ts b, tokenize lang src = Ok toks -> ~ In TErr toks -> map fst ts = toks ->
  (parse_prog lang ts = Ok b <-> program lang b ts).
Proof. intros lang src toks ts b T N M. apply C71_exact. rewrite M. now apply (tokens_proper lang src). Qed.
(** Reading the tokens of a program needs no assumption at all. *)
Theorem C71_read : forall lang ts b, program lang b ts -> parse_prog lang ts = Ok b.
Proof. intros lang ts b. apply program_reads. Qed.
(** No token sequence is two programs. *)
Theorem C71_unambiguous : forall lang ts b b', program lang b ts -> program lang b' ts -> b = b'.
Proof. intros lang ts b b' H H'. apply program_reads in H, H'. congruence. Qed.
(** The parser always ends: every token sequence is a program or has an error. *)
Theorem C71_total : forall lang ts, Forall proper (map fst ts) ->
  (exists b, program lang b ts) \/ (exists e, parse_prog lang ts = Err e /\ e <> EFuel /\ forall b, ~ program lang b ts).
Proof.
  intros lang ts F. destruct (parse_prog lang ts) as [b|e] eqn:E.
  - left. exists b. now apply program_exact.
  - right. exists e. split; [reflexivity|]. split; [intros ->; now apply (parse_total lang ts)|]. intros b H. apply program_reads in H. congruence.
Qed.

(* ------------------------------------------------------------------ *)
(** Concrete cases: lines of source text. *)
Definition line (n : Z) (src : string) : list ltok := match tokenize Pico8 (asc src) with Ok ts => map (fun t => (t, n)) ts | Err _ => [] end.
Definition var (s : string) : ex := XVar (asc s).
Definition call (s : string) (es : exs) : ex := XCall (var s) false es.

(** Shorthands end with their lines ... *)
Definition ex_source : list ltok := line 1 "if (a) x=1 y() else ?2" ++ line 2 "for i=1,9 do while (b) f{c}" ++ line 3 "end return -a^2".
Definition ex_tree : blk :=
  BCons (SIf (IShort false (XGroup (var "a"))
    (BCons (SAssign (XCons (var "x") XNil) (XCons (XConst (Tok TNumber (asc "1"))) XNil)) (BCons (SCall (call "y" XNil)) BNil))
    (EElse (BCons (SPrint (XCons (XConst (Tok TNumber (asc "2"))) XNil)) BNil))))
  (BCons (SFor (asc "i") (XConst (Tok TNumber (asc "1"))) (XConst (Tok TNumber (asc "9"))) XNil
    (BCons (SWhileShort false (XGroup (var "b")) (BCons (SCall (XCall (var "f") true (XCons (XTab (IItem (var "c") None INil)) XNil))) BNil)) BNil))
  (BCons (SReturn (XCons (XUn (asc "-") (XBin (asc "^") (var "a") (XConst (Tok TNumber (asc "2"))))) XNil)) BNil)).
Example ex_parse : parse_prog Pico8 ex_source = Ok ex_tree.
Proof. vm_compute. reflexivity. Qed.
Example ex_program : program Pico8 ex_tree ex_source.
Proof.
  apply (C71_text Pico8 (asc "if (a) x=1 y() else ?2 for i=1,9 do while (b) f{c} end return -a^2") (map fst ex_source));
    [vm_compute; reflexivity| |reflexivity|exact ex_parse]. vm_compute. intros H. repeat (destruct H as [H|H]; [discriminate H|]). exact H.
Qed.
(** ... so that the same words on other lines are another program, or none. *)
Example ex_lines :
  parse_prog Pico8 (line 1 "if (a) b()" ++ line 2 "c()") = Ok (BCons (SIf (IShort false (XGroup (var "a")) (BCons (SCall (call "b" XNil)) BNil) ENone)) (BCons (SCall (call "c" XNil)) BNil)) /\
  parse_prog Pico8 (line 1 "if (a) b() c()") = Ok (BCons (SIf (IShort false (XGroup (var "a")) (BCons (SCall (call "b" XNil)) (BCons (SCall (call "c" XNil)) BNil)) ENone)) BNil) /\
  parse_prog Pico8 (line 1 "if (a)" ++ line 2 "b() else c()") = Err ECheck.
Proof. vm_compute. repeat split. Qed.
(** A bare return is read before "end" and before ";", but not at the end of a program, where
    Lua allows it, too: so a program can end in a ";" that cannot be dropped. *)
Theorem C71_return_refuted : exists ts b, program Pico8 b (ts ++ line 1 ";") /\ forall b', ~ program Pico8 b' ts.
Proof.
  exists (line 1 "f() return"), (BCons (SCall (call "f" XNil)) (BCons (SReturn XNil) (BCons SSemi BNil))). split.
  - apply (C71_text Pico8 (asc "f() return;") (map fst (line 1 "f() return;"))); [vm_compute; reflexivity| |reflexivity|vm_compute; reflexivity].
    vm_compute. intros H. repeat (destruct H as [H|H]; [discriminate H|]). exact H.
  - intros b' H. apply C71_read in H. vm_compute in H. discriminate H.
Qed.

Print Assumptions C71_exact.
Print Assumptions C71_text.
Print Assumptions C71_read.
Print Assumptions C71_unambiguous.
Print Assumptions C71_total.
Print Assumptions C71_return_refuted.
