(** C72: dropping line breaks. *)
From Coq Require Import String List ZArith Lia Bool.
From Verif Require Import M_Base L_Util M_Fold M_Token M_Expr S_Expr L_ExprTok M_Stmt S_Stmt L_Stmt L_StmtRead2 M_Emit S_Emit L_Emit6 L_Emit7 L_Emit8 P_Stmt.
Import ListNotations.
Open Scope Z_scope.

(** C72: when all line breaks are dropped but those that end a shorthand, the output has the
    tokens of the source and is read as the program it was, if its shorthands can be told from
    what follows them. *)
Theorem C72_lines : forall lang b ts, program lang b ts -> fits b ->
  map fst (emit b) = map fst ts /\ exists b', parse_prog lang (emit b) = Ok b' /\ un_blk b' = un_blk b.
Proof.
  intros lang b ts P F. split; [now apply (emit_toks lang)|]. destruct (emit_program lang b ts P F) as (b' & E & P'). exists b'. split; [now apply C71_read|exact E].
Qed.
(** From the source text's tokens on. *)
Theorem C72_minify : forall lang ts b, Forall proper (map fst ts) -> parse_prog lang ts = Ok b -> fits b ->
  map fst (emit b) = map fst ts /\ exists b', parse_prog lang (emit b) = Ok b' /\ un_blk b' = un_blk b.
Proof. intros lang ts b P E F. apply C72_lines; [now apply C71_exact|exact F]. Qed.
(** That is so if every shorthand ends with a line and has no other one inside but print
    shorthands. *)
Theorem C72_flat : forall lang ts b, Forall proper (map fst ts) -> parse_prog lang ts = Ok b -> flat b ->
  exists b', parse_prog lang (emit b) = Ok b' /\ un_blk b' = un_blk b.
Proof. intros lang ts b P E F. apply (C72_minify lang ts b P E). now apply flat_fits. Qed.
(** The tokens are kept in any case. *)
Theorem C72_tokens : forall lang b ts, program lang b ts -> map fst (emit b) = map fst ts.
Proof. intros lang b ts. apply emit_toks. Qed.

(* ------------------------------------------------------------------ *)
(** Concrete cases. *)
Example ex_flat : flat ex_tree /\ emit ex_tree = line 1 "if (a) x=1 y() else ?2" ++ line 2 "for i=1,9 do while (b) f{c}" ++ line 3 "end return -a^2".
Proof. split; [cbn; repeat split|vm_compute; reflexivity]. Qed.
(** Shorthands that end before a closing word, and one in another. *)
Definition more_source : list ltok :=
  line 1 "f()" ++ line 2 "function g() if (a) b() else c() end" ++ line 3 "if (a) while (b) ?1" ++ line 4 "h()" ++ line 5 "if (a) if (b) c() else d()".
Definition simple (s : string) : blk := BCons (SCall (call s XNil)) BNil.
Definition more_tree : blk :=
  BCons (SCall (call "f" XNil))
  (BCons (SFun (asc "g") [] None [] (BCons (SIf (IShort true (XGroup (P_Stmt.var "a")) (simple "b") (EElse (simple "c")))) BNil))
  (BCons (SIf (IShort false (XGroup (P_Stmt.var "a")) (BCons (SWhileShort false (XGroup (P_Stmt.var "b")) (BCons (SPrint (XCons (XConst (Tok TNumber (asc "1"))) XNil)) BNil)) BNil) ENone))
  (BCons (SCall (call "h" XNil))
  (BCons (SIf (IShort false (XGroup (P_Stmt.var "a")) (BCons (SIf (IShort false (XGroup (P_Stmt.var "b")) (simple "c") (EElse (simple "d")))) BNil) ENone)) BNil)))).
Example ex_more : parse_prog Pico8 more_source = Ok more_tree /\ fits more_tree /\
  emit more_tree = line 1 "f() function g() if (a) b() else c() end if (a) while (b) ?1" ++ line 2 "h() if (a) if (b) c() else d()".
Proof. split; [vm_compute; reflexivity|]. split; [|vm_compute; reflexivity]. cbn. repeat split; discriminate. Qed.

(** Not every program has such shorthands.  A print shorthand at the end of a shorthand in the
    middle of a line gets a line break behind it, and the shorthand ends there: an "else" then
    belongs to another "if". *)
Theorem C72_print_refuted : exists ts b b', parse_prog Pico8 ts = Ok b /\ parse_prog Pico8 (emit b) = Ok b' /\ un_blk b' <> un_blk b.
Proof.
  exists (line 1 "if x then if (a) ?1 else ?2 end"). do 2 eexists. split; [vm_compute; reflexivity|]. split; [vm_compute; reflexivity|]. cbn. discriminate.
Qed.
(** What follows a shorthand in a function within a shorthand gets into the first one. *)
Theorem C72_nested_refuted : exists ts b b', parse_prog Pico8 ts = Ok b /\ parse_prog Pico8 (emit b) = Ok b' /\ un_blk b' <> un_blk b.
Proof.
  exists (line 1 "if (a) f(function()" ++ line 2 "if (b) c()" ++ line 3 "d() end)"). do 2 eexists. split; [vm_compute; reflexivity|]. split; [vm_compute; reflexivity|]. cbn. discriminate.
Qed.
(** So does an "else". *)
Theorem C72_else_refuted : exists ts b b', parse_prog Pico8 ts = Ok b /\ parse_prog Pico8 (emit b) = Ok b' /\ un_blk b' <> un_blk b.
Proof.
  exists (line 1 "while (x) if a then if (b) c()" ++ line 2 "else d() end"). do 2 eexists. split; [vm_compute; reflexivity|]. split; [vm_compute; reflexivity|]. cbn. discriminate.
Qed.

Print Assumptions C72_lines.
Print Assumptions C72_minify.
Print Assumptions C72_flat.
Print Assumptions C72_tokens.
Print Assumptions C72_print_refuted.
Print Assumptions C72_nested_refuted.
Print Assumptions C72_else_refuted.
