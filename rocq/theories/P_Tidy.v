(** C73: cleaning up tokens. *)
From Coq Require Import String List ZArith Lia Bool.
From Verif Require Import M_Base L_Util M_Fold M_Token M_Expr S_Expr L_ExprTok M_Stmt S_Stmt L_Stmt L_StmtRead2 M_Emit S_Emit L_Emit6 L_Emit7 L_Emit8 M_Tidy S_Tidy L_Tidy4 P_Stmt P_Emit.
Import ListNotations.
Open Scope Z_scope.

(** C73: when the tokens of a program are cleaned up and all line breaks are dropped but those
    that end a shorthand, the output is read as the same program: with the same statements and
    expressions in the same order, up to ";", separators, the parentheses of single arguments and
    the spelling of operators. *)
Theorem C73_same : forall lang ver b ts, program lang b ts -> fits b -> lua b ->
  exists b', parse_prog lang (emit (tidy lang ver b)) = Ok b' /\ core_blk b' = core_blk b.
Proof.
  intros lang ver b ts P F L. destruct (tidy_program lang ver b ts P F L) as (b' & E & P'). exists b'. split; [now apply C71_read|exact E].
Qed.
(** From the source text's tokens on. *)
Theorem C73_minify : forall lang ver ts b, Forall proper (map fst ts) -> parse_prog lang ts = Ok b -> fits b -> lua b ->
  exists b', parse_prog lang (emit (tidy lang ver b)) = Ok b' /\ core_blk b' = core_blk b.
Proof. intros lang ver ts b P E. apply (C73_same lang ver b ts). now apply C71_exact. Qed.
(** If every shorthand ends with a line and has no other one inside but print shorthands. *)
Theorem C73_flat : forall lang ver ts b, Forall proper (map fst ts) -> parse_prog lang ts = Ok b -> flat b -> lua b ->
  exists b', parse_prog lang (emit (tidy lang ver b)) = Ok b' /\ core_blk b' = core_blk b.
Proof. intros lang ver ts b P E F. apply (C73_minify lang ver ts b P E). now apply flat_fits. Qed.
(** There are never more tokens than before. *)
Theorem C73_tokens : forall lang ver b ts, program lang b ts -> (length (emit (tidy lang ver b)) <= length ts)%nat.
Proof.
  intros lang ver b ts P. apply emit_toks in P. rewrite <- (map_length fst ts), <- P, map_length. apply tidy_size.
Qed.

(* ------------------------------------------------------------------ *)
(** Concrete cases. *)
Lemma line_proper n src : forallb (fun x => match fst x with TErr => false | _ => true end) (line n src) = true -> Forall proper (map fst (line n src)).
Proof.
  unfold line. destruct (tokenize Pico8 (asc src)) as [ts|] eqn:E; [|constructor]. intros F. rewrite map_map. cbn [fst]. rewrite map_id. apply (tokens_proper _ _ _ E). intros I.
  rewrite forallb_forall in F. specialize (F (TErr, n)). cbn in F. discriminate F. apply in_map_iff. now exists TErr.
Qed.
Definition tidy_source : list ltok :=
  line 1 "a=b;;(c)('x');d{1;2,x=3;}" ++ line 2 "if a!=1 then return; end;" ++ line 3 "if (a) e(); f(g,{});" ++ line 4 "while (b) ;" ++ line 5 "h=i^^2;".
Definition tidy_tree : blk := match parse_prog Pico8 tidy_source with Ok b => b | Err _ => BNil end.
Example ex_tidy : parse_prog Pico8 tidy_source = Ok tidy_tree /\ fits tidy_tree /\ lua tidy_tree /\
  emit (tidy Pico8 43 tidy_tree) = line 1 "a=b;(c)'x'd{1,2,x=3}if a~=1 do return end if (a) e() f(g,{})" ++ line 2 "while (b);" ++ line 3 "h=i~2".
Proof. split; [vm_compute; reflexivity|]. split; [|split; [|vm_compute; reflexivity]]; vm_compute; repeat split; try discriminate; intros []. Qed.
Example ex_tidy_proper : Forall proper (map fst tidy_source).
Proof. unfold tidy_source. rewrite !map_app, !Forall_app. repeat split; apply line_proper; vm_compute; reflexivity. Qed.

(** A body of a shorthand that begins with ";" and "do": the shorthand becomes a loop, which ends
    with the "do" block; what follows gets out of the body. *)
Theorem C73_do_refuted : exists ts b b', parse_prog Pico8 ts = Ok b /\ fits b /\ parse_prog Pico8 (emit (tidy Pico8 43 b)) = Ok b' /\ core_blk b' <> core_blk b.
Proof.
  exists (line 1 "while (a) ;do b() end c()"). do 2 eexists. split; [vm_compute; reflexivity|]. split; [vm_compute; repeat split; discriminate|]. split; [vm_compute; reflexivity|]. cbn. discriminate.
Qed.
(** A bare "return" at the end of a program is not read without its ";". *)
Theorem C73_return_refuted : exists ts b, parse_prog Pico8 ts = Ok b /\ fits b /\ parse_prog Pico8 (emit (tidy Pico8 43 b)) = Err ECheck.
Proof.
  exists (line 1 "a() return;"). eexists. split; [vm_compute; reflexivity|]. split; [vm_compute; repeat split; discriminate|]. vm_compute. reflexivity.
Qed.
(** A condition that ends with the parentheses of a single argument: without them there is no
    shorthand any more. *)
Theorem C73_call_refuted : exists ts b, parse_prog Pico8 ts = Ok b /\ fits b /\ parse_prog Pico8 (emit (tidy Pico8 43 b)) = Err ECheck.
Proof.
  exists (line 1 "if (a)('x') b()"). eexists. split; [vm_compute; reflexivity|]. split; [vm_compute; repeat split; discriminate|]. vm_compute. reflexivity.
Qed.

Print Assumptions C73_same.
Print Assumptions C73_minify.
Print Assumptions C73_flat.
Print Assumptions C73_tokens.
Print Assumptions C73_do_refuted.
Print Assumptions C73_return_refuted.
Print Assumptions C73_call_refuted.
