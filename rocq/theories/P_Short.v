(** C75: changing between shorthands and long forms. *)
From Coq Require Import String List ZArith Lia Bool.
From Verif Require Import M_Base L_Util M_Fold M_Token M_Expr S_Expr L_ExprTok M_Stmt S_Stmt L_Stmt L_StmtRead2 M_Emit S_Emit L_Emit6 L_Emit7 L_Emit8 M_Tidy S_Tidy L_Tidy4 S_Unmin M_Short S_Short L_Short L_Short5 P_Stmt P_Emit P_Tidy.
Import ListNotations.
Open Scope Z_scope.

(** C75: when shorthands are made long, or long forms shorthands, and all line breaks are dropped
    but those that end a shorthand, then the output is read as the same program: with the same
    statements and expressions in the same order, whichever of them are written as shorthands. *)
Theorem C75_same : forall lang o b ts, program lang b ts -> lined b -> lua b -> plain_blk b ->
  exists b', parse_prog lang (emit (switch o b)) = Ok b' /\ same_program b' b.
Proof.
  intros lang o b ts P L U N. destruct (switch_program lang o b ts P L U N) as (b' & E & P'). exists b'. split; [now apply C71_read|]. unfold same_program. rewrite E. apply all_base.
Qed.
(** From the source text's tokens on, and with the clean-up of tokens. *)
Theorem C75_minify : forall lang ver o ts b, Forall proper (map fst ts) -> parse_prog lang ts = Ok b -> lined b -> lua b -> plain_blk b ->
  exists b', parse_prog lang (emit (tidy lang ver (switch o b))) = Ok b' /\ same_program b' b.
Proof.
  intros lang ver o ts b F P L U N. apply C71_exact in P; [|exact F]. destruct (switch_tidy lang o ver b ts P L U N) as (b' & E & P'). exists b'. split; [now apply C71_read|]. unfold same_program. rewrite E. apply all_base.
Qed.
(** If the "if" and "while" shorthands are to be made long, none is left. *)
Theorem C75_long : forall o b, new_if o = Some false -> new_while o = Some false -> lined b -> shorts_blk (switch o b) = 0%nat.
Proof. intros o b I W L. destruct (all_none o I W) as (_ & _ & _ & _ & B & _). exact (B b Free None L). Qed.
(** Otherwise there are at least as many as before; and as many, if they are to be left alone. *)
Theorem C75_short : forall o b, new_if o <> Some false -> new_while o <> Some false -> (shorts_blk b <= shorts_blk (switch o b))%nat.
Proof.
  intros o b I W. assert (F : forall x : option bool, x <> Some false -> is_false x = false) by (intros [[]|]; easy). destruct (all_more o (F _ I) (F _ W)) as (_ & _ & _ & _ & B & _). apply (B b None).
Qed.
Theorem C75_left : forall o b, new_if o = None -> new_while o = None -> shorts_blk (switch o b) = shorts_blk b.
Proof.
  intros o b I W. assert (Hi : is_false (new_if o) = false) by now rewrite I. assert (Hw : is_false (new_while o) = false) by now rewrite W. destruct (all_more o Hi Hw) as (_ & _ & _ & _ & B & _). now apply (B b None).
Qed.
(** Before the version that allows shorthands inside of others, none gets there. *)
Theorem C75_alone : forall o b, can_nest o = false -> alone b -> alone (switch o b).
Proof. intros o b N A. destruct (all_alone o N) as (_ & _ & _ & _ & B & _). now apply (B b). Qed.

(* ------------------------------------------------------------------ *)
(** Concrete cases. *)
Definition to_short : opts := {| can_nest := true; focus_chars := true; print_builtin := true; new_if := Some true; new_while := Some true; new_print := true |}.
Definition to_long : opts := {| can_nest := true; focus_chars := false; print_builtin := true; new_if := Some false; new_while := Some false; new_print := false |}.
Definition source : list ltok :=
  line 1 "if (a) then b=c while d do e() end end if (f) g() else h()" ++ line 2 "while i do if j then k=1 else print(l) end end" ++ line 3 "if m then n() elseif o then end while p do end do print'q' end" ++ line 4 "while(r)if(s)t()" ++ line 5 "u=v".
Definition source_tree : blk := match parse_prog Pico8 source with Ok b => b | Err _ => BNil end.
Example ex_short : parse_prog Pico8 source = Ok source_tree /\ lined source_tree /\ lua source_tree /\ plain_blk source_tree.
Proof. split; [vm_compute; reflexivity|]. split; [|split]; vm_compute; repeat split; try discriminate; intros []. Qed.
Example ex_short_proper : Forall proper (map fst source).
Proof. unfold source. rewrite !map_app, !Forall_app. repeat split; apply line_proper; vm_compute; reflexivity. Qed.
Example ex_to_short : emit (tidy Pico8 43 (switch to_short source_tree)) =
  line 1 "if(a)b=c while(d)e()" ++ line 2 "if(f)g()else h()" ++ line 3 "while i do if(j)k=1 else?l" ++ line 4 "end if m do n()elseif o do end while(p);" ++ line 5 "do?'q'" ++ line 6 "end while(r)if(s)t()" ++ line 7 "u=v".
Proof. vm_compute. reflexivity. Qed.
Example ex_to_long : emit (tidy Pico8 43 (switch to_long source_tree)) =
  line 1 "if a do b=c while d do e()end end if f do g()else h()end while i do if j do k=1 else print(l)end end if m do n()elseif o do end while p do end do print'q'end while r do if s do t()end end u=v".
Proof. vm_compute. reflexivity. Qed.
Example ex_counts : shorts_blk source_tree = 3%nat /\ shorts_blk (switch to_short source_tree) = 7%nat /\ shorts_blk (switch to_long source_tree) = 0%nat.
Proof. vm_compute. auto. Qed.

Definition no_nesting : opts := {| can_nest := false; focus_chars := true; print_builtin := true; new_if := Some true; new_while := Some true; new_print := true |}.
Definition old_tree : blk := match parse_prog Pico8 (line 1 "if a then while b do c() end end while d do print(e) end") with Ok b => b | Err _ => BNil end.
Example ex_alone : alone old_tree /\ emit (switch no_nesting old_tree) = line 1 "if a then while(b)c()" ++ line 2 "end while d do?e" ++ line 3 "end".
Proof. split; vm_compute; auto 20. Qed.

(** Without [plain_blk]: a body that begins with a parenthesis is read as part of the condition. *)
Ltac refute src := exists (line 1 src); do 2 eexists; split; [vm_compute; reflexivity|]; split; [vm_compute; repeat split; discriminate|]; split; [vm_compute; repeat split; try discriminate; intros []|]; split; [vm_compute; reflexivity|]; vm_compute; discriminate.
Theorem C75_body_refuted : exists ts b b', parse_prog Pico8 ts = Ok b /\ lined b /\ lua b /\ parse_prog Pico8 (emit (switch to_short b)) = Ok b' /\ ~ same_program b' b.
Proof. refute "if a then (f)() end"%string. Qed.
(** A statement that begins with a parenthesis, behind what becomes a shorthand, is read as part
    of its body. *)
Theorem C75_behind_refuted : exists ts b b', parse_prog Pico8 ts = Ok b /\ lined b /\ lua b /\ parse_prog Pico8 (emit (switch to_short b)) = Ok b' /\ ~ same_program b' b.
Proof. refute "if a then b=c end (d)()"%string. Qed.
(** A body that begins with ";" and "do", with the clean-up of tokens: what follows the "do" block
    gets out of the body. *)
Theorem C75_do_refuted : exists ts b b', parse_prog Pico8 ts = Ok b /\ lined b /\ lua b /\ parse_prog Pico8 (emit (tidy Pico8 43 (switch to_short b))) = Ok b' /\ ~ same_program b' b.
Proof. refute "if a then ;do b() end c() end"%string. Qed.
(** A call of print without arguments becomes a "?" without any, which cannot be read. *)
Theorem C75_print_refuted : exists ts b, parse_prog Pico8 ts = Ok b /\ lined b /\ lua b /\ parse_prog Pico8 (emit (switch to_short b)) = Err ECheck.
Proof. exists (line 1 "print()"). eexists. split; [vm_compute; reflexivity|]. split; [vm_compute; exact (conj I I)|]. split; [vm_compute; repeat split|]. vm_compute. reflexivity. Qed.

Print Assumptions C75_same.
Print Assumptions C75_minify.
Print Assumptions C75_long.
Print Assumptions C75_short.
Print Assumptions C75_left.
Print Assumptions C75_alone.
Print Assumptions C75_body_refuted.
Print Assumptions C75_behind_refuted.
Print Assumptions C75_do_refuted.
Print Assumptions C75_print_refuted.
