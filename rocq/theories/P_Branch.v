(** C77: resolving branches on constants. *)
From Coq Require Import String List ZArith Lia Bool.
From Verif Require Import M_Base L_Util M_Fold M_Token M_Expr S_Expr M_Stmt S_Stmt L_StmtRead2 M_Emit S_Emit M_Tidy S_Tidy S_Unmin M_Short S_Short M_Branch S_Run S_Toy S_Branch L_Branch L_Branch2 L_Same P_Stmt P_Tidy.
Import ListNotations.
Open Scope Z_scope.

(** C77: whatever is right about conditions, a program with these branches resolved does the same
    as before, on every machine and from every memory: the same values or error, the same memory,
    or no end. *)
Theorem C77_runs : forall V Mem (m : machine V Mem) known, right m known -> forall b n me, run m n (b_blk known b) me = run m n b me.
Proof. intros V Mem m known R b n me. now apply same_run. Qed.
(** What is known of constants is right, whatever else the machine does. *)
Theorem C77_literals : forall V Mem (m : machine V Mem), lua_truth m -> forall b n me, run m n (b_blk literal b) me = run m n b me.
Proof. intros V Mem m L b n me. now apply same_run, literal_right. Qed.
(** The output is read as a program that does the same as the one that was read, if no statement
    begins with a parenthesis and "if" and "while" shorthands are not used. *)
Theorem C77_read : forall lang ts b known, Forall proper (map fst ts) -> parse_prog lang ts = Ok b -> lua b -> simple_blk b ->
  exists b', parse_prog lang (emit (b_blk known b)) = Ok b' /\
    forall V Mem (m : machine V Mem), right m known -> forall n me, run m n b' me = run m n b me.
Proof.
  intros lang ts b known F P L S. apply C71_exact in P; [|exact F]. destruct P as (W & _).
  destruct (all_wf_b known lang) as (_ & _ & _ & _ & WB & _). destruct (all_lua_b known) as (_ & _ & _ & _ & LB & _). destruct (all_simple_b known) as (_ & _ & _ & _ & SB & _).
  destruct (simple_program lang (b_blk known b)) as (b' & E & P').
  { now apply WB. } { now apply LB. } { now apply SB. }
  exists b'. split; [now apply C71_read|]. intros V Mem m R n me. rewrite <- (un_run m b'), E, un_run. now apply same_run.
Qed.

(* ------------------------------------------------------------------ *)
(** Concrete cases. *)
Definition tree (ts : list ltok) : blk := match parse_prog Pico8 ts with Ok b => b | Err _ => BNil end.
Definition branch_source : list ltok := line 1 "for i=1,3 do local s=0 if i<2 then s=1 elseif true then local t=i*2 s=t goto x else s=9 end print(s)" ++
  line 2 "::x:: if nil then print(7) else ?8" ++ line 3 "end if 'y' then do local z=s end print(z) end end".
Definition branch_output : list ltok := line 1 "for i=1,3 do local s=0 if i<2 then s=1 else local t=i*2 s=t goto x end print(s)::x::?8" ++ line 2 "do local z=s end print(z)end".
Example ex_branch : parse_prog Pico8 branch_source = Ok (tree branch_source) /\ lua (tree branch_source) /\ simple_blk (tree branch_source) /\
  emit (b_blk literal (tree branch_source)) = branch_output /\ parse_prog Pico8 branch_output = Ok (b_blk literal (tree branch_source)).
Proof.
  split; [vm_compute; reflexivity|]. split; [vm_compute; repeat split; try discriminate; tauto|]. split; [vm_compute; repeat split; try discriminate; tauto|]. split; vm_compute; reflexivity.
Qed.
Example ex_branch_proper : Forall proper (map fst branch_source).
Proof. unfold branch_source. rewrite !map_app, !Forall_app. repeat split; apply line_proper; vm_compute; reflexivity. Qed.
Lemma toy_truth : lua_truth toy.
Proof.
  intros ty v. change (truth (toy_const (Tok ty v)) = false <-> ty = TKeyword /\ (v = asc "nil" \/ v = asc "false")). destruct ty; unfold toy_const; split; try discriminate; try (intros (? & _); discriminate).
  - destruct (zeqb_list v (asc "nil")) eqn:A; [apply zeqb_list_true in A; auto|]. destruct (zeqb_list v (asc "false")) eqn:B; [apply zeqb_list_true in B; auto|]. intros X. discriminate X.
  - intros (_ & [->| ->]); reflexivity.
Qed.
Example ex_branch_shows : shows 20 (tree branch_source) = Some (true, [VNum 1; VNum 8; VNil; VNum 8; VNil; VNum 8; VNil]) /\
  shows 20 (b_blk literal (tree branch_source)) = shows 20 (tree branch_source).
Proof. split; [vm_compute; reflexivity|]. exact (f_equal report (C77_literals _ _ toy toy_truth _ 20%nat new_world)). Qed.

(** The output is another program, which does something else. *)
Definition changed (ts : list ltok) : Prop :=
  exists b b', parse_prog Pico8 ts = Ok b /\ lua b /\ parse_prog Pico8 (emit (b_blk literal b)) = Ok b' /\ exists n, shows n b <> None /\ shows n b' <> None /\ shows n b' <> shows n b.
Ltac change_by n := do 2 eexists; split; [vm_compute; reflexivity|]; split; [vm_compute; repeat split; try discriminate; tauto|]; split; [vm_compute; reflexivity|]; exists n; vm_compute; repeat split; try discriminate; tauto.
(** A body that begins with a parenthesis gets behind a value, which is called. *)
Theorem C77_body_refuted : changed (line 1 "function f() print(1) end b=2 a=b if true then (f)() end").
Proof. change_by 9%nat. Qed.
(** So does what follows a branch that is dropped. *)
Theorem C77_behind_refuted : changed (line 1 "function f() print(1) end b=2 a=b if false then c() end (f)()").
Proof. change_by 9%nat. Qed.
(** In a shorthand, a branch that becomes a "do" block is read as the whole body. *)
Theorem C77_do_refuted : changed (line 1 "if (c) if true then local x print(x) end print(2)").
Proof. change_by 9%nat. Qed.

Print Assumptions C77_runs.
Print Assumptions C77_literals.
Print Assumptions C77_read.
Print Assumptions C77_body_refuted.
Print Assumptions C77_behind_refuted.
Print Assumptions C77_do_refuted.
