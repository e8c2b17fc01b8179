(** C78: minified and unminified programs do what the original does. *)
From Coq Require Import String List ZArith Lia Bool.
From Verif Require Import M_Base L_Util M_Fold M_Token S_Token M_Expr S_Expr M_Stmt S_Stmt L_StmtRead2 M_Emit S_Emit M_Tidy S_Tidy M_Unmin S_Unmin M_Short S_Short S_Run S_Same S_Toy L_Same P_Stmt P_Emit P_Tidy P_Unmin P_Short.
Import ListNotations.
Open Scope Z_scope.

(** The same values or error and the same memory, or no end, on every machine of a kind. *)
Definition does_the_same (b' b : blk) : Prop := forall V Mem (m : machine V Mem), spells m -> forall n me, run m n b' me = run m n b me.

(** C78: changing shorthands, cleaning up tokens and dropping line breaks: the output is read as a
    program that does the same. *)
Theorem C78_minify : forall lang ver o ts b, Forall proper (map fst ts) -> parse_prog lang ts = Ok b -> lined b -> lua b -> plain_blk b ->
  exists b', parse_prog lang (emit (tidy lang ver (switch o b))) = Ok b' /\ does_the_same b' b.
Proof.
  intros lang ver o ts b F P L U N. destruct (C75_minify lang ver o ts b F P L U N) as (b' & E & S). exists b'. split; [exact E|]. intros V Mem m H n me. now apply same_runs.
Qed.
(** If shorthands are left alone, less is needed. *)
Theorem C78_tidy : forall lang ver ts b, Forall proper (map fst ts) -> parse_prog lang ts = Ok b -> fits b -> lua b ->
  exists b', parse_prog lang (emit (tidy lang ver b)) = Ok b' /\ does_the_same b' b.
Proof.
  intros lang ver ts b F P L U. destruct (C73_minify lang ver ts b F P L U) as (b' & E & S). exists b'. split; [exact E|]. intros V Mem m H n me. apply same_runs; [exact H|]. unfold same_program. now rewrite S.
Qed.
(** Line breaks alone: on every machine at all. *)
Theorem C78_lines : forall lang ts b, Forall proper (map fst ts) -> parse_prog lang ts = Ok b -> fits b ->
  exists b', parse_prog lang (emit b) = Ok b' /\ forall V Mem (m : machine V Mem) n me, run m n b' me = run m n b me.
Proof.
  intros lang ts b F P L. destruct (C72_minify lang ts b F P L) as (_ & b' & E & S). exists b'. split; [exact E|]. intros V Mem m n me. now rewrite <- (un_run m b'), S, un_run.
Qed.
(** Unminify, from text to text. *)
Theorem C78_unminify : forall lang src toks ts b, tokenize lang src = Ok toks -> ~ In TErr toks -> map fst ts = toks -> parse_prog lang ts = Ok b ->
  neat_blk b -> lua (long_blk b) ->
  forall ind sub, blanks ind -> exists out b', unminify ind sub b = Ok out /\ read_as lang out b' /\
    forall V Mem (m : machine V Mem) n me, run m n b' me = run m n b me.
Proof.
  intros lang src toks ts b T NE M P N L ind sub I. destruct (C74_text lang src toks ts b T NE M P N L ind sub I) as (out & E & R). exists out, (long_blk b). repeat split; [exact E|exact R|].
  intros V Mem m n me. apply long_run.
Qed.

(* ------------------------------------------------------------------ *)
(** Concrete cases. *)
Lemma toy_spells : spells toy.
Proof.
  intros op vs me. cbn [m_do toy]. unfold toy_do. destruct vs as [|[] [|[] []]]; try reflexivity.
  assert (E : spell (spell op) = spell op). 2: now rewrite E.
  unfold spell. destruct (zeqb_list op (asc "!=")) eqn:E1; [reflexivity|]. destruct (zeqb_list op (asc "^^")) eqn:E2; [reflexivity|]. destruct (zeqb_list op (asc "//")) eqn:E3; [reflexivity|].
  destruct (zeqb_list op (asc "//=")) eqn:E4; [reflexivity|]. now rewrite E1, E2, E3, E4.
Qed.
Definition same_source : list ltok :=
  line 1 "function f(n) local s=0; for i=1,n do if i!=3 then s+=i; end end return s; end" ++ line 2 "if (f(4)<9) print(f(4)) else print'x'" ++ line 3 "i=0 while (i<2) i+=1 ?i".
Definition same_tree : blk := match parse_prog Pico8 same_source with Ok b => b | Err _ => BNil end.
Definition same_output : list ltok :=
  line 1 "function f(n)local s=0 for i=1,n do if i~=3 do s+=i end end return s end if f(4)<9 do print(f(4))else print'x'end i=0 while i<2 do i+=1?i" ++ line 2 "end".
Example ex_same : parse_prog Pico8 same_source = Ok same_tree /\ lined same_tree /\ lua same_tree /\ plain_blk same_tree /\
  shows 20 same_tree = Some (true, [VNum 7; VNum 1; VNum 2]).
Proof. split; [vm_compute; reflexivity|]. split; [|split; [|split; [|vm_compute; reflexivity]]]; vm_compute; repeat split; try discriminate; tauto. Qed.
Example ex_same_proper : Forall proper (map fst same_source).
Proof. unfold same_source. rewrite !map_app, !Forall_app. repeat split; apply line_proper; vm_compute; reflexivity. Qed.
Example ex_same_output : emit (tidy Pico8 43 (switch to_long same_tree)) = same_output /\ exists b', parse_prog Pico8 same_output = Ok b' /\ b' <> same_tree /\ shows 20 b' = shows 20 same_tree.
Proof.
  assert (E : emit (tidy Pico8 43 (switch to_long same_tree)) = same_output) by (vm_compute; reflexivity). split; [exact E|].
  destruct ex_same as (P & L & U & N & _). destruct (C78_minify Pico8 43 to_long same_source same_tree ex_same_proper P L U N) as (b' & E' & S). rewrite E in E'. exists b'. split; [exact E'|]. split.
  - intros ->. vm_compute in E'. discriminate E'.
  - exact (f_equal report (S _ _ toy toy_spells 20%nat new_world)).
Qed.

Print Assumptions C78_minify.
Print Assumptions C78_tidy.
Print Assumptions C78_lines.
Print Assumptions C78_unminify.
