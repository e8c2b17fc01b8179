(** C74: laying a program out for reading. *)
From Coq Require Import String List ZArith Lia Bool.
From Verif Require Import M_Base L_Util M_Fold M_Token S_Token M_Expr S_Expr M_Stmt S_Stmt M_Emit L_Emit7 S_Tidy M_Unmin S_Unmin L_Unmin2 L_Unmin5 L_Unmin8 P_Stmt.
Import ListNotations.
Open Scope Z_scope.

Definition blanks (ind : list Z) : Prop := Forall (fun c => c = 32 \/ c = 9) ind.
Lemma blanks_wspace ind : blanks ind -> wspace ind.
Proof. apply Forall_impl. now intros c [-> | ->]. Qed.
(** [out] is a text without lexical errors that is read as [b]: however its lines are counted. *)
Definition read_as (lang : language) (out : list Z) (b : blk) : Prop :=
  exists toks, tokenize lang out = Ok toks /\ ~ In TErr toks /\ forall ts, map fst ts = toks -> parse_prog lang ts = Ok b.

(** C74: a program that is laid out anew is read back as the same program in long form: with
    every shorthand written out and without ";", with the same statements and expressions in the
    same order. *)
Theorem C74_text : forall lang src toks ts b, tokenize lang src = Ok toks -> ~ In TErr toks -> map fst ts = toks -> parse_prog lang ts = Ok b ->
  neat_blk b -> lua (long_blk b) ->
  forall ind sub, blanks ind -> exists out, unminify ind sub b = Ok out /\ read_as lang out (long_blk b).
Proof.
  intros lang src toks ts b T NE M P N L ind sub Ind. apply (C71_text lang src toks ts b T NE M) in P. pose proof (lexemes lang src toks T NE) as F.
  destruct (unminified lang b ts P) with (ind := ind) (sub := sub) as (out & E & To & Lx); [now rewrite M|exact N|exact L|now apply blanks_wspace|]. exists out. split; [exact E|]. eexists. split; [exact To|]. split; [now apply (lexemes_ok lang)|].
  intros ts' M'. apply C71_read. now apply (long_program lang b ts).
Qed.
(** Laying the output out once more works, too, and changes nothing about what is read. *)
Theorem C74_again : forall lang src toks ts b, tokenize lang src = Ok toks -> ~ In TErr toks -> map fst ts = toks -> parse_prog lang ts = Ok b ->
  neat_blk b -> lua (long_blk b) ->
  forall ind sub, blanks ind -> exists out out', unminify ind sub b = Ok out /\ read_as lang out (long_blk b) /\
    unminify ind sub (long_blk b) = Ok out' /\ read_as lang out' (long_blk b).
Proof.
  intros lang src toks ts b T NE M P N L ind sub Ind. destruct (C74_text lang src toks ts b T NE M P N L ind sub Ind) as (out & E & R). pose proof R as R0. destruct R0 as (toks' & T' & NE' & P').
  assert (Id : long_blk (long_blk b) = long_blk b) by apply all_idem.
  destruct (C74_text lang out toks' (map (fun t => (t, 0)) toks') (long_blk b) T' NE') with (ind := ind) (sub := sub) as (out' & E' & R'); try assumption; [now rewrite map_map, map_id| |now apply all_neat_long|now rewrite Id|].
  - apply P'. now rewrite map_map, map_id.
  - rewrite Id in R'. now exists out, out'.
Qed.

(* ------------------------------------------------------------------ *)
(** Concrete cases. *)
Definition tree (src : string) : blk := match parse_prog Pico8 (line 1 src) with Ok b => b | Err _ => BNil end.
Definition shown (r : res (list Z)) : string := match r with Ok s => fold_right (fun c s => String (Ascii.ascii_of_nat (Z.to_nat c)) s) EmptyString s | Err _ => "error"%string end.
Definition un_source : string := "a,b=1,{-x,y=[[s]]};function f(a,...) return (a+2)*3; end while (a[1]<b) ?a.b;c:d'x' if (e) f(1) else g=-1".
Example ex_unmin : parse_prog Pico8 (line 1 un_source) = Ok (tree un_source) /\ neat_blk (tree un_source) /\ lua (long_blk (tree un_source)) /\ blanks (asc "  ").
Proof. split; [vm_compute; reflexivity|]. split; [vm_compute; repeat split; try discriminate; try tauto; intros (? & ?); discriminate|]. split; [vm_compute; repeat split; discriminate|]. repeat constructor. Qed.
Example ex_unmin_text : shown (unminify (asc "  ") false (tree un_source)) = "
a, b = 1, {-x, y = [[s]]}

function f(a, ...)
  return (a + 2) * 3
end

while a[1] < b do
  ?a.b
  c:d 'x'
  if e then
    f(1)
  else
    g = -1
  end
end
"%string.
Proof. vm_compute. reflexivity. Qed.

(** Is the output read as the program? *)
Definition comes_back (src : string) : Prop :=
  exists out, unminify (asc " ") false (tree src) = Ok out /\ read_as Pico8 out (long_blk (tree src)).
Lemma not_back src b toks : parse_prog Pico8 (line 1 src) = Ok b -> forall out, unminify (asc " ") false b = Ok out -> tokenize Pico8 out = Ok toks ->
  (forall b', parse_prog Pico8 (map (fun t => (t, 1)) toks) = Ok b' -> b' <> long_blk b) -> ~ comes_back src.
Proof.
  intros P out U T D (out' & U' & toks' & T' & _ & Q). unfold tree in *. rewrite P in *. assert (out' = out) by congruence. subst out'. assert (toks' = toks) by congruence. subst toks'.
  apply (D (long_blk b)); [|reflexivity]. apply Q. rewrite map_map. apply map_id.
Qed.
Ltac not_back := eapply not_back; [vm_compute; reflexivity|vm_compute; reflexivity|vm_compute; reflexivity|]; intros b1 Hb Hx; vm_compute in Hb, Hx; first [discriminate Hb|injection Hb as <-; discriminate Hx].

(** Without the ";" a statement in parentheses becomes a call of what is before it. *)
Theorem C74_semi_refuted : lua (tree "a=b;(c)()") /\ ~ comes_back "a=b;(c)()".
Proof. split; [vm_compute; tauto|]. not_back. Qed.
(** Two minuses in a row begin a comment. *)
Theorem C74_minus_refuted : lua (tree "a=- -b") /\ ~ comes_back "a=- -b".
Proof. split; [vm_compute; tauto|]. not_back. Qed.
(** So do two brackets, for a string. *)
Theorem C74_index_refuted : lua (tree "a[ [[x]] ]=1") /\ ~ comes_back "a[ [[x]] ]=1".
Proof. split; [vm_compute; tauto|]. not_back. Qed.
(** The condition of a shorthand ends with the parentheses of a call: they are gone. *)
Theorem C74_cond_refuted : lua (long_blk (tree "if (a)(x) b()")) /\ ~ comes_back "if (a)(x) b()".
Proof. split; [vm_compute; tauto|]. not_back. Qed.
(** A shorthand after "elseif" is not written out at all. *)
Theorem C74_elseif_refuted : lua (long_blk (tree "if a then b() elseif (c) d()")) /\ ~ comes_back "if a then b() elseif (c) d()".
Proof. split; [vm_compute; tauto|]. not_back. Qed.
(** A ";" in the "else" of a shorthand stops the program with an error. *)
Theorem C74_else_refuted : lua (tree "if (a) b() else c();") /\ unminify (asc " ") false (tree "if (a) b() else c();") = Err EType.
Proof. split; [|vm_compute; reflexivity]. vm_compute. repeat split; (discriminate || tauto). Qed.

Print Assumptions C74_text.
Print Assumptions C74_again.
Print Assumptions C74_semi_refuted.
Print Assumptions C74_minus_refuted.
Print Assumptions C74_index_refuted.
Print Assumptions C74_cond_refuted.
Print Assumptions C74_elseif_refuted.
Print Assumptions C74_else_refuted.
