(** C80: folding constants in whole programs. *)
From Coq Require Import String List ZArith Lia Bool.
From Verif Require Import M_Base M_Num M_Fold M_Token M_Expr M_Stmt M_Emit M_Branch M_Const L_Util S_Fold L_FoldDet S_Num L_NumFmt S_Run S_Alpha S_Const S_Calc L_Const P_Stmt P_Branch.
Import ListNotations.
Open Scope Z_scope.

(** C80: on a machine that computes with constants as it should, and where the builtins are at first
    what they are, a program and the program with its constants folded do the same: the same values or
    error, the same memory, or no end. *)
Theorem C80_runs_partial : forall V Mem (m : machine V Mem) lang value token val whole, computes lang value val whole m ->
  (forall v, S_Fold.value_of lang v -> value (token v) = Some v) ->
  forall chars longer calls b n me, legal false b -> fine b -> (forall s f, In (s, f) builtin_names -> whole s me) ->
  run m n (fold_consts lang value token chars longer calls b) me = run m n b me.
Proof. intros V Mem m lang value token val whole OK T chars longer calls b n me L F W. eapply const_run; eauto. Qed.

(* ------------------------------------------------------------------ *)
(** * There is such a machine *)
Lemma named_in {A} (l : list (string * A)) : NoDup (map (fun p => asc (fst p)) l) -> forall s o, In (s, o) l -> named (asc s) l = Some o.
Proof.
  induction l as [|(s' & o') l IH]; intros N s o H; [contradiction|]. cbn [map fst] in N. inversion N as [|? ? N1 N2]. subst. cbn [named].
  destruct H as [H|H]; [injection H as <- <-; now rewrite zeqb_list_refl|]. destruct (zeqb_list (asc s) (asc s')) eqn:E; [|now apply IH].
  apply zeqb_list_true in E. exfalso. apply N1. rewrite <- E. exact (in_map (fun p => asc (fst p)) l (s, o) H).
Qed.
Ltac nodup := repeat (constructor; [cbn; intros H; repeat (destruct H as [H|H]; [discriminate H|]); exact H|]); constructor.
Lemma unary_once : NoDup (map (fun p => asc (fst p)) unary_names). Proof. nodup. Qed.
Lemma binary_once : NoDup (map (fun p => asc (fst p)) binary_names). Proof. nodup. Qed.
Lemma builtin_once : NoDup (map (fun p => asc (fst p)) builtin_names). Proof. nodup. Qed.
Lemma plain_map l : plain_vals (map CV l) = Some l.
Proof. induction l; cbn; [reflexivity|]. now rewrite IHl. Qed.
Lemma calc_start_has s f : In (s, f) builtin_names -> has_builtin s calc_start.
Proof. intros H. exists f. split; [exact H|]. cbn in H. repeat (destruct H as [H|H]; [injection H as <- <-; reflexivity|]). contradiction. Qed.
Lemma fix_value v : 0 <= v < 2 ^ 32 -> S_Fold.value_of Pico8 (VFix v).
Proof.
  intros H. exists (if v <? 2 ^ 31 then v else v - 2 ^ 32). unfold number, in_width. change (32 - 1) with 31.
  destruct (Z.ltb_spec v (2 ^ 31)); (split; [lia|]); f_equal; [symmetry; apply Z.mod_small; lia|].
  replace (v - 2 ^ 32) with (v + (-1) * 2 ^ 32) by lia. rewrite Z.mod_add by lia. symmetry. apply Z.mod_small. lia.
Qed.
Lemma calc_computes : computes Pico8 calc_value CV has_builtin calc.
Proof.
  constructor.
  - reflexivity.
  - intros v. split.
    + intros H. split; intros ->; discriminate H.
    + intros (A & B). destruct v as [|[]| | | ]; try reflexivity; now destruct A || now destruct B.
  - intros t v H. split; [|cbn; now rewrite H]. destruct t as [[] s|]; try discriminate H; unfold calc_value in H.
    + destruct (parse_fixnum s) as [x|]; [|discriminate H]. destruct (Z.leb_spec 0 x); [|discriminate H]. destruct (Z.ltb_spec x (2 ^ 32)); [|discriminate H].
      injection H as <-. apply fix_value. lia.
    + destruct (zeqb_list s (asc "nil")); [injection H as <-; exact I|]. destruct (zeqb_list s (asc "true")); [injection H as <-; exact I|].
      destruct (zeqb_list s (asc "false")); [injection H as <-; exact I|discriminate H].
    + injection H as <-. exact I.
  - intros s op a c me H A Mn. cbn [m_do calc calc_do]. rewrite (named_in _ unary_once s op H). rewrite (unary_complete Pico8 op a c A Mn). reflexivity.
  - intros s op a b c me H A B Mn. cbn [m_do calc calc_do]. rewrite (named_in _ binary_once s op H). rewrite (sample_bin_ok Pico8 op a b c A B Mn). reflexivity.
  - intros s f args c me H (f' & H' & W) A Mn. exists (CBuiltin f'). cbn [m_do calc calc_do m_is_fun]. rewrite W. split; [reflexivity|]. split; [reflexivity|].
    pose proof (named_in _ builtin_once s f H) as E. rewrite (named_in _ builtin_once s f' H') in E. injection E as ->.
    rewrite plain_map, (sample_call_ok Pico8 f args c A Mn). reflexivity.
  - intros s f a vs me H (f' & H' & W) N.
    assert (K : forall me', cglobals me' = cglobals me -> has_builtin s me') by (intros me' E; exists f'; now rewrite E).
    cbn [m_do calc calc_do].
    assert (Wr : within (has_builtin s) (wrong me)) by (constructor; now apply K).
    assert (Gv : forall o, within (has_builtin s) (gives o me)) by (intros [v|]; [constructor; now apply K|exact Wr]).
    destruct a as [op|op| | | | |i|x|x| | ]; try exact Wr.
    + destruct vs as [|[v| | | ] [|]]; try exact Wr. cbn [calc_do]. destruct (named op unary_names); [apply Gv|exact Wr].
    + destruct vs as [|[v| | | ] [|[u| | | ] [|]]]; try exact Wr. cbn [calc_do]. destruct (named op binary_names); [apply Gv|exact Wr].
    + destruct vs as [|[v| |g| ] vs]; try exact Wr; cbn [calc_do]; [destruct (plain_vals vs); [apply Gv|exact Wr]|constructor; now apply K].
    + cbn [calc_do]. constructor. now apply K.
    + destruct vs as [|v [|]]; try exact Wr. cbn [calc_do]. constructor. exists f'. split; [exact H'|]. cbn [cglobals cfind].
      destruct (zeqb_list x (asc s)) eqn:E; [|exact W]. apply zeqb_list_true in E. subst x. now destruct N.
Qed.
Lemma calc_tokens v : S_Fold.value_of Pico8 v -> calc_value (calc_token v) = Some v.
Proof.
  destruct v as [|[]|n|n|s]; try reflexivity; intros (x & W & E); try discriminate E. assert (E' : n = x mod 2 ^ 32) by congruence. subst n. clear E.
  assert (B : 0 <= x mod 2 ^ 32 < 2 ^ 32) by (apply Z.mod_pos_bound; lia).
  destruct (format_fixnum_ok SEmpty BNone _ B) as (t & F & _ & P). unfold calc_token. rewrite F. unfold calc_value. rewrite P.
  destruct (Z.leb_spec 0 (x mod 2 ^ 32)), (Z.ltb_spec (x mod 2 ^ 32) (2 ^ 32)); try lia. reflexivity.
Qed.

(** Concrete cases. *)
Definition folded (b : blk) : blk := fold_consts Pico8 calc_value calc_token false (fun _ _ => false) true b.
Lemma calc_same : forall b n, legal false b -> fine b -> prints n (folded b) = prints n b.
Proof.
  intros b n L F. unfold prints, folded. rewrite (C80_runs_partial _ _ calc Pico8 calc_value calc_token CV has_builtin calc_computes calc_tokens); auto. exact calc_start_has.
Qed.
Definition const_source : list ltok := line 1 "local n,s=8,'x' local m,q=n*2+flr(1.5),n function f(k) local n=k return k+n end" ++
  line 2 "if n>4 then q=q+m print(f(q)) else local z=n print(z) end local u repeat local v=n q=q-v until q<v print(u or s,q,max(m,2))".
Definition const_output : list ltok := line 1 "local s='x' local q=8 function f(k) local n=k return k+n end" ++
  line 2 "q=q+17 print(f(q)) repeat q=q-8 until q<8 print(s,q,17)".
Example ex_const : parse_prog Pico8 const_source = Ok (tree const_source) /\ folded (tree const_source) = tree const_output.
Proof. split; vm_compute; reflexivity. Qed.
Example ex_const_fine : legal false (tree const_source) /\ fine (tree const_source).
Proof. split; vm_compute; repeat split; repeat constructor; intuition discriminate. Qed.
Example ex_const_prints : prints 30 (tree const_source) = Some (true, [CV (VFix (50 * 65536)); CV (VStr (asc "'x'")); CV (VFix (1 * 65536)); CV (VFix (17 * 65536))]) /\
  prints 30 (folded (tree const_source)) = prints 30 (tree const_source).
Proof. split; [vm_compute; reflexivity|]. exact (calc_same _ 30%nat (proj1 ex_const_fine) (proj2 ex_const_fine)). Qed.
(** The builtin is assigned, or something else is called by its name: nothing is folded. *)
Definition shadow_source : list ltok := line 1 "local a=flr(1.5) do local max=print max(a,3) end flr=print print(a,min(a,0.5))".
Example ex_shadow : legal false (tree shadow_source) /\ fine (tree shadow_source) /\
  folded (tree (line 1 "local a=1 do local max=print max(a,3) end print(a,min(a,0.5))")) = tree (line 1 "do local max=print max(1,3) end print(1,.5)") /\
  folded (tree shadow_source) = tree (line 1 "local a=flr(1.5) do local max=print max(a,3) end flr=print print(a,min(a,0.5))").
Proof. split; [|split]; [vm_compute; repeat split; repeat constructor; intuition discriminate|vm_compute; repeat split; repeat constructor; intuition discriminate|]. split; vm_compute; reflexivity. Qed.

(** ** What it does not keep *)
(** A constant is taken out from between a call and a variable without a value: the variable gets the
    second value of the call. *)
Definition spread_source : list ltok := line 1 "function f() return 1,2 end local a,b,c=f(),3 if b>2 then c=c or 5 end print(c)".
Theorem C80_values_refuted : parse_prog Pico8 spread_source = Ok (tree spread_source) /\ legal false (tree spread_source) /\
  parse_prog Pico8 (emit (folded (tree spread_source))) = Ok (folded (tree spread_source)) /\
  prints 30 (tree spread_source) = Some (true, [CV (VFix (5 * 65536))]) /\ prints 30 (folded (tree spread_source)) = Some (true, [CV (VFix (2 * 65536))]).
Proof. split; [vm_compute; reflexivity|]. split; [vm_compute; repeat split; repeat constructor; intuition discriminate|]. split; [vm_compute; reflexivity|]. split; vm_compute; reflexivity. Qed.
(** A member or a call of a local that is never assigned: the output cannot be read. *)
Theorem C80_unreadable_refuted : forall src, In src ["local t if x then y=t.z end"; "local t if x then t() end"; "local t if x then t.z=1 end"]%string ->
  parse_prog Pico8 (line 1 src) = Ok (tree (line 1 src)) /\ legal false (tree (line 1 src)) /\ fine (tree (line 1 src)) /\
  forall b, parse_prog Pico8 (emit (folded (tree (line 1 src)))) <> Ok b.
Proof.
  intros src H. cbn in H. repeat (destruct H as [<-|H]; [split; [vm_compute; reflexivity|]; split; [vm_compute; repeat split; repeat constructor; intuition discriminate|]; split; [vm_compute; repeat split; repeat constructor; intuition discriminate|]; intros b; vm_compute; discriminate|]). contradiction.
Qed.

Print Assumptions C80_runs_partial.
Print Assumptions calc_same.
Print Assumptions C80_values_refuted.
Print Assumptions C80_unreadable_refuted.
