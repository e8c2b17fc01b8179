(** C81, C82, C83: what the linter says. *)
From Coq Require Import String List ZArith Bool Lia.
From Verif Require Import M_Base L_Util M_Fold M_Token M_Expr M_Stmt M_Rename M_Lint S_Run S_Alpha S_Lint S_Other L_Lint L_Lint3 L_Lint4 L_Lint5 L_Lint6 L_Lint7 P_Stmt P_Branch.
Import ListNotations.

(* ------------------------------------------------------------------ *)
(** * Globals *)
(** The names the linter takes for defined. *)
Definition known (o : lint_opts) (builtins lb : list name) (b : blk) (x : name) : Prop :=
  In x builtins \/ In x (o_globals o) \/ defines lb b x.

(** C81: a name is reported as not found exactly if it stands as a global somewhere and is neither builtin, nor
    given as a global, nor defined by the program outside of functions or in "_init". *)
Theorem C81_not_found : forall o builtins lb b h x, ~ In (str "_ENV") lb ->
  (In (MNotFound h x) (lint_code o builtins lb b) <->
   o_undefined o = true /\ ~ known o builtins lb b x /\
   exists h' f, In (x, h', f) (globals lb b) /\ h = match h' with OpAssign => Use | h' => h' end).
Proof.
  intros o builtins lb b h x N. rewrite (lint_globals o builtins lb N b (MNotFound h x) eq_refl). unfold known, lint_global. split.
  - intros (y & h' & f & I & H). apply in_app_or in H. destruct H as [H|H].
    + destruct (o_undefined o); [|destruct H]. destruct (M_Rename.mem y (custom_globals o (nodes lb b))) eqn:C; [destruct H|].
      apply mem_not in C. rewrite (custom_in o lb N b) in C. cbn [andb negb] in H.
      destruct (M_Rename.mem y builtins) eqn:B; [destruct h'; cbn in H; repeat (destruct H as [H|H]; [discriminate H|]); destruct H|].
      apply mem_not in B. destruct H as [[= H1 H2]|[]]. subst y. split; [reflexivity|]. split; [tauto|]. exists h', f. split; [exact I|]. now symmetry.
    + destruct (o_unused o && _ && _ && _); [|destruct H]. destruct (M_Rename.mem y _); destruct H as [H|[]]; discriminate H.
  - intros (U & K & h' & f & I & H). exists x, h', f. split; [exact I|]. apply in_or_app. left. rewrite U.
    replace (M_Rename.mem x (custom_globals o (nodes lb b))) with false by (symmetry; apply mem_not; rewrite (custom_in o lb N b); tauto).
    replace (M_Rename.mem x builtins) with false by (symmetry; apply mem_not; tauto). cbn. left. f_equal. now symmetry.
Qed.

(** C81: an assignment to a builtin is reported exactly if nothing outside of functions or in "_init" assigns it. *)
Theorem C81_builtin_assigned : forall o builtins lb b h x, ~ In (str "_ENV") lb ->
  (In (MBuiltinAssigned h x) (lint_code o builtins lb b) <->
   o_undefined o = true /\ In x builtins /\ ~ In x (o_globals o) /\ ~ defines lb b x /\
   (h = Assign \/ h = FunAssign) /\ exists f, In (x, h, f) (globals lb b)).
Proof.
  intros o builtins lb b h x N. rewrite (lint_globals o builtins lb N b (MBuiltinAssigned h x) eq_refl). unfold lint_global. split.
  - intros (y & h' & f & I & H). apply in_app_or in H. destruct H as [H|H].
    + destruct (o_undefined o); [|destruct H]. destruct (M_Rename.mem y (custom_globals o (nodes lb b))) eqn:C; [destruct H|].
      apply mem_not in C. rewrite (custom_in o lb N b) in C. cbn [andb negb] in H.
      destruct (M_Rename.mem y builtins) eqn:B; [|destruct H as [H|[]]; discriminate H]. apply mem_in in B.
      assert (X : h' = h /\ y = x /\ (h = Assign \/ h = FunAssign)) by (destruct h'; cbn in H; try destruct H as [[= <- <-]|[]]; try destruct H; auto).
      destruct X as (-> & -> & X). repeat split; try tauto. now exists f.
    + destruct (o_unused o && _ && _ && _); [|destruct H]. destruct (M_Rename.mem y _); destruct H as [H|[]]; discriminate H.
  - intros (U & B & G & D & HH & f & I). exists x, h, f. split; [exact I|]. apply in_or_app. left. rewrite U.
    replace (M_Rename.mem x (custom_globals o (nodes lb b))) with false by (symmetry; apply mem_not; rewrite (custom_in o lb N b); tauto).
    replace (M_Rename.mem x builtins) with true by (symmetry; now apply mem_in). cbn. destruct HH as [-> | ->]; now left.
Qed.

(** C81: if the linter finds nothing undefined, then whatever the program does, it asks for no global that is not known:
    another machine, which does anything it likes to the others, runs it the same. *)
Theorem C81_runs : forall o builtins lb b, ~ In (str "_ENV") lb -> o_undefined o = true ->
  (forall h x, ~ In (MNotFound h x) (lint_code o builtins lb b)) -> ordinary b -> legal false b ->
  forall V Mem (m : machine V Mem) d, same_for (fun x => known o builtins lb b x \/ x = str "_ENV") m d ->
  forall n me, run (with_do m d) n b me = run m n b me.
Proof.
  intros o builtins lb b N U C A L V Mem m d D n me.
  apply (others_run m lb (builtins ++ custom_globals o (nodes lb b)) d b NoFun n me); [|exact A|exact L|].
  - intros x h f I. apply in_or_app. destruct (M_Rename.mem x builtins) eqn:B; [left; now apply mem_in|]. right. apply mem_not in B. apply (custom_in o lb N b).
    destruct (M_Rename.mem x (custom_globals o (nodes lb b))) eqn:E; [apply mem_in in E; now apply (custom_in o lb N b) in E|]. apply mem_not in E. rewrite (custom_in o lb N b) in E.
    exfalso. apply (C (match h with OpAssign => Use | h' => h' end) x). apply C81_not_found; [exact N|]. split; [exact U|]. split; [unfold known; tauto|]. now exists h, f.
  - intros a vs me' K. apply D. intros x E. destruct (K x E) as [I|I]; [|now right]. left. apply in_app_or in I. unfold known. destruct I as [I|I]; [now left|right]. now apply (custom_in o lb N b).
Qed.

(** C82: a global is reported as only assigned exactly if the program assigns it and never reads it, and it
    is not given as used and does not start with "_"; that one is not used at all is never reported. *)
Theorem C82_globals : forall o builtins lb b x, ~ In (str "_ENV") lb ->
  (In (MGlobalAssigned x) (lint_code o builtins lb b) <->
   o_unused o = true /\ o_unused_global o = true /\ under x = false /\ sets_global lb b x /\ ~ reads_global lb b x /\ ~ In x (o_used o)) /\
  ~ In (MGlobalUnused x) (lint_code o builtins lb b).
Proof.
  intros o builtins lb b x N. rewrite (lint_globals o builtins lb N b (MGlobalAssigned x) eq_refl), (lint_globals o builtins lb N b (MGlobalUnused x) eq_refl).
  assert (F : forall y h m, (exists z, m = MGlobalAssigned z) \/ (exists z, m = MGlobalUnused z) -> In m (lint_global o builtins (nodes lb b) y h) ->
    o_unused o = true /\ o_unused_global o = true /\ under y = false /\ ~ In y (used_globals o (nodes lb b)) /\
    m = if M_Rename.mem y (assigned_globals (nodes lb b)) then MGlobalAssigned y else MGlobalUnused y).
  { intros y h m M H. unfold lint_global in H. apply in_app_or in H. destruct H as [H|H].
    - exfalso. destruct (o_undefined o && _); [|destruct H].
      destruct M as [(z & ->)|(z & ->)]; (destruct (M_Rename.mem y builtins); [destruct h; cbn in H; repeat (destruct H as [H|H]; [discriminate H|]); exact H|destruct H as [H|[]]; discriminate H]).
    - destruct (o_unused o); [|destruct H]. destruct (o_unused_global o); [|destruct H]. cbn [andb] in H.
      destruct (M_Rename.mem y (used_globals o (nodes lb b))) eqn:E; [destruct H|]. apply mem_not in E. destruct (under y); [destruct H|]. cbn [negb andb] in H.
      repeat split; auto. destruct (M_Rename.mem y _); now destruct H as [<-|[]]. }
  split; [split|].
  - intros (y & h & f & I & H). apply F in H; [|left; eauto]. destruct H as (U1 & U2 & U3 & U4 & E).
    destruct (M_Rename.mem y (assigned_globals (nodes lb b))) eqn:A; [|discriminate E]. injection E as <-. apply mem_in, (assigned_in lb N b) in A.
    rewrite (used_in o lb N b) in U4. tauto.
  - intros (U1 & U2 & U3 & S & R & O). pose proof S as (h & f & I & H). exists x, h, f. split; [exact I|]. unfold lint_global. apply in_or_app. right.
    replace (M_Rename.mem x (used_globals o (nodes lb b))) with false by (symmetry; apply mem_not; rewrite (used_in o lb N b); tauto).
    replace (M_Rename.mem x (assigned_globals (nodes lb b))) with true by (symmetry; now apply mem_in, (assigned_in lb N b)).
    rewrite U1, U2, U3. now left.
  - intros (y & h & f & I & H). apply F in H; [|right; eauto]. destruct H as (U1 & U2 & U3 & U4 & E).
    destruct (M_Rename.mem y (assigned_globals (nodes lb b))) eqn:A; [discriminate E|]. apply mem_not in A. rewrite (assigned_in lb N b) in A. rewrite (used_in o lb N b) in U4.
    destruct h; [apply U4; right; now exists f|apply A; now exists Assign, f|apply A; now exists FunAssign, f|apply A; now exists OpAssign, f].
Qed.

(** C82: the reports about locals that are not used are exactly those of the specification, in its order. *)
Theorem C82_locals : forall o builtins lb b,
  filter about_unused (lint_code o builtins lb b) = if o_unused o then unused_locals b else [].
Proof. exact lint_unused. Qed.

(** C82: the labels reported as unused are exactly those no goto goes to, in the order of the text. *)
Theorem C82_labels : forall o builtins lb b,
  flat_map said_label (lint_code o builtins lb b) = if o_unused o then unused_labels b else [].
Proof. exact lint_unused_labels. Qed.

(** C83: the locals reported for the name of another local are exactly those that hide one, in the order of the text. *)
Theorem C83_hiding : forall o builtins lb b, ~ In (str "_ENV") lb ->
  flat_map said_hiding (lint_code o builtins lb b) = if o_duplicate o then hiding_locals b else [].
Proof. exact lint_hiding. Qed.

(** C83: of the other locals, those called like a global the program defines or the user gives are reported, and, in other words, those called like a
    global that stands in the program otherwise or is given as used; no others. *)
Theorem C83_like_globals : forall o builtins lb b x, ~ In (str "_ENV") lb ->
  (In (MLocalGlobal x) (lint_code o builtins lb b) <->
   o_duplicate o = true /\ o_duplicate_global o = true /\ In x (fresh_locals b) /\ (In x (o_globals o) \/ defines lb b x)) /\
  (In (MLocalBuiltin x) (lint_code o builtins lb b) <->
   o_duplicate o = true /\ o_duplicate_global o = true /\ In x (fresh_locals b) /\ ~ (In x (o_globals o) \/ defines lb b x) /\
   (In x (o_used o) \/ exists h f, In (x, h, f) (globals lb b))).
Proof.
  intros o builtins lb b x N. rewrite !lint_like_global by (assumption || (exists x; auto)).
  assert (W : forall y, M_Rename.mem y (used_globals o (nodes lb b)) || M_Rename.mem y (assigned_globals (nodes lb b)) = true <-> In y (o_used o) \/ exists h f, In (y, h, f) (globals lb b)).
  { intros y. rewrite orb_true_iff, !mem_in, (used_in o lb N b), (assigned_in lb N b). unfold reads_global, sets_global. split.
    - intros [[H|(f & H)]|(h & f & H & _)]; eauto.
    - intros [H|(h & f & H)]; [auto|]. destruct h; [left; right; eauto|right; exists Assign, f|right; exists FunAssign, f|right; exists OpAssign, f]; split; try exact H; discriminate. }
  split; split.
  - intros (A & B & y & I & H). destruct (M_Rename.mem y (custom_globals o (nodes lb b))) eqn:C; [|destruct H as (_ & H); discriminate H]. injection H as <-.
    apply mem_in, (custom_in o lb N b) in C. auto.
  - intros (A & B & I & H). split; [exact A|]. split; [exact B|]. exists x. split; [exact I|]. apply (custom_in o lb N b), mem_in in H. now rewrite H.
  - intros (A & B & y & I & H). destruct (M_Rename.mem y (custom_globals o (nodes lb b))) eqn:C; [discriminate H|]. destruct H as (H & H'). injection H' as <-.
    apply mem_not in C. rewrite (custom_in o lb N b) in C. apply W in H. auto.
  - intros (A & B & I & C & H). split; [exact A|]. split; [exact B|]. exists x. split; [exact I|]. rewrite <- (custom_in o lb N b) in C. apply mem_not in C. rewrite C. split; [now apply W|reflexivity].
Qed.

(** C83: "Every label called like a label further out is reported." It is not: the search crosses only one function. *)
Definition near_labels : blk := tree (line 1 "::x:: function f() function g() ::x:: goto x end end goto x").
Definition far_labels : blk := tree (line 1 "::x:: function f() function g() function h() ::x:: goto x end end end goto x").
Definition dup_labels (ms : list message) : list name := flat_map (fun m => match m with MLabelDup _ n => [n] | _ => [] end) ms.
Theorem C83_labels_refuted : dup_labels (lint_code no_lint_opts [] [] near_labels) = [str "x"] /\
  dup_labels (lint_code no_lint_opts [] [] far_labels) = [].
Proof. split; vm_compute; reflexivity. Qed.

(* ------------------------------------------------------------------ *)
(** Concrete cases. *)
Definition lint_source : blk := tree (line 1 "function _init() score=0 end" ++ line 2 "function add(a,b,unused) local a=a+b score+=a return socre end" ++
  line 3 "for i=1,3 do local k=i lives=1 print(add(i,1)) end").
Example ex_lint_parsed : lint_source <> BNil.
Proof. vm_compute. discriminate. Qed.
Example ex_lint : lint_code no_lint_opts [str "print"] [] lint_source =
  [MGlobalAssigned (str "score"); MLocalUnused (str "unused"); MLocalDup SameScope (str "a"); MGlobalAssigned (str "score");
   MNotFound Use (str "socre"); MLocalUnused (str "k"); MGlobalAssigned (str "lives")].
Proof. vm_compute. reflexivity. Qed.
Definition clean_source : blk := tree (line 1 "function _init() score=0 end" ++ line 2 "function add(a,b) local c=a+b score+=c return score end" ++
  line 3 "for i=1,3 do print(add(i,1)) end").
Example ex_clean : clean_source <> BNil /\ lint_code no_lint_opts [str "print"] [] clean_source = [] /\ legal false clean_source /\ ordinary clean_source.
Proof.
  split; [vm_compute; discriminate|]. split; [vm_compute; reflexivity|]. split; [vm_compute; repeat split; repeat constructor; auto|].
  vm_compute. repeat split; auto; try (intros [H|H]; [discriminate H|]; repeat (destruct H as [H|H]; [discriminate H|]); exact H); repeat constructor; intuition discriminate.
Qed.

Definition like_source : blk := tree (line 1 "local q=min score=0 function f(score,max) local min=q return min end f(max)").
Example ex_like : lint_code no_lint_opts [str "min"; str "max"] [] like_source =
  [MGlobalAssigned (str "score"); MLocalGlobal (str "score"); MLocalBuiltin (str "max"); MLocalUnused (str "max"); MLocalBuiltin (str "min")] /\ fresh_locals like_source = map str ["q"; "score"; "max"; "min"]%string.
Proof. split; vm_compute; reflexivity. Qed.

Definition label_source : blk := tree (line 1 "::a:: do ::b:: ::c:: goto a goto b do ::b:: end end" ++ line 2 "local f=function() goto d ::e:: ::_f:: ::g:: while f do ::e:: goto g end end ::d::").
Example ex_labels : label_source <> BNil /\ unused_labels label_source = map str ["c"; "b"; "e"; "e"; "d"]%string.
Proof. split; [vm_compute; discriminate|]. vm_compute. reflexivity. Qed.

Print Assumptions C81_not_found.
Print Assumptions C81_builtin_assigned.
Print Assumptions C81_runs.
Print Assumptions C82_globals.
Print Assumptions C82_locals.
Print Assumptions C82_labels.
Print Assumptions C83_hiding.
Print Assumptions C83_like_globals.
Print Assumptions C83_labels_refuted.
