(** C27, C28, C29, C57: constant folding. *)
From Coq Require Import Lia.
From Verif Require Import M_Base L_Util M_Fold S_Fold L_Fold L_FoldExpr L_FoldDet.
Open Scope Z_scope.

(** C27: a folded operator application is what the machine computes: binary operators. *)
Theorem C27_binary : forall lang op a b c, value_of lang a -> value_of lang b ->
  const_binary op a b = Ok (Some c) -> binary_means lang op a b c.
Proof. exact binary_sound. Qed.
(** Unary operators. *)
Theorem C27_unary : forall lang op a c, value_of lang a ->
  const_unary lang op a = Ok (Some c) -> unary_means lang op a c.
Proof. exact unary_sound. Qed.
(** Builtin functions. *)
Theorem C27_builtin : forall lang f args c, Forall (value_of lang) args ->
  const_call lang f args = Ok (Some c) -> call_means lang f args c.
Proof. exact call_sound. Qed.
(** And every result the machine defines is found, except of shifts and rotations by the
    smallest number (see C28). *)
Theorem C27_binary_complete : forall lang op a b c, value_of lang a -> value_of lang b ->
  ~ (shift_op op = true /\ number lang b (- 2 ^ (width lang - 1))) ->
  binary_means lang op a b c -> const_binary op a b = Ok (Some c).
Proof. exact binary_complete. Qed.
Theorem C27_unary_complete : forall lang op a c, value_of lang a ->
  unary_means lang op a c -> const_unary lang op a = Ok (Some c).
Proof. exact unary_complete. Qed.

(** 7.5 / -2 = -3.75, and -1 >> 4 = -1/16. *)
Example C27_div : const_binary BDiv (VFix 0x78000) (VFix 0xfffe0000) = Ok (Some (VFix 0xfffc4000)).
Proof. vm_compute. reflexivity. Qed.
Example C27_shr : const_binary BShr (VFix 0xffff0000) (VFix 0x40000) = Ok (Some (VFix 0xfffff000)).
Proof. vm_compute. reflexivity. Qed.
Example C27_rotl : const_binary BRotl (VFix 0x80000001) (VFix 0xffff0000) = Ok (Some (VFix 0xc0000000)).
Proof. vm_compute. reflexivity. Qed.
Example C27_cat : const_binary BCat (VFix 0xfff40000) (VStr [97]) = Ok (Some (VStr [45; 49; 50; 97])).
Proof. vm_compute. reflexivity. Qed.
Example C27_mid : const_call Pico8 FMid [VFix 0x50000; VFix 0xffff0000; VFix 0x20000] = Ok (Some (VFix 0x20000)).
Proof. vm_compute. reflexivity. Qed.
Example C27_values : value_of Pico8 (VFix 0xfffe0000) /\ value_of Picotron (VInt (-5)).
Proof. split; [exists (-131072)|exists (-5)]; (split; [vm_compute; split; congruence|reflexivity]). Qed.

(** C28: folding an operator ends, unless it shifts or rotates by the smallest number. *)
Theorem C28_operators_terminate_partial : forall lang op a b, value_of lang a -> value_of lang b ->
  ~ number lang b (- 2 ^ (width lang - 1)) -> exists r, const_binary op a b = Ok r.
Proof. intros lang op a b A B N. destruct (binary_total lang op a b A B) as [K|[_ K]]; [exact K|contradiction]. Qed.
(** Expressions without shifts and rotations fold. *)
Theorem C28_expressions_terminate_partial : forall longer lang e, no_shift e ->
  exists e', fold_expr longer lang e = Ok e'.
Proof. exact fold_total. Qed.
(** Folding [1 >> 0x8000], or [1 << math.mininteger] in Picotron, recurses without end: no recursion limit is enough. *)
Theorem C28_shift_by_minimum_refuted :
  (forall limit, lua_shift limit Shr (VFix 0x10000) (VFix 0x80000000) = Err ERecursion) /\
  (forall limit, lua_shift limit Shl (VInt 1) (VInt (- 2 ^ 63)) = Err ERecursion).
Proof.
  split.
  - assert (K : forall n op, (op = Shr \/ op = Shl \/ op = Lshr) ->
      lua_shift n op (VFix 0x10000) (VFix 0x80000000) = Err ERecursion).
    { induction n as [|n IH]; intros op O; [reflexivity|].
      destruct O as [->|[->| ->]]; cbn; apply IH; auto. }
    intros limit. apply K. auto.
  - assert (K : forall n op, (op = Shr \/ op = Shl) ->
      lua_shift n op (VInt 1) (VInt (- 2 ^ 63)) = Err ERecursion).
    { induction n as [|n IH]; intros op O; [reflexivity|].
      destruct O as [->| ->]; cbn; apply IH; auto. }
    intros limit. apply K. auto.
Qed.
Example C28_hyp : ~ number Pico8 (VFix 0x1f0000) (- 2 ^ (width Pico8 - 1)).
Proof. intros [_ E]. vm_compute in E. discriminate E. Qed.

(** C57: in every machine that computes the operators as it should, a folded expression has
    the same value, effects and errors as the original in a place that takes one value, and the
    same values in a place that takes several, as long as no "and"/"or" ending with a call
    stands in such a place. *)
Theorem C57_folding_preserves : forall (St : Type) lang (m : machine St) longer, machine_ok lang m ->
  forall e e', source_expr lang e -> fold_expr longer lang e = Ok e' ->
  (no_spread false e -> forall s, eval1 m e' s = eval1 m e s) /\
  (no_spread true e -> forall s, eval m e' s = eval m e s).
Proof.
  intros St lang m longer OK e e' S F. split; intros N.
  - exact (proj1 (proj2 (fold_good lang m longer OK e false e' S N F))).
  - exact (proj2 (proj2 (fold_good lang m longer OK e true e' S N F)) eq_refl).
Qed.

(** There are such machines, with operators, builtins and calls that give two values. *)
Example C57_machine : forall lang, machine_ok lang (sample_machine lang).
Proof. exact sample_machine_ok. Qed.

(** C29, the part that holds: the same number of values in a place that takes several. *)
Theorem C29_number_of_values_partial : forall (St : Type) lang (m : machine St) longer, machine_ok lang m ->
  forall e e', source_expr lang e -> fold_expr longer lang e = Ok e' -> no_spread true e ->
  forall s vs s', eval m e s = Some (vs, s') ->
  exists ws, eval m e' s = Some (ws, s') /\ length ws = length vs.
Proof.
  intros St lang m longer OK e e' S F N s vs s' E. exists vs. split; [|reflexivity].
  rewrite <- E. exact (proj2 (proj2 (fold_good lang m longer OK e true e' S N F)) eq_refl s).
Qed.

(** A call inside parentheses in an argument list, and an operator on a constant "and". *)
Definition sample_expr : expr :=
  EOther 7 true true
    [EBin BAdd (EConst (VFix 0x10000)) (EBin BMul (EConst (VFix 0x20000)) (EConst (VFix 0x38000)));
     EGroup (EBin BAnd (EConst (VBool true)) (EOther 8 true true []))].
Example C57_hyp : source_expr Pico8 sample_expr /\ no_spread true sample_expr /\
  fold_expr (fun _ _ => false) Pico8 sample_expr =
  Ok (EOther 7 true true [EConst (VFix 0x80000); EGroup (EOther 8 true true [])]).
Proof.
  split; [|split; [|reflexivity]].
  - cbn [sample_expr source_expr value_of]. repeat split.
    + exists 0x10000. split; [vm_compute; split; congruence|reflexivity].
    + exists 0x20000. split; [vm_compute; split; congruence|reflexivity].
    + exists 0x38000. split; [vm_compute; split; congruence|reflexivity].
  - cbn [sample_expr no_spread]. repeat split; discriminate.
Qed.

(** C29 fails in general: the last argument [true and f()] is folded to [f()], which passes on
    all the values of [f], whatever the machine. *)
Theorem C29_and_spreads_refuted : exists e e',
  source_expr Pico8 e /\ (forall longer, fold_expr longer Pico8 e = Ok e') /\
  forall (St : Type) (m : machine St) s a b s', m_other m 1 true [] s = Some ([a; b], s') ->
    eval m e s = Some ([a], s') /\ eval m e' s = Some ([a; b], s').
Proof.
  exists (EBin BAnd (EConst (VBool true)) (EOther 1 true true [])), (EOther 1 true true []).
  split; [cbn; auto|]. split; [reflexivity|].
  intros St m s a b s' H. cbn [eval eval_list first rtruthy negb]. rewrite H. split; reflexivity.
Qed.

Print Assumptions C27_binary.
Print Assumptions C27_unary.
Print Assumptions C27_builtin.
Print Assumptions C27_binary_complete.
Print Assumptions C27_unary_complete.
Print Assumptions C28_operators_terminate_partial.
Print Assumptions C28_expressions_terminate_partial.
Print Assumptions C28_shift_by_minimum_refuted.
Print Assumptions C57_folding_preserves.
Print Assumptions C29_number_of_values_partial.
Print Assumptions C29_and_spreads_refuted.
