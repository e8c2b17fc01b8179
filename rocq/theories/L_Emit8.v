(** A simple case of programs that keep their shorthands. *)
From Coq Require Import String List ZArith Lia Bool.
From Verif Require Import M_Base L_Util M_Fold M_Token M_Expr S_Expr L_Expr M_Stmt S_Stmt L_Stmt M_Emit S_Emit.
Import ListNotations.
Open Scope Z_scope.

Definition spot (inside : bool) : place := if inside then Within else Top.
Lemma all_flat : (forall e i, flat_ex i e -> fits_ex (spot i) e) /\ (forall e i, flat_exs i e -> fits_exs (spot i) e) /\ (forall e i, flat_its i e -> fits_its (spot i) e) /\
  (forall s i k, flat_st i s -> fits_st (spot i) k s) /\ (forall b i k, flat_blk i b -> fits_blk (spot i) k b) /\
  (forall f i k, flat_ifs i f -> fits_ifs (spot i) k f) /\
  (forall e, (forall i k, flat_els i e -> fits_els (spot i) k e) /\ match e with EElse b => forall i k, flat_blk i b -> fits_blk (spot i) k b | _ => True end).
Proof.
  assert (CS : forall i, calm (spot i) = spot i) by (now intros []).
  apply prog_all; intros; cbn [flat_ex flat_exs flat_its flat_st flat_blk flat_ifs flat_els fits_ex fits_exs fits_its fits_st fits_ifs fits_els] in *; rewrite ?CS in *; try exact I; try tauto; repeat match goal with H : _ /\ _ |- _ => destruct H end; repeat split; eauto.
  - subst. cbn. split; [now apply (H true)|]. split; [easy|]. now apply (H0 true).
  - now destruct i.
  - now apply (H true).
  - cbn [fits_blk]. destruct b; [now apply H|]. rewrite CS. split; [now apply H|now apply H0].
  - subst. cbn. split; [now apply (H true)|]. split; [easy|]. destruct e; cbn [flat_els] in *; (split; [now apply (H0 true)|]); try easy. match goal with H : forall _ _, _ -> fits_blk _ _ b0 |- _ => now apply (H true) end.
  - intros i _ F. rewrite CS. now apply H.
Qed.
Lemma flat_fits b : flat b -> fits b.
Proof. destruct all_flat as (_ & _ & _ & _ & B & _). apply (B b false). Qed.
