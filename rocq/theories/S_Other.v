(** What it means that a program needs only some globals: it runs the same on a machine that does
    anything else when asked for the others. *)
From Coq Require Import String List ZArith Bool.
From Verif Require Import M_Base M_Fold M_Token M_Expr M_Stmt S_Run S_Alpha.
Import ListNotations.

(** The machine, but doing [d] when asked. *)
Definition with_do {V Mem} (m : machine V Mem) (d : ask -> list V -> Mem -> steps V Mem) : machine V Mem :=
  {| m_nil := m_nil m; m_true := m_true m; m_is_nil := m_is_nil m; m_const := m_const m;
     m_str := m_str m; m_fun := m_fun m; m_is_fun := m_is_fun m; m_do := d |}.
(** [d] is what the machine does, except perhaps to globals that are not known. *)
Definition same_for {V Mem} (known : list Z -> Prop) (m : machine V Mem) (d : ask -> list V -> Mem -> steps V Mem) : Prop :=
  forall a vs me, (forall x, a = AGlobal x \/ a = ASetGlobal x -> known x) -> d a vs me = m_do m a vs me.
(** Jumps have labels, and no local is called "_ENV": the program is itself, up to names. *)
Definition ordinary (b : blk) : Prop := renaming eq eq b b.
