(** Machines for which it does not matter how an operator is spelled. *)
From Coq Require Import List ZArith.
From Verif Require Import M_Base M_Token S_Run S_Tidy.

(** PICO-8 has two spellings of some operators, see [spell]. *)
Definition spells {V Mem} (m : machine V Mem) : Prop :=
  forall op vs me, m_do m (ABin (spell op)) vs me = m_do m (ABin op) vs me.
