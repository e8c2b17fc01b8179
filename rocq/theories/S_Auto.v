(** Vocabulary for carts as files. *)
From Coq Require Import String List ZArith.
From Verif Require Import M_Base M_Rom M_Expr.
Import ListNotations.
Open Scope Z_scope.

(** Characters of Unicode. *)
Definition scalar (c : Z) : Prop := 0 <= c < 0x110000 /\ ~ (0xd800 <= c <= 0xdfff).
(** The names and lines of the further sections of a cart are texts with the property [Q]. *)
Definition meta_chars (Q : Z -> Prop) (c : cart) : Prop := Forall (fun '(k, v) => Forall Q k /\ Forall (Forall Q) v) (c_meta c).
(** Texts that other formats than raw code begin with. *)
Definition other_format (s : list Z) : Prop :=
  exists p t, In p ["pico-8 cartridge"; "__lua__"; "[cart]"; "https://www.pico-8-edu.com"]%string /\ s = asc p ++ t.
