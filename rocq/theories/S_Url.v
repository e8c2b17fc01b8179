(** Specification vocabulary for merging carts: what each section name stands for. *)
From Verif Require Import M_Base M_Rom.
Open Scope Z_scope.

Definition n_lua : list Z := [108; 117; 97].            (* "lua" *)
Definition n_label : list Z := [108; 97; 98; 101; 108]. (* "label" *)
(** The data sections and the cart addresses they cover: "gfx", "map", "gff", "music", "sfx". *)
Definition data_sections : list (list Z * (Z * Z)) :=
  [([103; 102; 120], (0x0000, 0x2000)); ([109; 97; 112], (0x2000, 0x3000)); ([103; 102; 102], (0x3000, 0x3100));
   ([109; 117; 115; 105; 99], (0x3100, 0x3200)); ([115; 102; 120], (0x3200, 0x4300))].
Definition known_section (s : list Z) : Prop := s = n_lua \/ s = n_label \/ In s (map fst data_sections).
(** Some requested section covers the address. *)
Definition covered (sections : list (list Z)) (a : Z) : Prop :=
  exists s lo hi, In s sections /\ In (s, (lo, hi)) data_sections /\ lo <= a < hi.
