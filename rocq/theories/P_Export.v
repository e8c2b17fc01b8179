(** C46, C47, C48 and C69: files that hold carts. *)
From Coq Require Import String List Permutation.
From Verif Require Import M_Base L_Util M_Text S_Text P_Text M_Expr M_Zbytes M_Files S_Files M_Cart64 S_Cart64 L_Cart64 P_Cart64
  M_Export S_Export L_Export L_ExportJs L_ExportJs2 L_ExportPod L_ExportPod2 L_ExportPod3 L_ExportRom.
Import ListNotations.
Open Scope Z_scope.

(* ------------------------------------------------------------------ *)
(** * C46: sets of carts *)

(** [edit] has one result. *)
Lemma split_unique : forall (x y x' y' : bundle) n c c', NoDup (map fst (x ++ (n, c) :: y)) -> x ++ (n, c) :: y = x' ++ (n, c') :: y' ->
  x = x' /\ c = c' /\ y = y'.
Proof.
  induction x as [|(m, d) x IH]; intros y x' y' n c c' N E.
  - destruct x' as [|(m', d') x']; [now injection E as -> ->|]. injection E as <- <- ->. cbn in N. inversion_clear N as [|? ? N1 N2].
    elim N1. rewrite map_app. apply in_or_app. right. now left.
  - destruct x' as [|(m', d') x'].
    + injection E as -> -> <-. cbn in N. inversion_clear N as [|? ? N1 N2]. elim N1. rewrite map_app. apply in_or_app. right. now left.
    + injection E as <- <- E. cbn in N. inversion_clear N as [|? ? N1 N2]. destruct (IH _ _ _ _ _ _ N2 E) as (-> & -> & ->). easy.
Qed.
Lemma named_unique (x y x' y' : bundle) name n n' c c' : x ++ (n, c) :: y = x' ++ (n', c') :: y' ->
  is_named (x ++ (n, c) :: y) name n -> is_named (x' ++ (n', c') :: y') name n' -> n = n'.
Proof.
  intros E A B. destruct name as [m|]; cbn in *; [congruence|]. destruct A as (d & r & A), B as (d' & r' & B). congruence.
Qed.
Lemma edit_unique b op b1 b2 : NoDup (map fst b) -> edit b op b1 -> edit b op b2 -> b1 = b2.
Proof.
  intros N A B. destruct A as [b n c Nb|x y n c t ct Nb|x y n name c old I|x y n name old I|x y n name c m I Nb].
  - inversion B; subst. reflexivity.
  - inversion B as [|x' y' ? ? t' ct' Nb' E0 E1 E2| | |]; subst. destruct (split_unique _ _ _ _ _ _ _ N (eq_sym E0)) as (-> & -> & ->). easy.
  - inversion B as [| |x' y' n' ? ? old' I' E0 E1 E2| |]; subst.
    pose proof (named_unique _ _ _ _ _ _ _ _ _ (eq_sym E0) I I') as <-.
    destruct (split_unique _ _ _ _ _ _ _ N (eq_sym E0)) as (-> & -> & ->). easy.
  - inversion B as [| | |x' y' n' ? old' I' E0 E1 E2|]; subst.
    pose proof (named_unique _ _ _ _ _ _ _ _ _ (eq_sym E0) I I') as <-.
    destruct (split_unique _ _ _ _ _ _ _ N (eq_sym E0)) as (-> & -> & ->). easy.
  - inversion B as [| | | |x' y' n' ? c' ? I' Nb' E0 E1 E2]; subst.
    pose proof (named_unique _ _ _ _ _ _ _ _ _ (eq_sym E0) I I') as <-.
    destruct (split_unique _ _ _ _ _ _ _ N (eq_sym E0)) as (-> & -> & ->). easy.
Qed.

(** An edit of a js export either does exactly that, with the rest of the text as it was, or
    is refused because there is no such edit. *)
Theorem C46_js : forall int10 cart_size a b z bn text op, decimal_reader int10 ->
  js_export int10 cart_size a b z bn text -> js_op cart_size op ->
  (exists bn' text', edit bn op bn' /\ write_cart (js_impl int10 cart_size) text op = Ok text' /\ js_export int10 cart_size a b z bn' text') \/
  ((exists e, write_cart (js_impl int10 cart_size) text op = Err e) /\ forall bn', ~ edit bn op bn').
Proof.
  intros int10 cart_size a b z bn text op H10 X O. apply export_good in X.
  destruct (js_step int10 cart_size H10 a b z bn text op X O) as [(bn' & text' & E & W & G)|Q]; [left|now right].
  exists bn', text'. split; [exact E|]. split; [exact W|]. now apply good_export.
Qed.

(** So for every history. *)
Theorem C46_js_history : forall int10 cart_size a b z, decimal_reader int10 -> forall ops bn text,
  js_export int10 cart_size a b z bn text -> Forall (js_op cart_size) ops ->
  (exists bn' text', edits bn ops bn' /\ write_carts (js_impl int10 cart_size) text ops = Ok text' /\ js_export int10 cart_size a b z bn' text') \/
  ((exists e, write_carts (js_impl int10 cart_size) text ops = Err e) /\ forall bn', ~ edits bn ops bn').
Proof.
  intros int10 cart_size a b z H10. induction ops as [|op ops IH]; intros bn text X F.
  - left. exists bn, text. split; [constructor|]. split; [reflexivity|exact X].
  - inversion_clear F as [|? ? O F']. cbn [write_carts]. pose proof X as (_ & N & _).
    destruct (C46_js _ _ _ _ _ _ _ op H10 X O) as [(b1 & t1 & E & -> & X1)|((e & ->) & No)]; cbn [bind].
    + destruct (IH b1 t1 X1 F') as [(b2 & t2 & Es & W & X2)|((e & W) & No)].
      * left. exists b2, t2. split; [econstructor; eauto|]. now split.
      * right. split; [now exists e|]. intros b2 Es. inversion Es as [|? ? b1' ? ? E' Es']; subst. rewrite (edit_unique _ _ _ _ N E E') in No. now apply (No b2).
    + right. split; [now exists e|]. intros b2 Es. inversion Es as [|? ? b1' ? ? E' Es']; subst. now apply (No b1').
Qed.

(** a new js file is an export of no carts *)
Theorem C46_js_create : forall int10 cart_size src, exists a b z, js_export int10 cart_size a b z [] (js_create src).
Proof.
  intros int10 cart_size src.
  set (a := asc "var _cartname=["%string). set (b := asc "];"%string ++ [10] ++ asc "var _cdpos=0; var iii=0; var ciii=0;"%string ++ [10] ++ asc "var _cartdat=["%string).
  set (z := asc "];"%string ++ [10; 10] ++ src). exists a, b, z.
  assert (Ed : js_create src = a ++ [] ++ b ++ [] ++ z) by reflexivity.
  assert (E1 : js_find cartname_key (js_create src) = Some (a, [], b ++ z)) by reflexivity.
  assert (E2 : js_find cartdat_key (js_create src) = Some (a ++ b, [], z)) by reflexivity.
  split; [|split; [constructor|split; [constructor|split]]].
  - exists [], []. split; [exact Ed|]. split; [discriminate|]. split.
    + apply (find_sound cartname_key (proj1 key_names) (proj2 key_names)) in E1. apply E1.
    + apply (find_sound cartdat_key (proj1 key_data) (proj2 key_data)) in E2. apply E2.
  - unfold js_names, js_slot. rewrite E1. reflexivity.
  - split; [|constructor]. unfold list_carts. cbn [get_carts_impl js_impl]. unfold js_get_carts, js_parse, js_names, js_data, js_slot. rewrite E1. cbn [bind].
    change (M_Text.strip []) with (@nil Z). cbn [bind length]. rewrite E2. cbn [bind]. change (M_Text.strip []) with (@nil Z). reflexivity.
Qed.

(** A name with a comma, ab,cd, is afterwards the two names a and d. *)
Theorem C46_js_refuted : exists text text' name, name <> [] /\
  js_create [] = text /\
  write_cart (js_impl (ascii_int 10) 1) text (OInsert name None [7]) = Ok text' /\
  list_carts (js_impl (ascii_int 10) 1) text' = Ok [[97]; [100]] /\ name = [97; 98; 44; 99; 100].
Proof. eexists _, _, _. split; [|split; [reflexivity|split; [|split; [|reflexivity]]]]; [discriminate|vm_compute; reflexivity|vm_compute; reflexivity]. Qed.

(** Pod exports: the carts are edited, and what else is in the pod stays.  The names fit in 64
    bytes, and the number of entries in 32 bits. *)
Theorem C46_pod : forall utf8 cart_size bn rest p op, Z.of_nat cart_size < 4294967296 ->
  pod_export utf8 cart_size bn rest p -> pod_op utf8 cart_size op -> zlen (p_entries p) + 1 < 4294967296 ->
  shows pod_impl p bn /\
  ((exists bn' p', edit bn op bn' /\ write_cart pod_impl p op = Ok p' /\ pod_export utf8 cart_size bn' rest p') \/
   ((exists e, write_cart pod_impl p op = Err e) /\ forall bn', ~ edit bn op bn')).
Proof.
  intros utf8 cart_size bn rest p op Hs X O U. split; [eapply pod_shows, X|].
  destruct (pod_step utf8 cart_size Hs bn rest p op X O) as [(bn' & p' & E & W & X' & _)|Q]; [unfold u32_ok, zlen in *; lia|left|now right].
  now exists bn', p'.
Qed.

Theorem C46_pod_history : forall utf8 cart_size, Z.of_nat cart_size < 4294967296 -> forall ops bn rest p,
  pod_export utf8 cart_size bn rest p -> Forall (pod_op utf8 cart_size) ops -> zlen (p_entries p) + zlen ops < 4294967296 ->
  (exists bn' p', edits bn ops bn' /\ write_carts pod_impl p ops = Ok p' /\ pod_export utf8 cart_size bn' rest p' /\ shows pod_impl p' bn') \/
  ((exists e, write_carts pod_impl p ops = Err e) /\ forall bn', ~ edits bn ops bn').
Proof.
  intros utf8 cart_size Hs. induction ops as [|op ops IH]; intros bn rest p X F U.
  - left. exists bn, p. split; [constructor|]. split; [reflexivity|]. split; [exact X|eapply pod_shows, X].
  - inversion_clear F as [|? ? O F']. cbn [write_carts]. pose proof X as (_ & _ & _ & N & _).
    destruct (pod_step utf8 cart_size Hs bn rest p op X O) as [(b1 & p1 & E & -> & X1 & L1)|((e & ->) & No)]; cbn [bind].
    + unfold u32_ok, zlen in *. cbn [length] in U. lia.
    + destruct (IH b1 rest p1 X1 F') as [(b2 & t2 & Es & W & X2)|((e & W) & No)].
      * unfold zlen in *. cbn [length] in U. lia.
      * left. exists b2, t2. split; [econstructor; eauto|]. now split.
      * right. split; [now exists e|]. intros b2 Es. inversion Es as [|? ? b1' ? ? E' Es']; subst. rewrite (edit_unique _ _ _ _ N E E') in No. now apply (No b2).
    + right. split; [now exists e|]. intros b2 Es. inversion Es as [|? ? b1' ? ? E' Es']; subst. now apply (No b1').
Qed.

(* ------------------------------------------------------------------ *)
(** * C47: entries of pods *)

(** An entry can be inserted anywhere, and the pod stays sound: opened again it has the same
    entries in the same places.  The other entries keep their contents and bytes.  A palette
    must go last, among the first 256 entries. *)
Theorem C47_insert_partial : forall utf8 p x y name c compress p', sound utf8 p -> p_entries p = x ++ y -> fits utf8 (name, c) ->
  (forall l, c = CPal l -> y = [] /\ (length x <= 255)%nat) ->
  insert_content p (length x) name c compress = Ok p' ->
  sound utf8 p' /\ exists e x' y', p_entries p' = x' ++ e :: y' /\ item_of e = (name, c) /\ other_bytes p p' x y x' y'.
Proof.
  intros utf8 p x y name c compress p' So E F P W. eapply insert_built; eauto. destruct c; [easy|easy|]. right. eapply P. reflexivity.
Qed.
(** It can be: nothing but the size of the file stands against it. *)
Theorem C47_insert_ok : forall utf8 p i name c, sound utf8 p -> fits utf8 (name, c) -> zlen (p_entries p) + 1 < 4294967296 ->
  exists p', insert_content p i name c false = Ok p'.
Proof. intros utf8 p i name c So F U. apply (insert_ok utf8); [exact So|exact F|unfold u32_ok, zlen in *; lia|discriminate]. Qed.

Theorem C47_delete : forall utf8 p x e y, sound utf8 p -> p_entries p = x ++ e :: y ->
  zlen (p_entries p) < 4294967296 ->
  exists p' y', delete_content p (length x) = Ok p' /\ sound utf8 p' /\ p_entries p' = x ++ y' /\ other_bytes p p' x y x y'.
Proof.
  intros utf8 p x e y So E U. destruct (delete_ok utf8 p (length x) So) as (p' & W); [rewrite E, app_length; cbn; lia|unfold u32_ok, zlen in *; lia|].
  destruct (delete_built utf8 p x e y _ p' So E eq_refl W) as (So' & y' & E' & O). now exists p', y'.
Qed.
Theorem C47_rename : forall utf8 p x e y b n, sound utf8 p -> p_entries p = x ++ e :: y -> e_content e = CFile b ->
  utf8 n = true -> bytes_ok n -> ~ In 0 n -> (length n <= 64)%nat ->
  exists p' e', rename_content p (length x) n = Ok p' /\ sound utf8 p' /\ p_entries p' = x ++ e' :: y /\ item_of e' = (Some n, CFile b) /\
    other_bytes p p' x y x y.
Proof.
  intros utf8 p x e y b n So E Ec Un Bn N0 L. assert (exists p', rename_content p (length x) n = Ok p') as (p' & W).
  { unfold rename_content. rewrite E, nth_error_app2, Nat.sub_diag by lia. cbn [nth_error]. rewrite Ec. destruct (name_written utf8 n 64 L) as (w & ->). cbn [bind]. eexists. reflexivity. }
  destruct (rename_built utf8 p x e y b _ n p' So E eq_refl Ec Un Bn N0 W) as (So' & e' & E' & I & O). now exists p', e'.
Qed.
Theorem C47_replace_partial : forall utf8 p x e y c p', sound utf8 p -> p_entries p = x ++ e :: y -> fits utf8 (e_name e, c) ->
  (forall l, c = CPal l -> y = [] /\ (length x <= 255)%nat) ->
  replace_content p (length x) c = Ok p' ->
  sound utf8 p' /\ exists e' x' y', p_entries p' = x' ++ e' :: y' /\ item_of e' = (e_name e, c) /\ other_bytes p p' x y x' y'.
Proof.
  intros utf8 p x e y c p' So E F P W. eapply replace_built; eauto. destruct c; [easy|easy|]. right. eapply P. reflexivity.
Qed.

(** a pod with one file, and the same with two bytes behind it *)
Definition any : list Z -> bool := fun _ => true.
Definition the {A} (d : A) (r : res A) : A := match r with Ok v => v | Err _ => d end.
Definition no_pod : pod_file := mkpod [] [].
Definition small_pod : pod_file := the no_pod (p <- create_pod_file any [] ;; append_content p (Some [97]) (CFile [1; 2; 3]) false)%res.
Definition loose_pod : pod_file := the no_pod (read_pod_file any (p_data small_pod ++ [8; 9])).
Definition black : content := CPal (repeat (0, 0, 0) 256).

Lemma bytes_okb l : forallb is_byte l = true -> bytes_ok l.
Proof. intros H. apply Forall_forall. intros b I. rewrite forallb_forall in H. apply H in I. unfold is_byte in I. lia. Qed.
Example C47_case : sound any small_pod /\ map item_of (p_entries small_pod) = [(Some [97], CFile [1; 2; 3])] /\
  fits any (Some [98], CFile [4]) /\ fits any (None, CBmp 2 1 8 [5; 6]) /\ fits any (None, black).
Proof.
  assert (B : forall l, forallb is_byte l = true -> bytes_ok l) by exact bytes_okb.
  split; [|split; [reflexivity|split; [|split]]].
  - split; [vm_compute; reflexivity|]. split; [vm_compute; reflexivity|]. apply B. vm_compute. reflexivity.
  - cbn. split; [reflexivity|]. split; [now apply B|]. split; [lia|]. split; [lia|]. split; [now apply B|]. unfold u32_ok, zlen. cbn. lia.
  - cbn. split; [now left|]. unfold u32_ok, zlen. cbn. split; [lia|]. split; [lia|]. split; [now apply B|]. lia.
  - cbn [fits black]. split; [apply repeat_length|]. apply Forall_forall. intros x I. apply repeat_spec in I. subst. lia.
Qed.

(** A palette put in front of the file: the file is then said to be where the palette is. *)
Theorem C47_palette_refuted : exists p e p', sound any p /\ p_entries p = [e] /\ fits any (None, black) /\
  insert_content p 0 None black false = Ok p' /\
  In e (p_entries p') /\ at_entry (p_data p') e <> at_entry (p_data p) e /\ ~ sound any p'.
Proof.
  exists small_pod, (hd (mkentry [] 0 0 None black) (p_entries small_pod)), (the no_pod (insert_content small_pod 0 None black false)).
  split; [apply C47_case|]. split; [vm_compute; reflexivity|]. split; [apply C47_case|]. split; [vm_compute; reflexivity|].
  split; [vm_compute; now left|]. split; [vm_compute; discriminate|].
  intros (R & _). vm_compute in R. discriminate R.
Qed.

(** A pod with something behind its entries can be opened.  If an entry is appended, it goes
    behind that, and the pod cannot be opened again. *)
Theorem C47_trailing_refuted : exists p p', read_pod_file any (p_data p) = Ok p /\ bytes_ok (p_data p) /\
  append_content p (Some [98]) (CFile [4]) false = Ok p' /\ read_pod_file any (p_data p') = Err ECheck.
Proof.
  exists loose_pod, (the no_pod (append_content loose_pod (Some [98]) (CFile [4]) false)).
  split; [vm_compute; reflexivity|]. split; [apply bytes_okb; vm_compute; reflexivity|]. split; vm_compute; reflexivity.
Qed.

(** cases for C46: three edits of a pod export with one cart, and of a js export *)
Definition some_ops : list cart_op := [OInsert [98] (Some [97]) [4; 5; 6]; ORename (Some [97]) [99]; OReplace None [7; 8; 9]].
Example C46_pod_case : pod_export any 3 [([97], [1; 2; 3])] [] small_pod /\ Forall (pod_op any 3) some_ops /\
  edits [([97], [1; 2; 3])] some_ops [([98], [7; 8; 9]); ([99], [1; 2; 3])].
Proof.
  split; [|split].
  - split; [apply C47_case|]. split; [reflexivity|]. split; [reflexivity|]. split; [constructor; [easy|constructor]|]. constructor; [reflexivity|constructor].
  - repeat (constructor; [split; cbn; intros ? Q; try discriminate Q; injection Q as <-|]); try constructor;
      repeat split; try discriminate; try (cbn; lia); try (now apply bytes_okb).
  - unfold some_ops. apply edits_cons with [([98], [4; 5; 6]); ([97], [1; 2; 3])].
    { apply (edit_insert [] []). cbn. unfold has. cbn. intros [Q|[]]. discriminate Q. }
    apply edits_cons with [([98], [4; 5; 6]); ([99], [1; 2; 3])].
    { apply (edit_rename [([98], [4; 5; 6])] []); [reflexivity|]. unfold has. cbn. intros [Q|[Q|[]]]; discriminate Q. }
    apply edits_cons with [([98], [7; 8; 9]); ([99], [1; 2; 3])]; [|constructor].
    apply (edit_replace [] [([99], [1; 2; 3])]). cbn. eexists _, _. reflexivity.
Qed.
Example C46_js_case : Forall (js_op 3) (OInsert [97] None [1; 2; 3] :: some_ops) /\
  edits [] (OInsert [97] None [1; 2; 3] :: some_ops) [([98], [7; 8; 9]); ([99], [1; 2; 3])].
Proof.
  split.
  - unfold some_ops. repeat (constructor; [split; cbn; intros ? Q; try discriminate Q; injection Q as <-|]); try constructor;
      try (split; [|split]); cbn; try lia; try (now apply bytes_okb); intuition congruence.
  - apply edits_cons with [([97], [1; 2; 3])]; [apply (edit_append [] [97]); easy|]. apply C46_pod_case.
Qed.

(* ------------------------------------------------------------------ *)
(** * C48: system roms *)

(** Entries are read as they are laid out, and written back to the same bytes. *)
Theorem C48_read : forall d es, bytes_ok d -> (read_sysrom d = Ok es <-> sysrom_of es d).
Proof.
  intros d es B. split; [now apply sysrom_sound|]. intros S. apply (sysrom_read _ _ S). apply (sysrom_length _ _ S).
Qed.
Theorem C48_roundtrip : forall d es, bytes_ok d -> read_sysrom d = Ok es -> sysrom_bytes es = Ok d.
Proof. intros d es B E. apply sysrom_unique. now apply C48_read. Qed.
Theorem C48_write : forall es, Forall (fun e => zlen e < 4294967296) es -> exists d, sysrom_bytes es = Ok d /\ read_sysrom d = Ok es.
Proof.
  intros es F. destruct (sysrom_writes es) as (d & E); [eapply Forall_impl; [|exact F]; cbn; unfold u32_ok, zlen; lia|]. exists d. split; [exact E|].
  apply sysrom_write in E. apply (sysrom_read _ _ E). apply (sysrom_length _ _ E).
Qed.
Lemma upd_nth {A} (l : list A) v : forall k j, (k < length l)%nat -> nth_error (list_upd l k v) j = if (j =? k)%nat then Some v else nth_error l j.
Proof. induction l as [|x l IH]; intros k j L; [cbn in L; lia|]. destruct k as [|k], j as [|j]; try easy. cbn in L. cbn. apply IH. lia. Qed.
(** Setting an entry and writing changes that entry only; one behind the end is filled up to
    with empty entries. *)
Theorem C48_set : forall d es i v, bytes_ok d -> read_sysrom d = Ok es -> zlen v < 4294967296 ->
  exists d' es', sysrom_bytes (sysrom_set es i v) = Ok d' /\ read_sysrom d' = Ok es' /\
    sysrom_get es' i = Some v /\ length es' = Nat.max (length es) (S i) /\
    forall j, j <> i -> sysrom_get es' j = match sysrom_get es j with Some e => Some e | None => if (j <? i)%nat then Some [] else None end.
Proof.
  intros d es i v B E V. apply C48_read in E; [|exact B].
  assert (F : Forall (fun e => zlen e < 4294967296) es).
  { clear B. induction E as [|e es d a b c x B L S IH]; constructor; auto. inversion_clear B as [|? ? Ha B']. inversion_clear B' as [|? ? Hb B'']. inversion_clear B'' as [|? ? Hc B4]. inversion_clear B4 as [|? ? Hx _]. rewrite L. lia. }
  assert (Hn : forall j, sysrom_get (sysrom_set es i v) j = if (j =? i)%nat then Some v else
            match sysrom_get es j with Some e => Some e | None => if (j <? i)%nat then Some [] else None end).
  { intros j. unfold sysrom_get, sysrom_set. rewrite upd_nth by (rewrite app_length, repeat_length; lia). destruct (Nat.eqb_spec j i) as [|Nj]; [easy|].
    destruct (nth_error es j) as [e|] eqn:En; [rewrite nth_error_app1; [exact En|now apply nth_error_Some; rewrite En]|].
    apply nth_error_None in En. rewrite nth_error_app2 by exact En. destruct (Nat.ltb_spec j i).
    - apply nth_error_repeat. lia.
    - apply nth_error_None. rewrite repeat_length. lia. }
  destruct (C48_write (sysrom_set es i v)) as (d' & W & R).
  { apply Forall_forall. intros e I. apply In_nth_error in I as (j & I). fold (sysrom_get (sysrom_set es i v) j) in I. rewrite Hn in I.
    destruct (j =? i)%nat; [injection I as <-; exact V|]. destruct (sysrom_get es j) as [e'|] eqn:Ej.
    - injection I as <-. apply nth_error_In in Ej. rewrite Forall_forall in F. now apply F.
    - destruct (j <? i)%nat; [injection I as <-; cbn; lia|discriminate I]. }
  exists d', (sysrom_set es i v). split; [exact W|]. split; [exact R|]. split; [rewrite Hn; now rewrite Nat.eqb_refl|]. split.
  - unfold sysrom_set. rewrite list_upd_length, app_length, repeat_length. lia.
  - intros j N. rewrite Hn. apply Nat.eqb_neq in N. now rewrite N.
Qed.
(** The cart of a system rom is the third entry: set, it is got back, and the other entries
    stay. *)
Theorem C48_cart : forall es cart fast version, sound_files (c64_files cart) -> 0 <= c64_version cart < 256 ->
  sysrom_set_cart fast es cart = Err EStruct \/
  exists es' fs, sysrom_set_cart fast es cart = Ok es' /\ sysrom_get_cart version es' = Ok (mkcart64 (c64_version cart) fs) /\
    Permutation (c64_files cart) fs /\ dirs_first fs /\
    length es' = Nat.max (length es) 3 /\ forall j, (j < length es)%nat -> j <> 2%nat -> sysrom_get es' j = sysrom_get es j.
Proof.
  intros es cart fast version S V. destruct (C44_roundtrip cart fast S V) as (size & _ & A & B).
  assert (No : ~ over None size) by (intros (l & Q & _); discriminate Q).
  unfold sysrom_set_cart. destruct (Z.le_gt_cases 4294967296 (size - 8)) as [L|L]; [left; now rewrite (A L 0%nat None No)|right].
  destruct (B L 0%nat None No) as (rom & -> & _ & _ & R). cbn [bind]. destruct (R version false []) as (fs & Er & P & D). rewrite app_nil_r in Er.
  exists (sysrom_set es sysrom_cart rom), fs. split; [reflexivity|].
  assert (Hu : forall j, nth_error (sysrom_set es sysrom_cart rom) j = if (j =? 2)%nat then Some rom else nth_error (es ++ repeat [] (3 - length es)) j).
  { intros j. apply upd_nth. unfold sysrom_cart. rewrite app_length, repeat_length. lia. }
  split; [|split; [exact P|split; [exact D|split]]].
  - unfold sysrom_get_cart, sysrom_get. rewrite Hu. cbn [sysrom_cart Nat.eqb]. destruct rom; [discriminate Er|exact Er].
  - unfold sysrom_set, sysrom_cart. rewrite list_upd_length, app_length, repeat_length. lia.
  - intros j L1 N. unfold sysrom_get. rewrite Hu. apply Nat.eqb_neq in N. rewrite N. now apply nth_error_app1.
Qed.
Example C48_case : read_sysrom [0; 0; 0; 1; 65; 0; 0; 0; 0; 0; 0; 0; 2; 66; 67] = Ok [[65]; []; [66; 67]] /\
  sysrom_bytes (sysrom_set [[65]; []; [66; 67]] 4 [9]) = Ok [0; 0; 0; 1; 65; 0; 0; 0; 0; 0; 0; 0; 2; 66; 67; 0; 0; 0; 0; 0; 0; 0; 1; 9].
Proof. split; reflexivity. Qed.

(* ------------------------------------------------------------------ *)
(** * C69: html exports *)

(** Setting the cart of an html export changes the text between the quotes and nothing else,
    and the cart is got back from it. *)
Theorem C69_cart : forall a g z cart fast version, html_cart a g z -> sound_files (c64_files cart) -> 0 <= c64_version cart < 256 ->
  html_set_cart fast (a ++ g ++ z) cart = Err EStruct \/
  exists g' fs, html_set_cart fast (a ++ g ++ z) cart = Ok (a ++ g' ++ z) /\ html_cart a g' z /\
    html_get_cart version (a ++ g' ++ z) = Ok (mkcart64 (c64_version cart) fs) /\ Permutation (c64_files cart) fs /\ dirs_first fs.
Proof.
  intros a g z cart fast version H S V. destruct (C44_roundtrip cart fast S V) as (size & _ & A & B).
  assert (No : ~ over None size) by (intros (l & Q & _); discriminate Q).
  unfold html_set_cart. destruct (Z.le_gt_cases 4294967296 (size - 8)) as [L|L]; [left; now rewrite (A L 0%nat None No)|right].
  destruct (B L 0%nat None No) as (rom & -> & _ & Br & R). cbn [bind]. destruct (R version false []) as (fs & Er & P & D). rewrite app_nil_r in Er.
  destruct (hex_rom rom Br) as (Hx & Ex). pose proof (html_fill a g z _ H Hx) as H'.
  exists (concat (map hex2 rom)), fs. unfold html_set_rom. rewrite (html_complete _ _ _ H). split; [reflexivity|]. split; [exact H'|]. split; [|now split].
  unfold html_get_cart, html_get_rom. rewrite (html_complete _ _ _ H'), Ex. exact Er.
Qed.
(** The text between the quotes is the first that is hexadecimal; if there is none, this is an
    error. *)
Theorem C69_missing : forall text, (forall a g z, html_cart a g z -> text <> a ++ g ++ z) ->
  (forall version, html_get_cart version text = Err ECheck) /\
  forall fast cart r, write_cart64_to_rom 0 None fast cart = Ok r -> html_set_cart fast text cart = Err ECheck.
Proof.
  intros text H. assert (E : html_find text = None).
  { destruct (html_find text) as [((a, g), z)|] eqn:E; [|reflexivity]. apply html_sound in E as (E & C). now destruct (H a g z C). }
  split; [intros version; unfold html_get_cart, html_get_rom; now rewrite E|].
  intros fast cart r W. unfold html_set_cart. rewrite W. cbn [bind]. unfold html_set_rom. now rewrite E.
Qed.
(** What is read is what the digits spell, large or small. *)
Theorem C69_read : forall a g z rom version, html_cart a g z -> hex_text g rom ->
  html_get_cart version (a ++ g ++ z) = read_cart64_from_rom version false rom.
Proof.
  intros a g z rom version H T. unfold html_get_cart, html_get_rom. rewrite (html_complete _ _ _ H).
  assert (V : forall c v, hex_value c v -> hex_digit_value c = v).
  { intros c v Hv. unfold hex_digit_value. destruct Hv as [(R & ->)|(R & [-> | ->])].
    - destruct (Z.ltb_spec (48 + v) 58); lia.
    - destruct (Z.ltb_spec (97 + (v - 10)) 58); [lia|]. destruct (Z.ltb_spec (97 + (v - 10)) 97); lia.
    - destruct (Z.ltb_spec (65 + (v - 10)) 58); [lia|]. destruct (Z.ltb_spec (65 + (v - 10)) 97); lia. }
  assert (E : fromhex g = Ok rom).
  { clear H. induction T as [|c d h l g rom Hc Hd _ IH]; [reflexivity|]. cbn [fromhex]. rewrite IH, (V _ _ Hc), (V _ _ Hd). cbn [bind]. do 2 f_equal. lia. }
  rewrite E. reflexivity.
Qed.
Example C69_case : html_cart (asc "<script>p64cart_str="%string ++ [34]) [48; 65] ([34] ++ asc ";"%string).
Proof. destruct (html_sound (asc "<script>p64cart_str="%string ++ [34; 48; 65; 34] ++ asc ";"%string) _ _ _ eq_refl) as (_ & H). exact H. Qed.
Example C69_hex_case : hex_text (asc "0aFf"%string) [10; 255].
Proof. change [10; 255] with [16 * 0 + 10; 16 * 15 + 15]. repeat constructor; unfold hex_value; cbn; lia. Qed.

Print Assumptions C46_js.
Print Assumptions C46_js_history.
Print Assumptions C46_js_create.
Print Assumptions C46_js_refuted.
Print Assumptions C46_pod.
Print Assumptions C46_pod_history.
Print Assumptions C47_insert_partial.
Print Assumptions C47_insert_ok.
Print Assumptions C47_delete.
Print Assumptions C47_rename.
Print Assumptions C47_replace_partial.
Print Assumptions C47_palette_refuted.
Print Assumptions C47_trailing_refuted.
Print Assumptions C48_read.
Print Assumptions C48_roundtrip.
Print Assumptions C48_write.
Print Assumptions C48_set.
Print Assumptions C48_cart.
Print Assumptions C69_read.
Print Assumptions C69_cart.
Print Assumptions C69_missing.
