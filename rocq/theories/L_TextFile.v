(** Lemmas on the .p8 text format: code, label, further sections and the whole file. *)
From Verif Require Import M_Base L_Util M_Memory L_Memory M_Compress M_Charset L_Charset M_Fold S_Fold L_Fold M_Rom S_Rom L_Image M_Text S_Num S_Text L_Text L_TextRead.
Open Scope Z_scope.
Ltac Zify.zify_post_hook ::= Z.div_mod_to_equations.
Local Opaque mem_create_rom.

(** *** Header lines *)
Definition space_c (c : Z) : Prop := py_isspace c = true.
Lemma lstrip_spec : forall s, exists w, s = w ++ lstrip s /\ Forall space_c w.
Proof.
  induction s as [|c s (w & E & F)]; [exists []; split; [reflexivity|constructor]|]. cbn [lstrip].
  destruct (py_isspace c) eqn:S; [|exists []; split; [reflexivity|constructor]].
  exists (c :: w). split; [cbn; rewrite <- E; reflexivity|constructor; assumption].
Qed.
Lemma rstrip_spec : forall s, exists w, s = rstrip s ++ w /\ Forall space_c w.
Proof.
  intros s. destruct (lstrip_spec (rev s)) as (w & E & F). exists (rev w). split.
  - unfold rstrip. rewrite <- rev_app_distr, <- E, rev_involutive. reflexivity.
  - apply Forall_rev. exact F.
Qed.
Lemma not_header : forall l, ~ header_like space_c l -> starts_with under l && ends_with under (strip l) = false.
Proof.
  intros l H. destruct (starts_with under l) eqn:S; [|reflexivity]. cbn [andb].
  destruct (ends_with under (strip l)) eqn:E; [|reflexivity]. exfalso. apply H.
  apply starts_with_iff in S as [r S]. apply ends_with_iff in E as [q E]. split; [exists r; exact S|].
  destruct (rstrip_spec l) as (w & W & F). exists q, w. split; [|exact F].
  unfold strip in E. rewrite W. rewrite S in *. unfold under in *. cbn [app] in *.
  change (lstrip (95 :: 95 :: r)) with (95 :: 95 :: r) in E. rewrite E, <- app_assoc. reflexivity.
Qed.

(** *** Code *)
Definition p8_image (unicaps : bool) (c : Z) : list Z := match from_p8char unicaps c with Ok s => s | Err _ => [] end.
Definition fixed_chars : list Z := [9; 10; 13; 32; 95].
Definition image_ok (s : list Z) (c : Z) : bool :=
  negb (zeqb_list s []) &&
  (if existsb (Z.eqb c) fixed_chars then zeqb_list s [c]
   else forallb (fun x => negb (py_isspace x) && negb (existsb (Z.eqb x) fixed_chars)) s).
Lemma image_sweep : forall u c, 0 <= c < 256 -> image_ok (p8_image u c) c = true.
Proof.
  assert (H : forallb (fun c => image_ok (p8_image true c) c && image_ok (p8_image false c) c) (zrange_from 0 256) = true) by (vm_compute; reflexivity).
  intros u c Hc. rewrite forallb_forall in H. specialize (H c). rewrite zrange_In in H. specialize (H ltac:(lia)).
  apply andb_prop in H as [H1 H2]. destruct u; assumption.
Qed.
Definition image (u : bool) (s : list Z) : list Z := concat (map (p8_image u) s).
Lemma from_image : forall u s, bytes_ok s -> from_p8str u s = Ok (image u s).
Proof.
  intros u s H. induction H as [|c s Hc _ IH]; [reflexivity|]. cbn [from_p8str]. unfold image. cbn [map concat]. fold (image u s).
  destruct (from_p8char_entry u c Hc) as (e & E & _). unfold p8_image. rewrite E, IH. reflexivity.
Qed.
Lemma to_image : forall u s, bytes_ok s -> to_p8str (image u s) = Ok s.
Proof. intros u s H. destruct (p8str_roundtrip u s H) as (t & E & R). rewrite from_image in E by exact H. congruence. Qed.
Lemma existsb_fixed : forall x, existsb (Z.eqb x) fixed_chars = true <-> In x fixed_chars.
Proof.
  intros x. rewrite existsb_exists. split.
  - intros (y & H & E). apply Z.eqb_eq in E. subst. exact H.
  - intros H. exists x. split; [exact H|apply Z.eqb_refl].
Qed.
Lemma image_fixed : forall u x, In x fixed_chars -> p8_image u x = [x].
Proof. intros u x H. unfold fixed_chars in H. destruct u; repeat (destruct H as [<-|H]; [vm_compute; reflexivity|]); contradiction. Qed.
Lemma image_split : forall u x s r w, In x fixed_chars -> bytes_ok s -> image u s = r ++ x :: w ->
  exists s1 s2, s = s1 ++ x :: s2 /\ image u s1 = r /\ image u s2 = w.
Proof.
  intros u x s r w Hx H. revert r. induction H as [|c s Hc Hs IH]; intros r E; [destruct r; discriminate E|].
  unfold image in E. cbn [map concat] in E. fold (image u s) in E.
  pose proof (image_sweep u c Hc) as K. unfold image_ok in K. apply andb_prop in K as [K0 K].
  destruct (existsb (Z.eqb c) fixed_chars) eqn:F.
  - apply zeqb_list_true in K. rewrite K in E. cbn [app] in E. destruct r as [|y r]; cbn [app] in E.
    + injection E as -> E. exists [], s. auto.
    + injection E as -> E. destruct (IH r E) as (s1 & s2 & -> & I1 & I2). exists (y :: s1), s2. split; [reflexivity|]. split; [|exact I2].
      unfold image in *. cbn [map concat]. rewrite K, I1. reflexivity.
  - assert (N : ~ In x (p8_image u c)).
    { intros I. rewrite forallb_forall in K. specialize (K x I). apply existsb_fixed in Hx. rewrite Hx in K. cbn in K. rewrite andb_false_r in K. discriminate K. }
    assert (P : exists r', r = p8_image u c ++ r' /\ image u s = r' ++ x :: w).
    { clear -E N. revert r E. induction (p8_image u c) as [|y p IH]; intros r E; [exists r; split; [reflexivity|exact E]|].
      cbn [app] in E. destruct r as [|z r]; cbn [app] in E.
      - injection E as -> _. exfalso. apply N. left. reflexivity.
      - injection E as -> E. destruct (IH (fun I => N (or_intror I)) r E) as (r' & -> & E'). exists r'. split; [reflexivity|exact E']. }
    destruct P as (r' & -> & E'). destruct (IH r' E') as (s1 & s2 & -> & I1 & I2). exists (c :: s1), s2. split; [reflexivity|]. split; [|exact I2].
    unfold image in *. cbn [map concat]. rewrite I1. reflexivity.
Qed.
Lemma image_nil : forall u s, bytes_ok s -> image u s = [] -> s = [].
Proof.
  intros u s H E. destruct H as [|c s Hc _]; [reflexivity|]. pose proof (image_sweep u c Hc) as K. unfold image_ok in K.
  apply andb_prop in K as [K _]. unfold image in E. cbn [map concat] in E. apply app_eq_nil in E as [E _]. rewrite E in K. discriminate K.
Qed.
Lemma image_spaces : forall u s, bytes_ok s -> ~ In 10 s -> Forall space_c (image u s) -> Forall p8_space s.
Proof.
  intros u s H. induction H as [|c s Hc Hs IH]; intros N F; [constructor|].
  unfold image in F. cbn [map concat] in F. fold (image u s) in F. apply Forall_app in F as [F1 F2].
  constructor; [|apply IH; [intros I; apply N; right; exact I|exact F2]].
  pose proof (image_sweep u c Hc) as K. unfold image_ok in K. apply andb_prop in K as [K0 K].
  destruct (existsb (Z.eqb c) fixed_chars) eqn:X.
  - apply existsb_fixed in X. apply zeqb_list_true in K. rewrite K in F1. inversion F1 as [|? ? S _]. subst.
    unfold fixed_chars in X. unfold p8_space. destruct X as [<-|[<-|[<-|[<-|[<-|[]]]]]]; auto.
    + exfalso. apply N. left. reflexivity.
    + discriminate S.
  - destruct (p8_image u c) as [|x p]; [discriminate K0|]. inversion F1 as [|? ? S _]. subst. cbn [forallb] in K.
    unfold space_c in S. rewrite S in K. discriminate K.
Qed.
Lemma bytes_app_inv : forall a b, bytes_ok (a ++ b) -> bytes_ok a /\ bytes_ok b.
Proof. intros a b H. apply Forall_app in H. exact H. Qed.
Lemma image_good : forall u l, bytes_ok l -> ~ In 10 l -> (forall r, l <> r ++ [13]) -> good_line (image u l).
Proof.
  intros u l B N P2. split.
  - intros I. apply in_split in I as (r & w & E). destruct (image_split u 10 l r w) as (s1 & s2 & -> & _); [cbn; tauto|assumption|assumption|].
    apply N. apply in_or_app. right. left. reflexivity.
  - intros r E. destruct (image_split u 13 l r []) as (s1 & s2 & -> & _ & E2); [cbn; tauto|assumption|assumption|].
    apply image_nil in E2; [|apply bytes_app_inv in B as [_ B]; inversion B; assumption]. subst. exact (P2 s1 eq_refl).
Qed.
Lemma image_plain : forall u l, bytes_ok l -> ~ In 10 l -> plain_line p8_space l -> good_line (image u l) /\ ~ header_like space_c (image u l).
Proof.
  intros u l B N [P1 P2]. split; [apply image_good; assumption|].
  intros ((r & E) & (q & w & E' & F)). apply P1. split.
    + destruct (image_split u 95 l [] (95 :: r)) as (s1 & s2 & -> & I1 & I2); [cbn; tauto|assumption|assumption|].
      apply bytes_app_inv in B as [B1 B2]. inversion B2 as [|? ? _ B3]. subst. apply image_nil in I1; [|exact B1]. subst.
      destruct (image_split u 95 s2 [] r) as (s3 & s4 & -> & I3 & I4); [cbn; tauto|assumption|assumption|].
      apply bytes_app_inv in B3 as [B3 _]. apply image_nil in I3; [|exact B3]. subst. exists s4. reflexivity.
    + destruct (image_split u 95 l q (95 :: w)) as (s1 & s2 & -> & _ & I2); [cbn; tauto|assumption|assumption|].
      apply bytes_app_inv in B as [_ B2]. inversion B2 as [|? ? _ B3]. subst.
      destruct (image_split u 95 s2 [] w) as (s3 & s4 & -> & I3 & I4); [cbn; tauto|assumption|assumption|].
      apply bytes_app_inv in B3 as [B3 B4]. apply image_nil in I3; [|exact B3]. subst. inversion B4; subst.
      exists s1, s4. split; [reflexivity|]. apply (image_spaces u); [assumption| |exact F].
      intros I. apply N. apply in_or_app. right. right. right. exact I.
Qed.
Lemma image_app : forall u a b, image u (a ++ b) = image u a ++ image u b.
Proof. intros. unfold image. rewrite map_app, concat_app. reflexivity. Qed.
(** The lines of the converted code are the converted lines. *)
Lemma prefix_lines : forall p s l r, ~ In 10 p -> lines_of s = l :: r -> lines_of (p ++ s) = (p ++ l) :: r.
Proof.
  induction p as [|c p IH]; intros s l r N E; [exact E|]. cbn [app lines_of].
  destruct (Z.eqb_spec c 10) as [->|]; [exfalso; apply N; left; reflexivity|].
  rewrite (IH s l r) by (try assumption; intros I; apply N; right; exact I). reflexivity.
Qed.
Lemma lines_image : forall u s, bytes_ok s -> lines_of (image u s) = map (image u) (lines_of s).
Proof.
  intros u s H. induction H as [|c s Hc Hs IH]; [reflexivity|].
  unfold image at 1. cbn [map concat]. fold (image u s). cbn [lines_of]. destruct (Z.eqb_spec c 10) as [->|N].
  - rewrite image_fixed by (cbn; tauto). cbn [app lines_of]. change (10 =? 10) with true. cbn. rewrite IH. reflexivity.
  - destruct (lines_of_some s) as (l & r & E). rewrite E in *. cbn [map] in *.
    rewrite (prefix_lines _ _ (image u l) (map (image u) r)); [reflexivity| |exact IH].
    pose proof (image_sweep u c Hc) as K. unfold image_ok in K. apply andb_prop in K as [_ K]. destruct (existsb (Z.eqb c) fixed_chars).
    + apply zeqb_list_true in K. rewrite K. intros [I|[]]. congruence.
    + intros I. rewrite forallb_forall in K. specialize (K 10 I). discriminate K.
Qed.
Lemma lines_bytes : forall s, bytes_ok s -> Forall bytes_ok (lines_of s).
Proof.
  intros s H. induction H as [|c s Hc Hs IH]; [constructor; constructor|]. cbn [lines_of]. destruct (c =? 10); [constructor; [constructor|exact IH]|].
  destruct (lines_of s); inversion_clear IH; constructor; try constructor; auto.
Qed.

Section File.
Context (int16 int10 : list Z -> option Z) (lower : Z -> list Z).
Context (H16 : hex_reader int16) (H10 : decimal_reader int10) (Hlow : ascii_lower lower).
Notation rl := (read_line int16 int10 lower false).
Notation rls := (read_lines int16 int10 lower false).

Definition unlike_header (raw : bool) (l : list Z) : Prop := raw = true \/ ~ header_like space_c l.
Lemma rl_lua : forall raw st i u l, r_header st = Some str_lua -> bytes_ok l -> unlike_header raw (image u l) ->
  read_line int16 int10 lower raw st i (image u l) = Ok (mkrs (Some str_lua) (r_y st + 1) (r_code st ++ (if r_y st =? 0 then [] else [10]) ++ l)
                           (if r_y st =? 0 then i else r_code_line st) (r_cart st)).
Proof.
  intros raw st i u l Hh Hb Hn. unfold read_line.
  assert (X : starts_with under (image u l) && ends_with under (strip (image u l)) && negb raw = false).
  { destruct Hn as [->|Hn]; [apply andb_false_r|]. rewrite not_header by exact Hn. reflexivity. }
  rewrite X, Hh. cbv iota.
  change (is_header (Some str_lua) str_lua) with true. cbv iota. rewrite to_image by exact Hb. reflexivity.
Qed.
Lemma lua_more : forall raw u ls st i, Forall (fun l => bytes_ok l /\ unlike_header raw (image u l)) ls -> r_header st = Some str_lua -> 0 < r_y st ->
  exists y, read_lines int16 int10 lower raw st i (map (image u) ls) = Ok (mkrs (Some str_lua) y (r_code st ++ concat (map (cons 10) ls)) (r_code_line st) (r_cart st)).
Proof.
  intros raw u ls st i F. revert st i. induction F as [|l ls [B N] _ IH]; intros st i Hh Hy.
  - exists (r_y st). cbn. rewrite app_nil_r, <- Hh. destruct st; reflexivity.
  - cbn [map read_lines]. rewrite rl_lua by assumption. cbn [checked bind]. replace (r_y st =? 0) with false by lia.
    edestruct (IH (mkrs (Some str_lua) (r_y st + 1) (r_code st ++ [10] ++ l) (r_code_line st) (r_cart st)) (i + 1)) as (y & E);
      [reflexivity|cbn; lia|]. exists y. rewrite E. cbn [r_code r_code_line r_cart concat]. rewrite <- !app_assoc. reflexivity.
Qed.
Lemma lua_all : forall raw u code st i, bytes_ok code -> Forall (fun l => unlike_header raw (image u l)) (lines_of code) ->
  r_header st = Some str_lua -> r_y st = 0 -> r_code st = [] ->
  exists y, read_lines int16 int10 lower raw st i (lines_of (image u code)) = Ok (mkrs (Some str_lua) y code i (r_cart st)).
Proof.
  intros raw u code st i B N Hh Hy C. pose proof (lines_bytes code B) as LB. rewrite lines_image by exact B.
  destruct (lines_of_some code) as (l & r & E). pose proof (lines_of_code _ _ _ E) as LC. rewrite E in *.
  inversion_clear LB as [|? ? B1 B2]. inversion_clear N as [|? ? N1 N2].
  cbn [read_lines map]. rewrite rl_lua by assumption. rewrite Hy. cbn [checked bind]. change (0 =? 0) with true. cbv iota.
  destruct (lua_more raw u r (mkrs (Some str_lua) (0 + 1) (r_code st ++ [] ++ l) i (r_cart st)) (i + 1)) as (y & R);
    [apply Forall_and; assumption|reflexivity|cbn; lia|].
  rewrite R. cbn [r_code r_code_line r_cart]. rewrite C. cbn [app]. rewrite <- LC. eexists. reflexivity.
Qed.
Lemma plain_lines : forall u code, bytes_ok code -> plain_code code ->
  Forall (fun l => good_line (image u l) /\ unlike_header false (image u l)) (lines_of code).
Proof.
  intros u code B P. apply Forall_forall. intros l Hl. pose proof (proj1 (Forall_forall _ _) (lines_bytes code B) l Hl) as Bl.
  pose proof (lines_of_are code l Hl) as L. destruct (image_plain u l Bl (proj2 L) (P l L)) as [G N]. split; [exact G|right; exact N].
Qed.
Lemma lua_reads : forall u code st i, bytes_ok code -> plain_code code -> r_code st = [] ->
  exists h y, rls st i (header_line str_lua :: lines_of (image u code)) = Ok (mkrs h y code (i + 1) (r_cart st)).
Proof.
  intros u code st i B P C. pose proof (plain_lines u code B P) as F.
  cbn [read_lines]. rewrite read_header by (cbn; intuition discriminate). cbn [checked bind].
  destruct (lua_all false u code (mkrs (Some str_lua) 0 (r_code st) (r_code_line st) (r_cart st)) (i + 1)) as (y & E);
    [exact B|eapply Forall_impl; [|exact F]; cbn; tauto|reflexivity|reflexivity|exact C|].
  rewrite E. eexists _, _. reflexivity.
Qed.

(** *** Label *)
Lemma ext_chars : forall v, 0 <= v < 32 -> 48 <= ext_hexc v <= 118 /\ ext_hexc v <> 95.
Proof. intros v H. unfold ext_hexc. destruct (Z.ltb_spec v 16); [|lia]. pose proof (hexc_plain v ltac:(lia)). lia. Qed.
Lemma ext_value : forall v, 0 <= v < 32 -> ext_nybble int16 lower (ext_hexc v) = Ok v.
Proof.
  intros v H. unfold ext_nybble. pose proof (ext_chars v H) as C. rewrite Hlow by lia.
  assert (U : (65 <=? ext_hexc v) && (ext_hexc v <=? 90) = false).
  { unfold ext_hexc, hexc. destruct (Z.ltb_spec v 16); [destruct (Z.ltb_spec v 10)|]; lia. }
  rewrite U. cbv zeta iota. unfold ext_hexc in *. destruct (Z.ltb_spec v 16).
  - pose proof (hexc_plain v ltac:(lia)). replace (103 <=? hexc v) with false by lia. rewrite andb_false_r. apply (int16_1 int16 H16). lia.
  - replace (103 <=? v - 16 + 103) with true by lia. rewrite andb_true_r, andb_true_r.
    destruct ((v - 16 + 103 <? 118) || (v - 16 + 103 =? 118)) eqn:E; [f_equal; lia|exfalso; lia].
Qed.
Lemma list_upd_app : forall {A} (a b : list A) x y, list_upd (a ++ x :: b) (length a) y = a ++ y :: b.
Proof. intros A a b x y. induction a as [|z a IH]; cbn; [reflexivity|]. rewrite IH. reflexivity. Qed.
Lemma label_row_spec : forall l1 l2 r done rest, Forall (fun v => 0 <= v < 32) r -> (length done + length r <= 128)%nat -> (length r = length rest)%nat ->
  label_row int16 lower (l1 ++ (done ++ rest) :: l2) (zlen l1) (zlen done) (map ext_hexc r) = Ok (l1 ++ (done ++ r) :: l2).
Proof.
  intros l1 l2 r. induction r as [|v r IH]; intros done rest F L1 L2.
  - destruct rest; [reflexivity|discriminate L2].
  - inversion_clear F as [|? ? Hv F2]. destruct rest as [|x rest]; [discriminate L2|].
    cbn [map label_row]. rewrite ext_value by exact Hv. cbn [bind].
    cbn [length] in L1, L2. replace (zlen done <? 0x80) with true by (unfold zlen; lia).
    unfold label_set. unfold zlen at 1 2 3. rewrite !Nat2Z.id.
    rewrite app_nth2, Nat.sub_diag by lia. cbn [nth]. rewrite !list_upd_app.
    replace (done ++ v :: rest) with ((done ++ [v]) ++ rest) by (rewrite <- app_assoc; reflexivity).
    replace (zlen done + 1) with (zlen (done ++ [v])) by (rewrite zlen_app; reflexivity).
    rewrite IH; [|exact F2|rewrite app_length; cbn; lia|lia]. rewrite <- app_assoc. reflexivity.
Qed.
Lemma rl_label : forall st i t y, row_text t -> r_header st = Some str_label -> r_y st = y -> 0 <= y < 0x80 ->
  rl st i t = (l <- label_row int16 lower (match c_label (r_cart st) with Some l => l | None => blank_label end) y 0 t ;;
               Ok (mkrs (Some str_label) (y + 1) (r_code st) (r_code_line st) (with_label (r_cart st) (Some l)))).
Proof.
  intros st i t y (R1 & R2 & R3) Hh Hyy Hy.
  unfold read_line. rewrite R3, Hh, Hyy. rewrite not_under_starts by exact R2. rewrite nonempty_eqb by exact R1.
  change (is_header (Some str_label) str_lua) with false. change (is_header (Some str_label) str_gfx) with false.
  change (is_header (Some str_label) str_map) with false. change (is_header (Some str_label) str_gff) with false.
  change (is_header (Some str_label) str_sfx) with false. change (is_header (Some str_label) str_music) with false.
  change (is_header (Some str_label) str_label) with true.
  cbn [andb]. replace (y <? 0x80) with true by lia. reflexivity.
Qed.
Definition label_lines (l : list (list Z)) : list (list Z) := map (map ext_hexc) l.
Lemma label_line_ok : forall r, length r = 128%nat -> Forall (fun v => 0 <= v < 32) r -> row_text (map ext_hexc r) /\ good_line (map ext_hexc r).
Proof.
  intros r L F. assert (C : Forall (fun c => 48 <= c <= 118 /\ c <> 95) (map ext_hexc r)).
  { apply Forall_forall. intros c Hc. apply in_map_iff in Hc as (v & <- & Hv). apply ext_chars. exact (proj1 (Forall_forall _ _) F v Hv). }
  split; [|apply good_hex; exact C]. apply row_text_hex; [|exact C]. destruct r; [discriminate L|discriminate].
Qed.
Lemma label_rows : forall ls done rest st i, Forall (fun r => length r = 128%nat /\ Forall (fun v => 0 <= v < 32) r) ls ->
  Forall (fun r : list Z => length r = 128%nat) rest -> length rest = length ls -> (length done + length ls <= 128)%nat ->
  r_header st = Some str_label -> r_y st = zlen done ->
  match c_label (r_cart st) with Some l => l | None => blank_label end = done ++ rest ->
  ls <> [] ->
  exists y, rls st i (label_lines ls) = Ok (mkrs (Some str_label) y (r_code st) (r_code_line st) (with_label (r_cart st) (Some (done ++ ls)))).
Proof.
  induction ls as [|r ls IH]; intros done rest st i F FR LR LD Hh Hy HL N; [contradiction|]. inversion_clear F as [|? ? [L1 F1] F2].
  destruct rest as [|q rest]; [discriminate LR|]. inversion_clear FR as [|? ? FX FR2]. cbn [length] in *.
  destruct (label_line_ok r L1 F1) as [R _].
  unfold label_lines. cbn [map read_lines]. rewrite (rl_label st i _ (zlen done)) by (try assumption; unfold zlen; lia).
  rewrite HL. change (done ++ q :: rest) with (done ++ ([] ++ q) :: rest). change 0 with (@zlen Z []) at 1.
  rewrite label_row_spec; [|exact F1|cbn; lia|lia]. cbn [bind checked app].
  destruct ls as [|r2 ls].
  - destruct rest; [|discriminate LR]. eexists. cbn [map read_lines]. reflexivity.
  - destruct (IH (done ++ [r]) rest (mkrs (Some str_label) (zlen done + 1) (r_code st) (r_code_line st) (with_label (r_cart st) (Some (done ++ r :: rest)))) (i + 1)) as (y & E).
    + exact F2.
    + exact FR2.
    + lia.
    + rewrite app_length. cbn [length] in *. lia.
    + reflexivity.
    + cbn [r_y]. rewrite zlen_app. reflexivity.
    + cbn. rewrite <- app_assoc. reflexivity.
    + discriminate.
    + exists y. fold (label_lines (r2 :: ls)). rewrite E. cbn [r_code r_code_line r_cart]. rewrite <- app_assoc. reflexivity.
Qed.
Lemma label_reads : forall l st i, label_ok 32 l -> c_label (r_cart st) = None ->
  Forall good_line (header_line str_label :: label_lines l) /\
  exists h y, rls st i (header_line str_label :: label_lines l) = Ok (mkrs h y (r_code st) (r_code_line st) (with_label (r_cart st) (Some l))).
Proof.
  intros l st i [L F] N. assert (H : ~ In 10 str_label) by (cbn; intuition discriminate). split.
  - constructor; [apply good_header; exact H|]. apply Forall_forall. intros t Ht. apply in_map_iff in Ht as (r & <- & Hr).
    destruct (proj1 (Forall_forall _ _) F r Hr) as [L1 F1]. exact (proj2 (label_line_ok r L1 F1)).
  - cbn [read_lines]. rewrite read_header by exact H. cbn [checked bind].
    destruct (label_rows l [] blank_label (mkrs (Some str_label) 0 (r_code st) (r_code_line st) (r_cart st)) (i + 1)) as (y & E).
    + exact F.
    + apply Forall_forall. intros r Hr. apply repeat_spec in Hr. subst. apply repeat_length.
    + rewrite L. apply repeat_length.
    + cbn. lia.
    + reflexivity.
    + reflexivity.
    + cbn [r_cart]. rewrite N. reflexivity.
    + intros ->. discriminate L.
    + eexists _, y. rewrite E. reflexivity.
Qed.

(** *** Further sections *)
Lemma rl_meta : forall st i k l, r_header st = Some (str_meta ++ k) -> ~ header_like space_c l ->
  rl st i l = Ok (mkrs (Some (str_meta ++ k)) (r_y st) (r_code st) (r_code_line st) (with_meta (r_cart st) (meta_append k l (c_meta (r_cart st))))).
Proof.
  intros st i k l Hh N. unfold read_line. rewrite not_header by exact N. rewrite Hh. cbn [andb].
  change (is_header (Some (str_meta ++ k)) str_lua) with false. change (is_header (Some (str_meta ++ k)) str_gfx) with false.
  change (is_header (Some (str_meta ++ k)) str_map) with false. change (is_header (Some (str_meta ++ k)) str_gff) with false.
  change (is_header (Some (str_meta ++ k)) str_sfx) with false. change (is_header (Some (str_meta ++ k)) str_music) with false.
  change (is_header (Some (str_meta ++ k)) str_label) with false. cbn [andb].
  replace (starts_with str_meta (str_meta ++ k)) with true by (symmetry; apply starts_with_iff; exists k; reflexivity).
  reflexivity.
Qed.
Lemma meta_append_last : forall k v l m, ~ In k (map fst m) -> meta_append k l (m ++ [(k, v)]) = m ++ [(k, v ++ [l])].
Proof.
  intros k v l m. induction m as [|[k' v'] m IH]; intros N; cbn [app meta_append].
  - rewrite zeqb_list_refl. reflexivity.
  - destruct (zeqb_list k' k) eqn:E; [apply zeqb_list_true in E; subst; exfalso; apply N; left; reflexivity|].
    rewrite IH by (intros I; apply N; right; exact I). reflexivity.
Qed.
Lemma meta_append_new : forall k l m, ~ In k (map fst m) -> meta_append k l m = m ++ [(k, [l])].
Proof.
  intros k l m. induction m as [|[k' v'] m IH]; intros N; cbn [app meta_append]; [reflexivity|].
  destruct (zeqb_list k' k) eqn:E; [apply zeqb_list_true in E; subst; exfalso; apply N; left; reflexivity|].
  rewrite IH by (intros I; apply N; right; exact I). reflexivity.
Qed.
Lemma meta_more : forall k ls v m st i, Forall (fun l => ~ header_like space_c l) ls -> ~ In k (map fst m) ->
  r_header st = Some (str_meta ++ k) -> c_meta (r_cart st) = m ++ [(k, v)] ->
  rls st i ls = Ok (mkrs (Some (str_meta ++ k)) (r_y st) (r_code st) (r_code_line st) (with_meta (r_cart st) (m ++ [(k, v ++ ls)]))).
Proof.
  intros k ls v m st i F. revert v st i. induction F as [|l ls N _ IH]; intros v st i NI Hh Hm.
  - cbn [read_lines]. rewrite app_nil_r, <- Hm, <- Hh. destruct st as [? ? ? ? []]; reflexivity.
  - cbn [read_lines]. rewrite (rl_meta st i k l Hh N). cbn [checked bind]. rewrite Hm, meta_append_last by exact NI.
    rewrite (IH (v ++ [l])); [|exact NI|reflexivity|reflexivity]. cbn [r_y r_code r_code_line r_cart].
    rewrite <- app_assoc. reflexivity.
Qed.
Definition meta_lines (incl : list Z -> bool) (meta : list (list Z * list (list Z))) : list (list Z) :=
  concat (map (fun '(k, v) => if incl (str_meta ++ k) then header_line (str_meta ++ k) :: v else []) meta).
Lemma meta_reads : forall incl meta m st i,
  Forall (fun '(k, v) => ~ In 10 k /\ v <> [] /\ Forall (fun l => ~ In 10 l /\ plain_line space_c l) v) meta ->
  NoDup (map fst (m ++ meta)) -> c_meta (r_cart st) = filter (fun '(k, _) => incl (str_meta ++ k)) m ->
  Forall good_line (meta_lines incl meta) /\
  exists h y, rls st i (meta_lines incl meta) = Ok (mkrs h y (r_code st) (r_code_line st)
    (with_meta (r_cart st) (filter (fun '(k, _) => incl (str_meta ++ k)) (m ++ meta)))).
Proof.
  intros incl meta. induction meta as [|[k v] meta IH]; intros m st i F ND Hm.
  - split; [constructor|]. exists (r_header st), (r_y st). change (meta_lines incl []) with (@nil (list Z)). cbn [read_lines]. rewrite app_nil_r, <- Hm. destruct st as [? ? ? ? []]; reflexivity.
  - inversion_clear F as [|? ? HF F2]. cbn beta iota in HF. destruct HF as (K & VN & FV).
    assert (ND2 : NoDup (map fst ((m ++ [(k, v)]) ++ meta))) by (rewrite <- app_assoc; exact ND).
    assert (NI : ~ In k (map fst m)).
    { rewrite map_app in ND. cbn [map fst] in ND. apply NoDup_remove_2 in ND. intros I. apply ND. apply in_or_app. left. exact I. }
    unfold meta_lines. cbn [map concat]. fold (meta_lines incl meta).
    set (P := fun '(k, _) => incl (str_meta ++ k)) in *.
    assert (NF : ~ In k (map fst (filter P m))).
    { intros I. apply NI. apply in_map_iff in I as (p & <- & Hp). apply in_map. apply filter_In in Hp. apply Hp. }
    destruct (incl (str_meta ++ k)) eqn:I.
    + assert (H10' : ~ In 10 (str_meta ++ k)) by (intros X; apply in_app_or in X as [X|X]; [cbn in X; intuition discriminate|contradiction]).
      destruct v as [|l v]; [contradiction|]. inversion_clear FV as [|? ? [N1 [P1 Q1]] FV2].
      set (st1 := mkrs (Some (str_meta ++ k)) 0 (r_code st) (r_code_line st) (with_meta (r_cart st) (filter P (m ++ [(k, l :: v)])))).
      destruct (IH (m ++ [(k, l :: v)]) st1 (i + zlen (header_line (str_meta ++ k) :: l :: v)) F2 ND2 eq_refl) as (G & h & y & E).
      split.
      * cbn [app]. constructor; [apply good_header; exact H10'|]. constructor; [split; assumption|]. apply Forall_app. split; [|exact G].
        eapply Forall_impl; [|exact FV2]. intros t [T1 [_ T2]]. split; assumption.
      * exists h, y. rewrite read_lines_app.
        assert (R : rls st i (header_line (str_meta ++ k) :: l :: v) = Ok st1).
        { cbn [read_lines]. rewrite read_header by exact H10'. cbn [checked bind].
          rewrite (rl_meta _ _ k l) by (reflexivity || assumption). cbn [checked bind r_y r_code r_code_line r_cart].
          rewrite Hm, meta_append_new by exact NF.
          rewrite (meta_more k v [l] (filter P m)); [|eapply Forall_impl; [|exact FV2]; intros t (_ & T & _); exact T|exact NF|reflexivity|reflexivity].
          unfold st1. cbn [r_y r_code r_code_line r_cart]. rewrite filter_app. cbn [filter P]. rewrite I. reflexivity. }
        rewrite R. cbn [bind]. rewrite E. unfold st1. cbn [r_code r_code_line r_cart]. rewrite <- app_assoc. reflexivity.
    + destruct (IH (m ++ [(k, v)]) st i F2 ND2) as (G & h & y & E).
      { rewrite filter_app. cbn [filter P]. rewrite I, app_nil_r. exact Hm. }
      split; [exact G|]. exists h, y. cbn [app]. rewrite E. rewrite <- app_assoc. reflexivity.
Qed.

(** *** The first two lines *)
Lemma rl_prefix : forall st i, r_header st = None -> rl st i (str_prefix ++ str_url) = Ok st.
Proof. intros [h y code cl c] i H. cbn [r_header] in H. subst h. reflexivity. Qed.
Lemma split_digits : forall s cur, Forall (fun d => 48 <= d <= 57) s -> rev cur ++ s <> [] -> split_words cur s = [rev cur ++ s].
Proof.
  intros s cur F. revert cur. induction F as [|c s Hc _ IH]; intros cur N; cbn [split_words].
  - rewrite app_nil_r in *. destruct cur; [contradiction|reflexivity].
  - replace (py_isspace c) with false by (unfold py_isspace; lia). rewrite IH; cbn [rev]; rewrite <- app_assoc; [reflexivity|exact N].
Qed.
Lemma rl_version : forall st i v, r_header st = None -> 0 <= v ->
  rl st i (str_version ++ dec_str v) = Ok (mkrs None (r_y st) (r_code st) (r_code_line st) (set_version (r_cart st) v)).
Proof.
  intros st i v Hh Hv. pose proof (dec_str_ok v Hv) as D. destruct D as (D1 & D2 & D3) eqn:DD. clear DD.
  assert (S : strip (str_version ++ dec_str v) = str_version ++ dec_str v).
  { destruct (dec_str v) as [|d ds _] using rev_ind; [contradiction|]. apply Forall_app in D2 as [_ D2]. inversion_clear D2 as [|? ? Hd _].
    unfold str_version. change ([118; 101; 114; 115; 105; 111; 110; 32] ++ ds ++ [d]) with (118 :: ([101; 114; 115; 105; 111; 110; 32] ++ ds) ++ [d]) .
    apply strip_ends; [reflexivity|]. unfold py_isspace. lia. }
  unfold read_line. rewrite S, Hh. rewrite not_under_starts by (cbn; discriminate). cbn [andb is_header].
  replace (starts_with str_version (str_version ++ dec_str v)) with true by (symmetry; apply starts_with_iff; eexists; reflexivity).
  replace (split_words [] (str_version ++ dec_str v)) with ([118; 101; 114; 115; 105; 111; 110] :: split_words [] (dec_str v)) by reflexivity.
  rewrite split_digits by assumption. cbn [rev app]. unfold int_. rewrite (H10 _ v (dec_str_ok v Hv)). reflexivity.
Qed.

(** *** The whole file *)
Lemma patched_out : forall rom m a n rom' i, patched rom m a n rom' -> 0 <= i < zlen rom -> i < a \/ a + n <= i -> mget rom' i = mget rom i.
Proof. intros rom m a n rom' i (_ & _ & E) H O. rewrite E by lia. destruct (_ && _) eqn:X; [lia|reflexivity]. Qed.
Lemma patched_in : forall rom m a n rom' i, patched rom m a n rom' -> 0 <= i < zlen rom -> a <= i < a + n -> mget rom' i = mget m i.
Proof. intros rom m a n rom' i (_ & _ & E) H O. rewrite E by lia. destruct (_ && _) eqn:X; [reflexivity|lia]. Qed.

Lemma filter_twice : forall {A} (p : A -> bool) l, filter p (filter p l) = filter p l.
Proof. intros A p l. induction l as [|x l IH]; [reflexivity|]. cbn [filter]. destruct (p x) eqn:E; [cbn [filter]; rewrite E, IH; reflexivity|exact IH]. Qed.
Lemma meta_lines_filter : forall incl m, meta_lines incl m = meta_lines incl (filter (fun '(k, _) => incl (str_meta ++ k)) m).
Proof.
  intros incl m. induction m as [|[k v] m IH]; [reflexivity|]. unfold meta_lines in *. cbn [filter map concat].
  destruct (incl (str_meta ++ k)) eqn:E; [cbn [map concat]; rewrite E, IH; reflexivity|exact IH].
Qed.
Lemma write_read : forall u sections c d, bytes_ok (c_rom c) -> zlen (c_rom c) = 0x4300 -> 0 <= c_version_id c ->
  mem_create_rom = Ok d -> bytes_ok d -> zlen d = 0x4300 ->
  let incl := included sections in
  (incl str_lua = true -> bytes_ok (c_code c) /\ plain_code (c_code c)) ->
  (incl str_label = true -> match c_label c with Some l => label_ok 32 l | None => True end) ->
  plain_meta (filter (fun '(k, _) => incl (str_meta ++ k)) (c_meta c)) ->
  exists text rom', write_cart_to_source u sections c = Ok text /\
    (forall preprocess, read_cart_from_source int16 int10 lower preprocess false text =
      (code <- preprocess (if incl str_lua then c_code c else []) (if incl str_lua then 3 else 0) ;;
       Ok (mkcart (c_version_id c) (get_pico8_version_tuple (c_version_id c)) 108 false true rom' code None
             (if incl str_label then shown (c_label c) else None) (filter (fun '(k, _) => incl (str_meta ++ k)) (c_meta c))))) /\
    zlen rom' = 0x4300 /\ bytes_ok rom' /\
    forall i, 0 <= i < 0x4300 -> mget rom' i =
      if existsb (fun s => in_section s i && incl s) [str_gfx; str_map; str_gff; str_sfx; str_music] then mget (c_rom c) i else mget d i.
Proof.
  intros u sections c d Br Lr Hv Hd Bd Ld incl Hc Hl (MN & MF).
  set (m := c_rom c) in *. unfold write_cart_to_source. cbv zeta. fold incl. fold m. rewrite Hd. cbn [bind].
  set (st0 := mkrs None 0 [] 0 (new_cart d)).
  set (st1 := mkrs None 0 [] 0 (set_version (new_cart d) (c_version_id c))).
  assert (R1 : rls st0 0 [str_prefix ++ str_url; str_version ++ dec_str (c_version_id c)] = Ok st1).
  { cbn [read_lines]. rewrite rl_prefix by reflexivity. cbn [checked bind]. rewrite rl_version by (reflexivity || exact Hv). reflexivity. }
  set (lua := if incl str_lua then header_line str_lua :: lines_of (image u (c_code c)) else []).
  assert (R2 : exists h y, rls st1 2 lua = Ok (mkrs h y (if incl str_lua then c_code c else []) (if incl str_lua then 3 else 0) (r_cart st1))).
  { unfold lua. destruct (incl str_lua); [|eexists _, _; reflexivity]. destruct (Hc eq_refl) as [Bc Pc].
    destruct (lua_reads u (c_code c) st1 2 Bc Pc eq_refl) as (h & y & E). exists h, y. exact E. }
  assert (G2 : Forall good_line lua).
  { unfold lua. destruct (incl str_lua); [|constructor]. destruct (Hc eq_refl) as [Bc Pc]. constructor; [apply good_header; cbn; intuition discriminate|].
    rewrite lines_image by exact Bc. apply Forall_forall. intros t Ht. apply in_map_iff in Ht as (l & <- & Hin).
    exact (proj1 (proj1 (Forall_forall _ _) (plain_lines u _ Bc Pc) l Hin)). }
  assert (J2 : exists lua', (if incl str_lua then code <- from_p8str u (c_code c) ;; Ok [header_line str_lua; code] else Ok []) = Ok lua' /\ join_nl lua' = join_nl lua).
  { unfold lua. destruct (incl str_lua); [|eexists; split; reflexivity]. destruct (Hc eq_refl) as [Bc Pc]. rewrite from_image by exact Bc. cbn [bind]. eexists. split; [reflexivity|].
    change (header_line str_lua :: lines_of (image u (c_code c))) with ([header_line str_lua] ++ lines_of (image u (c_code c))).
    rewrite join_app, lines_of_join. unfold join_nl. cbn [map concat]. rewrite !app_nil_r. reflexivity. }
  destruct R2 as (h2 & y2 & R2). destruct J2 as (lua' & W2 & J2). rewrite W2. cbn [bind].
  set (code2 := if incl str_lua then c_code c else []) in *. set (cl := if incl str_lua then 3 else 0) in *.
  set (st2 := mkrs h2 y2 code2 cl (r_cart st1)) in *.
  destruct (section_reads int16 int10 lower str_gfx m d (incl str_gfx) (fun y => fst (mem_sprite_addr 0 y)) 0 0x40 0x80 (gfx_text m) st2 (2 + zlen lua))
    as (gfx & h3 & y3 & rom3 & W3 & G3 & R3 & P3); try assumption; try lia;
    [intros y Hy; rewrite sprite_addr_eq by lia; cbn [fst]; lia|cbn; intuition discriminate|intros y Hy; apply gfx_reads; assumption|intros j Hj; reflexivity|].
  rewrite W3. cbn [bind]. clear W3.
  set (st3 := mkrs h3 y3 (r_code st2) (r_code_line st2) (with_rom (r_cart st2) rom3)) in *.
  change (c_rom (r_cart st2)) with d in P3. pose proof P3 as (L3 & B3 & _).
  destruct (section_reads int16 int10 lower str_map m d (incl str_map) (fun y => mem_map_addr 0 y) 0x2000 0x80 0x20
    (fun y => bytes_text (fun x => mem_map_addr x y) m 128) st3 (2 + zlen lua + zlen gfx))
    as (map_ & h4 & y4 & rom4 & W4 & G4 & R4 & P4); try assumption; try lia;
    [intros y Hy; unfold mem_map_addr, k_mem_map_addr; destruct (Z.leb_spec 0x20 y); lia|cbn; intuition discriminate|intros y Hy; apply map_reads; assumption
    |cbn; lia|intros j Hj; change (c_rom (r_cart st3)) with rom3; eapply patched_out; [exact P3|lia|destruct (incl str_gfx); lia]|].
  rewrite W4. cbn [bind]. clear W4.
  set (st4 := mkrs h4 y4 (r_code st3) (r_code_line st3) (with_rom (r_cart st3) rom4)) in *.
  change (c_rom (r_cart st3)) with rom3 in P4. pose proof P4 as (L4 & B4 & _).
  destruct (section_reads int16 int10 lower str_gff m d (incl str_gff) (fun y => mem_flag_addr 0 y) 0x3000 0x80 2
    (fun y => bytes_text (fun x => mem_flag_addr x y) m 128) st4 (2 + zlen lua + zlen gfx + zlen map_))
    as (gff & h5 & y5 & rom5 & W5 & G5 & R5 & P5); try assumption; try lia;
    [intros y Hy; unfold mem_flag_addr, k_mem_flag_addr; lia|cbn; intuition discriminate|intros y Hy; apply gff_reads; assumption
    |cbn; lia|intros j Hj; change (c_rom (r_cart st4)) with rom4; rewrite (patched_out _ _ _ _ _ j P4) by (destruct (incl str_map); lia);
      eapply patched_out; [exact P3|lia|destruct (incl str_gfx); lia]|].
  rewrite W5. cbn [bind]. clear W5.
  set (st5 := mkrs h5 y5 (r_code st4) (r_code_line st4) (with_rom (r_cart st4) rom5)) in *.
  change (c_rom (r_cart st4)) with rom4 in P5. pose proof P5 as (L5 & B5 & _).
  destruct (section_reads int16 int10 lower str_sfx m d (incl str_sfx) (fun y => mem_sfx_addr y 0) 0x3200 0x44 0x40
    (sfx_text m) st5 (2 + zlen lua + zlen gfx + zlen map_ + zlen gff))
    as (sfx & h6 & y6 & rom6 & W6 & G6 & R6 & P6); try assumption; try lia;
    [intros y Hy; unfold mem_sfx_addr, k_mem_sfx_addr; lia|cbn; intuition discriminate|intros y Hy; apply sfx_reads; assumption
    |cbn; lia|intros j Hj; change (c_rom (r_cart st5)) with rom5; rewrite (patched_out _ _ _ _ _ j P5) by (destruct (incl str_gff); lia);
      rewrite (patched_out _ _ _ _ _ j P4) by (destruct (incl str_map); lia);
      eapply patched_out; [exact P3|lia|destruct (incl str_gfx); lia]|].
  rewrite W6. cbn [bind]. clear W6.
  set (st6 := mkrs h6 y6 (r_code st5) (r_code_line st5) (with_rom (r_cart st5) rom6)) in *.
  change (c_rom (r_cart st5)) with rom5 in P6. pose proof P6 as (L6 & B6 & _).
  destruct (section_reads int16 int10 lower str_music m d (incl str_music) (fun y => mem_music_addr y 0) 0x3100 4 0x40
    (music_text m) st6 (2 + zlen lua + zlen gfx + zlen map_ + zlen gff + zlen sfx))
    as (music & h7 & y7 & rom7 & W7 & G7 & R7 & P7); try assumption; try lia;
    [intros y Hy; unfold mem_music_addr, k_mem_music_addr; lia|cbn; intuition discriminate|intros y Hy; apply music_reads; assumption
    |cbn; lia|intros j Hj; change (c_rom (r_cart st6)) with rom6; rewrite (patched_out _ _ _ _ _ j P6) by (destruct (incl str_sfx); lia);
      rewrite (patched_out _ _ _ _ _ j P5) by (destruct (incl str_gff); lia);
      rewrite (patched_out _ _ _ _ _ j P4) by (destruct (incl str_map); lia);
      eapply patched_out; [exact P3|lia|destruct (incl str_gfx); lia]|].
  rewrite W7. cbn [bind]. clear W7.
  set (st7 := mkrs h7 y7 (r_code st6) (r_code_line st6) (with_rom (r_cart st6) rom7)) in *.
  change (c_rom (r_cart st6)) with rom6 in P7. pose proof P7 as (L7 & B7 & _).
  set (label := match c_label c with
    | Some l => if incl str_label && existsb (fun v => negb (v =? 0)) (concat l) then header_line str_label :: map (map ext_hexc) l else []
    | None => [] end).
  set (lab := if incl str_label then shown (c_label c) else None).
  set (i8 := 2 + zlen lua + zlen gfx + zlen map_ + zlen gff + zlen sfx + zlen music).
  assert (R8 : Forall good_line label /\ exists h y, rls st7 i8 label = Ok (mkrs h y code2 cl (with_label (r_cart st7) lab))).
  { assert (None_case : exists h y, rls st7 i8 [] = Ok (mkrs h y code2 cl (with_label (r_cart st7) None))) by (eexists _, _; reflexivity).
    unfold label, lab, shown. destruct (c_label c) as [l|].
    - destruct (incl str_label); cbn [andb]; [|split; [constructor|exact None_case]].
      destruct (existsb (fun v => negb (v =? 0)) (concat l)); [|split; [constructor|exact None_case]].
      destruct (label_reads l st7 i8 (Hl eq_refl) eq_refl) as (G & h & y & E). split; [exact G|]. exists h, y. exact E.
    - split; [constructor|]. destruct (incl str_label); exact None_case. }
  destruct R8 as (G8 & h8 & y8 & R8).
  set (st8 := mkrs h8 y8 code2 cl (with_label (r_cart st7) lab)) in *.
  fold (meta_lines incl (c_meta c)). rewrite meta_lines_filter.
  destruct (meta_reads incl (filter (fun '(k, _) => incl (str_meta ++ k)) (c_meta c)) [] st8 (i8 + zlen label) MF MN eq_refl) as (G9 & h9 & y9 & R9).
  set (kept := filter (fun '(k, _) => incl (str_meta ++ k)) (c_meta c)) in *.
  assert (KK : filter (fun '(k, _) => incl (str_meta ++ k)) kept = kept) by apply filter_twice. cbn [app] in R9. rewrite KK in R9.
  set (all := [str_prefix ++ str_url; str_version ++ dec_str (c_version_id c)] ++ lua ++ gfx ++ map_ ++ gff ++ sfx ++ music ++ label ++ meta_lines incl kept).
  assert (JA : forall x, join_nl ([str_prefix ++ str_url; str_version ++ dec_str (c_version_id c)] ++ lua' ++ x)
                       = join_nl ([str_prefix ++ str_url; str_version ++ dec_str (c_version_id c)] ++ lua ++ x)).
  { intros x. rewrite !join_app, J2. reflexivity. }
  exists (join_nl all), rom7. split; [rewrite JA; reflexivity|]. split; [|split; [|split]].
  - intros preprocess. unfold read_cart_from_source. rewrite Hd. cbn [bind].
    assert (SP : starts_with str_prefix (join_nl all) = true).
    { apply starts_with_iff. unfold all, join_nl. cbn [app map concat]. rewrite <- !app_assoc. eexists. reflexivity. }
    rewrite SP. cbn [orb negb andb]. fold st0.
    assert (GA : Forall good_line all).
    { unfold all. repeat (apply Forall_app; split); try assumption. apply Forall_cons; [|apply Forall_cons; [|constructor]].
      - apply good_chars. repeat (apply Forall_cons; [lia|]). constructor.
      - apply good_chars. apply Forall_app. split; [repeat (apply Forall_cons; [lia|]); constructor|].
        destruct (dec_str_ok (c_version_id c) Hv) as (_ & F & _). eapply Forall_impl; [|exact F]. cbn. intros. lia. }
    rewrite split_join by exact GA. unfold all.
    rewrite read_lines_app, R1. cbn [bind]. change (0 + zlen [str_prefix ++ str_url; str_version ++ dec_str (c_version_id c)]) with 2.
    rewrite read_lines_app, R2. cbn [bind]. fold st2.
    rewrite read_lines_app, R3. cbn [bind]. rewrite read_lines_app, R4. cbn [bind]. rewrite read_lines_app, R5. cbn [bind].
    rewrite read_lines_app, R6. cbn [bind]. rewrite read_lines_app, R7. cbn [bind]. fold i8.
    rewrite read_lines_app, R8. cbn [bind]. rewrite R9. cbn [bind r_code r_code_line r_cart]. reflexivity.
  - lia.
  - exact B7.
  - intros i Hi. cbn [existsb]. rewrite orb_false_r. unfold in_section.
    change (zeqb_list str_gfx str_gfx) with true. change (zeqb_list str_map str_gfx) with false. change (zeqb_list str_map str_map) with true.
    change (zeqb_list str_gff str_gfx) with false. change (zeqb_list str_gff str_map) with false. change (zeqb_list str_gff str_gff) with true.
    change (zeqb_list str_sfx str_gfx) with false. change (zeqb_list str_sfx str_map) with false. change (zeqb_list str_sfx str_gff) with false.
    change (zeqb_list str_sfx str_music) with false. change (zeqb_list str_sfx str_sfx) with true.
    change (zeqb_list str_music str_gfx) with false. change (zeqb_list str_music str_map) with false. change (zeqb_list str_music str_gff) with false.
    change (zeqb_list str_music str_music) with true. cbv iota.
    destruct P3 as (_ & _ & P3). destruct P4 as (_ & _ & P4). destruct P5 as (_ & _ & P5). destruct P6 as (_ & _ & P6). destruct P7 as (_ & _ & P7).
    rewrite P7, P6, P5, P4, P3 by lia.
    clear - Hi. destruct (incl str_gfx), (incl str_map), (incl str_gff), (incl str_sfx), (incl str_music);
      rewrite ?andb_true_r, ?andb_false_r;
      repeat match goal with |- context [if ?b then _ else _] => destruct b eqn:? end; try reflexivity; exfalso; lia.
Qed.

(** *** Raw source *)
Lemma split_nl_last : forall l cur, ~ In 10 l -> split_nl cur l = [rev cur ++ l].
Proof.
  induction l as [|c l IH]; intros cur N; cbn [split_nl]; [rewrite app_nil_r; reflexivity|].
  destruct (Z.eqb_spec c 10) as [->|]; [exfalso; apply N; left; reflexivity|].
  rewrite IH by (intros I; apply N; right; exact I). cbn [rev]. rewrite <- app_assoc. reflexivity.
Qed.
Lemma split_lines_of : forall r l, Forall good_line (l :: r) -> split_nl [] (l ++ concat (map (cons 10) r)) = l :: r.
Proof.
  induction r as [|x r IH]; intros l F; inversion_clear F as [|? ? [G1 G2] F2].
  - cbn [map concat]. rewrite app_nil_r, split_nl_last by exact G1. reflexivity.
  - cbn [map concat app]. rewrite split_nl_line by exact G1. rewrite app_nil_r, drop13_id by exact G2. rewrite IH by exact F2. reflexivity.
Qed.
Lemma lines_no_final : forall s, s <> [] -> (forall r, s <> r ++ [10]) -> Forall good_line (lines_of s) -> p8_split_lines s = lines_of s.
Proof.
  intros s N E F. unfold p8_split_lines.
  assert (SE : split_nl [] s = lines_of s).
  { destruct (lines_of_some s) as (l & r & L). rewrite (lines_of_code s l r L) at 1. rewrite L in *. apply split_lines_of. exact F. }
  rewrite SE. destruct (rev (lines_of s)) as [|x r] eqn:R; [reflexivity|]. destruct x as [|c x]; [|reflexivity]. exfalso.
  assert (L : lines_of s = rev r ++ [[]]) by (rewrite <- (rev_involutive (lines_of s)), R; reflexivity).
  pose proof (lines_of_join s) as J. rewrite L, join_app in J. change (join_nl [[]]) with [10] in J. apply app_inv_tail in J.
  destruct r as [|y r]; [apply N; rewrite <- J; reflexivity|]. cbn [rev] in J. rewrite join_app in J. unfold join_nl in J at 2. cbn [map concat] in J.
  rewrite app_nil_r, app_assoc in J. exact (E _ (eq_sym J)).
Qed.
Lemma raw_reads : forall u c d, bytes_ok (c_code c) -> (forall l r, is_line (c_code c) l -> l <> r ++ [13]) -> mem_create_rom = Ok d ->
  exists text code, write_cart_to_raw_source false u c = Ok text /\
    (c_code c = code ++ [10] \/ c_code c = code /\ forall r, code <> r ++ [10]) /\
    forall preprocess, read_cart_from_source int16 int10 lower preprocess true text =
      (code' <- preprocess code 0 ;; Ok (with_code (new_cart d) code' None)).
Proof.
  intros u c d B P Hd. unfold write_cart_to_raw_source. rewrite from_image by exact B. cbn [bind]. exists (image u (c_code c)).
  set (code := match rev (c_code c) with x :: r => if x =? 10 then rev r else c_code c | [] => c_code c end).
  assert (Split : c_code c = code ++ [10] \/ c_code c = code /\ forall r, code <> r ++ [10]).
  { unfold code. destruct (rev (c_code c)) as [|x r] eqn:R.
    - right. split; [reflexivity|]. intros r E. rewrite E, rev_app_distr in R. discriminate R.
    - assert (E : c_code c = rev r ++ [x]) by (rewrite <- (rev_involutive (c_code c)), R; reflexivity).
      destruct (Z.eqb_spec x 10) as [->|NX]; [left; exact E|]. right. split; [reflexivity|]. intros q Q. rewrite E in Q. apply app_inj_tail in Q as [_ Q]. contradiction. }
  exists code. split; [reflexivity|]. split; [exact Split|]. clearbody code. intros preprocess.
  assert (Bc : bytes_ok code) by (destruct Split as [E|[E _]]; rewrite E in B; [apply bytes_app_inv in B; apply B|exact B]).
  assert (L : forall l, In l (lines_of code) -> ~ In 10 l /\ forall r, l <> r ++ [13]).
  { intros l Hl. split; [exact (proj2 (lines_of_are _ _ Hl))|]. intros r. apply P. destruct (lines_of_are _ _ Hl) as ((x & y & E) & N). split; [|exact N].
    destruct Split as [S|[S _]]; rewrite S; [|exists x, y; exact E]. exists x, (y ++ [10]). cbn [app].
    change (10 :: (code ++ [10]) ++ [10]) with ((10 :: code ++ [10]) ++ [10]). rewrite E, <- !app_assoc. cbn [app]. rewrite <- app_assoc. reflexivity. }
  assert (G : Forall good_line (lines_of (image u code))).
  { rewrite lines_image by exact Bc. apply Forall_forall. intros t Ht. apply in_map_iff in Ht as (l & <- & Hl). destruct (L l Hl).
    apply image_good; try assumption. exact (proj1 (Forall_forall _ _) (lines_bytes code Bc) l Hl). }
  unfold read_cart_from_source. rewrite Hd. cbn [bind orb].
  set (st := mkrs (Some str_lua) 0 [] 0 (new_cart d)).
  assert (R : exists y, read_lines int16 int10 lower true st 0 (p8_split_lines (image u (c_code c))) = Ok (mkrs (Some str_lua) y code 0 (new_cart d))).
  { assert (A : exists y, read_lines int16 int10 lower true st 0 (lines_of (image u code)) = Ok (mkrs (Some str_lua) y code 0 (new_cart d))).
    { apply lua_all; [exact Bc|apply Forall_forall; intros; left; reflexivity|reflexivity|reflexivity|reflexivity]. }
    destruct Split as [E|[E N]].
    - rewrite E, image_app. replace (image u [10]) with [10] by (unfold image; cbn [map concat]; rewrite image_fixed by (cbn; tauto); reflexivity).
      rewrite <- lines_of_join, split_join by exact G. exact A.
    - rewrite E. destruct code as [|x code]; [exists 0; reflexivity|].
      rewrite lines_no_final; [exact A| | |exact G].
      + intros Z. apply image_nil in Z; [discriminate Z|exact Bc].
      + intros r Z. destruct (image_split u 10 _ r [] ltac:(cbn; tauto) Bc Z) as (s1 & s2 & E1 & _ & E2).
        assert (B2 : bytes_ok s2) by (rewrite E1 in Bc; apply bytes_app_inv in Bc as [_ Bc]; inversion Bc; assumption).
        apply image_nil in E2; [|exact B2]. subst s2. exact (N s1 E1). }
  destruct R as (y & R). rewrite R. reflexivity.
Qed.
End File.
