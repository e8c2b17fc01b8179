(** Entries of pods and what is done with them. *)
From Coq Require Import String List.
From Verif Require Import M_Base L_Util M_Num M_Text M_Lz4 S_Lz4 L_Lz4 P_Lz4 M_Pxu L_Pxu M_Zbytes P_Zbytes M_Expr M_P64 M_Cart64 L_Cart64 L_PodPack M_Export S_Export L_Export.
Import ListNotations.
Open Scope Z_scope.

(** * Readers that look only at what they read *)
Definition local {A} (f : list Z -> res (A * list Z)) : Prop :=
  forall d x r, f d = Ok (x, r) -> exists c, d = c ++ r /\ forall r', f (c ++ r') = Ok (x, r').
Lemma local_ret {A} (x : A) : local (fun d => Ok (x, d)).
Proof. intros d y r E. apply Ok_inj in E. injection E as <- <-. exists []. now split. Qed.
Lemma local_err {A} e : @local A (fun d => Err e).
Proof. intros d y r E. discriminate. Qed.
Lemma local_val {A B} (m : res B) (g : B -> list Z -> res (A * list Z)) : (forall v, local (g v)) -> local (fun d => v <- m ;; g v d)%res.
Proof. intros L d x r E. destruct m as [v|]; [|discriminate]. cbn [bind] in *. now apply L. Qed.
Lemma local_bind {A B} (f : list Z -> res (B * list Z)) (g : B -> list Z -> res (A * list Z)) :
  local f -> (forall v, local (g v)) -> local (fun d => '(v, d) <- f d ;; g v d)%res.
Proof.
  intros Lf Lg d x r E. destruct (f d) as [(v, d1)|] eqn:Ef; [|discriminate]. cbn [bind] in E.
  apply Lf in Ef as (c1 & -> & F1). apply Lg in E as (c2 & -> & F2). exists (c1 ++ c2). split; [now rewrite app_assoc|].
  intros r'. rewrite <- app_assoc, F1. cbn [bind]. apply F2.
Qed.

Lemma r_bytes_inv n d x r : r_bytes n false d = Ok (x, r) -> d = x ++ r /\ length x = n.
Proof.
  unfold r_bytes. destruct (Nat.ltb_spec (length (firstn n d)) n) as [L|L]; [discriminate|]. cbn [andb]. intros E. apply Ok_inj in E.
  injection E as <- <-. rewrite firstn_skipn. split; [reflexivity|]. rewrite firstn_length in *. lia.
Qed.
Lemma r_bytes_app n x r : length x = n -> r_bytes n false (x ++ r) = Ok (x, r).
Proof. intros L. unfold r_bytes. rewrite firstn_exact, skipn_exact by exact L. now rewrite L, Nat.ltb_irrefl. Qed.
Lemma local_bytes n : local (r_bytes n false).
Proof. intros d x r E. apply r_bytes_inv in E as (-> & L). exists x. split; [reflexivity|]. intros r'. now apply r_bytes_app. Qed.
Lemma local_u32 : local r_u32.
Proof.
  intros d x r E. destruct d as [|a [|b [|c [|e d]]]]; try discriminate. cbn in E. apply Ok_inj in E. injection E as <- <-.
  exists [a; b; c; e]. now split.
Qed.
Lemma local_u8 : local r_u8.
Proof. intros d x r E. destruct d as [|a d]; [discriminate|]. cbn in E. apply Ok_inj in E. injection E as <- <-. exists [a]. now split. Qed.

Lemma w_u32_len v b : w_u32 v = Ok b -> length b = 4%nat.
Proof. unfold w_u32. destruct (_ && _); [|discriminate]. intros E. apply Ok_inj in E. now subst. Qed.
Lemma w_u32_read v b : w_u32 v = Ok b -> forall d, r_u32 (b ++ d) = Ok (v, d).
Proof.
  intros E. assert (0 <= v < 4294967296) as H. { unfold w_u32 in E. destruct (_ && _) eqn:Ec; [|discriminate]. lia. }
  destruct (r_u32_ok v H) as (b' & E' & R). rewrite E in E'. apply Ok_inj in E'. now subst.
Qed.
Lemma r_u32_write a v r : bytes_ok a -> length a = 4%nat -> r_u32 (a ++ r) = Ok (v, r) -> w_u32 v = Ok a /\ u32_ok v.
Proof.
  intros B L. destruct a as [|a [|b [|c [|e [|? ?]]]]]; try discriminate. cbn. intros E. apply Ok_inj in E. injection E as E. subst v.
  inversion_clear B as [|? ? B1 B']. inversion_clear B' as [|? ? B2 B'']. inversion_clear B'' as [|? ? B3 B4]. inversion_clear B4 as [|? ? B4' _].
  unfold u32_ok. split; [|lia]. unfold w_u32. replace (_ && _) with true by lia. f_equal.
  repeat (f_equal; [Z.div_mod_to_equations; lia|]). f_equal. Z.div_mod_to_equations; lia.
Qed.
Lemma r_u8_4 (c : list Z) : length c = 4%nat -> exists x y z w, c = [x; y; z; w].
Proof. destruct c as [|x [|y [|z [|w [|? ?]]]]]; try discriminate. eauto 6. Qed.
Lemma bind_ok {A B} (m : res A) (k : A -> res B) y : bind m k = Ok y -> exists x, m = Ok x /\ k x = Ok y.
Proof. destruct m as [x|]; [cbn; eauto|discriminate]. Qed.
Lemma check_ok b : check_ b = Ok tt -> b = true.
Proof. now destruct b. Qed.
Lemma local_len4 d x r : r_u32 d = Ok (x, r) -> exists c, d = c ++ r /\ length c = 4%nat /\ forall r', r_u32 (c ++ r') = Ok (x, r').
Proof.
  intros E. destruct d as [|a [|b [|c [|e d]]]]; try discriminate. cbn in E. apply Ok_inj in E. injection E as <- <-.
  exists [a; b; c; e]. now repeat split.
Qed.

Section Pod.
Context (utf8 : list Z -> bool).
Lemma local_zstr n : local (r_zstr utf8 n).
Proof.
  unfold r_zstr, read_zbytes. change (1 <? 1)%nat with false. cbn [andb]. rewrite Nat.mul_1_r. apply local_bind.
  - apply local_bind; [apply local_bytes|]. intros v. apply local_val. intros w. apply local_ret.
  - intros v. destruct (utf8 v); [apply local_ret|apply local_err].
Qed.
Lemma local_lz4 : local r_lz4.
Proof.
  unfold r_lz4. apply local_bind; [apply local_u32|]. intros n. apply local_bind; [apply local_bytes|]. intros b.
  apply local_val. intros v. apply local_ret.
Qed.
Lemma local_colors n : local (r_colors n).
Proof.
  induction n as [|n IH]; [apply local_ret|]. cbn [r_colors]. apply local_bind; [apply local_u8|]. intros a.
  apply local_bind; [apply local_u8|]. intros b. apply local_bind; [apply local_u8|]. intros c. apply local_bind; [exact IH|]. intros l. apply local_ret.
Qed.
Lemma local_entry : local (read_entry utf8).
Proof.
  unfold read_entry. apply local_bind; [apply local_bytes|]. intros h.
  destruct (_ || _).
  { apply local_bind; [apply local_u32|]. intros z. apply local_val. intros _. apply local_bind; [apply local_u32|]. intros size.
    apply local_bind; [apply local_zstr|]. intros name. apply local_bind; [destruct (zeqb_list _ _); [apply local_lz4|apply local_bytes]|]. intros b. apply local_ret. }
  destruct (_ || _).
  { apply local_bind; [apply local_u32|]. intros size. apply local_bind; [apply local_u32|]. intros w. apply local_bind; [apply local_u32|]. intros hh.
    apply local_bind; [apply local_u32|]. intros bpp. apply local_bind; [apply local_u32|]. intros z. apply local_val. intros _.
    apply local_bind; [apply local_u32|]. intros z2. apply local_val. intros _.
    apply local_bind; [destruct (zeqb_list _ _); [apply local_lz4|destruct (_ <? _); [apply local_err|apply local_bytes]]|]. intros b.
    apply local_val. intros c. apply local_ret. }
  destruct (zeqb_list _ _); [|apply local_err].
  apply local_bind; [apply local_u32|]. intros size. apply local_val. intros _. apply local_bind; [apply local_colors|]. intros l. apply local_ret.
Qed.

(** * Entries one after the other *)
(** the bytes [c] hold the entry [e] *)
Definition spelled (c : list Z) (e : entry) : Prop :=
  forall r, read_entry utf8 (c ++ r) = Ok (e_header e, e_name e, e_content e, r).
Fixpoint laid (pos : nat) (cs : list (list Z)) (es : list entry) : Prop :=
  match cs, es with
  | [], [] => True
  | c :: cs, e :: es => spelled c e /\ e_pos e = pos /\ e_end e = (pos + length c)%nat /\ laid (pos + length c) cs es
  | _, _ => False
  end.
Lemma read_laid n : forall pos d es, read_entries utf8 n pos d = Ok es ->
  exists cs r, d = concat cs ++ r /\ laid pos cs es /\ length es = n.
Proof.
  induction n as [|n IH]; intros pos d es E; cbn [read_entries] in E.
  - apply Ok_inj in E. subst. exists [], d. now repeat split.
  - destruct (read_entry utf8 d) as [(((h, nm), c), r)|] eqn:Ee; [|discriminate]. cbn [bind] in E.
    apply local_entry in Ee as (ch & -> & Sp). replace (length (ch ++ r) - length r)%nat with (length ch) in E by (rewrite app_length; lia).
    destruct (read_entries utf8 n (pos + length ch) r) as [es'|] eqn:Er; [|discriminate]. cbn [bind] in E. apply Ok_inj in E. subst.
    destruct (IH _ _ _ Er) as (cs & r' & -> & L & Ln). exists (ch :: cs), r'. cbn [concat laid length]. rewrite <- app_assoc.
    repeat split; auto.
Qed.
Lemma laid_read : forall cs pos es r, laid pos cs es -> read_entries utf8 (length es) pos (concat cs ++ r) = Ok es.
Proof.
  induction cs as [|c cs IH]; intros pos es r L; destruct es as [|e es]; cbn in L; try easy.
  destruct L as (Sp & P1 & P2 & L). cbn [length read_entries concat]. rewrite <- app_assoc, Sp. cbn [bind].
  replace (length (c ++ concat cs ++ r) - length (concat cs ++ r))%nat with (length c) by (rewrite !app_length; lia).
  rewrite IH by exact L. cbn [bind]. destruct e as [h p q nm ct]. cbn in *. now subst.
Qed.
Lemma laid_len : forall cs pos es, laid pos cs es -> length cs = length es.
Proof. induction cs as [|c cs IH]; intros pos [|e es] L; cbn in L; try easy. cbn. f_equal. exact (IH _ _ (proj2 (proj2 (proj2 L)))). Qed.
Lemma laid_sum : forall cs pos es, laid pos cs es -> list_sum (map (fun e => e_end e - e_pos e)%nat es) = length (concat cs).
Proof.
  induction cs as [|c cs IH]; intros pos [|e es] L; cbn in L; try easy. destruct L as (_ & P1 & P2 & L). cbn [map list_sum fold_right concat].
  change (fold_right Nat.add 0%nat ?l) with (list_sum l). rewrite (IH _ _ L), app_length. lia.
Qed.
Lemma laid_app : forall x pos y ex ey, length x = length ex -> laid pos (x ++ y) (ex ++ ey) <-> laid pos x ex /\ laid (pos + length (concat x)) y ey.
Proof.
  induction x as [|c x IH]; intros pos y [|e ex] ey L; try discriminate; cbn [app laid concat length].
  - rewrite Nat.add_0_r. tauto.
  - rewrite IH by (cbn in L; lia). rewrite app_length, Nat.add_assoc. tauto.
Qed.
(** an entry at another place *)
Definition move (f : nat -> nat) (e : entry) : entry := mkentry (e_header e) (f (e_pos e)) (f (e_end e)) (e_name e) (e_content e).
Lemma laid_move f k : forall cs pos es, (forall n, (pos <= n)%nat -> f n + k = f pos + (n - pos) + k)%nat -> laid pos cs es -> laid (f pos) cs (map (move f) es).
Proof.
  induction cs as [|c cs IH]; intros pos [|e es] F L; cbn in L; try easy. destruct L as (Sp & P1 & P2 & L). cbn [map laid move e_header e_pos e_end e_name e_content].
  split; [exact Sp|]. subst. rewrite P2. assert (Ef : f (e_pos e + length c)%nat = (f (e_pos e) + length c)%nat) by (pose proof (F (e_pos e + length c)%nat); lia).
  split; [reflexivity|]. split; [exact Ef|]. rewrite <- Ef. apply IH; [|exact L]. intros n Hn. pose proof (F n ltac:(lia)). lia.
Qed.
Lemma laid_items f es : map item_of (map (move f) es) = map item_of es.
Proof. rewrite map_map. apply map_ext. reflexivity. Qed.
(** the bytes at each entry *)
Lemma laid_at : forall cs pos es, laid pos cs es -> forall a, length a = pos -> forall z, map (at_entry (a ++ concat cs ++ z)) es = cs.
Proof.
  induction cs as [|c cs IH]; intros pos [|e es] L; cbn in L; try easy. intros a La z. destruct L as (Sp & P1 & P2 & L). cbn [map concat]. f_equal.
  - unfold at_entry. rewrite P1, P2, skipn_exact by exact La. replace (pos + length c - pos)%nat with (length c) by lia. rewrite <- app_assoc. now apply firstn_exact.
  - rewrite <- app_assoc, app_assoc. apply (IH _ _ L). rewrite app_length. lia.
Qed.

(** * Pods, taken apart *)
(** a header, up to the count *)
Definition header_ok (hd : list Z) : Prop :=
  length hd = 44%nat /\ bytes_ok hd /\ forall d, read_pod_file utf8 (hd ++ d) =
    ('(count, d') <- r_u32 d ;; es <- read_entries utf8 (Z.to_nat count) 76 (skipn 28 d') ;; Ok (mkpod (hd ++ d) es))%res.
Definition built (hd jk : list Z) (cs : list (list Z)) (p : pod_file) : Prop :=
  header_ok hd /\ length jk = 28%nat /\ bytes_ok jk /\ Forall bytes_ok cs /\ laid 76 cs (p_entries p) /\ u32_ok (zlen (p_entries p)) /\
  exists b, w_u32 (zlen (p_entries p)) = Ok b /\ p_data p = hd ++ b ++ jk ++ concat cs.


Lemma built_sound hd jk cs p : built hd jk cs p -> sound utf8 p.
Proof.
  intros ((Lh & Bh & Hr) & Lj & Bj & Bc & L & U & b & Eb & Ed). split; [|split].
  - rewrite Ed, Hr, (w_u32_read _ _ Eb). cbn [bind]. rewrite skipn_exact by exact Lj. unfold zlen. rewrite Nat2Z.id.
    rewrite <- (app_nil_r (concat cs)) at 1. rewrite (laid_read _ _ _ _ L). cbn [bind]. destruct p as [d es]. cbn in *. now rewrite Ed.
  - rewrite Ed, (laid_sum _ _ _ L), !app_length, (w_u32_len _ _ Eb). lia.
  - rewrite Ed. apply Forall_app. split; [exact Bh|]. apply Forall_app. split; [now apply w_u32_bytes in Eb|]. apply Forall_app. split; [exact Bj|]. now apply Forall_concat.
Qed.
Lemma local_zstr_len n d x r : r_zstr utf8 n d = Ok (x, r) -> exists c, d = c ++ r /\ length c = n /\ forall r', r_zstr utf8 n (c ++ r') = Ok (x, r').
Proof.
  intros E. destruct (local_zstr n d x r E) as (c & -> & F). exists c. split; [reflexivity|]. split; [|exact F].
  unfold r_zstr, read_zbytes in E. rewrite Nat.mul_1_r in E. apply bind_ok in E as ((s, d') & E & E'). apply bind_ok in E as ((s', d'') & E & E'').
  apply r_bytes_inv in E as (E & L). change (1 <? 1)%nat with false in E''. cbn [andb] in E''. apply bind_ok in E'' as (? & _ & E''). apply Ok_inj in E''. injection E'' as _ <-.
  destruct (utf8 s); [|discriminate]. apply Ok_inj in E'. injection E' as _ <-. apply app_inv_tail in E. now subst.
Qed.
Lemma sound_built p : sound utf8 p -> exists hd jk cs, built hd jk cs p.
Proof.
  intros (E & Ld & B). unfold read_pod_file in E.
  apply bind_ok in E as ((sig, d1) & E1 & E). apply r_bytes_inv in E1 as (E1 & L1). apply bind_ok in E as (t1 & C1 & E). destruct t1.
  apply bind_ok in E as ((z1, d2) & E2 & E). apply local_len4 in E2 as (c2 & E2 & L2 & F2). apply bind_ok in E as (t2 & C2 & E). destruct t2.
  apply bind_ok in E as ((z2, d3) & E3 & E). apply local_len4 in E3 as (c3 & E3 & L3 & F3). apply bind_ok in E as (t3 & C3 & E). destruct t3.
  apply bind_ok in E as ((nm, d4) & E4 & E). apply local_zstr_len in E4 as (c4 & E4 & L4 & F4).
  apply bind_ok in E as ((count, d5) & E5 & E). pose proof E5 as E5'. apply local_len4 in E5 as (c5 & E5 & L5 & F5).
  apply bind_ok in E as (es & Ee & E). apply Ok_inj in E. destruct (read_laid _ _ _ _ Ee) as (cs & r & Er & La & Ln).
  assert (p_entries p = es) as Ep by now rewrite <- E.
  rewrite Ep, (laid_sum _ _ _ La) in Ld.
  assert (D : p_data p = ((sig ++ c2 ++ c3 ++ c4) ++ c5 ++ d5)) by (rewrite E1, E2, E3, E4, E5, <- !app_assoc; reflexivity).
  set (hd := sig ++ c2 ++ c3 ++ c4) in *. assert (length hd = 44%nat) as Lh by (unfold hd; rewrite !app_length; lia).
  assert (length d5 = 28 + length (concat cs))%nat as L5' by (apply (f_equal (@length Z)) in D; rewrite !app_length in D; lia).
  assert (r = []) as ->.
  { apply (f_equal (@length Z)) in Er. rewrite skipn_length, app_length in Er. destruct r; [reflexivity|cbn in Er; lia]. }
  rewrite app_nil_r in Er. rewrite D in B. apply Forall_app in B as (B1 & B2). apply Forall_app in B2 as (B2 & B3).
  assert (d5 = firstn 28 d5 ++ concat cs) as Ed5 by (rewrite <- Er; symmetry; apply firstn_skipn).
  destruct (r_u32_write c5 count d5 B2 L5 ltac:(now rewrite E5 in E5')) as (W & U).
  assert (zlen es = count) as Lz by (unfold zlen; rewrite Ln; unfold u32_ok in U; lia).
  exists hd, (firstn 28 d5), cs. rewrite Ed5 in B3. apply Forall_app in B3 as (B3 & B4).
  split; [|split; [|split; [|split; [|split; [|split]]]]].
  - split; [exact Lh|]. split; [exact B1|]. intros d. unfold read_pod_file, hd. rewrite <- !app_assoc, r_bytes_app by exact L1. cbn [bind]. rewrite C1. cbn [bind].
    rewrite F2. cbn [bind]. rewrite C2. cbn [bind]. rewrite F3. cbn [bind]. rewrite C3. cbn [bind]. rewrite F4. reflexivity.
  - rewrite firstn_length. lia.
  - exact B3.
  - clear -B4. induction cs as [|c cs IH]; [constructor|]. cbn in B4. apply Forall_app in B4 as (B1 & B2). constructor; auto.
  - now rewrite Ep.
  - now rewrite Ep, Lz.
  - exists c5. rewrite Ep, Lz. split; [exact W|]. rewrite D. now rewrite Ed5 at 1.
Qed.
End Pod.
