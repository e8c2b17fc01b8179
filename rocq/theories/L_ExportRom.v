(** System roms and html exports. *)
From Coq Require Import String List.
From Verif Require Import M_Base L_Util M_Num M_Text M_Lz4 M_Pxu M_Zbytes P_Zbytes M_Expr M_P64 M_Cart64 M_Export S_Export L_Export L_ExportJs L_ExportPod.
Import ListNotations.
Open Scope Z_scope.

Lemma sysrom_length es d : sysrom_of es d -> (length es <= length d)%nat.
Proof. induction 1 as [|e es d a b c x B L _ IH]; cbn [length]; [lia|]. rewrite app_length. lia. Qed.
Lemma sysrom_read es d : sysrom_of es d -> forall fuel, (length es <= fuel)%nat -> read_sysrom_loop fuel d = Ok es.
Proof.
  induction 1 as [|e es d a b c x B L _ IH]; intros fuel Hf; [now destruct fuel|]. cbn [length] in Hf. destruct fuel as [|fuel]; [lia|].
  cbn [read_sysrom_loop r_u32be bind]. replace (Z.to_nat (a * 16777216 + b * 65536 + c * 256 + x)) with (length e) by (unfold zlen in L; lia).
  rewrite r_bytes_app by reflexivity. cbn [bind]. rewrite IH by lia. reflexivity.
Qed.
Lemma sysrom_sound fuel : forall d es, bytes_ok d -> read_sysrom_loop fuel d = Ok es -> sysrom_of es d.
Proof.
  induction fuel as [|fuel IH]; intros d es B E; destruct d as [|a d]; cbn [read_sysrom_loop] in E; try discriminate; try (apply Ok_inj in E; subst; constructor).
  destruct d as [|b [|c [|x d]]]; try discriminate. cbn [r_u32be bind] in E.
  apply bind_ok in E as ((e, r) & E1 & E). apply r_bytes_inv in E1 as (-> & L). apply bind_ok in E as (es' & E2 & E). apply Ok_inj in E. subst es.
  change (a :: b :: c :: x :: e ++ r) with ([a; b; c; x] ++ e ++ r) in B. apply Forall_app in B as (B1 & B). apply Forall_app in B as (B2 & B3).
  constructor; [exact B1| |now apply IH]. inversion_clear B1 as [|? ? Ha B']. inversion_clear B' as [|? ? Hb B'']. inversion_clear B'' as [|? ? Hc B4]. inversion_clear B4 as [|? ? Hx _].
  unfold zlen. lia.
Qed.
Lemma sysrom_write es d : sysrom_bytes es = Ok d -> sysrom_of es d.
Proof.
  revert d. induction es as [|e es IH]; intros d E; cbn [sysrom_bytes] in E; [apply Ok_inj in E; subst; constructor|].
  apply bind_ok in E as (n & En & E). apply bind_ok in E as (r & Er & E). apply Ok_inj in E. subst d. unfold w_u32be in En.
  destruct ((0 <=? zlen e) && (zlen e <? 4294967296)) eqn:Ec; [|discriminate]. apply Ok_inj in En. subst n. cbn [app]. constructor; [| |now apply IH].
  - repeat (constructor; [Z.div_mod_to_equations; lia|]). constructor.
  - Z.div_mod_to_equations; lia.
Qed.
Lemma sysrom_unique es d : sysrom_of es d -> sysrom_bytes es = Ok d.
Proof.
  induction 1 as [|e es d a b c x B L _ IH]; [reflexivity|]. cbn [sysrom_bytes].
  inversion_clear B as [|? ? Ha B']. inversion_clear B' as [|? ? Hb B'']. inversion_clear B'' as [|? ? Hc B4]. inversion_clear B4 as [|? ? Hx _].
  unfold w_u32be. replace (_ && _) with true by lia. cbn [bind]. rewrite IH. cbn [bind app]. f_equal.
  assert (zlen e / 16777216 = a /\ zlen e / 65536 mod 256 = b /\ zlen e / 256 mod 256 = c /\ zlen e mod 256 = x) as (-> & -> & -> & ->).
  { rewrite L. repeat split; Z.div_mod_to_equations; lia. }
  reflexivity.
Qed.
Lemma sysrom_writes es : Forall (fun e => u32_ok (zlen e)) es -> exists d, sysrom_bytes es = Ok d.
Proof.
  induction 1 as [|e es U _ (d & E)]; [now exists []|]. cbn [sysrom_bytes]. unfold w_u32be, u32_ok in *. replace (_ && _) with true by lia. cbn [bind]. rewrite E. cbn. eauto.
Qed.

(** * Html *)
Lemma app_pre {A} (p s q t : list A) : p ++ s = q ++ t -> (length p <= length q)%nat -> exists w, q = p ++ w /\ s = w ++ t.
Proof.
  revert q. induction p as [|c p IH]; intros q E L; [now exists q|]. destruct q as [|d q]; [cbn in L; lia|].
  injection E as -> E. cbn in L. destruct (IH q E) as (w & -> & ->); [lia|]. now exists w.
Qed.
Definition key := k_p64cart.
Lemma hexdigit_is c : hexdigit c <-> is_hexdigit c = true.
Proof. unfold hexdigit, is_hexdigit. lia. Qed.
Lemma take_hex_app g z : Forall hexdigit g -> take_hex (g ++ 34 :: z) = (g, 34 :: z).
Proof. induction 1 as [|c g H _ IH]; [reflexivity|]. apply hexdigit_is in H. cbn [app take_hex]. now rewrite H, IH. Qed.
Lemma take_hex_split s : s = fst (take_hex s) ++ snd (take_hex s) /\ Forall hexdigit (fst (take_hex s)).
Proof.
  induction s as [|c s (E & F)]; [split; [reflexivity|constructor]|]. cbn [take_hex]. destruct (is_hexdigit c) eqn:H; [|split; [reflexivity|constructor]].
  destruct (take_hex s) as (a, b). cbn [fst snd] in *. split; [cbn; now rewrite <- E|]. constructor; [now apply hexdigit_is|exact F].
Qed.
Definition here (s : list Z) : option (list Z * list Z * list Z) :=
  match lit k_p64cart s with Some (h, r) => let '(g, z) := take_hex r in if starts_with [34] z then Some (h, g, z) else None | None => None end.
Lemma html_find_eq s : html_find s = match here s with Some r => Some r | None => match s with [] => None | c :: t => match html_find t with Some (a, g, z) => Some (c :: a, g, z) | None => None end end end.
Proof. destruct s; reflexivity. Qed.
Lemma here_complete g z : Forall hexdigit g -> here (key ++ g ++ 34 :: z) = Some (key, g, 34 :: z).
Proof. intros F. unfold here, key. rewrite lit_app. rewrite take_hex_app by exact F. reflexivity. Qed.
Lemma here_sound s a g z : here s = Some (a, g, z) -> a = key /\ Forall hexdigit g /\ exists z', z = 34 :: z' /\ s = key ++ g ++ 34 :: z'.
Proof.
  unfold here. destruct (lit k_p64cart s) as [(h, r)|] eqn:E; [|discriminate]. apply lit_some in E as (-> & ->).
  pose proof (take_hex_split r) as (Er & F). destruct (take_hex r) as (g0, z0). cbn [fst snd] in *. destruct (starts_with [34] z0) eqn:Es; [|discriminate].
  intros Q. injection Q as <- <- <-. split; [reflexivity|]. split; [exact F|].
  destruct z0 as [|c z0]; [discriminate|]. unfold starts_with in Es. apply zeqb_list_true in Es. cbn in Es. injection Es as ->. exists z0. split; [reflexivity|]. now rewrite Er.
Qed.
Lemma html_complete a g z : html_cart a g z -> html_find (a ++ g ++ z) = Some (a, g, z).
Proof.
  intros (p & z' & -> & F & -> & First). change (asc "p64cart_str="%string ++ [34]) with key in *.
  assert (forall p' p1, p = p1 ++ p' -> html_find ((p' ++ key) ++ g ++ 34 :: z') = Some (p' ++ key, g, 34 :: z')) as H.
  { induction p' as [|c p' IH]; intros p1 E.
    - rewrite html_find_eq. cbn [app]. now rewrite (here_complete g z' F).
    - rewrite html_find_eq. cbn [app]. destruct (here (c :: (p' ++ key) ++ g ++ 34 :: z')) as [((h, g'), z2)|] eqn:Eh.
      + exfalso. apply here_sound in Eh as (-> & F' & q & -> & Eq). assert (length p <= length p1)%nat as L.
        { apply (First p1 g' q); [|exact F']. rewrite E, <- !app_assoc. f_equal. cbn [app]. rewrite <- app_assoc in Eq. exact Eq. }
        rewrite E, app_length in L. cbn in L. lia.
      + rewrite (IH (p1 ++ [c])); [reflexivity|]. now rewrite <- app_assoc. }
  exact (H p [] eq_refl).
Qed.
Lemma html_sound s : forall a g z, html_find s = Some (a, g, z) -> s = a ++ g ++ z /\ html_cart a g z.
Proof.
  assert (forall s a g z, here s = Some (a, g, z) -> s = a ++ g ++ z /\ html_cart a g z) as H0.
  { intros s0 a g z E. apply here_sound in E as (-> & F & z' & -> & ->). split; [reflexivity|]. exists [], z'. split; [reflexivity|]. split; [exact F|]. split; [reflexivity|]. intros. cbn. lia. }
  induction s as [|c s IH]; intros a g z E; rewrite html_find_eq in E.
  - destruct (here []) as [((a', g'), z')|] eqn:Eh; [|discriminate]. injection E as <- <- <-. now apply H0.
  - destruct (here (c :: s)) as [((a', g'), z')|] eqn:Eh; [injection E as <- <- <-; now apply H0|].
    destruct (html_find s) as [((a', g'), z')|]; [|discriminate]. injection E as <- <- <-. destruct (IH _ _ _ eq_refl) as (-> & p & z2 & -> & F & -> & First).
    split; [reflexivity|]. exists (c :: p), z2. split; [reflexivity|]. split; [exact F|]. split; [reflexivity|].
    intros p' g2 q E F'. destruct p' as [|c' p'].
    + exfalso. cbn [app] in E, Eh. rewrite E in Eh. change (asc "p64cart_str="%string ++ 34 :: g2 ++ 34 :: q) with (key ++ g2 ++ 34 :: q) in Eh. now rewrite here_complete in Eh.
    + injection E as _ E. cbn [length]. apply le_n_S. eapply First; [|exact F']. exact E.
Qed.
Lemma html_none s : html_find s = None -> forall p g q, Forall hexdigit g -> s <> p ++ key ++ g ++ 34 :: q.
Proof.
  intros E p g q F ->. revert E. induction p as [|c p IH]; intros E; rewrite html_find_eq in E.
  - cbn [app] in E. now rewrite here_complete in E.
  - cbn [app] in E. destruct (here _); [discriminate|]. destruct (html_find _) as [((? & ?) & ?)|]; [discriminate|auto].
Qed.

(** Other digits may be put in. *)
Lemma html_fill a g z g' : html_cart a g z -> Forall hexdigit g' -> html_cart a g' z.
Proof.
  intros (p & z' & -> & F & -> & First) F'. exists p, z'. split; [reflexivity|]. split; [exact F'|]. split; [reflexivity|].
  intros p' g2 q E F2. destruct (le_lt_dec (length p) (length p')) as [|Lt]; [easy|]. exfalso. change (asc "p64cart_str="%string ++ [34]) with key in *.
  change (asc "p64cart_str="%string ++ [34] ++ g2 ++ 34 :: q) with (key ++ g2 ++ 34 :: q) in E. rewrite <- app_assoc in E.
  destruct (app_pre p' (key ++ g2 ++ 34 :: q) p (key ++ g' ++ 34 :: z') (eq_sym E) ltac:(lia)) as (w & -> & Ew).
  rewrite app_length in Lt.
  (* the quote of the earlier key is not inside the later key *)
  destruct (le_lt_dec (length key) (length w)) as [Lk|Lk].
  - destruct (app_pre key (g2 ++ 34 :: q) w (key ++ g' ++ 34 :: z') Ew Lk) as (v & -> & Ev).
    assert (exists v', v = g2 ++ 34 :: v') as (v' & ->).
    { clear -Ev F2. revert v Ev. induction F2 as [|c g2 Hc F2 IH]; intros v Ev.
      - destruct v as [|x v]; [discriminate|]. injection Ev as <- _. now exists v.
      - destruct v as [|x v].
        + exfalso. injection Ev as -> _. unfold hexdigit in Hc. lia.
        + injection Ev as <- Ev. destruct (IH _ Ev) as (v' & ->). now exists v'. }
    assert (H : (length (p' ++ key ++ g2 ++ 34%Z :: v') <= length p')%nat); [|rewrite !app_length in H; cbn [length] in H; lia].
    apply (First p' g2 (v' ++ key ++ g ++ 34 :: z')); [|exact F2].
    change (asc "p64cart_str="%string ++ [34] ++ g2 ++ 34 :: v' ++ key ++ g ++ 34 :: z') with (key ++ g2 ++ 34 :: v' ++ key ++ g ++ 34 :: z').
    repeat (rewrite <- app_assoc; cbn [app]). reflexivity.
  - assert (N : (length w = 0 \/ length w = 1 \/ length w = 2 \/ length w = 3 \/ length w = 4 \/ length w = 5 \/ length w = 6 \/ length w = 7 \/ length w = 8 \/ length w = 9 \/ length w = 10 \/ length w = 11 \/ length w = 12)%nat)
      by (cbn in Lk; lia).
    clear -Ew N Lt. unfold key, k_p64cart in Ew. cbn in Ew.
    repeat (destruct w as [|? w]; [cbn in *; try lia; try discriminate|cbn in Ew; injection Ew as <- Ew]); cbn in N; lia.
Qed.

Lemma hexc_digit d : 0 <= d < 16 -> hexdigit (hexc d) /\ hex_digit_value (hexc d) = d.
Proof.
  intros H. unfold hexdigit, hexc, hex_digit_value. destruct (Z.ltb_spec d 10) as [L|L].
  - replace (48 + d <? 58) with true by lia. lia.
  - replace (87 + d <? 58) with false by lia. replace (87 + d <? 97) with false by lia. lia.
Qed.
Lemma hex_rom rom : bytes_ok rom -> Forall hexdigit (concat (map hex2 rom)) /\ fromhex (concat (map hex2 rom)) = Ok rom.
Proof.
  induction 1 as [|b rom H _ (F & E)]; [now split; [constructor|]|]. cbn [map concat hex2 app].
  destruct (hexc_digit (b / 16)) as (D1 & V1); [Z.div_mod_to_equations; lia|]. destruct (hexc_digit (b mod 16)) as (D2 & V2); [Z.div_mod_to_equations; lia|].
  split; [constructor; [exact D1|constructor; [exact D2|exact F]]|]. cbn [fromhex]. rewrite E. cbn [bind]. rewrite V1, V2. do 2 f_equal. Z.div_mod_to_equations; lia.
Qed.
