(** Printing numbers: the printed text denotes, and parses back to, the number. *)
From Verif Require Import M_Base L_Util M_Compress M_Fold L_Fold M_Num S_Num L_Num.
Open Scope Z_scope.
Ltac Zify.zify_post_hook ::= Z.div_mod_to_equations.

Lemma digit_char_ok base x : base = 10 \/ base = 16 -> 0 <= x < base ->
  is_digit base (nth (Z.to_nat x) k_digits16 0) /\ digit_value (nth (Z.to_nat x) k_digits16 0) = x /\
  (nth (Z.to_nat x) k_digits16 0 = 48 -> x = 0).
Proof.
  intros Hb Hx.
  assert (F : forall k, (k < 16)%nat -> (48 <= nth k k_digits16 0 <= 57 \/ 97 <= nth k k_digits16 0 <= 102)
    /\ digit_value (nth k k_digits16 0) = Z.of_nat k).
  { intros k Hk. do 16 (destruct k as [|k]; [cbn; split; [lia|reflexivity]|]). lia. }
  destruct (F (Z.to_nat x) ltac:(lia)) as [A B]. rewrite Z2Nat.id in B by lia. repeat split; try lia.
  intros E. rewrite E in B. cbn in B. lia.
Qed.

Lemma base_loop_ok base fuel : base = 10 \/ base = 16 -> forall v acc, 0 <= v < base ^ Z.of_nat (S fuel) ->
  exists ds, base_loop base (S fuel) v acc = ds ++ acc /\ Forall (is_digit base) ds /\ digits_value base 0 ds = v /\
    ds <> [] /\ (hd 0 ds = 48 -> ds = [48]).
Proof.
  intros Hb. induction fuel as [|fuel IH]; intros v acc H.
  - change (base ^ Z.of_nat 1) with (base ^ 1) in H. rewrite Z.pow_1_r in H. cbn [base_loop].
    assert (E : v / base = 0) by (apply Z.div_small; lia). rewrite E. cbn [Z.eqb].
    rewrite Z.mod_small by lia. destruct (digit_char_ok base v Hb H) as (D & V & Z0).
    set (c := nth (Z.to_nat v) k_digits16 0) in *. exists [c]. split; [reflexivity|]. split; [now constructor|].
    split; [cbn [digits_value]; lia|]. split; [discriminate|]. cbn [hd]. intros K. now rewrite K.
  - remember (S fuel) as f1. cbn [base_loop].
    assert (M : 0 <= v mod base < base) by (apply Z.mod_pos_bound; lia).
    assert (DM : v = base * (v / base) + v mod base) by (apply Z.div_mod; lia).
    destruct (digit_char_ok base (v mod base) Hb M) as (D & V & Z0).
    set (c := nth (Z.to_nat (v mod base)) k_digits16 0) in *.
    destruct (Z.eqb_spec (v / base) 0) as [E|E].
    + exists [c]. split; [reflexivity|]. split; [now constructor|].
      split; [cbn [digits_value]; lia|]. split; [discriminate|]. cbn [hd]. intros K. now rewrite K.
    + subst f1. destruct (IH (v / base) (c :: acc)) as (ds & D1 & A & V1 & N & Hd).
      { rewrite Nat2Z.inj_succ, Z.pow_succ_r in H by lia. split; [apply Z.div_pos; lia|].
        apply Z.div_lt_upper_bound; lia. }
      exists (ds ++ [c]). split; [rewrite D1, <- app_assoc; reflexivity|].
      split; [apply Forall_app; split; [exact A|now constructor]|].
      split; [rewrite digits_value_app, V1; cbn [digits_value]; lia|].
      split; [now destruct ds|]. destruct ds as [|d ds]; [congruence|]. cbn [app hd] in *. intros K. specialize (Hd K).
      injection Hd as -> ->. cbn in V1. lia.
Qed.

Lemma base_str_ok base v : base = 10 \/ base = 16 -> 0 <= v ->
  Forall (is_digit base) (base_str base v) /\ digits_value base 0 (base_str base v) = v /\
  base_str base v <> [] /\ (hd 0 (base_str base v) = 48 -> base_str base v = [48]).
Proof.
  intros Hb H. unfold base_str.
  destruct (base_loop_ok base (Z.to_nat (Z.log2 v)) Hb v []) as (ds & D & K).
  - split; [exact H|]. rewrite Nat2Z.inj_succ, Z2Nat.id by apply Z.log2_nonneg.
    destruct (Z.eq_dec v 0) as [->|N]; [cbn; lia|].
    destruct (Z.log2_spec v ltac:(lia)) as [_ U].
    eapply Z.lt_le_trans; [exact U|]. apply Z.pow_le_mono_l. lia.
  - rewrite app_nil_r in D. rewrite D. exact K.
Qed.

Lemma base_str_len base v n : base = 10 \/ base = 16 -> 0 <= v < base ^ n -> 0 < n -> zlen (base_str base v) <= n.
Proof.
  intros Hb H Hn. destruct (base_str_ok base v Hb ltac:(lia)) as (F & V & N & Hd).
  destruct (base_str base v) as [|c s]; [congruence|]. rewrite zlen_cons.
  destruct s as [|c2 s]; [change (zlen []) with 0; lia|].
  destruct (Z_le_gt_dec (1 + zlen (c2 :: s)) n) as [?|G]; [assumption|exfalso].
  inversion F as [|? ? D F']; subst. cbn [hd] in Hd.
  assert (1 <= digit_value c).
  { destruct D as [D _]. destruct (Z.eq_dec c 48) as [->|Nc]; [specialize (Hd eq_refl); discriminate Hd|].
    unfold digit_value. destruct (Z.ltb_spec c 58); lia. }
  change (c :: c2 :: s) with ([c] ++ c2 :: s) in H. rewrite digits_value_cat in H. cbn [digits_value] in H.
  pose proof (digits_value_bound base (c2 :: s) ltac:(lia) F') as B. cbn [digits_value] in B.
  assert (base ^ n <= base ^ zlen (c2 :: s)) by (apply Z.pow_le_mono_r; lia). nia.
Qed.

Lemma zero_digit base : base = 10 \/ base = 16 -> is_digit base 48.
Proof. intros H. split; [lia|]. unfold digit_value. cbn. lia. Qed.
Lemma digits_value_zeros base k s : digits_value base 0 (repeat 48 k ++ s) = digits_value base 0 s.
Proof. induction k; [reflexivity|]. cbn [repeat app digits_value]. exact IHk. Qed.

Lemma zero_pad_ok base v w : base = 10 \/ base = 16 -> (0 < w)%nat -> 0 <= v < base ^ Z.of_nat w ->
  Forall (is_digit base) (zero_pad w (base_str base v)) /\ digits_value base 0 (zero_pad w (base_str base v)) = v /\
  zlen (zero_pad w (base_str base v)) = Z.of_nat w.
Proof.
  intros Hb Hw H. destruct (base_str_ok base v Hb ltac:(lia)) as (F & V & _).
  pose proof (base_str_len base v (Z.of_nat w) Hb H ltac:(lia)) as L. unfold zero_pad. repeat split.
  - apply Forall_app. split; [|exact F]. apply Forall_forall. intros x Hx. apply repeat_spec in Hx. subst. now apply zero_digit.
  - now rewrite digits_value_zeros.
  - rewrite zlen_app. unfold zlen in *. rewrite repeat_length. lia.
Qed.

(** ** The whole parser on literals *)
Lemma lower_digits base s : Forall (is_digit base) s -> lower s = s.
Proof.
  intros H. unfold lower. induction H as [|c s D _ IH]; [reflexivity|]. cbn [map]. rewrite IH. f_equal.
  destruct D as [D _]. unfold lower_ch. destruct (Z.leb_spec 65 c), (Z.leb_spec c 90); cbn; lia.
Qed.
Lemma lower_app a b : lower (a ++ b) = lower a ++ lower b.
Proof. apply map_app. Qed.
Lemma lower_lit base ip dot fp : lit_ok base ip dot fp -> lower (lit base ip dot fp) = lit base ip dot fp.
Proof.
  intros (Hb & Hi & Hf & Hd). unfold lit. rewrite !lower_app, (lower_digits base ip Hi). f_equal; [destruct (base =? 16); reflexivity|].
  f_equal. destruct dot; [|reflexivity]. cbn [lit_tail]. change (46 :: fp) with ([46] ++ fp). rewrite lower_app, (lower_digits base fp Hf).
  reflexivity.
Qed.
Lemma lit_first base ip dot fp : lit_ok base ip dot fp ->
  match lit base ip dot fp with [] => True | c :: _ => c <> 45 /\ c <> 126 end.
Proof.
  intros (Hb & Hi & Hf & Hd). unfold lit. destruct (base =? 16); [cbn; lia|]. cbn [app].
  destruct ip as [|c ip]; [destruct dot; cbn; [lia|exact I]|]. cbn [app]. inversion Hi as [|? ? [D _] _]; subst. lia.
Qed.
Lemma parse_plain s : lower s = s -> match s with [] => True | c :: _ => c <> 45 /\ c <> 126 end ->
  parse_fixnum s = parse_fixnum_abs s.
Proof.
  intros L. unfold parse_fixnum. rewrite L. clear L. destruct s as [|c s]; [reflexivity|]. intros [A1 A2].
  destruct c as [|c|c]; try reflexivity. repeat (destruct c as [c|c|]; try reflexivity; try (exfalso; lia)).
Qed.
Lemma parse_lit base ip dot fp : lit_ok base ip dot fp ->
  digits_value base 0 ip < 2 ^ 17 - 1 -> base ^ zlen fp <= 1000000 ->
  parse_fixnum (lit base ip dot fp) = Ok (lit_fix base ip fp).
Proof.
  intros H B1 B2. rewrite parse_plain by (now apply lower_lit || now apply lit_first).
  now apply parse_abs_lit.
Qed.
Lemma parse_neg_lit base ip dot fp : lit_ok base ip dot fp ->
  digits_value base 0 ip < 2 ^ 17 - 1 -> base ^ zlen fp <= 1000000 ->
  parse_fixnum (45 :: lit base ip dot fp) = Ok ((- lit_fix base ip fp) mod 2 ^ 32).
Proof.
  intros H B1 B2. unfold parse_fixnum. change (lower (45 :: lit base ip dot fp)) with (45 :: lower (lit base ip dot fp)).
  rewrite lower_lit by exact H. cbv iota beta. rewrite parse_abs_lit by assumption. cbn [bind]. now rewrite pf_mask.
Qed.
Lemma parse_not_lit base ip dot fp : lit_ok base ip dot fp ->
  digits_value base 0 ip < 2 ^ 17 - 1 -> base ^ zlen fp <= 1000000 ->
  parse_fixnum (126 :: lit base ip dot fp) = Ok (2 ^ 32 - 1 - lit_fix base ip fp).
Proof.
  intros H B1 B2. unfold parse_fixnum. change (lower (126 :: lit base ip dot fp)) with (126 :: lower (lit base ip dot fp)).
  rewrite lower_lit by exact H. cbv iota beta. rewrite parse_abs_lit by assumption. cbn [bind]. rewrite pf_mask.
  f_equal. unfold Z.lnot. assert (0 <= lit_fix base ip fp < 2 ^ 32) by (apply Z.mod_pos_bound; lia).
  set (x := lit_fix base ip fp) in *. clearbody x. change (2 ^ 32) with 4294967296 in *. lia.
Qed.

(** A good unsigned text for [v]. *)
Definition good (s : list Z) (v : Z) : Prop :=
  exists base ip dot fp, s = lit base ip dot fp /\ lit_ok base ip dot fp /\ ip ++ fp <> [] /\
    digits_value base 0 ip < 2 ^ 17 - 1 /\ base ^ zlen fp <= 1000000 /\ lit_fix base ip fp = v.

Lemma good_constant s v : good s v -> unsigned_constant s v.
Proof.
  intros (base & ip & dot & fp & -> & (Hb & Hi & Hf & Hd) & N & _ & _ & V).
  exists (lit_num base ip fp), (base ^ Z.of_nat (length fp)). split; [|symmetry; exact V].
  exists base, (if base =? 16 then [48; 120] else []), ip, fp, (lit_tail dot fp). split.
  { destruct Hb as [-> | ->]; [left|right]; split; reflexivity. }
  split. { destruct dot; [right; reflexivity|left]. split; [reflexivity|now apply Hd]. }
  repeat split; assumption.
Qed.
Lemma good_parse s v : good s v -> parse_fixnum s = Ok v /\ parse_fixnum (45 :: s) = Ok ((- v) mod 2 ^ 32)
  /\ parse_fixnum (126 :: s) = Ok (2 ^ 32 - 1 - v).
Proof.
  intros (base & ip & dot & fp & -> & H & N & B1 & B2 & <-). split; [|split].
  - now apply parse_lit.
  - now apply parse_neg_lit.
  - now apply parse_not_lit.
Qed.

(** ** Adding one to a decimal string *)
Fixpoint lev (s : list Z) : Z := match s with [] => 0 | c :: s => digit_value c + 10 * lev s end.
Lemma lev_rev s : digits_value 10 0 (rev s) = lev s.
Proof.
  induction s as [|c s IH]; [reflexivity|]. cbn [rev lev]. rewrite digits_value_app, IH. cbn [digits_value]. lia.
Qed.
Definition dg (c : Z) : Prop := 48 <= c <= 57.
Lemma dg_digit c : dg c <-> is_digit 10 c.
Proof.
  unfold dg, is_digit, digit_value. destruct (Z.ltb_spec c 58); lia.
Qed.
Lemma dg_all s : Forall dg s <-> Forall (is_digit 10) s.
Proof. split; intros H; eapply Forall_impl; try exact H; intros c; apply dg_digit. Qed.
Lemma dg_value c : dg c -> digit_value c = c - 48.
Proof. unfold dg, digit_value. intros. destruct (Z.ltb_spec c 58); lia. Qed.

Lemma add_1_int s : Forall dg s -> Forall dg (add_1_rev s) /\ lev (add_1_rev s) = lev s + 1 /\ add_1_rev s <> [].
Proof.
  induction 1 as [|c s D H (IH1 & IH2 & IH3)]; [repeat split; [|discriminate]; constructor; [unfold dg; lia|constructor]|].
  cbn [add_1_rev]. unfold dg in D. destruct (Z.eqb_spec c 46); [lia|]. destruct (Z.eqb_spec c 57) as [->|N].
  - split; [constructor; [unfold dg; lia|exact IH1]|]. split; [|discriminate]. cbn [lev]. rewrite IH2. change (digit_value 48) with 0. change (digit_value 57) with 9. lia.
  - split; [constructor; [unfold dg; lia|exact H]|]. split; [|discriminate]. cbn [lev].
    rewrite !dg_value by (unfold dg; lia). lia.
Qed.
Lemma add_1_dot r r2 : Forall dg r -> Forall dg r2 -> r2 <> [] ->
  exists r' r2', add_1_rev (r ++ 46 :: r2) = r' ++ 46 :: r2' /\ Forall dg r' /\ Forall dg r2' /\ r2' <> [] /\
    length r' = length r /\ lev (r' ++ r2') = lev (r ++ r2) + 1.
Proof.
  intros H H2 N2. induction H as [|c r D H (r' & r2' & E & F1 & F2 & N & L & V)].
  - destruct (add_1_int r2 H2) as (A & B & C). exists [], (add_1_rev r2). cbn [app add_1_rev].
    rewrite Z.eqb_refl. repeat split; auto.
  - cbn [app add_1_rev]. unfold dg in D. destruct (Z.eqb_spec c 46); [lia|]. destruct (Z.eqb_spec c 57) as [->|N9].
    + exists (48 :: r'), r2'. rewrite E. split; [reflexivity|]. split; [constructor; [unfold dg; lia|exact F1]|].
      split; [exact F2|]. split; [exact N|]. split; [cbn; lia|]. cbn [app lev]. rewrite V. change (digit_value 48) with 0. change (digit_value 57) with 9. lia.
    + exists (c + 1 :: r), r2. split; [reflexivity|]. split; [constructor; [unfold dg; lia|exact H]|].
      split; [exact H2|]. split; [exact N2|]. split; [cbn; lia|]. cbn [app lev].
      rewrite !dg_value by (unfold dg; lia). lia.
Qed.
Lemma add_1_spec ip fp : Forall (is_digit 10) ip -> Forall (is_digit 10) fp -> ip <> [] ->
  exists ip' fp', float_str_add_1 (ip ++ 46 :: fp) = ip' ++ 46 :: fp' /\ Forall (is_digit 10) ip' /\ Forall (is_digit 10) fp' /\
    ip' <> [] /\ zlen fp' = zlen fp /\ lit_num 10 ip' fp' = lit_num 10 ip fp + 1.
Proof.
  intros Hi Hf N.
  destruct (add_1_dot (rev fp) (rev ip)) as (r' & r2' & E & F1 & F2 & N' & L & V).
  - apply Forall_rev. now apply dg_all.
  - apply Forall_rev. now apply dg_all.
  - intros K. apply (f_equal (@rev Z)) in K. rewrite rev_involutive in K. now apply N.
  - exists (rev r2'), (rev r'). unfold float_str_add_1. rewrite rev_app_distr. cbn [rev]. rewrite <- app_assoc. cbn [app].
    rewrite E, rev_app_distr. cbn [rev]. rewrite <- app_assoc. split; [reflexivity|].
    split; [apply Forall_rev; now apply dg_all|]. split; [apply Forall_rev; now apply dg_all|].
    split. { intros K. apply (f_equal (@rev Z)) in K. rewrite rev_involutive in K. now apply N'. }
    split. { unfold zlen. rewrite rev_length, L, rev_length. reflexivity. }
    unfold lit_num. rewrite <- rev_app_distr, lev_rev, V. f_equal.
    rewrite <- lev_rev, rev_app_distr, !rev_involutive. reflexivity.
Qed.

(** ** Shortening a decimal string *)
Definition dec_good (ip : list Z) (fp : list Z) : Prop :=
  Forall (is_digit 10) ip /\ Forall (is_digit 10) fp /\ ip <> [] /\
  zlen fp <= 6 /\ digits_value 10 0 ip + zlen fp <= 65545.

Lemma pow10_le k : 0 <= k <= 6 -> 10 ^ k <= 1000000.
Proof. intros. change 1000000 with (10 ^ 6). apply Z.pow_le_mono_r; lia. Qed.
Lemma dec_parse ip fp : dec_good ip fp -> parse_fixnum (ip ++ 46 :: fp) = Ok (lit_fix 10 ip fp).
Proof.
  intros (Hi & Hf & N & L & B). apply (parse_lit 10 ip true fp).
  - repeat split; auto. discriminate.
  - pose proof (zlen_nonneg fp). change (2 ^ 17 - 1) with 131071. lia.
  - apply pow10_le. pose proof (zlen_nonneg fp). lia.
Qed.
Lemma dec_is_good ip fp : dec_good ip fp -> good (ip ++ 46 :: fp) (lit_fix 10 ip fp).
Proof.
  intros (Hi & Hf & N & L & B). exists 10, ip, true, fp. pose proof (zlen_nonneg fp). split; [reflexivity|].
  split; [repeat split; auto; discriminate|]. split; [now destruct ip|]. split; [change (2 ^ 17 - 1) with 131071; lia|].
  split; [apply pow10_le; lia|reflexivity].
Qed.

Lemma dot_in s t : existsb (Z.eqb 46) (s ++ 46 :: t) = true.
Proof. rewrite existsb_app. cbn. apply orb_true_r. Qed.

(** Dropping the last digit, and rounding it up. *)
Lemma dec_drop ip fp c : dec_good ip (fp ++ [c]) -> dec_good ip fp.
Proof.
  intros (Hi & Hf & N & L & B). apply Forall_app in Hf as [Hf _]. rewrite zlen_app in *. change (zlen [c]) with 1 in *.
  split; [exact Hi|]. split; [exact Hf|]. split; [exact N|]. lia.
Qed.
Lemma dec_up ip fp c : dec_good ip (fp ++ [c]) -> exists ip' fp',
  float_str_add_1 (ip ++ 46 :: fp) = ip' ++ 46 :: fp' /\ dec_good ip' fp' /\ zlen fp' = zlen fp /\
  lit_num 10 ip' fp' = lit_num 10 ip fp + 1.
Proof.
  intros (Hi & Hf & N & L & B). apply Forall_app in Hf as [Hf _]. rewrite zlen_app in *. change (zlen [c]) with 1 in *.
  destruct (add_1_spec ip fp Hi Hf N) as (ip' & fp' & E & F1 & F2 & N' & L' & V).
  exists ip', fp'. split; [exact E|]. split; [|now split].
  assert (U : digits_value 10 0 ip' <= digits_value 10 0 ip + 1).
  { unfold lit_num in V. rewrite !digits_value_cat, L' in V.
    pose proof (digits_value_bound 10 fp ltac:(lia) Hf) as B1. pose proof (digits_value_bound 10 fp' ltac:(lia) F2) as B2.
    rewrite L' in B2. nia. }
  split; [exact F1|]. split; [exact F2|]. split; [exact N'|]. lia.
Qed.
Lemma fix_drop_zero ip fp : Forall (is_digit 10) fp -> lit_fix 10 ip (fp ++ [48]) = lit_fix 10 ip fp.
Proof.
  intros F. unfold lit_fix. f_equal. unfold lit_num. rewrite app_assoc, digits_value_app. cbn [digits_value].
  rewrite zlen_app. change (zlen [48]) with 1. pose proof (zlen_nonneg fp).
  rewrite Z.pow_add_r by lia. change (digit_value 48) with 0. rewrite Z.add_0_r, Z.pow_1_r.
  set (P := 10 ^ zlen fp). assert (0 < P) by (apply Z.pow_pos_nonneg; lia).
  replace (digits_value 10 0 (ip ++ fp) * 10 * 65536) with (digits_value 10 0 (ip ++ fp) * 65536 * 10) by ring.
  apply Z.div_mul_cancel_r; lia.
Qed.
Lemma fix_int ip : lit_fix 10 ip [] = (digits_value 10 0 ip * 65536) mod 2 ^ 32.
Proof. unfold lit_fix, lit_num. rewrite app_nil_r. change (zlen []) with 0. now rewrite Z.pow_0_r, Z.div_1_r. Qed.

(** The result of the loop: a good text without a leading-zero strip. *)
Definition loop_good (s : list Z) (v : Z) : Prop :=
  exists ip fp, dec_good ip fp /\ lit_fix 10 ip fp = v /\ (s = ip ++ 46 :: fp \/ (fp = [] /\ s = ip)).

Lemma snoc_cases {A} (l : list A) : l = [] \/ exists t x, l = t ++ [x].
Proof. destruct l using rev_ind; [now left|right]. now exists l, x. Qed.

Lemma loop_ok fuel v : forall ip fp, dec_good ip fp -> lit_fix 10 ip fp = v -> (length fp < fuel)%nat ->
  exists s, minify_loop parse_fixnum v false fuel true (ip ++ 46 :: fp) = Ok s /\ loop_good s v.
Proof.
  induction fuel as [|fuel IH]; intros ip fp G V L; [lia|]. cbn [minify_loop]. rewrite dot_in.
  destruct (snoc_cases fp) as [->|(t & c & ->)].
  - rewrite rev_app_distr. cbn [rev app]. rewrite Z.eqb_refl, rev_involutive. exists ip. split; [reflexivity|].
    exists ip, []. split; [exact G|]. split; [exact V|]. now right.
  - assert (R : rev (ip ++ 46 :: t ++ [c]) = c :: rev (ip ++ 46 :: t)).
    { change (46 :: t ++ [c]) with ((46 :: t) ++ [c]). rewrite app_assoc, rev_app_distr. reflexivity. }
    rewrite R, rev_involutive. clear R.
    assert (Hc : is_digit 10 c) by (destruct G as (_ & F & _); apply Forall_app in F as [_ F]; now inversion F).
    assert (Ft : Forall (is_digit 10) t) by (destruct G as (_ & F & _); now apply Forall_app in F as [F _]).
    apply dg_digit in Hc as Dc. unfold dg in Dc. destruct (Z.eqb_spec c 46); [lia|].
    pose proof (dec_drop _ _ _ G) as G'. rewrite app_length in L. cbn [length] in L. rewrite andb_true_r.
    destruct (Z.eqb_spec c 48) as [->|N0].
    { apply IH; [exact G'|rewrite <- V; symmetry; now apply fix_drop_zero|lia]. }
    rewrite (dec_parse ip t G'). cbn [bind]. destruct (Z.eqb_spec (lit_fix 10 ip t) v) as [E|E]; [apply IH; [exact G'|exact E|lia]|].
    destruct (dec_up _ _ _ G) as (ip' & fp' & EU & GU & LU & VU). rewrite EU, (dec_parse ip' fp' GU). cbn [bind].
    destruct (Z.eqb_spec (lit_fix 10 ip' fp') v) as [E2|E2].
    + apply IH; [exact GU|exact E2|]. unfold zlen in LU. lia.
    + exists (ip ++ 46 :: t ++ [c]). split; [reflexivity|]. exists ip, (t ++ [c]). split; [exact G|]. split; [exact V|]. now left.
Qed.

Lemma strip_match s : (exists x y, s = 48 :: 46 :: x :: y) \/ match s with 48 :: 46 :: _ :: _ => tl s | _ => s end = s.
Proof.
  destruct s as [|a [|b [|x y]]]; [now right| | |].
  - right. destruct a as [|a|a]; try reflexivity. repeat (destruct a as [a|a|]; try reflexivity).
  - right. destruct a as [|a|a]; try reflexivity. repeat (destruct a as [a|a|]; try reflexivity).
    destruct b as [|b|b]; try reflexivity. repeat (destruct b as [b|b|]; try reflexivity).
  - destruct (Z.eq_dec a 48) as [->|N].
    + destruct (Z.eq_dec b 46) as [->|N]; [left; now exists x, y|right].
      destruct b as [|b|b]; try reflexivity. repeat (destruct b as [b|b|]; try reflexivity). congruence.
    + right. destruct a as [|a|a]; try reflexivity. repeat (destruct a as [a|a|]; try reflexivity). congruence.
Qed.

(** Stripping the leading zero keeps the text good. *)
Lemma strip_zero s v : loop_good s v -> good (match s with 48 :: 46 :: _ :: _ => tl s | _ => s end) v.
Proof.
  intros (ip & fp & G & V & E). pose proof G as (Hi & Hf & N & L & B). pose proof (zlen_nonneg fp) as ZF.
  assert (Gs : good s v).
  { destruct E as [->|[-> ->]].
    - rewrite <- V. now apply dec_is_good.
    - exists 10, ip, false, []. unfold lit. cbn [Z.eqb Pos.eqb app lit_tail]. rewrite app_nil_r. split; [reflexivity|].
      split; [repeat split; auto|]. split; [exact N|]. split; [change (2 ^ 17 - 1) with 131071; change (zlen []) with 0 in B; lia|].
      split; [cbn; lia|exact V]. }
  destruct (strip_match s) as [(x & y & Es)|K].
  - rewrite Es. cbn [tl].
    assert (ip = [48] /\ fp = x :: y) as [-> ->].
    { destruct E as [E|[_ E]].
      - rewrite Es in E. destruct ip as [|i [|j ip]]; [congruence| |].
        + cbn [app] in E. injection E as <- <-. now split.
        + cbn [app] in E. injection E as <- <- _. inversion Hi as [|? ? _ Hi']; subst. inversion Hi' as [|? ? D _]; subst.
          apply dg_digit in D. unfold dg in D. lia.
      - rewrite Es in E. subst ip. inversion Hi as [|? ? _ Hi']; subst. inversion Hi' as [|? ? D _]; subst.
        apply dg_digit in D. unfold dg in D. lia. }
    exists 10, [], true, (x :: y). split; [reflexivity|]. split; [repeat split; auto; discriminate|]. split; [discriminate|].
    split; [cbn; lia|]. split; [apply pow10_le; lia|exact V].
  - rewrite K. exact Gs.
Qed.

(** ** Decimal printing *)
Lemma six_digits v q : 0 <= v < 2 ^ 32 -> 2 * Z.abs (q * 65536 - v * 1000000) <= 65536 ->
  q * 65536 / 1000000 = v \/ (q / 10 + 1) * 65536 / 100000 = v.
Proof. intros. lia. Qed.

Lemma fixnum_dec_ok v : 0 <= v < 2 ^ 32 -> exists s, fixnum_dec v = Ok s /\ good s v.
Proof.
  intros H. unfold fixnum_dec, int_div.
  destruct (rnd53_exact v 65536 v 16) as (n & d & E & Pn & Pd & X); [lia|lia|lia| |reflexivity|].
  { change (2 ^ 53) with 9007199254740992. change (2 ^ 32) with 4294967296 in H. lia. }
  rewrite E. change (2 ^ 16) with 65536 in X. unfold format_6f.
  set (q := rne (n * 1000000) d).
  assert (Q : 2 * Z.abs (q * 65536 - v * 1000000) <= 65536).
  { pose proof (rne_bound (n * 1000000) d Pd) as B. fold q in B. clearbody q.
    assert (Y : (q * 65536 - v * 1000000) * d = (q * d - n * 1000000) * 65536).
    { replace ((q * 65536 - v * 1000000) * d) with (q * d * 65536 - (v * d) * 1000000) by ring. rewrite <- X. ring. }
    apply (f_equal Z.abs) in Y. rewrite !Z.abs_mul, (Z.abs_eq d), (Z.abs_eq 65536) in Y by lia.
    apply unscale_le with (c := d); [exact Pd|]. lia. }
  clearbody q. clear E X Pn Pd n d.
  assert (Q0 : 0 <= q) by lia. assert (Q1 : q / 1000000 <= 65536) by (change (2 ^ 32) with 4294967296 in H; lia).
  destruct (base_str_ok 10 (q / 1000000) ltac:(lia) ltac:(lia)) as (F1 & V1 & N1 & _).
  destruct (zero_pad_ok 10 (q mod 1000000) 6 ltac:(lia) ltac:(lia) ltac:(change (10 ^ Z.of_nat 6) with 1000000; lia)) as (F2 & V2 & L2).
  set (ip := base_str 10 (q / 1000000)) in *. set (fp := zero_pad 6 (base_str 10 (q mod 1000000))) in *. clearbody ip fp.
  change (Z.of_nat 6) with 6 in L2.
  assert (G : dec_good ip fp) by (split; [exact F1|split; [exact F2|split; [exact N1|lia]]]).
  assert (LN : lit_num 10 ip fp = q).
  { unfold lit_num. rewrite digits_value_cat, V1, V2, L2. change (10 ^ 6) with 1000000. lia. }
  assert (LF : lit_fix 10 ip fp = (q * 65536 / 1000000) mod 2 ^ 32) by (unfold lit_fix; now rewrite LN, L2).
  unfold float_str_minify. rewrite (dec_parse ip fp G). cbn [bind].
  destruct (Z.eqb_spec (lit_fix 10 ip fp) v) as [OK|NOK].
  - destruct (loop_ok (S (length (ip ++ 46 :: fp))) v ip fp G OK) as (s & Es & Gs).
    { rewrite app_length. cbn. lia. }
    rewrite Es. cbn [bind]. eexists. split; [reflexivity|]. now apply strip_zero.
  - (* the first digit dropped, rounded up *)
    destruct (six_digits v q H Q) as [K|K].
    { exfalso. apply NOK. rewrite LF, K. apply Z.mod_small. exact H. }
    destruct (snoc_cases fp) as [->|(t & c & ->)]; [change (zlen []) with 0 in L2; lia|].
    cbn [minify_loop]. rewrite dot_in.
    assert (R : rev (ip ++ 46 :: t ++ [c]) = c :: rev (ip ++ 46 :: t)).
    { change (46 :: t ++ [c]) with ((46 :: t) ++ [c]). rewrite app_assoc, rev_app_distr. reflexivity. }
    rewrite R, rev_involutive. clear R.
    assert (Hc : is_digit 10 c) by (apply Forall_app in F2 as [_ F]; now inversion F).
    apply dg_digit in Hc as Dc. unfold dg in Dc. destruct (Z.eqb_spec c 46); [lia|].
    rewrite andb_false_r. pose proof (dec_drop _ _ _ G) as G'. rewrite (dec_parse ip t G'). cbn [bind].
    assert (Lt : length (ip ++ 46 :: t ++ [c]) = S (length (ip ++ 46 :: t))) by (rewrite !app_length; cbn; rewrite app_length; cbn; lia).
    destruct (Z.eqb_spec (lit_fix 10 ip t) v) as [E|E].
    + destruct (loop_ok (length (ip ++ 46 :: t ++ [c])) v ip t G' E) as (s & Es & Gs).
      { rewrite Lt, app_length. cbn. lia. }
      rewrite Es. cbn [bind]. eexists. split; [reflexivity|]. now apply strip_zero.
    + destruct (dec_up _ _ _ G) as (ip' & fp' & EU & GU & LU & VU). rewrite EU, (dec_parse ip' fp' GU). cbn [bind].
      assert (V' : lit_fix 10 ip' fp' = v).
      { unfold lit_fix. rewrite VU, LU.
        assert (Lt5 : zlen t = 5) by (rewrite zlen_app in L2; change (zlen [c]) with 1 in L2; lia). rewrite Lt5.
        change (10 ^ 5) with 100000.
        assert (Nt : lit_num 10 ip t = q / 10).
        { unfold lit_num in LN. rewrite app_assoc, digits_value_app in LN. cbn [digits_value] in LN. fold (lit_num 10 ip t) in LN.
          rewrite dg_value in LN by exact Dc. lia. }
        rewrite Nt, K. apply Z.mod_small. exact H. }
      rewrite V', Z.eqb_refl.
      destruct (loop_ok (length (ip ++ 46 :: t ++ [c])) v ip' fp' GU V') as (s & Es & Gs).
      { rewrite Lt, app_length. cbn. unfold zlen in LU. lia. }
      rewrite Es. cbn [bind]. eexists. split; [reflexivity|]. now apply strip_zero.
Qed.

(** ** Hexadecimal printing *)
Lemma lstrip_spec ch s : exists k, s = repeat ch k ++ lstrip_ch ch s /\ hd_error (lstrip_ch ch s) <> Some ch.
Proof.
  induction s as [|c s (k & E & N)]; [exists 0%nat; split; [reflexivity|discriminate]|].
  cbn [lstrip_ch]. destruct (Z.eqb_spec c ch) as [->|D].
  - exists (S k). split; [cbn; now f_equal|exact N].
  - exists 0%nat. split; [reflexivity|]. cbn. congruence.
Qed.
Lemma rev_repeat {A} (x : A) k : rev (repeat x k) = repeat x k.
Proof.
  induction k; [reflexivity|]. cbn [repeat rev]. rewrite IHk. symmetry. apply repeat_cons.
Qed.
Lemma rstrip_fraction fp : digits_value 16 0 fp <> 0 -> Forall (is_digit 16) fp ->
  exists fp' k, rstrip_ch 48 (46 :: fp) = 46 :: fp' /\ fp = fp' ++ repeat 48 k.
Proof.
  intros V F. unfold rstrip_ch. destruct (lstrip_spec 48 (rev (46 :: fp))) as (k & E & N).
  set (l := lstrip_ch 48 (rev (46 :: fp))) in *. apply (f_equal (@rev Z)) in E.
  rewrite rev_involutive, rev_app_distr, rev_repeat in E.
  destruct (rev l) as [|c fp'] eqn:R.
  - cbn [app] in E. destruct k as [|k]; [discriminate E|]. cbn [repeat] in E. discriminate E.
  - cbn [app] in E. injection E as <- E. exists fp', k. now split.
Qed.

Lemma fixnum_hex_ok v : 0 <= v < 2 ^ 32 -> good (fixnum_hex v) v.
Proof.
  intros H. change (2 ^ 32) with 4294967296 in H. unfold fixnum_hex.
  rewrite Z.shiftr_div_pow2 by lia. change (2 ^ 16) with 65536.
  replace (Z.land v 0xffff) with (v mod 65536) by (symmetry; change 0xffff with (Z.ones 16); rewrite Z.land_ones by lia; reflexivity).
  destruct (base_str_ok 16 (v / 65536) ltac:(lia) ltac:(lia)) as (F1 & V1 & N1 & _).
  destruct (Z.eqb_spec (v mod 65536) 0) as [D|D].
  - exists 16, (base_str 16 (v / 65536)), false, []. unfold lit. cbn [Z.eqb Pos.eqb lit_tail]. rewrite app_nil_r.
    split; [reflexivity|]. split; [repeat split; auto|]. split; [rewrite ?app_nil_r; exact N1|].
    split; [rewrite V1; change (2 ^ 17 - 1) with 131071; lia|]. split; [cbn; lia|].
    unfold lit_fix, lit_num. rewrite app_nil_r, V1. change (zlen []) with 0. rewrite Z.pow_0_r, Z.div_1_r.
    change (2 ^ 32) with 4294967296. lia.
  - destruct (zero_pad_ok 16 (v mod 65536) 4 ltac:(lia) ltac:(lia) ltac:(change (16 ^ Z.of_nat 4) with 65536; lia)) as (F2 & V2 & L2).
    set (fp := zero_pad 4 (base_str 16 (v mod 65536))) in *. clearbody fp. change (Z.of_nat 4) with 4 in L2.
    destruct (rstrip_fraction fp ltac:(lia) F2) as (fp' & k & R & E). rewrite R.
    assert (F' : Forall (is_digit 16) fp') by (rewrite E in F2; now apply Forall_app in F2 as [? _]).
    assert (L' : zlen fp' + Z.of_nat k = 4) by (rewrite E, zlen_app in L2; unfold zlen in *; rewrite repeat_length in L2; lia).
    assert (V' : digits_value 16 0 fp' * 16 ^ Z.of_nat k = v mod 65536).
    { rewrite <- V2, E, digits_value_cat.
      assert (Z0 : digits_value 16 0 (repeat 48 k) = 0) by (rewrite <- (app_nil_r (repeat 48 k)); now rewrite digits_value_zeros).
      rewrite Z0. unfold zlen. rewrite repeat_length. lia. }
    assert (Nf : fp' <> []) by (intros ->; cbn in V'; lia).
    (* the digits before the dot: none when zero *)
    set (ip := if zeqb_list (48 :: 120 :: base_str 16 (v / 65536)) [48; 120; 48] then [] else base_str 16 (v / 65536)).
    assert (I : Forall (is_digit 16) ip /\ digits_value 16 0 ip = v / 65536).
    { unfold ip. destruct (zeqb_list (48 :: 120 :: base_str 16 (v / 65536)) [48; 120; 48]) eqn:Z; [|now split].
      apply zeqb_list_true in Z. injection Z as Z. rewrite Z in V1. cbn in V1. split; [constructor|]. cbn. lia. }
    destruct I as [Fi Vi].
    exists 16, ip, true, fp'. split.
    { unfold lit, ip. cbn [Z.eqb Pos.eqb lit_tail].
      destruct (zeqb_list (48 :: 120 :: base_str 16 (v / 65536)) [48; 120; 48]); reflexivity. }
    split; [repeat split; auto; discriminate|]. split; [destruct ip; [exact Nf|discriminate]|].
    split; [rewrite Vi; change (2 ^ 17 - 1) with 131071; lia|].
    pose proof (zlen_nonneg fp') as ZN.
    split; [transitivity (16 ^ 4); [apply Z.pow_le_mono_r; lia|cbn; lia]|].
    unfold lit_fix, lit_num. rewrite digits_value_cat, Vi.
    assert (P : 16 ^ zlen fp' * 16 ^ Z.of_nat k = 65536) by (rewrite <- Z.pow_add_r by lia; now rewrite L').
    assert (Pk : 0 < 16 ^ zlen fp') by (apply Z.pow_pos_nonneg; lia).
    assert (X : (v / 65536 * 16 ^ zlen fp' + digits_value 16 0 fp') * 65536 = v * 16 ^ zlen fp').
    { set (A := 16 ^ zlen fp') in *. set (B := 16 ^ Z.of_nat k) in *. set (W := digits_value 16 0 fp') in *.
      rewrite <- P at 2. replace ((v / 65536 * A + W) * (A * B)) with ((v / 65536 * (A * B) + W * B) * A) by ring.
      rewrite P, V'. f_equal. lia. }
    rewrite X, Z.div_mul by lia. change (2 ^ 32) with 4294967296. apply Z.mod_small. exact H.
Qed.

(** ** [format_fixnum] *)
Lemma shorter_cases a b : shorter a b = a \/ shorter a b = b.
Proof. unfold shorter. destruct (_ <? _); auto. Qed.
Lemma fixnum_min_ok base v : 0 <= v < 2 ^ 32 -> exists s, fixnum_min base v = Ok s /\ good s v.
Proof.
  intros H. destruct (fixnum_dec_ok v H) as (d & E & G). pose proof (fixnum_hex_ok v H) as Gh.
  destruct base; cbn [fixnum_min]; rewrite ?E; cbn [bind]; eexists; (split; [reflexivity|]); auto.
  destruct (shorter_cases (fixnum_hex v) d) as [-> | ->]; assumption.
Qed.

(** What a printed constant satisfies. *)
Definition printed (s : list Z) (v : Z) : Prop := fix_constant s v /\ parse_fixnum s = Ok v.
Lemma printed_plain s v : good s v -> printed s v.
Proof. intros G. split; [left; now apply good_constant|now apply good_parse]. Qed.
Lemma printed_neg s v : 0 <= v < 2 ^ 32 -> good s ((- v) mod 2 ^ 32) -> printed (45 :: s) v.
Proof.
  intros H G. assert (E : (- ((- v) mod 2 ^ 32)) mod 2 ^ 32 = v) by (change (2 ^ 32) with 4294967296 in *; lia).
  split.
  - right. left. exists s, ((- v) mod 2 ^ 32). split; [reflexivity|]. split; [now apply good_constant|]. now rewrite E.
  - destruct (good_parse _ _ G) as (_ & K & _). now rewrite K, E.
Qed.
Lemma printed_not s v : 0 <= v < 2 ^ 32 -> good s (2 ^ 32 - 1 - v) -> printed (126 :: s) v.
Proof.
  intros H G. split.
  - right. right. exists s, (2 ^ 32 - 1 - v). split; [reflexivity|]. split; [now apply good_constant|]. lia.
  - destruct (good_parse _ _ G) as (_ & _ & K). rewrite K. f_equal. lia.
Qed.

Lemma neg_ok base v : 0 <= v < 2 ^ 32 -> exists s, format_fixnum_neg base v = Ok (45 :: s) /\ printed (45 :: s) v.
Proof.
  intros H. unfold format_fixnum_neg. rewrite pf_mask.
  destruct (fixnum_min_ok base ((- v) mod 2 ^ 32)) as (s & E & G); [apply Z.mod_pos_bound; lia|].
  rewrite E. cbn [bind]. exists s. split; [reflexivity|]. now apply printed_neg.
Qed.
Lemma not_ok base v : 0 <= v < 2 ^ 32 -> exists s, format_fixnum_not base v = Ok (126 :: s) /\ printed (126 :: s) v.
Proof.
  intros H. unfold format_fixnum_not. rewrite pf_mask.
  replace (Z.lnot v mod 2 ^ 32) with (2 ^ 32 - 1 - v) by (unfold Z.lnot; change (2 ^ 32) with 4294967296 in *; lia).
  destruct (fixnum_min_ok base (2 ^ 32 - 1 - v)) as (s & E & G); [lia|].
  rewrite E. cbn [bind]. exists s. split; [reflexivity|]. now apply printed_not.
Qed.
Lemma format_fixnum_ok sign base v : 0 <= v < 2 ^ 32 ->
  exists s, format_fixnum sign base v = Ok s /\ printed s v.
Proof.
  intros H. destruct (fixnum_min_ok base v H) as (s & E & G). apply printed_plain in G.
  destruct (neg_ok base v H) as (sn & En & Gn). destruct (not_ok base v H) as (st & Et & Gt).
  destruct sign; cbn [format_fixnum].
  - rewrite E. cbn [bind]. destruct (negb _ && negb _); [|eauto]. rewrite En. cbn [bind]. rewrite Et. cbn [bind].
    eexists. split; [reflexivity|]. destruct (shorter_cases (126 :: st) (shorter (45 :: sn) s)) as [-> | ->]; [exact Gt|].
    destruct (shorter_cases (45 :: sn) s) as [-> | ->]; assumption.
  - eauto.
  - eauto.
  - eauto.
Qed.
(** With a sign requested the text carries exactly that sign; with the empty sign none. *)
Lemma format_fixnum_sign base v : 0 <= v < 2 ^ 32 ->
  (exists s, format_fixnum SNeg base v = Ok (45 :: s)) /\ (exists s, format_fixnum SNot base v = Ok (126 :: s)) /\
  (exists s, format_fixnum SEmpty base v = Ok s /\ unsigned_constant s v).
Proof.
  intros H. split; [|split].
  - destruct (neg_ok base v H) as (s & E & _). eauto.
  - destruct (not_ok base v H) as (s & E & _). eauto.
  - destruct (fixnum_min_ok base v H) as (s & E & G). exists s. split; [exact E|now apply good_constant].
Qed.

(** ** Picotron integers *)
Lemma num_to_luaint_eq v : num_to_luaint v = signed64 v.
Proof.
  unfold num_to_luaint, signed64. rewrite land_mask64.
  assert (0 <= v mod 2 ^ 64 < 2 ^ 64) by (apply Z.mod_pos_bound; lia).
  set (x := v mod 2 ^ 64) in *.
  assert (E : (v + 2 ^ 63) mod 2 ^ 64 = (x + 2 ^ 63) mod 2 ^ 64) by (unfold x; now rewrite Zplus_mod_idemp_l).
  rewrite E. clearbody x. clear E.
  assert (T : negb (Z.land x 0x8000000000000000 =? 0) = (2 ^ 63 <=? x)).
  { change 0x8000000000000000 with (2 ^ 63).
    assert (B : Z.land x (2 ^ 63) = if Z.testbit x 63 then 2 ^ 63 else 0).
    { apply Z.bits_inj'. intros i Hi. rewrite Z.land_spec, Z.pow2_bits_eqb by lia.
      destruct (Z.eqb_spec 63 i) as [<-|N].
      - destruct (Z.testbit x 63); [now rewrite Z.pow2_bits_true|now rewrite Z.bits_0].
      - rewrite andb_false_r. destruct (Z.testbit x 63); [|now rewrite Z.bits_0]. rewrite Z.pow2_bits_false by lia. reflexivity. }
    rewrite B, Z.testbit_odd, Z.shiftr_div_pow2 by lia.
    change (2 ^ 64) with 18446744073709551616 in H. change (2 ^ 63) with 9223372036854775808.
    destruct (Z.leb_spec 9223372036854775808 x).
    - replace (x / 9223372036854775808) with 1 by lia. reflexivity.
    - replace (x / 9223372036854775808) with 0 by lia. reflexivity. }
  rewrite T. change (2 ^ 64) with 18446744073709551616 in *. change (2 ^ 63) with 9223372036854775808 in *.
  destruct (Z.leb_spec 9223372036854775808 x); lia.
Qed.
Lemma signed64_small v : - 2 ^ 63 <= v < 2 ^ 63 -> signed64 v = v.
Proof. unfold signed64. change (2 ^ 64) with 18446744073709551616. change (2 ^ 63) with 9223372036854775808. lia. Qed.

Lemma int_of_digits_ok base digits s : std_digits base digits -> Forall (is_digit base) s -> s <> [] ->
  int_of_digits digits s = Ok (digits_value base 0 s).
Proof.
  intros S F N. unfold int_of_digits. destruct s as [|c s]; [congruence|].
  pose proof (scan_digits_ok base digits (c :: s) S F 0 0 [] I) as E. rewrite app_nil_r in E. now rewrite E.
Qed.
Lemma digits_no base c s : Forall (is_digit base) s -> ~ is_digit base c -> has_ch c s = false.
Proof.
  intros F N. unfold has_ch. destruct (existsb (Z.eqb c) s) eqn:E; [|reflexivity].
  apply existsb_exists in E as (x & Hx & E). apply Z.eqb_eq in E. subst x. rewrite Forall_forall in F. now apply F in Hx.
Qed.

(** An integer literal parses to its value, also behind a minus. *)
Lemma parse_dec_int s : Forall (is_digit 10) s -> s <> [] -> digits_value 10 0 s < 2 ^ 63 ->
  parse_luanum_abs s = Ok (LInt (digits_value 10 0 s)).
Proof.
  intros F N B.
  assert (E : parse_luanum_abs s = rethrow (
        if has_ch 46 s || has_ch 101 s then Ok LFloat
        else
          v <- int_of_digits k_digits10 s ;;
          Ok (if (-0x8000000000000000 <=? v) && (v <=? 0x7fffffffffffffff) then LInt (num_to_luaint v) else LFloat))).
  { destruct s as [|a s]; [congruence|]. destruct (Z.eq_dec a 48) as [->|N48].
    - destruct s as [|b s]; [reflexivity|]. inversion F as [|? ? _ F']; subst. inversion F' as [|? ? D _]; subst.
      apply dg_digit in D. unfold dg in D.
      assert (b = 48 \/ b = 49 \/ b = 50 \/ b = 51 \/ b = 52 \/ b = 53 \/ b = 54 \/ b = 55 \/ b = 56 \/ b = 57) as Hb by lia.
      repeat destruct Hb as [->|Hb]; try reflexivity. subst b. reflexivity.
    - destruct a as [|a|a]; try reflexivity. repeat (destruct a as [a|a|]; try reflexivity). congruence. }
  rewrite E, (digits_no 10 46 s F), (digits_no 10 101 s F) by (rewrite <- dg_digit; unfold dg; lia).
  rewrite (int_of_digits_ok 10 k_digits10 s) by (auto; left; now split). cbn [orb bind].
  pose proof (digits_value_bound 10 s ltac:(lia) F) as [L _]. change (2 ^ 63) with 9223372036854775808 in B.
  destruct (Z.leb_spec (-0x8000000000000000) (digits_value 10 0 s)); [|lia].
  destruct (Z.leb_spec (digits_value 10 0 s) 0x7fffffffffffffff); [|lia]. cbn [andb rethrow].
  rewrite num_to_luaint_eq, signed64_small by (change (2 ^ 63) with 9223372036854775808; lia). reflexivity.
Qed.
Lemma parse_hex_int t : Forall (is_digit 16) t -> t <> [] ->
  parse_luanum_abs (48 :: 120 :: t) = Ok (LInt (signed64 (digits_value 16 0 t))).
Proof.
  intros F N. unfold parse_luanum_abs.
  assert (D : forall c, c = 46 \/ c = 112 -> has_ch c (48 :: 120 :: t) = false).
  { intros c Hc. unfold has_ch. cbn [existsb]. destruct (Z.eqb_spec c 48), (Z.eqb_spec c 120); try lia.
    apply (digits_no 16 c t F). unfold is_digit. lia. }
  rewrite !D by auto. cbn [orb].
  rewrite (int_of_digits_ok 16 k_digits16 t) by (auto; right; now split). cbn [bind rethrow]. now rewrite num_to_luaint_eq.
Qed.

(** A good unsigned integer text: its meaning and what the parser says. *)
Definition int_good (s : list Z) (v : Z) : Prop := int_literal s v /\ parse_luanum s = Ok (LInt v) /\ parse_luanum (45 :: s) = Ok (LInt (- v)).

Lemma parse_luanum_plain s : lower s = s -> match s with [] => True | c :: _ => c <> 45 end ->
  parse_luanum s = parse_luanum_abs s.
Proof.
  intros L. unfold parse_luanum. rewrite L. clear L. destruct s as [|c s]; [reflexivity|]. intros A1.
  destruct c as [|c|c]; try reflexivity. repeat (destruct c as [c|c|]; try reflexivity; try (exfalso; lia)).
Qed.
Lemma int_good_dec s : Forall (is_digit 10) s -> s <> [] -> digits_value 10 0 s < 2 ^ 63 -> int_good s (digits_value 10 0 s).
Proof.
  intros F N B. split; [left; repeat split; auto|]. pose proof (lower_digits 10 s F) as L. split.
  - rewrite parse_luanum_plain; [now apply parse_dec_int|exact L|]. destruct F as [|c s D _]; [exact I|].
    apply dg_digit in D. unfold dg in D. lia.
  - unfold parse_luanum. change (lower (45 :: s)) with (45 :: lower s). rewrite L. cbv iota beta.
    now rewrite parse_dec_int.
Qed.
Lemma int_good_hex t : Forall (is_digit 16) t -> t <> [] -> int_good (48 :: 120 :: t) (signed64 (digits_value 16 0 t)).
Proof.
  intros F N. split; [right; exists t; repeat split; auto|].
  assert (L : lower (48 :: 120 :: t) = 48 :: 120 :: t) by (cbn; f_equal; f_equal; exact (lower_digits 16 t F)). split.
  - rewrite parse_luanum_plain; [now apply parse_hex_int|exact L|]. lia.
  - unfold parse_luanum. change (lower (45 :: 48 :: 120 :: t)) with (45 :: lower (48 :: 120 :: t)). rewrite L. cbv iota beta.
    now rewrite parse_hex_int.
Qed.

Lemma luaint_hex_ok v : 0 <= v -> int_good (48 :: 120 :: base_str 16 v) (signed64 v).
Proof.
  intros H. destruct (base_str_ok 16 v ltac:(lia) H) as (F & V & N & _). rewrite <- V at 2. now apply int_good_hex.
Qed.
Lemma luaint_dec_ok v : 0 <= v < 2 ^ 63 -> int_good (base_str 10 v) (signed64 v).
Proof.
  intros H. destruct (base_str_ok 10 v ltac:(lia) ltac:(lia)) as (F & V & N & _). rewrite signed64_small by lia.
  rewrite <- V at 2. apply int_good_dec; auto. lia.
Qed.
Definition base_fine (base : base_arg) (v : Z) : Prop := base = B10 -> v < 2 ^ 63.
Lemma luaint_min_ok base v : 0 <= v < 2 ^ 64 -> base_fine base v -> int_good (luaint_min base v) (signed64 v).
Proof.
  intros H Bf. pose proof (luaint_hex_ok v ltac:(lia)) as Gh. destruct base; cbn [luaint_min].
  - destruct (Z.leb_spec 0x8000000000000000 v) as [L|L]; [exact Gh|].
    destruct (shorter_cases (48 :: 120 :: base_str 16 v) (base_str 10 v)) as [-> | ->]; [exact Gh|].
    apply luaint_dec_ok. change (2 ^ 63) with 0x8000000000000000. lia.
  - apply luaint_dec_ok. specialize (Bf eq_refl). lia.
  - exact Gh.
Qed.

(** What a printed integer satisfies: it denotes the integer, and once a leading unary
    operator is split off, the parser reads the operand. *)
Definition int_printed (s : list Z) (v : Z) : Prop :=
  int_constant s v /\
  exists sign t w, s = sign ++ t /\ parse_luanum t = Ok (LInt w) /\
    (sign = [] /\ v = w \/ sign = [45] /\ v = signed64 (- w) \/ sign = [126] /\ v = - w - 1).

Lemma int_printed_plain s v : int_good s v -> int_printed s v.
Proof. intros (A & B & C). split; [now left|]. exists [], s, v. repeat split; auto. Qed.
Lemma signed64_neg v : signed64 (- signed64 v) = signed64 (- v).
Proof. unfold signed64. change (2 ^ 64) with 18446744073709551616. change (2 ^ 63) with 9223372036854775808. lia. Qed.
Lemma signed64_mod v : signed64 (v mod 2 ^ 64) = signed64 v.
Proof. unfold signed64. change (2 ^ 64) with 18446744073709551616. change (2 ^ 63) with 9223372036854775808. lia. Qed.
Lemma int_printed_neg s v : - 2 ^ 63 <= v < 2 ^ 63 -> int_good s (signed64 ((- v) mod 2 ^ 64)) -> int_printed (45 :: s) v.
Proof.
  intros H (A & B & C). rewrite signed64_mod in A, B.
  assert (E : v = signed64 (- signed64 (- v))) by (rewrite signed64_neg, Z.opp_involutive; symmetry; now apply signed64_small).
  split; [right; left; exists s, (signed64 (- v)); auto|]. exists [45], s, (signed64 (- v)). repeat split; auto.
Qed.
Lemma int_printed_not s v : - 2 ^ 63 <= v < 2 ^ 63 -> int_good s (signed64 (Z.lnot v mod 2 ^ 64)) -> int_printed (126 :: s) v.
Proof.
  intros H (A & B & C). rewrite signed64_mod in A, B. rewrite signed64_small in A, B by (unfold Z.lnot; lia).
  assert (E : v = - Z.lnot v - 1) by (unfold Z.lnot; lia).
  split; [right; right; exists s, (Z.lnot v); auto|]. exists [126], s, (Z.lnot v). repeat split; auto.
Qed.

(** Masking first does not change the negated or inverted text. *)
Lemma neg_masked base v : format_luaint_neg base (v mod 2 ^ 64) = format_luaint_neg base v.
Proof.
  unfold format_luaint_neg. rewrite !land_mask64. do 2 f_equal. change (2 ^ 64) with 18446744073709551616. lia.
Qed.
Lemma not_masked base v : format_luaint_not base (v mod 2 ^ 64) = format_luaint_not base v.
Proof.
  unfold format_luaint_not. rewrite !land_mask64. do 2 f_equal. unfold Z.lnot. change (2 ^ 64) with 18446744073709551616. lia.
Qed.

Definition not_decimal (base : base_arg) : Prop := base <> B10.
Lemma luaint_neg_ok base v : - 2 ^ 63 <= v < 2 ^ 63 -> base_fine base ((- v) mod 2 ^ 64) -> int_printed (format_luaint_neg base v) v.
Proof.
  intros H B. unfold format_luaint_neg. rewrite land_mask64. apply int_printed_neg; [exact H|].
  apply luaint_min_ok; [apply Z.mod_pos_bound; lia|exact B].
Qed.
Lemma luaint_not_ok base v : - 2 ^ 63 <= v < 2 ^ 63 -> base_fine base (Z.lnot v mod 2 ^ 64) -> int_printed (format_luaint_not base v) v.
Proof.
  intros H B. unfold format_luaint_not. rewrite land_mask64. apply int_printed_not; [exact H|].
  apply luaint_min_ok; [apply Z.mod_pos_bound; lia|exact B].
Qed.
Lemma luaint_plain_ok base v : - 2 ^ 63 <= v < 2 ^ 63 -> base_fine base (v mod 2 ^ 64) -> int_printed (luaint_min base (v mod 2 ^ 64)) v.
Proof.
  intros H B. apply int_printed_plain. rewrite <- (signed64_small v H) at 2. rewrite <- (signed64_mod v).
  apply luaint_min_ok; [apply Z.mod_pos_bound; lia|exact B].
Qed.

Lemma format_luaint_ok sign base allow_not v : - 2 ^ 63 <= v < 2 ^ 63 -> not_decimal base ->
  int_printed (format_luaint sign base allow_not v) v.
Proof.
  intros H NB. assert (Bf : forall x, base_fine base x) by (intros x K; now elim NB).
  destruct sign; cbn [format_luaint]; rewrite ?land_mask64.
  - rewrite neg_masked, not_masked.
    assert (P1 := luaint_plain_ok base v H (Bf _)). assert (P2 := luaint_neg_ok base v H (Bf _)). assert (P3 := luaint_not_ok base v H (Bf _)).
    destruct (negb _ && negb _); [|exact P1].
    assert (P4 : int_printed (shorter (format_luaint_neg base v) (luaint_min base (v mod 2 ^ 64))) v).
    { destruct (shorter_cases (format_luaint_neg base v) (luaint_min base (v mod 2 ^ 64))) as [-> | ->]; assumption. }
    destruct allow_not; [|exact P4].
    destruct (shorter_cases (format_luaint_not base v) (shorter (format_luaint_neg base v) (luaint_min base (v mod 2 ^ 64)))) as [-> | ->]; assumption.
  - now apply luaint_plain_ok.
  - now apply luaint_neg_ok.
  - now apply luaint_not_ok.
Qed.

(** Decimal output as used for Picotron data. *)
Lemma base_str_long base v n : base = 10 \/ base = 16 -> 0 <= n -> base ^ n <= v -> n < zlen (base_str base v).
Proof.
  intros Hb Hn H. assert (0 < base ^ n) by (apply Z.pow_pos_nonneg; lia).
  destruct (base_str_ok base v Hb ltac:(lia)) as (F & V & _).
  pose proof (digits_value_bound base _ ltac:(lia) F) as B. rewrite V in B.
  destruct (Z_lt_ge_dec n (zlen (base_str base v))) as [?|G]; [assumption|exfalso].
  assert (base ^ zlen (base_str base v) <= base ^ n) by (apply Z.pow_le_mono_r; lia). lia.
Qed.
Lemma format_luaint_dec_ok v : - 10 ^ 18 < v < 2 ^ 63 -> int_printed (format_luaint SNone B10 false v) v.
Proof.
  intros H. change (2 ^ 63) with 9223372036854775808 in H. change (10 ^ 18) with 1000000000000000000 in H.
  assert (R : - 2 ^ 63 <= v < 2 ^ 63) by (change (2 ^ 63) with 9223372036854775808; lia).
  cbn [format_luaint]. rewrite !land_mask64, neg_masked.
  destruct (Z_lt_ge_dec v 0) as [N|N].
  - assert (Em : v mod 2 ^ 64 = v + 18446744073709551616) by (change (2 ^ 64) with 18446744073709551616; lia).
    assert (T : negb (Z.land (v mod 2 ^ 64) 0x8000000000000000 =? 0) && negb (v mod 2 ^ 64 =? 0x8000000000000000) = true).
    { apply andb_true_iff. split; [|rewrite Em; destruct (Z.eqb_spec (v + 18446744073709551616) 0x8000000000000000); [lia|reflexivity]].
      destruct (Z.eqb_spec (Z.land (v mod 2 ^ 64) 0x8000000000000000) 0) as [K|K]; [exfalso|reflexivity].
      assert (B : Z.testbit (Z.land (v mod 2 ^ 64) 0x8000000000000000) 63 = false) by (now rewrite K, Z.bits_0).
      rewrite Z.land_spec in B. change (Z.testbit 0x8000000000000000 63) with true in B. rewrite andb_true_r in B.
      rewrite Z.testbit_odd, Z.shiftr_div_pow2, Em in B by lia. change (2 ^ 63) with 9223372036854775808 in B.
      replace ((v + 18446744073709551616) / 9223372036854775808) with 1 in B by lia. discriminate B. }
    rewrite T. assert (S : shorter (format_luaint_neg B10 v) (luaint_min B10 (v mod 2 ^ 64)) = format_luaint_neg B10 v).
    { unfold shorter, format_luaint_neg. cbn [luaint_min]. rewrite zlen_cons, land_mask64.
      replace ((- v) mod 2 ^ 64) with (- v) by (change (2 ^ 64) with 18446744073709551616; lia).
      pose proof (base_str_len 10 (- v) 18 ltac:(lia) ltac:(change (10 ^ 18) with 1000000000000000000; lia) ltac:(lia)).
      pose proof (base_str_long 10 (v mod 2 ^ 64) 19 ltac:(lia) ltac:(lia) ltac:(rewrite Em; change (10 ^ 19) with 10000000000000000000; lia)).
      destruct (Z.ltb_spec (1 + zlen (base_str 10 (- v))) (zlen (base_str 10 (v mod 2 ^ 64)))); [reflexivity|lia]. }
    rewrite S. apply luaint_neg_ok; [exact R|]. intros _. change (2 ^ 64) with 18446744073709551616. change (2 ^ 63) with 9223372036854775808. lia.
  - assert (Em : v mod 2 ^ 64 = v) by (change (2 ^ 64) with 18446744073709551616; lia).
    assert (T : negb (Z.land (v mod 2 ^ 64) 0x8000000000000000 =? 0) = false).
    { rewrite Em. apply negb_false_iff, Z.eqb_eq. apply Z.bits_inj'. intros i Hi. rewrite Z.land_spec, Z.bits_0.
      change 0x8000000000000000 with (2 ^ 63). rewrite Z.pow2_bits_eqb by lia. destruct (Z.eqb_spec 63 i) as [<-|?]; [|apply andb_false_r].
      rewrite andb_true_r, Z.testbit_odd, Z.shiftr_div_pow2 by lia. change (2 ^ 63) with 9223372036854775808.
      replace (v / 9223372036854775808) with 0 by lia. reflexivity. }
    rewrite T. cbn [andb]. apply luaint_plain_ok; [exact R|]. intros _. rewrite Em. lia.
Qed.

(** Every literal of moderate size is read exactly. *)
Lemma parse_exact s n d : unsigned_literal s n d -> d <= 1000000 -> n < d * 131071 ->
  parse_fixnum s = Ok ((n * 65536 / d) mod 2 ^ 32).
Proof.
  intros (base & prefix & ip & fp & tail & Hb & Ht & -> & Fi & Ff & N & -> & ->) Hd Hn.
  assert (exists dot, tail = lit_tail dot fp /\ (dot = false -> fp = [])) as (dot & Et & Hdot).
  { destruct Ht as [[-> ->]| ->]; [exists false|exists true]; split; auto. discriminate. }
  assert (E : prefix ++ ip ++ tail = lit base ip dot fp).
  { rewrite Et. unfold lit. destruct Hb as [[-> ->]|[-> ->]]; reflexivity. }
  rewrite E. rewrite parse_lit.
  - reflexivity.
  - split; [destruct Hb as [[-> _]|[-> _]]; auto|]. auto.
  - rewrite digits_value_cat in Hn. unfold zlen in Hn. assert (1 < base) by lia.
    pose proof (digits_value_bound base fp ltac:(lia) Ff) as B. assert (0 < base ^ Z.of_nat (length fp)) by (apply Z.pow_pos_nonneg; lia).
    change (2 ^ 17 - 1) with 131071. nia.
  - exact Hd.
Qed.
