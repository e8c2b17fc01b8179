(** Lemmas about number parsing and printing. *)
From Verif Require Import M_Base L_Util M_Compress M_Fold L_Fold M_Num S_Num.
Open Scope Z_scope.
Ltac Zify.zify_post_hook ::= Z.div_mod_to_equations.

(** ** Rounding *)
Lemma rne_bound a b : 0 < b -> 2 * Z.abs (rne a b * b - a) <= b.
Proof.
  intros H. unfold rne. pose proof (Z.div_mod a b ltac:(lia)) as E. pose proof (Z.mod_pos_bound a b H) as M.
  set (q := a / b) in *. set (r := a mod b) in *. clearbody q r.
  assert (A : q * b - a = - r) by lia. assert (B : (q + 1) * b - a = b - r) by lia.
  destruct (Z.ltb_spec (2 * r) b); [lia|]. destruct (Z.ltb_spec b (2 * r)); [lia|].
  destruct (Z.even q); lia.
Qed.
Lemma rne_exact k b : 0 < b -> rne (k * b) b = k.
Proof.
  intros H. unfold rne. rewrite Z.div_mul, Z.mod_mul by lia.
  destruct (Z.ltb_spec (2 * 0) b); [reflexivity|lia].
Qed.

Lemma pow_split a b : 0 <= a -> 0 <= b -> 2 ^ (a + b) = 2 ^ a * 2 ^ b.
Proof. intros. now apply Z.pow_add_r. Qed.

Lemma scale_lt a b c : 0 < c -> a < b -> a * c < b * c.
Proof. intros. apply Z.mul_lt_mono_pos_r; assumption. Qed.
Lemma unscale_lt a b c : 0 < c -> a * c < b * c -> a < b.
Proof. intros H K. now apply Z.mul_lt_mono_pos_r in K. Qed.
Lemma unscale_le a b c : 0 < c -> a * c <= b * c -> a <= b.
Proof. intros H K. now apply Z.mul_le_mono_pos_r in K. Qed.

(** [d 2^(j+e) <= n 2^j < d 2^(j+e+1)] does not depend on [j]. *)
Definition log_at (n d e j : Z) : Prop := d * 2 ^ (j + e) <= n * 2 ^ j < d * 2 ^ (j + e + 1).
Lemma log_at_shift n d e j i : 0 <= j -> 0 <= j + e -> 0 <= i -> log_at n d e (j + i) <-> log_at n d e j.
Proof.
  intros Hj He Hi. unfold log_at.
  replace (j + i + e) with ((j + e) + i) by lia. replace (j + e + i + 1) with ((j + e + 1) + i) by lia.
  rewrite !pow_split with (b := i) by lia. rewrite !Z.mul_assoc.
  assert (P : 0 < 2 ^ i) by (apply Z.pow_pos_nonneg; lia).
  rewrite <- Z.mul_le_mono_pos_r, <- Z.mul_lt_mono_pos_r by exact P. reflexivity.
Qed.
Lemma log_at_any n d e j j' : 0 <= j -> 0 <= j + e -> 0 <= j' -> 0 <= j' + e -> log_at n d e j -> log_at n d e j'.
Proof.
  intros A B C D H. destruct (Z.le_ge_cases j j') as [L|L].
  - replace j' with (j + (j' - j)) by lia. apply log_at_shift; lia || assumption.
  - replace j with (j' + (j - j')) in H by lia. apply log_at_shift in H; lia || assumption.
Qed.

Lemma qlog2_spec n d j : 0 < n -> 0 < d -> 0 <= j -> 0 <= j + qlog2 n d -> log_at n d (qlog2 n d) j.
Proof.
  intros Hn Hd. unfold qlog2. set (k := Z.log2 n - Z.log2 d). set (s := Z.max (- k) 0).
  replace (Z.max k 0) with (s + k) by (unfold s; lia).
  destruct (Z.log2_spec n Hn) as [Ln Un]. destruct (Z.log2_spec d Hd) as [Ld Ud].
  pose proof (Z.log2_nonneg n) as Nn. pose proof (Z.log2_nonneg d) as Nd.
  assert (S0 : 0 <= s) by (unfold s; lia). assert (S1 : 0 <= s + k) by (unfold s; lia).
  assert (P : forall i, 0 <= i -> 0 < 2 ^ i) by (intros; apply Z.pow_pos_nonneg; lia).
  destruct (Z.ltb_spec (n * 2 ^ s) (d * 2 ^ (s + k))) as [L|L]; intros Hj He.
  - apply log_at_any with (j := s + 1); try lia. unfold log_at.
    replace (s + 1 + (k - 1)) with (s + k) by lia. replace (s + k + 1) with (1 + (s + k)) by lia.
    rewrite (pow_split s 1), (pow_split 1 (s + k)) by lia. change (2 ^ 1) with 2. split; [|lia].
    assert (A : 2 ^ Z.log2 n * 2 ^ s <= n * 2 ^ s) by (apply Z.mul_le_mono_nonneg_r; [specialize (P s); lia|exact Ln]).
    assert (B : d * 2 ^ (s + k) < 2 ^ (Z.succ (Z.log2 d)) * 2 ^ (s + k)) by (apply scale_lt; [apply P; lia|exact Ud]).
    rewrite <- pow_split in A by lia. rewrite <- pow_split in B by lia.
    replace (Z.succ (Z.log2 d) + (s + k)) with (1 + (Z.log2 n + s)) in B by (unfold k; lia).
    rewrite (pow_split 1) in B by lia. change (2 ^ 1) with 2 in B. lia.
  - apply log_at_any with (j := s); try lia. unfold log_at. split; [exact L|].
    assert (A : n * 2 ^ s < 2 ^ (Z.succ (Z.log2 n)) * 2 ^ s) by (apply scale_lt; [apply P; lia|exact Un]).
    assert (B : 2 ^ (Z.log2 d) * 2 ^ (s + k + 1) <= d * 2 ^ (s + k + 1)) by (apply Z.mul_le_mono_nonneg_r; [specialize (P (s + k + 1)); lia|exact Ld]).
    rewrite <- pow_split in A by lia. rewrite <- pow_split in B by lia.
    replace (Z.log2 d + (s + k + 1)) with (Z.succ (Z.log2 n) + s) in B by (unfold k; lia). lia.
Qed.

(** The error of rounding a number below [2^K]. *)
Lemma rnd53_bound n d K : 0 <= n -> 0 < d -> 0 <= K <= 52 -> n < d * 2 ^ K ->
  exists a b, rnd53 n d = (a, b) /\ 0 <= a /\ 0 < b /\ 2 ^ (54 - K) * Z.abs (a * d - n * b) <= d * b.
Proof.
  intros Hn Hd HK L. unfold rnd53. destruct (Z.eqb_spec n 0) as [->|N].
  { exists 0, 1. repeat split; try lia. }
  set (e := qlog2 n d - 52).
  assert (E : qlog2 n d <= K - 1).
  { destruct (Z_le_gt_dec (qlog2 n d) (K - 1)) as [?|G]; [assumption|exfalso].
    pose proof (qlog2_spec n d 0 ltac:(lia) Hd ltac:(lia) ltac:(lia)) as [Lo _].
    rewrite Z.mul_1_r, Z.add_0_l in Lo.
    assert (2 ^ K <= 2 ^ qlog2 n d) by (apply Z.pow_le_mono_r; lia). nia. }
  assert (e < 0) by lia. destruct (Z.ltb_spec e 0); [|lia].
  exists (rne (n * 2 ^ (- e)) d), (2 ^ (- e)). split; [reflexivity|].
  assert (P : 2 ^ (53 - K) <= 2 ^ (- e)) by (apply Z.pow_le_mono_r; lia).
  assert (P0 : 0 < 2 ^ (53 - K)) by (apply Z.pow_pos_nonneg; lia).
  pose proof (rne_bound (n * 2 ^ (- e)) d Hd) as B. set (m := rne (n * 2 ^ (- e)) d) in *. clearbody m.
  set (w := 2 ^ (- e)) in *. clearbody w. replace (54 - K) with (1 + (53 - K)) by lia.
  rewrite pow_split by lia. change (2 ^ 1) with 2. set (u := 2 ^ (53 - K)) in *. clearbody u.
  split; [|split]; [|lia|].
  - destruct (Z_lt_ge_dec m 0) as [M|M]; [exfalso|lia]. nia.
  - transitivity (u * d); [|nia].
    replace (2 * u * Z.abs (m * d - n * w)) with (u * (2 * Z.abs (m * d - n * w))) by ring.
    apply Z.mul_le_mono_nonneg_l; lia.
Qed.

(** A number with at most 53 significant bits and no bits below [2^-q] is not changed. *)
Lemma rnd53_exact n d p q : 0 <= n -> 0 < d -> 0 <= q -> 0 <= p < 2 ^ 53 -> n * 2 ^ q = p * d ->
  exists a b, rnd53 n d = (a, b) /\ 0 <= a /\ 0 < b /\ a * 2 ^ q = p * b.
Proof.
  intros Hn Hd Hq Hp E. unfold rnd53. destruct (Z.eqb_spec n 0) as [->|N].
  { exists 0, 1. assert (p = 0) by nia. subst p. repeat split; lia. }
  assert (Pq : 0 < 2 ^ q) by (apply Z.pow_pos_nonneg; lia).
  assert (p0 : 0 < p) by nia.
  set (l := qlog2 n d).
  (* l <= 52 - q *)
  assert (L : l <= 52 - q).
  { destruct (Z_le_gt_dec l (52 - q)) as [?|G]; [assumption|exfalso].
    pose proof (qlog2_spec n d q ltac:(lia) Hd Hq ltac:(fold l; lia)) as [Lo _]. fold l in Lo.
    rewrite E in Lo. assert (2 ^ 53 <= 2 ^ (q + l)) by (apply Z.pow_le_mono_r; lia). nia. }
  destruct (Z.ltb_spec (l - 52) 0) as [M|M].
  - exists (rne (n * 2 ^ (- (l - 52))) d), (2 ^ (- (l - 52))).
    replace (- (l - 52)) with (q + (52 - l - q)) by lia. rewrite pow_split by lia.
    rewrite Z.mul_assoc, E. replace (p * d * 2 ^ (52 - l - q)) with ((p * 2 ^ (52 - l - q)) * d) by ring.
    assert (0 < 2 ^ (52 - l - q)) by (apply Z.pow_pos_nonneg; lia).
    rewrite rne_exact by lia. split; [reflexivity|]. split; [nia|]. split; [nia|]. ring.
  - assert (q = 0) by lia. subst q. assert (l = 52) by lia. rewrite H.
    change (52 - 52) with 0. change (2 ^ 0) with 1 in *. rewrite !Z.mul_1_r in *. rewrite E, rne_exact by lia.
    exists p, 1. repeat split; lia.
Qed.

(** ** The value read from a literal with a fraction *)
Lemma fraction_exact I D B : 0 <= I < 2 ^ 17 - 1 -> 0 <= D < B -> B <= 1000000 ->
  let '(n, d) := int_plus_float I (int_div D B) in n * 65536 / d = I * 65536 + D * 65536 / B.
Proof.
  intros HI HD HB. unfold int_plus_float, int_div. change (2 ^ 17 - 1) with 131071 in HI.
  destruct (rnd53_exact I 1 I 0) as (a & b & Ea & Pa & Pb & Xa);
    [lia|lia|lia|change (2 ^ 53) with 9007199254740992; lia|reflexivity|].
  rewrite Ea. change (2 ^ 0) with 1 in Xa. assert (Xa' : a = I * b) by lia. clear Xa. subst a.
  set (q := D * 65536 / B). set (r := (D * 65536) mod B).
  assert (QR : D * 65536 = B * q + r) by (apply Z.div_mod; lia).
  assert (R : 0 <= r < B) by (apply Z.mod_pos_bound; lia).
  assert (Q : 0 <= q < 65536) by (unfold q; split; [apply Z.div_pos; lia|apply Z.div_lt_upper_bound; lia]).
  clearbody q r.
  destruct (Z.eq_dec r 0) as [->|Nr].
  - destruct (rnd53_exact D B q 16) as (n1 & d1 & E1 & P1 & Q1 & X1);
      [lia|lia|lia|change (2 ^ 53) with 9007199254740992; lia|change (2 ^ 16) with 65536; lia|].
    rewrite E1. change (2 ^ 16) with 65536 in X1.
    destruct (rnd53_exact (I * b * d1 + n1 * b) (b * d1) (I * 65536 + q) 16) as (n & d & E2 & P2 & Q2 & X2);
      [nia|nia|lia|change (2 ^ 53) with 9007199254740992; lia|change (2 ^ 16) with 65536; nia|].
    rewrite E2. change (2 ^ 16) with 65536 in X2. rewrite X2, Z.div_mul by lia. reflexivity.
  - destruct (rnd53_bound D B 0) as (n1 & d1 & E1 & P1 & Q1 & X1);
      [lia|lia|lia|change (2 ^ 0) with 1; lia|].
    rewrite E1. change (2 ^ (54 - 0)) with 18014398509481984 in X1.
    assert (U1 : n1 <= d1 * 2).
    { destruct (Z_le_gt_dec n1 (d1 * 2)) as [?|G]; [assumption|exfalso].
      assert (n1 * B > 2 * (d1 * B)) by nia. assert (D * d1 < B * d1) by nia. nia. }
    destruct (rnd53_bound (I * b * d1 + n1 * b) (b * d1) 18) as (n & d & E2 & P2 & Q2 & X2);
      [nia|nia|lia|change (2 ^ 18) with 262144; nia|].
    rewrite E2. change (2 ^ (54 - 18)) with 68719476736 in X2.
    (* cancel b *)
    assert (X3 : 68719476736 * Z.abs (n * d1 - (I * d1 + n1) * d) <= d1 * d).
    { replace (n * (b * d1) - (I * b * d1 + n1 * b) * d) with (b * (n * d1 - (I * d1 + n1) * d)) in X2 by ring.
      rewrite Z.abs_mul, (Z.abs_eq b) in X2 by lia.
      apply unscale_le with (c := b); [lia|]. nia. }
    clear X2 E2 E1 Ea.
    set (e1 := n * d1 - (I * d1 + n1) * d) in *. set (e2 := n1 * B - D * d1) in *.
    assert (W : n * 65536 * (d1 * B) = (I * 65536 + q) * d * (d1 * B) + d * d1 * r + e2 * d * 65536 + e1 * 65536 * B).
    { replace (n * 65536 * (d1 * B)) with ((e1 + (I * d1 + n1) * d) * 65536 * B) by (unfold e1; ring).
      replace ((e1 + (I * d1 + n1) * d) * 65536 * B) with (e1 * 65536 * B + I * d1 * d * 65536 * B + (e2 + D * d1) * d * 65536) by (unfold e2; ring).
      replace ((e2 + D * d1) * d * 65536) with (e2 * d * 65536 + (D * 65536) * d1 * d) by ring. rewrite QR. ring. }
    clearbody e1 e2.
    assert (Pd : 0 < d * d1) by nia. assert (PB : 0 < d1 * B) by nia.
    assert (Z1 : 18014398509481984 * Z.abs (e2 * d) <= (d * d1) * B).
    { rewrite Z.abs_mul, (Z.abs_eq d) by (clear - Q2; lia). rewrite Z.mul_assoc.
      replace (d * d1 * B) with ((B * d1) * d) by ring. apply Z.mul_le_mono_nonneg_r; [clear - Q2; lia|exact X1]. }
    assert (Z2 : 68719476736 * Z.abs (e1 * B) <= (d * d1) * B).
    { rewrite Z.abs_mul, (Z.abs_eq B) by (clear - HD; lia). rewrite Z.mul_assoc.
      replace (d * d1 * B) with ((d1 * d) * B) by ring. apply Z.mul_le_mono_nonneg_r; [clear - HD; lia|exact X3]. }
    assert (Z3 : (d * d1) * B <= (d * d1) * 1000000) by (apply Z.mul_le_mono_nonneg_l; lia).
    assert (S1 : d * d1 * 1 <= d * d1 * r) by (apply Z.mul_le_mono_nonneg_l; lia).
    assert (S2 : d * d1 * r <= d * d1 * (B - 1)) by (apply Z.mul_le_mono_nonneg_l; lia).
    rewrite Z.mul_sub_distr_l, Z.mul_1_r in S2. rewrite Z.mul_1_r in S1.
    assert (DB : d * d1 * B = d * (d1 * B)) by ring.
    set (u := e2 * d) in *. set (v := e1 * B) in *.
    replace (e1 * 65536 * B) with (v * 65536) in W by (unfold v; ring).
    set (Wd := d * d1) in *. set (Wb := Wd * B) in *.
    assert (Er : Z.abs (u * 65536 + v * 65536) < Wd) by (clear W; clearbody u v Wd Wb; lia).
    set (T := I * 65536 + q) in *.
    assert (T * d * (d1 * B) <= n * 65536 * (d1 * B) < (T + 1) * d * (d1 * B)) as [A1 A2].
    { rewrite W. replace ((T + 1) * d * (d1 * B)) with (T * d * (d1 * B) + Wb) by lia.
      set (X := T * d * (d1 * B)). clearbody X Wd Wb u v. clear W. lia. }
    apply unscale_le in A1; [|exact PB]. apply unscale_lt in A2; [|exact PB].
    symmetry. apply Z.div_unique with (n * 65536 - T * d); [left; nia|lia].
Qed.

(** ** Digits *)
Lemma digits_value_app base s : forall acc t, digits_value base acc (s ++ t) = digits_value base (digits_value base acc s) t.
Proof. induction s as [|c s IH]; intros; [reflexivity|]. cbn [app digits_value]. apply IH. Qed.
Lemma digits_value_acc base s : forall acc, digits_value base acc s = acc * base ^ zlen s + digits_value base 0 s.
Proof.
  induction s as [|c s IH]; intros acc; cbn [digits_value].
  - change (zlen []) with 0. rewrite Z.pow_0_r. lia.
  - rewrite IH, (IH (0 * base + digit_value c)), zlen_cons, (Z.add_comm 1 (zlen s)), Z.pow_add_r by (pose proof (zlen_nonneg s); lia).
    rewrite Z.pow_1_r. ring.
Qed.
Lemma digits_value_cat base s t : digits_value base 0 (s ++ t) = digits_value base 0 s * base ^ zlen t + digits_value base 0 t.
Proof. rewrite digits_value_app. apply digits_value_acc. Qed.
Lemma digits_value_bound base s : 1 < base -> Forall (is_digit base) s -> 0 <= digits_value base 0 s < base ^ zlen s.
Proof.
  intros Hb H. induction H as [|c s D H IH]; [cbn; lia|].
  change (c :: s) with ([c] ++ s). rewrite digits_value_cat, zlen_app, Z.pow_add_r by (apply zlen_nonneg).
  change (zlen [c]) with 1. rewrite Z.pow_1_r. cbn [digits_value]. rewrite Z.mul_0_l, Z.add_0_l.
  destruct D as [D1 D2]. assert (0 <= digit_value c) by (unfold digit_value; destruct (Z.ltb_spec c 58); lia).
  nia.
Qed.

Definition std_digits (base : Z) (digits : list Z) : Prop :=
  base = 10 /\ digits = k_digits10 \/ base = 16 /\ digits = k_digits16.
Lemma std_len base digits : std_digits base digits -> zlen digits = base.
Proof. intros [[-> ->]|[-> ->]]; reflexivity. Qed.

Lemma in_cases (c : Z) (l : list Z) (P : Z -> Prop) : In c l -> Forall P l -> P c.
Proof. intros H F. rewrite Forall_forall in F. auto. Qed.
Lemma digit_in c : 48 <= c <= 57 \/ 97 <= c <= 102 -> In c k_digits16.
Proof.
  intros H. cbn. assert (c = 48 \/ c = 49 \/ c = 50 \/ c = 51 \/ c = 52 \/ c = 53 \/ c = 54 \/ c = 55 \/ c = 56 \/ c = 57
    \/ c = 97 \/ c = 98 \/ c = 99 \/ c = 100 \/ c = 101 \/ c = 102) by lia. intuition.
Qed.
Lemma index_digit base digits c : std_digits base digits -> is_digit base c ->
  index_of c digits = Some (Z.to_nat (digit_value c)).
Proof.
  intros S [H L]. destruct S as [[-> ->]|[-> ->]].
  - assert (48 <= c <= 57) by (unfold digit_value in L; destruct (Z.ltb_spec c 58); lia).
    assert (I : In c k_digits10) by (cbn; assert (c = 48 \/ c = 49 \/ c = 50 \/ c = 51 \/ c = 52 \/ c = 53 \/ c = 54 \/ c = 55 \/ c = 56 \/ c = 57) by lia; intuition).
    revert c I L H H0.
    assert (F : Forall (fun c => index_of c k_digits10 = Some (Z.to_nat (digit_value c))) k_digits10) by (repeat constructor).
    intros c I _ _ _. rewrite Forall_forall in F. now apply F.
  - assert (F : Forall (fun c => index_of c k_digits16 = Some (Z.to_nat (digit_value c))) k_digits16) by (repeat constructor).
    rewrite Forall_forall in F. apply F. now apply digit_in.
Qed.

Definition no_digit_first (digits s : list Z) : Prop :=
  match s with [] => True | c :: _ => index_of c digits = None end.
Lemma scan_digits_ok base digits s : std_digits base digits -> Forall (is_digit base) s ->
  forall v n rest, no_digit_first digits rest ->
  scan_digits digits v n (s ++ rest) = (digits_value base v s, n + zlen s, rest).
Proof.
  intros S H. induction H as [|c s D H IH]; intros v n rest R.
  - cbn [app digits_value]. change (zlen []) with 0. rewrite Z.add_0_r. destruct rest as [|c rest]; [reflexivity|].
    cbn [scan_digits]. cbn in R. now rewrite R.
  - cbn [app scan_digits digits_value]. rewrite (index_digit base digits c S D), (std_len base digits S), IH by exact R.
    rewrite Z2Nat.id by (destruct D as [D _]; unfold digit_value; destruct (Z.ltb_spec c 58); lia).
    rewrite zlen_cons. do 2 f_equal. lia.
Qed.

(** ** Parsing a literal given as its digits *)
Lemma pf_mask v : Z.land v k_fixnum_mask = v mod 2 ^ 32.
Proof. apply land_mask32. Qed.

Definition lit_tail (dot : bool) (fp : list Z) : list Z := if dot then 46 :: fp else [].
(** A literal, its base, its digits before and after the dot. *)
Definition lit (base : Z) (ip : list Z) (dot : bool) (fp : list Z) : list Z :=
  (if base =? 16 then [48; 120] else []) ++ ip ++ lit_tail dot fp.
Definition lit_ok (base : Z) (ip : list Z) (dot : bool) (fp : list Z) : Prop :=
  (base = 10 \/ base = 16) /\ Forall (is_digit base) ip /\ Forall (is_digit base) fp /\ (dot = false -> fp = []).
Definition lit_num (base : Z) (ip fp : list Z) : Z := digits_value base 0 (ip ++ fp).
Definition lit_fix (base : Z) (ip fp : list Z) : Z := (lit_num base ip fp * 65536 / base ^ zlen fp) mod 2 ^ 32.

Lemma lit_fix_split base ip fp : 1 < base -> Forall (is_digit base) fp ->
  lit_num base ip fp * 65536 / base ^ zlen fp =
  digits_value base 0 ip * 65536 + digits_value base 0 fp * 65536 / base ^ zlen fp.
Proof.
  intros Hb F. unfold lit_num. rewrite digits_value_cat.
  assert (P : 0 < base ^ zlen fp) by (apply Z.pow_pos_nonneg; [lia|apply zlen_nonneg]).
  set (A := digits_value base 0 ip). set (D := digits_value base 0 fp). set (B := base ^ zlen fp) in *. clearbody A D B.
  replace ((A * B + D) * 65536) with (D * 65536 + (A * 65536) * B) by ring. rewrite Z.div_add by lia. lia.
Qed.

Lemma parse_abs_lit base ip dot fp : lit_ok base ip dot fp ->
  digits_value base 0 ip < 2 ^ 17 - 1 -> base ^ zlen fp <= 1000000 ->
  parse_fixnum_abs (lit base ip dot fp) = Ok (lit_fix base ip fp).
Proof.
  intros (Hb & Hi & Hf & Hd) BI BF.
  assert (exists digits, std_digits base digits) as [digits S] by (destruct Hb as [-> | ->]; eexists; [left|right]; split; reflexivity).
  assert (B1 : 1 < base) by lia.
  assert (Pfx :
    match lit base ip dot fp with
    | 48 :: 120 :: t => (k_digits16, t)
    | 48 :: 98 :: t => (k_digits2, t)
    | _ => (k_digits10, lit base ip dot fp)
    end = (digits, ip ++ lit_tail dot fp)).
  { unfold lit. destruct S as [[-> ->]|[-> ->]]; [|reflexivity]. cbn [Z.eqb Pos.eqb app].
    assert (X : forall c t, ip ++ lit_tail dot fp = 48 :: c :: t -> c <> 120 /\ c <> 98).
    { intros c t E. destruct ip as [|i ip]; [destruct dot; discriminate E|]. injection E as -> E.
      destruct ip as [|j ip].
      - destruct dot; [injection E as <- _; lia|discriminate E].
      - injection E as -> _. inversion Hi as [|? ? _ Hi']; subst. inversion Hi' as [|? ? Dj _]; subst.
        destruct Dj as [Dj Lj]. unfold digit_value in Lj. destruct (Z.ltb_spec c 58); lia. }
    destruct (ip ++ lit_tail dot fp) as [|c0 [|c1 t]] eqn:E; [reflexivity| |].
    - destruct c0 as [|c0|c0]; try reflexivity. destruct (Pos.eq_dec c0 48) as [->|N]; [reflexivity|].
      do 6 (destruct c0 as [c0|c0|]; try reflexivity).
    - destruct (Z.eq_dec c0 48) as [->|N].
      + destruct (X c1 t eq_refl) as [X1 X2].
        destruct c1 as [|c1|c1]; try reflexivity. do 7 (destruct c1 as [c1|c1|]; try reflexivity); exfalso; lia.
      + destruct c0 as [|c0|c0]; try reflexivity. do 6 (destruct c0 as [c0|c0|]; try reflexivity); exfalso; lia. }
  unfold parse_fixnum_abs. rewrite Pfx. clear Pfx.
  assert (ND : no_digit_first digits (lit_tail dot fp)) by (destruct dot; [|exact I]; destruct S as [[_ ->]|[_ ->]]; reflexivity).
  rewrite (scan_digits_ok base digits ip S Hi 0 0 _ ND). unfold lit_fix. rewrite lit_fix_split by assumption.
  destruct dot; cbn [lit_tail].
  - pose proof (scan_digits_ok base digits fp S Hf 0 0 [] I) as E. rewrite app_nil_r in E. rewrite E. rewrite Z.add_0_l.
    rewrite (std_len base digits S).
    pose proof (digits_value_bound base ip B1 Hi) as V1. pose proof (digits_value_bound base fp B1 Hf) as V2.
    pose proof (fraction_exact (digits_value base 0 ip) (digits_value base 0 fp) (base ^ zlen fp) ltac:(lia) V2 BF) as FE.
    destruct (int_plus_float (digits_value base 0 ip) (int_div (digits_value base 0 fp) (base ^ zlen fp))) as [n d].
    rewrite FE. now rewrite pf_mask.
  - rewrite (Hd eq_refl). cbn [digits_value]. change (zlen []) with 0. rewrite Z.pow_0_r, !Z.div_1_r, pf_mask, Z.mul_0_l, Z.add_0_r.
    reflexivity.
Qed.
