(** Constant folding computes what the machine computes. *)
From Coq Require Import Lia Znumtheory.
From Verif Require Import M_Base L_Util M_Fold S_Fold.
Open Scope Z_scope.
Ltac Zify.zify_post_hook ::= Z.div_mod_to_equations.

Local Opaque recursion_limit.

(** ** Bits *)
Lemma top_bit k v : 0 <= k -> 0 <= v < 2 ^ (k + 1) -> negb (Z.land v (2 ^ k) =? 0) = (2 ^ k <=? v).
Proof.
  intros Hk H. assert (P : 2 ^ (k + 1) = 2 * 2 ^ k) by (rewrite Z.pow_add_r by lia; ring).
  assert (Q : 0 < 2 ^ k) by (apply Z.pow_pos_nonneg; lia).
  destruct (Z.leb_spec (2 ^ k) v) as [L|L].
  - destruct (Z.eqb_spec (Z.land v (2 ^ k)) 0) as [E|E]; [exfalso|reflexivity].
    assert (B : Z.testbit (Z.land v (2 ^ k)) k = true).
    { rewrite Z.land_spec, Z.pow2_bits_true by lia. rewrite andb_true_r.
      rewrite Z.testbit_true by lia. assert (D : v / 2 ^ k = 1) by (symmetry; apply (Z.div_unique v (2^k) 1 (v - 2^k)); lia). now rewrite D. }
    rewrite E, Z.bits_0 in B. discriminate B.
  - replace (Z.land v (2 ^ k)) with 0; [reflexivity|].
    symmetry. apply Z.bits_inj'. intros i Hi. rewrite Z.land_spec, Z.bits_0.
    rewrite Z.pow2_bits_eqb by lia. destruct (Z.eqb_spec k i); [subst|apply andb_false_r].
    rewrite andb_true_r. rewrite Z.testbit_false by lia. now rewrite Z.div_small by lia.
Qed.
Lemma neg_bit v : 0 <= v < 2 ^ 32 -> fixnum_is_negative v = (2 ^ 31 <=? v).
Proof. intros H. exact (top_bit 31 v ltac:(lia) H). Qed.

Lemma signed_eq v : 0 <= v < 2 ^ 32 -> fixnum_to_signed v = if 2 ^ 31 <=? v then v - 2 ^ 32 else v.
Proof. intros H. unfold fixnum_to_signed. pose proof (neg_bit v H) as K. unfold fixnum_is_negative in K. now rewrite K. Qed.

Lemma land_mask32 v : Z.land v k_fixnum_mask = v mod 2 ^ 32.
Proof. change k_fixnum_mask with (Z.ones 32). now rewrite Z.land_ones by lia. Qed.
Lemma land_mask64 v : Z.land v k_luaint_mask = v mod 2 ^ 64.
Proof. change k_luaint_mask with (Z.ones 64). now rewrite Z.land_ones by lia. Qed.

Lemma signed_mod x : in_width 32 x -> fixnum_to_signed (x mod 2 ^ 32) = x.
Proof.
  intros [L U]. change (2 ^ (32 - 1)) with (2 ^ 31) in *. rewrite signed_eq by lia.
  destruct (Z.leb_spec (2 ^ 31) (x mod 2 ^ 32)); lia.
Qed.
Lemma neg_mod x : in_width 32 x -> fixnum_is_negative (x mod 2 ^ 32) = (x <? 0).
Proof.
  intros [L U]. change (2 ^ (32 - 1)) with (2 ^ 31) in *. rewrite neg_bit by lia.
  destruct (Z.leb_spec (2 ^ 31) (x mod 2 ^ 32)); destruct (Z.ltb_spec x 0); lia.
Qed.

(** The signed number with the given low bits. *)
Definition wrap (w z : Z) : Z := (z + 2 ^ (w - 1)) mod 2 ^ w - 2 ^ (w - 1).
Lemma wrap_wraps w z : 0 < w -> wraps w z (wrap w z).
Proof.
  intros H. unfold wraps, in_width, wrap.
  assert (P : 2 ^ w = 2 * 2 ^ (w - 1)).
  { replace w with (Z.succ (w - 1)) at 1 by lia. rewrite Z.pow_succ_r by lia. reflexivity. }
  assert (0 < 2 ^ (w - 1)) by (apply Z.pow_pos_nonneg; lia).
  assert (0 < 2 ^ w) by lia.
  pose proof (Z.mod_pos_bound (z + 2 ^ (w - 1)) (2 ^ w) ltac:(lia)). split; [lia|].
  replace ((z + 2 ^ (w - 1)) mod 2 ^ w - 2 ^ (w - 1) - z) with ((- ((z + 2 ^ (w - 1)) / 2 ^ w)) * 2 ^ w).
  - now rewrite Z.mod_mul by lia.
  - rewrite (Z.mod_eq (z + _)) by lia. ring.
Qed.

Lemma LuaFixnum_number z : number Pico8 (LuaFixnum z) (wrap 32 z).
Proof.
  unfold number. destruct (wrap_wraps 32 z ltac:(lia)) as [W M]. split; [exact W|].
  unfold LuaFixnum. rewrite land_mask32. f_equal.
  unfold wrap in *. change (2 ^ (32 - 1)) with (2 ^ 31) in *. lia.
Qed.
Lemma num_to_luaint_wrap z : num_to_luaint z = wrap 64 z.
Proof.
  unfold num_to_luaint. rewrite land_mask64. cbn zeta.
  assert (B : negb (Z.land (z mod 2 ^ 64) 0x8000000000000000 =? 0) = (2 ^ 63 <=? z mod 2 ^ 64)).
  { apply (top_bit 63 (z mod 2 ^ 64)); [lia|]. change (2 ^ (63 + 1)) with (2 ^ 64). lia. }
  rewrite B. unfold wrap. change (2 ^ (64 - 1)) with (2 ^ 63).
  change 0x10000000000000000 with (2 ^ 64).
  destruct (Z.leb_spec (2 ^ 63) (z mod 2 ^ 64)); lia.
Qed.
Lemma LuaInteger_number z : number Picotron (LuaInteger z) (wrap 64 z).
Proof.
  unfold number, LuaInteger. rewrite num_to_luaint_wrap. split; [|reflexivity].
  apply (wrap_wraps 64 z). lia.
Qed.

Lemma wraps_eq w x r r' : 0 < w -> wraps w x r -> wraps w x r' -> r = r'.
Proof.
  intros H [A B] [C D]. unfold in_width in *.
  assert (P : 2 ^ w = 2 * 2 ^ (w - 1)).
  { replace w with (Z.succ (w - 1)) at 1 by lia. rewrite Z.pow_succ_r by lia. reflexivity. }
  assert (0 < 2 ^ (w - 1)) by (apply Z.pow_pos_nonneg; lia).
  apply Z.mod_divide in B; [|lia]. apply Z.mod_divide in D; [|lia].
  destruct B as [k K], D as [l L]. assert (r - r' = (k - l) * 2 ^ w) by lia.
  assert (k - l = 0) by nia. nia.
Qed.
Lemma wraps_id w x : 0 < w -> in_width w x -> wraps w x x.
Proof. intros H W. split; [exact W|]. rewrite Z.sub_diag. apply Z.mod_0_l. lia. Qed.
Lemma wrap_id w x : 0 < w -> in_width w x -> wrap w x = x.
Proof. intros H W. apply (wraps_eq w x); [exact H|now apply wrap_wraps|now apply wraps_id]. Qed.
Lemma wraps_cong w x y r : 0 < w -> (x - y) mod 2 ^ w = 0 -> wraps w x r -> wraps w y r.
Proof.
  intros H E [A B]. split; [exact A|].
  assert (0 < 2 ^ w) by (apply Z.pow_pos_nonneg; lia).
  apply Z.mod_divide in E; [|lia]. apply Z.mod_divide in B; [|lia].
  apply Z.mod_divide; [lia|]. replace (r - y) with ((r - x) + (x - y)) by ring.
  now apply Z.divide_add_r.
Qed.
Lemma mod_diff w x : 0 < w -> (x mod 2 ^ w - x) mod 2 ^ w = 0.
Proof.
  intros H. assert (0 < 2 ^ w) by (apply Z.pow_pos_nonneg; lia).
  rewrite Zminus_mod, Z.mod_mod, Z.sub_diag by lia. apply Z.mod_0_l. lia.
Qed.

(** Bits of wrapped numbers. *)
Lemma wraps_bits w x r i : 0 < w -> wraps w x r -> 0 <= i < w -> Z.testbit r i = Z.testbit x i.
Proof.
  intros H [A B] Hi. assert (0 < 2 ^ w) by (apply Z.pow_pos_nonneg; lia).
  rewrite <- (Z.mod_pow2_bits_low r w) by lia. rewrite <- (Z.mod_pow2_bits_low x w) by lia.
  f_equal. apply Z.mod_divide in B; [|lia]. destruct B as [k K].
  replace r with (x + k * 2 ^ w) by lia. now rewrite Z.mod_add by lia.
Qed.
Lemma mod_bits w x i : 0 <= i < w -> Z.testbit (x mod 2 ^ w) i = Z.testbit x i.
Proof. intros H. now rewrite Z.mod_pow2_bits_low by lia. Qed.

Lemma number_det lang a x y : number lang a x -> number lang a y -> x = y.
Proof.
  destruct lang; unfold number; intros [A B] [C D].
  - rewrite B in D. assert (E : x mod 2 ^ 32 = y mod 2 ^ 32) by congruence.
    rewrite <- (signed_mod x A), <- (signed_mod y C). now f_equal.
  - congruence.
Qed.

(** ** Shifts of fixed point numbers *)
Definition fx (x : Z) : lval := VFix (x mod 2 ^ 32).
Definition shift_val (op : shop) (x n : Z) : Z :=
  match op with
  | Shl => Z.shiftl (x mod 2 ^ 32) (Z.min n 32)
  | Shr => Z.shiftr x (Z.min n 32)
  | Lshr => Z.shiftr (x mod 2 ^ 32) (Z.min n 32)
  | Rotl => rotate_left (x mod 2 ^ 32) n 32
  | Rotr => rotate_right (x mod 2 ^ 32) n 32
  end.
Definition flip (op : shop) : shop :=
  match op with Shl => Lshr | Shr => Shl | Lshr => Shl | Rotl => Rotr | Rotr => Rotl end.

Lemma shift_pos fuel op x y : in_width 32 x -> in_width 32 y -> 0 <= y ->
  lua_shift (S fuel) op (fx x) (fx y) =
  Ok (if y mod 65536 =? 0 then Some (LuaFixnum (shift_val op x (y / 65536))) else None).
Proof.
  intros X Y P. assert (E : y mod 2 ^ 32 = y) by (destruct Y; change (2 ^ (32 - 1)) with (2 ^ 31) in *; lia).
  unfold lua_shift, fx. rewrite (neg_mod y Y). destruct (Z.ltb_spec y 0); [lia|].
  rewrite E. unfold fixnum_is_whole, fixnum_to_whole.
  change (Z.land y 0xffff) with (Z.land y (Z.ones 16)). rewrite Z.land_ones by lia. change (2 ^ 16) with 65536.
  rewrite Z.shiftr_div_pow2 by lia. change (2 ^ 16) with 65536.
  destruct op; cbn [shift_val]; rewrite ?signed_mod by exact X; destruct (y mod 65536 =? 0); reflexivity.
Qed.

Lemma shift_neg fuel op x y : in_width 32 x -> in_width 32 y -> y < 0 ->
  lua_shift (S fuel) op (fx x) (fx y) =
  match op with
  | Shl => if x <? 0 then Ok None else lua_shift fuel Lshr (fx x) (fx (- y))
  | _ => lua_shift fuel (flip op) (fx x) (fx (- y))
  end.
Proof.
  intros X Y P.
  assert (N : lua_neg (fx y) = Some (fx (- y))).
  { unfold lua_neg, fx, LuaFixnum. rewrite land_mask32.
    replace ((- (y mod 2 ^ 32)) mod 2 ^ 32) with ((- y) mod 2 ^ 32) by lia. reflexivity. }
  unfold fx in *. destruct op; cbn [lua_shift]; rewrite (neg_mod y Y);
    (destruct (Z.ltb_spec y 0); [|lia]); rewrite N; try reflexivity.
  rewrite (neg_mod x X). now destruct (x <? 0).
Qed.

(** Shifting by -32768 never gives a value. *)
Lemma shift_min fuel : forall op x, in_width 32 x -> forall c,
  lua_shift fuel op (fx x) (fx (- 2 ^ 31)) <> Ok (Some c).
Proof.
  induction fuel as [|fuel IH]; intros op x X c; [discriminate|].
  rewrite (shift_neg fuel op x (- 2 ^ 31) X) by (unfold in_width; lia).
  replace (fx (- - 2 ^ 31)) with (fx (- 2 ^ 31)) by reflexivity.
  destruct op; try (destruct (x <? 0)); try discriminate; now apply IH.
Qed.

Lemma opp_width y : in_width 32 y -> y <> - 2 ^ 31 -> in_width 32 (- y).
Proof. unfold in_width. change (2 ^ (32 - 1)) with (2 ^ 31). lia. Qed.

Lemma shift_total fuel op x y : in_width 32 x -> in_width 32 y -> y <> - 2 ^ 31 ->
  exists r, lua_shift (S (S fuel)) op (fx x) (fx y) = Ok r.
Proof.
  intros X Y N. destruct (Z.leb_spec 0 y).
  - rewrite shift_pos by assumption. eauto.
  - rewrite shift_neg by assumption.
    destruct op; try (destruct (x <? 0)); eauto; rewrite shift_pos by (auto using opp_width; lia); eauto.
Qed.

Lemma shift_val_meaning op x n : in_width 32 x -> 0 <= n ->
  let r := wrap 32 (shift_val op x n) in
  match op with
  | Shl => shifted_left 32 x n r
  | Shr => shifted_right x n r
  | Lshr => shifted_right_logical 32 x n r
  | Rotl => forall i, 0 <= i < 32 -> Z.testbit r ((i + n) mod 32) = Z.testbit x i
  | Rotr => forall i, 0 <= i < 32 -> Z.testbit r i = Z.testbit x ((i + n) mod 32)
  end.
Proof.
  intros X N r. pose proof (wrap_wraps 32 (shift_val op x n) ltac:(lia)) as W. fold r in W. clearbody r.
  destruct op; cbn [shift_val] in W.
  - unfold shifted_left. refine (wraps_cong _ _ _ _ _ _ W); [lia|].
    rewrite Z.shiftl_mul_pow2 by lia.
    destruct (Z.leb_spec n 32) as [L|L].
    + rewrite Z.min_l by lia. rewrite <- Z.mul_sub_distr_r.
      apply Z.mod_divide; [lia|]. apply Z.divide_mul_l. apply Z.mod_divide; [lia|]. apply (mod_diff 32). lia.
    + rewrite Z.min_r by lia. apply Z.mod_divide; [lia|]. apply Z.divide_sub_r.
      * apply Z.divide_factor_r.
      * apply Z.divide_mul_r. exists (2 ^ (n - 32)). rewrite <- Z.pow_add_r by lia. f_equal. lia.
  - unfold shifted_right. rewrite Z.shiftr_div_pow2 in W by lia.
    assert (E : x / 2 ^ Z.min n 32 = x / 2 ^ n).
    { destruct (Z.leb_spec n 32) as [L|L]; [now rewrite Z.min_l by lia|].
      rewrite Z.min_r by lia. unfold in_width in X. change (2 ^ (32 - 1)) with (2 ^ 31) in X.
      assert (G : 2 ^ 32 <= 2 ^ n) by (apply Z.pow_le_mono_r; lia).
      destruct (Z.leb_spec 0 x).
      - rewrite !Z.div_small by lia. reflexivity.
      - transitivity (-1); [symmetry|].
        + apply (Z.div_unique x (2 ^ 32) (-1) (x + 2 ^ 32)); lia.
        + apply (Z.div_unique x (2 ^ n) (-1) (x + 2 ^ n)); lia. }
    rewrite E in W. apply (wraps_eq 32 _ _ _ ltac:(lia) W). apply wraps_id; [lia|].
    unfold in_width in *. assert (0 < 2 ^ n) by (apply Z.pow_pos_nonneg; lia).
    split.
    + apply Z.div_le_lower_bound; [lia|]. change (2 ^ (32 - 1)) with (2 ^ 31) in *. nia.
    + apply Z.div_lt_upper_bound; [lia|]. change (2 ^ (32 - 1)) with (2 ^ 31) in *. nia.
  - unfold shifted_right_logical. rewrite Z.shiftr_div_pow2 in W by lia.
    replace (x mod 2 ^ 32 / 2 ^ n) with (x mod 2 ^ 32 / 2 ^ Z.min n 32); [exact W|].
    destruct (Z.leb_spec n 32) as [L|L]; [now rewrite Z.min_l by lia|].
    rewrite Z.min_r by lia. assert (G : 2 ^ 32 <= 2 ^ n) by (apply Z.pow_le_mono_r; lia).
    rewrite !Z.div_small; try lia; apply Z.mod_pos_bound; lia.
  - intros i Hi. assert (J : 0 <= (i + n) mod 32 < 32) by (apply Z.mod_pos_bound; lia).
    rewrite (wraps_bits 32 _ _ _ ltac:(lia) W J). unfold rotate_left.
    change (Z.shiftl 1 32 - 1) with (Z.ones 32). rewrite Z.land_ones by lia. rewrite mod_bits by exact J.
    assert (C : 0 <= n mod 32 < 32) by (apply Z.mod_pos_bound; lia).
    assert (T : (i + n) mod 32 = (i + n mod 32) mod 32) by (now rewrite Z.add_mod_idemp_r by lia).
    rewrite T in *. set (c := n mod 32) in *. clearbody c. clear T N W.
    rewrite Z.lor_spec, Z.shiftl_spec, Z.shiftr_spec by lia.
    rewrite <- (mod_bits 32 x i Hi). destruct (Z.ltb_spec (i + c) 32).
    + rewrite (Z.mod_small (i + c)) by lia. replace (i + c - c) with i by lia.
      rewrite (Z.mod_pow2_bits_high x 32 (i + c + (32 - c))) by lia. apply orb_false_r.
    + assert (T : (i + c) mod 32 = i + c - 32) by lia. rewrite T.
      rewrite (Z.testbit_neg_r _ (i + c - 32 - c)) by lia. cbn [orb]. f_equal. lia.
  - intros i Hi. assert (J : 0 <= (i + n) mod 32 < 32) by (apply Z.mod_pos_bound; lia).
    rewrite (wraps_bits 32 _ _ _ ltac:(lia) W Hi). unfold rotate_right.
    change (Z.shiftl 1 32 - 1) with (Z.ones 32). rewrite Z.land_ones by lia. rewrite mod_bits by exact Hi.
    assert (C : 0 <= n mod 32 < 32) by (apply Z.mod_pos_bound; lia).
    assert (T : (i + n) mod 32 = (i + n mod 32) mod 32) by (now rewrite Z.add_mod_idemp_r by lia).
    rewrite T in *. set (c := n mod 32) in *. clearbody c. clear T N W.
    rewrite Z.lor_spec, Z.shiftl_spec, Z.shiftr_spec by lia.
    rewrite <- (mod_bits 32 x ((i + c) mod 32)) by lia. destruct (Z.ltb_spec (i + c) 32).
    + rewrite (Z.mod_small (i + c)) by lia.
      rewrite (Z.testbit_neg_r _ (i - (32 - c))) by lia. apply orb_false_r.
    + assert (T : (i + c) mod 32 = i + c - 32) by lia. rewrite T.
      rewrite (Z.mod_pow2_bits_high x 32 (i + c)) by lia. cbn [orb]. f_equal. lia.
Qed.

Definition op_of (op : shop) : binop :=
  match op with Shl => BShl | Shr => BShr | Lshr => BLshr | Rotl => BRotl | Rotr => BRotr end.

Lemma shift_sound8 fuel op x y c : in_width 32 x -> in_width 32 y ->
  lua_shift fuel op (fx x) (fx y) = Ok (Some c) ->
  exists r, number Pico8 c r /\ arith Pico8 (op_of op) x y r.
Proof.
  intros X Y E. destruct fuel as [|fuel]; [discriminate E|].
  destruct (Z.leb_spec 0 y) as [P|P].
  - rewrite shift_pos in E by assumption. destruct (Z.eqb_spec (y mod 65536) 0) as [M|M]; [|discriminate E].
    apply Ok_inj in E. assert (c = LuaFixnum (shift_val op x (y / 65536))) by congruence. subst c. clear E.
    exists (wrap 32 (shift_val op x (y / 65536))). split; [apply LuaFixnum_number|].
    assert (Q : 0 <= y / 65536) by lia.
    pose proof (shift_val_meaning op x (y / 65536) X Q) as V. cbn zeta in V.
    assert (D : distance Pico8 y (y / 65536)) by (cbn; lia).
    destruct op; cbn [arith op_of width]; try (split; [reflexivity|]); exists (y / 65536); (split; [exact D|]); try exact V;
      (split; [intros _; first [exact V|split; [discriminate|exact V]]|lia]).
  - destruct (Z.eq_dec y (- 2 ^ 31)) as [->|N]; [exfalso; revert E; now apply shift_min|].
    rewrite shift_neg in E by assumption.
    assert (O : in_width 32 (- y)) by now apply opp_width.
    assert (Z0 : (op = Shl -> 0 <= x) /\ lua_shift fuel (flip op) (fx x) (fx (- y)) = Ok (Some c)).
    { destruct op; try (split; [discriminate|exact E]).
      destruct (Z.ltb_spec x 0); [discriminate E|]. split; [intros _; lia|exact E]. }
    clear E. destruct Z0 as [Z0 E]. destruct fuel as [|fuel]; [discriminate E|].
    rewrite shift_pos in E by (try assumption; lia).
    destruct (Z.eqb_spec ((- y) mod 65536) 0) as [M|M]; [|discriminate E].
    apply Ok_inj in E. assert (c = LuaFixnum (shift_val (flip op) x (- y / 65536))) by congruence. subst c. clear E.
    exists (wrap 32 (shift_val (flip op) x (- y / 65536))). split; [apply LuaFixnum_number|].
    assert (Q : 0 < - y / 65536) by lia.
    pose proof (shift_val_meaning (flip op) x (- y / 65536) X ltac:(lia)) as V. cbn zeta in V.
    assert (D : distance Pico8 y (- (- y / 65536))) by (cbn; lia).
    set (n := - y / 65536) in *. set (r := wrap 32 (shift_val (flip op) x n)) in *.
    assert (R : wraps 32 (shift_val (flip op) x n) r) by (apply wrap_wraps; lia).
    clearbody n. destruct op; cbn [flip op_of arith width] in *; try (split; [reflexivity|]); exists (- n); (split; [exact D|]).
    + split; [lia|]. intros _. rewrite Z.opp_involutive. specialize (Z0 eq_refl). split; [exact Z0|].
      unfold shifted_right, shifted_right_logical in *.
      rewrite (Z.mod_small x) in V by (unfold in_width in X; change (2 ^ (32 - 1)) with (2 ^ 31) in X; lia).
      apply (wraps_eq 32 _ _ _ ltac:(lia) V). apply wraps_id; [lia|].
      assert (0 < 2 ^ n) by (apply Z.pow_pos_nonneg; lia).
      unfold in_width in *. split.
      * assert (0 <= x / 2 ^ n) by (apply Z.div_pos; lia). lia.
      * apply Z.div_lt_upper_bound; [lia|]. change (2 ^ (32 - 1)) with (2 ^ 31) in *. nia.
    + split; [lia|]. intros _. rewrite Z.opp_involutive. exact V.
    + split; [lia|]. intros _. rewrite Z.opp_involutive. exact V.
    + intros i Hi. rewrite V by (apply Z.mod_pos_bound; lia). f_equal.
      rewrite Z.add_mod_idemp_l by lia. replace (i + - n + n) with i by lia. now apply Z.mod_small.
    + intros i Hi. rewrite <- (V ((i + - n) mod 32)) by (apply Z.mod_pos_bound; lia). f_equal.
      rewrite Z.add_mod_idemp_l by lia. replace (i + - n + n) with i by lia. symmetry. now apply Z.mod_small.
Qed.

(** ** Shifts of integers *)
Definition ishift_val (op : shop) (x n : Z) : option Z :=
  match op with
  | Shl => Some (Z.shiftl (x mod 2 ^ 64) (Z.min n 64))
  | Shr => if 0 <=? x then Some (Z.shiftr (x mod 2 ^ 64) (Z.min n 64)) else None
  | _ => None
  end.
Definition iflip (op : shop) : shop := match op with Shl => Shr | _ => Shl end.
Definition is_sh (op : shop) : bool := match op with Shl | Shr => true | _ => false end.

Lemma ishift_pos fuel op x y : in_width 64 y -> 0 <= y ->
  lua_shift (S fuel) op (VInt x) (VInt y) = Ok (option_map LuaInteger (ishift_val op x y)).
Proof.
  intros Y P. assert (E : uint_value y = y).
  { unfold uint_value. rewrite land_mask64. apply Z.mod_small.
    unfold in_width in Y. change (2 ^ (64 - 1)) with (2 ^ 63) in Y. lia. }
  destruct op; cbn [lua_shift ishift_val option_map]; try reflexivity;
    (destruct (Z.ltb_spec y 0); [lia|]); rewrite E; unfold uint_value; rewrite land_mask64; [reflexivity|].
  now destruct (0 <=? x).
Qed.
Lemma ishift_neg fuel op x y : in_width 64 y -> y < 0 -> y <> - 2 ^ 63 ->
  lua_shift (S fuel) op (VInt x) (VInt y) =
  if is_sh op then lua_shift fuel (iflip op) (VInt x) (VInt (- y)) else Ok None.
Proof.
  intros Y P N.
  assert (E : lua_neg (VInt y) = Some (VInt (- y))).
  { cbn [lua_neg]. unfold LuaInteger. rewrite num_to_luaint_wrap, wrap_id; [reflexivity|lia|].
    unfold in_width in *. change (2 ^ (64 - 1)) with (2 ^ 63) in *. lia. }
  destruct op; cbn [lua_shift is_sh iflip]; try reflexivity; (destruct (Z.ltb_spec y 0); [|lia]); now rewrite E.
Qed.
Lemma ishift_min fuel : forall op x c, lua_shift fuel op (VInt x) (VInt (- 2 ^ 63)) <> Ok (Some c).
Proof.
  induction fuel as [|fuel IH]; intros op x c; [discriminate|].
  assert (E : lua_neg (VInt (- 2 ^ 63)) = Some (VInt (- 2 ^ 63))) by reflexivity.
  destruct op; cbn [lua_shift]; try discriminate; change (- 2 ^ 63 <? 0) with true; cbn iota; rewrite E; apply IH.
Qed.
Lemma ishift_total fuel op x y : in_width 64 y -> y <> - 2 ^ 63 ->
  exists r, lua_shift (S (S fuel)) op (VInt x) (VInt y) = Ok r.
Proof.
  intros Y N. destruct (Z.leb_spec 0 y).
  - rewrite ishift_pos by assumption. eauto.
  - rewrite ishift_neg by assumption. destruct (is_sh op); [|eauto].
    rewrite ishift_pos; [eauto| |lia]. unfold in_width in *. change (2 ^ (64 - 1)) with (2 ^ 63) in *. lia.
Qed.

Lemma ishift_val_meaning op x n v : in_width 64 x -> 0 <= n -> ishift_val op x n = Some v ->
  let r := wrap 64 v in
  match op with
  | Shl => shifted_left 64 x n r
  | Shr => 0 <= x /\ shifted_right x n r
  | _ => False
  end.
Proof.
  intros X N V r. pose proof (wrap_wraps 64 v ltac:(lia)) as W. fold r in W. clearbody r.
  destruct op; cbn [ishift_val] in V; try discriminate V.
  - assert (v = Z.shiftl (x mod 2 ^ 64) (Z.min n 64)) by congruence. subst v.
    unfold shifted_left. refine (wraps_cong _ _ _ _ _ _ W); [lia|].
    rewrite Z.shiftl_mul_pow2 by lia.
    destruct (Z.leb_spec n 64) as [L|L].
    + rewrite Z.min_l by lia. rewrite <- Z.mul_sub_distr_r.
      apply Z.mod_divide; [lia|]. apply Z.divide_mul_l. apply Z.mod_divide; [lia|]. apply (mod_diff 64). lia.
    + rewrite Z.min_r by lia. apply Z.mod_divide; [lia|]. apply Z.divide_sub_r.
      * apply Z.divide_factor_r.
      * apply Z.divide_mul_r. exists (2 ^ (n - 64)). rewrite <- Z.pow_add_r by lia. f_equal. lia.
  - destruct (Z.leb_spec 0 x) as [Q|Q]; [|discriminate V]. split; [exact Q|].
    assert (v = Z.shiftr (x mod 2 ^ 64) (Z.min n 64)) by congruence. subst v.
    unfold in_width in X. change (2 ^ (64 - 1)) with (2 ^ 63) in X.
    rewrite Z.shiftr_div_pow2 in W by lia. rewrite (Z.mod_small x) in W by lia.
    assert (E : x / 2 ^ Z.min n 64 = x / 2 ^ n).
    { destruct (Z.leb_spec n 64) as [L|L]; [now rewrite Z.min_l by lia|].
      rewrite Z.min_r by lia. assert (G : 2 ^ 64 <= 2 ^ n) by (apply Z.pow_le_mono_r; lia).
      rewrite !Z.div_small by lia. reflexivity. }
    rewrite E in W. unfold shifted_right.
    apply (wraps_eq 64 _ _ _ ltac:(lia) W). apply wraps_id; [lia|].
    assert (0 < 2 ^ n) by (apply Z.pow_pos_nonneg; lia).
    unfold in_width. change (2 ^ (64 - 1)) with (2 ^ 63). split.
    + assert (0 <= x / 2 ^ n) by (apply Z.div_pos; lia). lia.
    + apply Z.div_lt_upper_bound; [lia|]. nia.
Qed.

Lemma shift_sound64 fuel op x y c : in_width 64 x -> in_width 64 y ->
  lua_shift fuel op (VInt x) (VInt y) = Ok (Some c) ->
  exists r, number Picotron c r /\ arith Picotron (op_of op) x y r.
Proof.
  intros X Y E. destruct fuel as [|fuel]; [discriminate E|].
  destruct (Z.leb_spec 0 y) as [P|P].
  - rewrite ishift_pos in E by assumption. apply Ok_inj in E.
    destruct (ishift_val op x y) as [v|] eqn:V; [|discriminate E].
    cbn [option_map] in E. assert (c = LuaInteger v) by congruence. subst c.
    exists (wrap 64 v). split; [apply LuaInteger_number|].
    pose proof (ishift_val_meaning op x y v X P V) as M. cbn zeta in M.
    destruct op; try contradiction; cbn [arith op_of width]; exists y; (split; [reflexivity|]).
    + split; [intros _; exact M|lia].
    + split; [intros _; split; [intros _; apply M|apply M]|lia].
  - destruct (Z.eq_dec y (- 2 ^ 63)) as [->|N]; [exfalso; revert E; now apply ishift_min|].
    rewrite ishift_neg in E by assumption. destruct (is_sh op) eqn:I; [|discriminate E].
    assert (O : in_width 64 (- y)) by (unfold in_width in *; change (2 ^ (64 - 1)) with (2 ^ 63) in *; lia).
    destruct fuel as [|fuel]; [discriminate E|]. rewrite ishift_pos in E by (try exact O; lia). apply Ok_inj in E.
    destruct (ishift_val (iflip op) x (- y)) as [v|] eqn:V; [|discriminate E].
    cbn [option_map] in E. assert (c = LuaInteger v) by congruence. subst c.
    exists (wrap 64 v). split; [apply LuaInteger_number|].
    pose proof (ishift_val_meaning (iflip op) x (- y) v X ltac:(lia) V) as M. cbn zeta in M.
    destruct op; try discriminate I; cbn [arith op_of width iflip] in *; exists y; (split; [reflexivity|]);
      (split; [lia|]); intros _; exact M.
Qed.

(** ** The other operators *)
Lemma fix_inv x c lang : number lang (VFix x) c -> lang = Pico8.
Proof. destruct lang; [reflexivity|]. intros [_ E]. discriminate E. Qed.

Lemma value_cases lang a : value_of lang a ->
  a = VNil \/ (exists b, a = VBool b) \/ (exists s, a = VStr s) \/ exists x, number lang a x.
Proof. destruct a; cbn [value_of]; intros H; eauto 6. Qed.

Ltac some_inv E := let K := fresh in assert (K := E); clear E; injection K as <-.

Lemma num8 a x : number Pico8 a x -> a = fx x /\ in_width 32 x. Proof. intros [A B]. now split. Qed.
Lemma num64 a x : number Picotron a x -> a = VInt x /\ in_width 64 x. Proof. intros [A B]. now split. Qed.

Lemma pow32 : 2 ^ 32 = 4294967296. Proof. reflexivity. Qed.
Lemma width32 x : -2147483648 <= x < 2147483648 -> in_width 32 x.
Proof. exact (fun H => H). Qed.
Lemma width32' x : in_width 32 x -> -2147483648 <= x < 2147483648.
Proof. exact (fun H => H). Qed.

Lemma wrap32_cong z z' : (z - z') mod 2 ^ 32 = 0 -> wraps 32 z' (wrap 32 z).
Proof. intros H. apply (wraps_cong 32 z); [lia|exact H|]. apply wrap_wraps. lia. Qed.

Lemma range_width v : is_signed_fixnum_in_range v = true -> in_width 32 v.
Proof. unfold is_signed_fixnum_in_range. intros H. apply width32. lia. Qed.

Lemma div_trunc_quot a b : b <> 0 -> div_trunc a b = Z.quot a b.
Proof.
  intros H. unfold div_trunc.
  destruct (Z.ltb_spec a 0), (Z.ltb_spec b 0); cbn [Bool.eqb negb].
  - rewrite Z.quot_div by lia. rewrite !Z.abs_neq, !Z.sgn_neg by lia.
    rewrite <- Z.div_opp_opp by lia. lia.
  - assert (E : Z.quot a b = - (- a / b)).
    { rewrite <- (Z.opp_involutive a) at 1. rewrite Z.quot_opp_l by lia. now rewrite Z.quot_div_nonneg by lia. }
    rewrite E. f_equal. now rewrite <- (Z.div_opp_opp a (- b)), Z.opp_involutive by lia.
  - assert (E : Z.quot a b = - (a / - b)).
    { rewrite <- (Z.opp_involutive b) at 1. rewrite Z.quot_opp_r by lia. now rewrite Z.quot_div_nonneg by lia. }
    now rewrite E.
  - now rewrite Z.quot_div_nonneg by lia.
Qed.

(** Decimal text. *)
Lemma horner_app a s t : horner a (s ++ t) = horner (horner a s) t.
Proof. revert a. induction s; intros; cbn; auto. Qed.
Lemma dec_loop_ok fuel : forall v acc, 0 <= v < 10 ^ Z.of_nat (S fuel) ->
  exists ds, dec_loop (S fuel) v acc = ds ++ acc /\ is_decimal ds v.
Proof.
  induction fuel as [|fuel IH]; intros v acc H.
  - change (10 ^ Z.of_nat 1) with 10 in H. cbn [dec_loop]. assert (E : v / 10 = 0) by lia. rewrite E. cbn [Z.eqb].
    exists [48 + v mod 10]. split; [reflexivity|]. repeat split; try discriminate.
    + constructor; [lia|constructor].
    + cbn [horner]. lia.
    + cbn [hd]. intros K. now rewrite K.
  - remember (S fuel) as f1. cbn [dec_loop]. destruct (Z.eqb_spec (v / 10) 0) as [E|E].
    + exists [48 + v mod 10]. split; [reflexivity|]. repeat split; try discriminate.
      * constructor; [lia|constructor].
      * cbn [horner]. lia.
      * cbn [hd]. intros K. now rewrite K.
    + subst f1. destruct (IH (v / 10) ((48 + v mod 10) :: acc)) as (ds & D & (N & A & V & Hd)).
      { rewrite Nat2Z.inj_succ, Z.pow_succ_r in H by lia. lia. }
      exists (ds ++ [48 + v mod 10]). split; [rewrite D, <- app_assoc; reflexivity|]. repeat split.
      * now destruct ds.
      * apply Forall_app. split; [exact A|]. constructor; [lia|constructor].
      * rewrite horner_app, V. cbn [horner]. lia.
      * destruct ds as [|d ds]; [congruence|]. cbn [app hd] in *. intros K. specialize (Hd K).
        injection Hd as -> ->. cbn [horner] in V. lia.
Qed.
Lemma dec_str_ok v : 0 <= v -> is_decimal (dec_str v) v.
Proof.
  intros H. unfold dec_str.
  destruct (dec_loop_ok (Z.to_nat (Z.log2 v)) v []) as (ds & D & K).
  - split; [exact H|]. rewrite Nat2Z.inj_succ, Z2Nat.id by apply Z.log2_nonneg.
    destruct (Z.eq_dec v 0) as [->|N]; [cbn; lia|].
    destruct (Z.log2_spec v ltac:(lia)) as [_ U].
    eapply Z.lt_le_trans; [exact U|]. apply Z.pow_le_mono_l. lia.
  - rewrite D, app_nil_r. exact K.
Qed.

Lemma land_hi v : 0 <= v < 2 ^ 32 -> Z.land v 0xffff0000 = v / 65536 * 65536.
Proof.
  intros H. transitivity (Z.ldiff v (Z.ones 16)).
  - assert (E : v = Z.land v (Z.ones 32)) by (rewrite Z.land_ones, Z.mod_small by lia; reflexivity).
    rewrite E at 2.
    apply Z.bits_inj'. intros i Hi. rewrite Z.ldiff_spec, !Z.land_spec.
    change 0xffff0000 with (Z.ldiff (Z.ones 32) (Z.ones 16)). rewrite Z.ldiff_spec. now rewrite andb_assoc.
  - rewrite Z.ldiff_ones_r by lia. rewrite Z.shiftl_mul_pow2, Z.shiftr_div_pow2 by lia. reflexivity.
Qed.
Lemma land_lo v : Z.land v 0xffff = v mod 65536.
Proof. change 0xffff with (Z.ones 16). now rewrite Z.land_ones by lia. Qed.

Lemma floor8 x : in_width 32 x ->
  exists r, number Pico8 (LuaFixnum (Z.land (x mod 2 ^ 32) 0xffff0000)) r /\ r mod 65536 = 0 /\ r <= x < r + 65536.
Proof.
  intros X. exists (x / 65536 * 65536). apply width32' in X. rewrite land_hi by lia.
  split; [split; [apply width32; lia|]|lia].
  unfold LuaFixnum. rewrite land_mask32.
  assert (E : exists k, x mod 2 ^ 32 = x + k * 65536 * 65536) by (exists (- (x / 2 ^ 32)); lia).
  destruct E as [k E]. rewrite E. replace ((x + k * 65536 * 65536) / 65536 * 65536) with (x / 65536 * 65536 + k * 2 ^ 32).
  - now rewrite Z.mod_add by lia.
  - rewrite Z.div_add by lia. lia.
Qed.

Lemma text_number lang a s : value_of lang a -> lua_tostr a = Some s -> text lang a s.
Proof.
  intros V E. destruct a as [| |v|v|t]; cbn [lua_tostr] in E; try discriminate E.
  - destruct V as [x N]. pose proof (fix_inv _ _ _ N) as ->. right. exists x. split; [exact N|].
    destruct N as [W N]. assert (v = x mod 2 ^ 32) by congruence. subst v. clear N.
    unfold fixnum_is_whole in E. rewrite land_lo in E.
    destruct (Z.eqb_spec ((x mod 2 ^ 32) mod 65536) 0) as [M|M]; [|discriminate E].
    rewrite neg_mod in E by exact W. apply width32' in W.
    split; [lia|]. rewrite land_mask32, !Z.shiftr_div_pow2 in E by lia. change (2 ^ 16) with 65536 in E.
    destruct (Z.ltb_spec x 0).
    + right. split; [lia|]. exists (dec_str ((- (x mod 2 ^ 32)) mod 2 ^ 32 / 65536)). split; [congruence|].
      replace (- (x / 65536)) with ((- (x mod 2 ^ 32)) mod 2 ^ 32 / 65536) by lia. apply dec_str_ok. lia.
    + left. split; [lia|]. replace s with (dec_str (x mod 2 ^ 32 / 65536)) by congruence.
      replace (x / 65536) with (x mod 2 ^ 32 / 65536) by lia. apply dec_str_ok. lia.
  - destruct V as [x N]. destruct lang; destruct N as [W N]; [discriminate N|].
    assert (v = x) by congruence. subst v. right. exists x. split; [now split|].
    unfold in_width in W. change (2 ^ (64 - 1)) with (2 ^ 63) in W. rewrite !land_mask64 in E.
    destruct (Z.ltb_spec x 0).
    + right. split; [lia|]. exists (dec_str ((- x) mod 2 ^ 64)). split; [congruence|].
      rewrite Z.mod_small by lia. apply dec_str_ok. lia.
    + left. split; [lia|]. replace s with (dec_str (x mod 2 ^ 64)) by congruence.
      rewrite Z.mod_small by lia. apply dec_str_ok. lia.
  - left. congruence.
Qed.

(** Order. *)
Lemma str_ltb_before a : forall b, str_ltb a b = true <-> before a b.
Proof.
  induction a as [|x a IH]; intros [|y b]; cbn [str_ltb].
  - split; intros H; [discriminate H|inversion H].
  - split; intros _; [apply before_nil|reflexivity].
  - split; intros H; [discriminate H|inversion H].
  - split; intros H.
    + apply orb_true_iff in H as [H|H].
      * apply before_lt. lia.
      * apply andb_true_iff in H as [H K]. assert (x = y) by lia. subst. apply before_eq. now apply IH.
    + inversion H as [|? ? ? ? L|? ? ? L]; subst.
      * assert (E : (x <? y) = true) by lia. now rewrite E.
      * rewrite Z.eqb_refl. apply IH in L. rewrite L. cbn [andb]. apply orb_true_r.
Qed.

Lemma truthy_iff a : is_truthy a = true <-> truthy a.
Proof. destruct a as [|[]| | |]; cbn; split; try discriminate; try (intros [A B]; congruence); intros; split; congruence. Qed.
Lemma truthy_not a : is_truthy a = false <-> ~ truthy a.
Proof.
  split; intros H.
  - intros K. apply truthy_iff in K. congruence.
  - destruct (is_truthy a) eqn:E; [|reflexivity]. apply truthy_iff in E. contradiction.
Qed.

Lemma number_is lang a x : number lang a x -> is_number a = true.
Proof. destruct lang; intros [_ ->]; reflexivity. Qed.
Lemma number_signed lang a x : number lang a x -> signed_value a = x.
Proof. destruct lang; intros [W ->]; cbn [signed_value]; [now apply signed_mod|reflexivity]. Qed.
Lemma is_number_ex lang a : value_of lang a -> is_number a = true -> exists x, number lang a x.
Proof. destruct a; cbn [is_number value_of]; intros; try discriminate; assumption. Qed.

Lemma cmp_sound lang nop sop a b c : value_of lang a -> value_of lang b ->
  lua_cmp nop sop a b = Some c ->
  comparable lang a b /\
  ((exists x y, number lang a x /\ number lang b y /\ c = VBool (nop x y)) \/
   (exists s t, a = VStr s /\ b = VStr t /\ c = VBool (sop s t))).
Proof.
  intros A B E. unfold lua_cmp in E. destruct (is_number a && is_number b) eqn:N.
  - apply andb_true_iff in N as [Na Nb].
    destruct (is_number_ex _ _ A Na) as [x Hx], (is_number_ex _ _ B Nb) as [y Hy].
    split; [left; eauto|]. left. exists x, y. repeat split; auto.
    rewrite (number_signed _ _ _ Hx), (number_signed _ _ _ Hy) in E. congruence.
  - destruct a; try discriminate E. destruct b; try discriminate E.
    split; [right; eauto|]. right. do 2 eexists. repeat split. congruence.
Qed.
Lemma number_str lang s x : ~ number lang (VStr s) x.
Proof. destruct lang; intros [_ E]; discriminate E. Qed.

Lemma less_num lang a b x y : number lang a x -> number lang b y -> less lang a b <-> x < y.
Proof.
  intros A B. split.
  - intros [(u & v & U & V & L)|(s & t & -> & _)]; [|exfalso; eapply number_str; eauto].
    now rewrite (number_det _ _ _ _ A U), (number_det _ _ _ _ B V).
  - intros L. left. eauto 6.
Qed.
Lemma less_str lang s t : less lang (VStr s) (VStr t) <-> before s t.
Proof.
  split.
  - intros [(u & v & U & V & L)|(s' & t' & A & B & L)]; [exfalso; eapply number_str; eauto|]. congruence.
  - intros L. right. eauto.
Qed.

Lemma eq_value lang a b : value_of lang a -> value_of lang b ->
  (if is_number a && is_number b then num_value a =? num_value b else same_value a b) = true <-> a = b.
Proof.
  intros A B. destruct a as [|[]|v|v|s], b as [|[]|w|w|t]; cbn [is_number andb num_value same_value Bool.eqb];
    try (split; congruence); try (split; [discriminate|intros E; discriminate E]).
  - rewrite Z.eqb_eq. split; congruence.
  - destruct A as [x X], B as [y Y]. destruct lang; destruct X as [_ X], Y as [_ Y]; discriminate.
  - destruct A as [x X], B as [y Y]. destruct lang; destruct X as [_ X], Y as [_ Y]; discriminate.
  - rewrite Z.eqb_eq. split; congruence.
  - rewrite zeqb_list_true. split; congruence.
Qed.

(** ** Arithmetic *)
Definition is_arith (op : binop) : bool :=
  match op with BAnd | BOr | BEq | BNe | BLt | BLe | BGt | BGe | BCat => false | _ => true end.

Lemma mod32_shift x : exists k, x mod 2 ^ 32 = x + k * 2 ^ 32.
Proof. exists (- (x / 2 ^ 32)). lia. Qed.

Lemma arith_sound8 op x y c : in_width 32 x -> in_width 32 y -> is_arith op = true ->
  const_binary op (fx x) (fx y) = Ok (Some c) ->
  exists r, number Pico8 c r /\ arith Pico8 op x y r.
Proof.
  intros X Y A E.
  destruct op; try discriminate A; cbn [const_binary] in E;
    try (match type of E with lua_shift _ ?o _ _ = _ => apply (shift_sound8 _ o _ _ _ X Y E) end);
    clear A; apply Ok_inj in E; try discriminate E.
  (* | ^^ & *)
  1-3: cbn [lua_bin_or lua_bin_xor lua_bin_and lua_bit fx] in E;
    match type of E with Some (LuaFixnum ?z) = _ =>
      assert (c = LuaFixnum z) by congruence; subst c; exists (wrap 32 z); split; [apply LuaFixnum_number|];
      cbn [arith width]; intros i Hi; rewrite (wraps_bits 32 z) by (try apply wrap_wraps; lia);
      rewrite ?Z.lor_spec, ?Z.lxor_spec, ?Z.land_spec, !mod_bits by exact Hi; reflexivity end.
  - (* + *) cbn [lua_add fx] in E.
    match type of E with Some (LuaFixnum ?z) = _ =>
      assert (c = LuaFixnum z) by congruence; subst c; exists (wrap 32 z); split; [apply LuaFixnum_number|] end.
    cbn [arith width]. apply wrap32_cong.
    destruct (mod32_shift x) as [k ->], (mod32_shift y) as [l ->].
    replace (x + k * 2 ^ 32 + (y + l * 2 ^ 32) - (x + y)) with ((k + l) * 2 ^ 32) by ring. apply Z.mod_mul. lia.
  - (* - *) cbn [lua_sub fx] in E.
    match type of E with Some (LuaFixnum ?z) = _ =>
      assert (c = LuaFixnum z) by congruence; subst c; exists (wrap 32 z); split; [apply LuaFixnum_number|] end.
    cbn [arith width]. apply wrap32_cong.
    destruct (mod32_shift x) as [k ->], (mod32_shift y) as [l ->].
    replace (x + k * 2 ^ 32 - (y + l * 2 ^ 32) - (x - y)) with ((k - l) * 2 ^ 32) by ring. apply Z.mod_mul. lia.
  - (* * *) cbn [lua_mul fx] in E. rewrite !signed_mod, Z.shiftr_div_pow2 in E by (assumption || lia).
    change (2 ^ 16) with 65536 in E.
    destruct (is_signed_fixnum_in_range (x * y / 65536)) eqn:R; [|discriminate E].
    apply range_width in R. assert (c = LuaFixnum (x * y / 65536)) by congruence. subst c.
    exists (x * y / 65536). split; [|reflexivity].
    rewrite <- (wrap_id 32 (x * y / 65536)) at 2 by (lia || exact R). apply LuaFixnum_number.
  - (* / *) cbn [lua_div fx] in E.
    destruct (Z.eqb_spec (y mod 2 ^ 32) 0) as [Z0|Z0]; [discriminate E|].
    assert (y <> 0) by (intros ->; apply Z0; reflexivity).
    rewrite !signed_mod, Z.shiftl_mul_pow2 in E by (assumption || lia). change (2 ^ 16) with 65536 in E.
    rewrite div_trunc_quot in E by assumption.
    destruct (is_signed_fixnum_in_range (Z.quot (x * 65536) y)) eqn:R; [|discriminate E].
    apply range_width in R. assert (c = LuaFixnum (Z.quot (x * 65536) y)) by congruence. subst c.
    exists (Z.quot (x * 65536) y). split; [|now repeat split].
    rewrite <- (wrap_id 32 (Z.quot _ _)) at 2 by (lia || exact R). apply LuaFixnum_number.
  - (* \ *) cbn [lua_idiv lua_div fx] in E.
    destruct (Z.eqb_spec (y mod 2 ^ 32) 0) as [Z0|Z0]; [discriminate E|].
    assert (y <> 0) by (intros ->; apply Z0; reflexivity).
    rewrite !signed_mod, Z.shiftl_mul_pow2 in E by (assumption || lia). change (2 ^ 16) with 65536 in E.
    rewrite div_trunc_quot in E by assumption.
    destruct (is_signed_fixnum_in_range (Z.quot (x * 65536) y)) eqn:R; [|discriminate E].
    apply range_width in R. unfold LuaFixnum in E at 1. cbn [lua_floor] in E. rewrite land_mask32 in E.
    match type of E with Some ?z = _ => assert (c = z) by congruence; subst c; clear E end.
    destruct (floor8 (Z.quot (x * 65536) y) R) as (r & N & M & B).
    exists r. split; [exact N|]. split; [assumption|]. eauto.
  - (* % *) cbn [lua_mod fx] in E. rewrite (neg_mod y Y), !signed_mod in E by assumption.
    destruct (Z.eqb_spec (y mod 2 ^ 32) 0) as [Z0|Z0]; [discriminate E|]. cbn [negb andb] in E.
    destruct (Z.ltb_spec y 0); [discriminate E|]. cbn [negb] in E.
    assert (y <> 0) by (intros ->; apply Z0; reflexivity).
    destruct (is_signed_fixnum_in_range (x mod y)) eqn:R; [|discriminate E].
    apply range_width in R. assert (c = LuaFixnum (x mod y)) by congruence. subst c.
    exists (x mod y). split; [|repeat split; auto; lia].
    rewrite <- (wrap_id 32 (x mod y)) at 2 by (lia || exact R). apply LuaFixnum_number.
Qed.

Lemma uint_bits x i : 0 <= i < 64 -> Z.testbit (uint_value x) i = Z.testbit x i.
Proof. intros H. unfold uint_value. rewrite land_mask64. now apply mod_bits. Qed.

Lemma arith_sound64 op x y c : in_width 64 x -> in_width 64 y -> is_arith op = true ->
  const_binary op (VInt x) (VInt y) = Ok (Some c) ->
  exists r, number Picotron c r /\ arith Picotron op x y r.
Proof.
  intros X Y A E.
  destruct op; try discriminate A; cbn [const_binary] in E;
    try (match type of E with lua_shift _ ?o _ _ = _ => apply (shift_sound64 _ o _ _ _ X Y E) end);
    clear A; apply Ok_inj in E; try discriminate E.
  1-3: cbn [lua_bin_or lua_bin_xor lua_bin_and lua_bit] in E;
    match type of E with Some (LuaInteger ?z) = _ =>
      assert (c = LuaInteger z) by congruence; subst c; exists (wrap 64 z); split; [apply LuaInteger_number|];
      cbn [arith width]; intros i Hi; rewrite (wraps_bits 64 z) by (try apply wrap_wraps; lia);
      rewrite ?Z.lor_spec, ?Z.lxor_spec, ?Z.land_spec, !uint_bits by exact Hi; reflexivity end.
  1-3: cbn [lua_add lua_sub lua_mul] in E;
    match type of E with Some (LuaInteger ?z) = _ =>
      assert (c = LuaInteger z) by congruence; subst c; exists (wrap 64 z); split; [apply LuaInteger_number|];
      cbn [arith width]; apply wrap_wraps; lia end.
  - cbn [lua_idiv] in E. destruct (Z.eqb_spec y 0); [discriminate E|].
    assert (c = LuaInteger (x / y)) by congruence. subst c. exists (wrap 64 (x / y)).
    split; [apply LuaInteger_number|]. split; [assumption|]. apply wrap_wraps. cbn. lia.
  - cbn [lua_mod] in E. destruct (Z.eqb_spec y 0); [discriminate E|].
    assert (c = LuaInteger (x mod y)) by congruence. subst c. exists (x mod y).
    split; [|repeat split; auto; discriminate].
    rewrite <- (wrap_id 64 (x mod y)) at 2; [apply LuaInteger_number|lia|].
    unfold in_width in *. destruct (Z.ltb_spec y 0).
    + pose proof (Z.mod_neg_bound x y). lia.
    + pose proof (Z.mod_pos_bound x y). lia.
Qed.

Lemma shift_number fuel op a b c : lua_shift fuel op a b = Ok (Some c) ->
  (exists x y, a = VFix x /\ b = VFix y) \/ (exists x y, a = VInt x /\ b = VInt y).
Proof.
  intros E. destruct fuel as [|fuel]; [discriminate E|]. cbn [lua_shift] in E.
  destruct a; try discriminate E; destruct b; try discriminate E; eauto.
Qed.
Lemma arith_number op a b c : is_arith op = true -> const_binary op a b = Ok (Some c) ->
  (exists x y, a = VFix x /\ b = VFix y) \/ (exists x y, a = VInt x /\ b = VInt y).
Proof.
  intros A E. destruct op; try discriminate A; cbn [const_binary] in E;
    try (eapply shift_number; exact E); apply Ok_inj in E;
    destruct a; try discriminate E; destruct b; try discriminate E; eauto.
Qed.

Lemma binary_sound lang op a b c : value_of lang a -> value_of lang b ->
  const_binary op a b = Ok (Some c) -> binary_means lang op a b c.
Proof.
  intros A B E.
  destruct (is_arith op) eqn:I.
  - assert (K : exists x y r, number lang a x /\ number lang b y /\ number lang c r /\ arith lang op x y r).
    { destruct (arith_number op a b c I E) as [(u & v & -> & ->)|(u & v & -> & ->)].
      - destruct A as [x NX], B as [y NY]. pose proof (fix_inv _ _ _ NX) as ->.
        pose proof NX as [WX EX]. pose proof NY as [WY EY]. rewrite EX, EY in E.
        destruct (arith_sound8 op x y c WX WY I E) as (r & N & M). exists x, y, r. auto.
      - destruct A as [x NX], B as [y NY]. destruct lang; [destruct NX as [_ K]; discriminate K|].
        pose proof NX as [WX EX]. pose proof NY as [WY EY]. rewrite EX, EY in E.
        destruct (arith_sound64 op x y c WX WY I E) as (r & N & M). exists x, y, r. auto. }
    destruct op; try discriminate I; exact K.
  - destruct op; try discriminate I; clear I; cbn [const_binary] in E; apply Ok_inj in E; cbn [binary_means].
    + unfold lua_or in E. destruct (is_truthy a) eqn:T.
      * left. apply truthy_iff in T. split; congruence.
      * right. apply truthy_not in T. split; congruence.
    + unfold lua_and in E. destruct (is_truthy a) eqn:T.
      * left. apply truthy_iff in T. split; congruence.
      * right. apply truthy_not in T. split; congruence.
    + pose proof (eq_value lang a b A B) as Q. unfold lua_not_eq in E. destruct (is_number a && is_number b).
      * eexists. split; [injection E as <-; reflexivity|]. rewrite <- Q. destruct (num_value a =? num_value b); cbn; split; congruence.
      * eexists. split; [injection E as <-; reflexivity|]. rewrite <- Q. destruct (same_value a b); cbn; split; congruence.
    + pose proof (eq_value lang a b A B) as Q. unfold lua_eq in E. destruct (is_number a && is_number b);
        (eexists; split; [injection E as <-; reflexivity|exact Q]).
    + destruct (cmp_sound lang _ _ a b c A B E) as [C [(x & y & NX & NY & ->)|(s & t & -> & -> & ->)]];
        (split; [exact C|]); eexists; (split; [reflexivity|]).
      * rewrite (less_num _ _ _ _ _ NX NY). lia.
      * rewrite less_str. apply str_ltb_before.
    + destruct (cmp_sound lang _ _ a b c A B E) as [C [(x & y & NX & NY & ->)|(s & t & -> & -> & ->)]];
        (split; [exact C|]); eexists; (split; [reflexivity|]).
      * rewrite (less_num _ _ _ _ _ NY NX). lia.
      * rewrite less_str, <- str_ltb_before. unfold str_leb. now rewrite negb_true_iff, not_true_iff_false.
    + destruct (cmp_sound lang _ _ a b c A B E) as [C [(x & y & NX & NY & ->)|(s & t & -> & -> & ->)]];
        (split; [exact C|]); eexists; (split; [reflexivity|]).
      * rewrite (less_num _ _ _ _ _ NY NX). lia.
      * rewrite less_str. apply str_ltb_before.
    + destruct (cmp_sound lang _ _ a b c A B E) as [C [(x & y & NX & NY & ->)|(s & t & -> & -> & ->)]];
        (split; [exact C|]); eexists; (split; [reflexivity|]).
      * rewrite (less_num _ _ _ _ _ NX NY). lia.
      * rewrite less_str, <- str_ltb_before. unfold str_leb. now rewrite negb_true_iff, not_true_iff_false.
    + unfold lua_cat in E. destruct (lua_tostr a) as [s|] eqn:S1; [|discriminate E].
      destruct (lua_tostr b) as [t|] eqn:S2; [|discriminate E].
      exists s, t. split; [now apply text_number|]. split; [now apply text_number|]. congruence.
Qed.

Lemma unary_sound lang op a c : value_of lang a ->
  const_unary lang op a = Ok (Some c) -> unary_means lang op a c.
Proof.
  intros A E. destruct op; cbn [const_unary] in E; apply Ok_inj in E; cbn [unary_means].
  - destruct a as [| |v|v|]; try discriminate E; cbn [lua_neg] in E; destruct A as [x N].
    + pose proof (fix_inv _ _ _ N) as ->. pose proof N as [W V].
      assert (Vv : v = x mod 2 ^ 32) by congruence. clear V. subst v.
      exists x, (wrap 32 (- (x mod 2 ^ 32))). split; [exact N|].
      replace c with (LuaFixnum (- (x mod 2 ^ 32))) by congruence. split; [apply LuaFixnum_number|].
      apply wrap32_cong. destruct (mod32_shift x) as [k ->].
      replace (- (x + k * 2 ^ 32) - - x) with ((- k) * 2 ^ 32) by ring. apply Z.mod_mul. lia.
    + destruct lang; [destruct N as [_ K]; discriminate K|]. pose proof N as [W V]. injection V as ->.
      exists x, (wrap 64 (- x)). split; [exact N|].
      replace c with (LuaInteger (- x)) by congruence. split; [apply LuaInteger_number|]. apply wrap_wraps. cbn. lia.
  - destruct a as [| |v|v|]; try discriminate E; cbn [lua_bin_not] in E; destruct A as [x N].
    + pose proof (fix_inv _ _ _ N) as ->. pose proof N as [W V].
      assert (Vv : v = x mod 2 ^ 32) by congruence. clear V. subst v.
      exists x, (wrap 32 (Z.lnot (x mod 2 ^ 32))). split; [exact N|].
      replace c with (LuaFixnum (Z.lnot (x mod 2 ^ 32))) by congruence. split; [apply LuaFixnum_number|].
      cbn [width]. intros i Hi. rewrite (wraps_bits 32 (Z.lnot (x mod 2 ^ 32))) by (try apply wrap_wraps; lia).
      rewrite Z.lnot_spec by lia. now rewrite mod_bits.
    + destruct lang; [destruct N as [_ K]; discriminate K|]. pose proof N as [W V]. injection V as ->.
      exists x, (wrap 64 (Z.lnot (uint_value x))). split; [exact N|].
      replace c with (LuaInteger (Z.lnot (uint_value x))) by congruence. split; [apply LuaInteger_number|].
      cbn [width]. intros i Hi. rewrite (wraps_bits 64 (Z.lnot (uint_value x))) by (try apply wrap_wraps; lia).
      rewrite Z.lnot_spec by lia. now rewrite uint_bits.
  - unfold lua_not in E. exists (negb (is_truthy a)). split; [congruence|].
    rewrite negb_true_iff. apply truthy_not.
  - destruct a as [| | | |s]; cbn [lua_len] in E; try (destruct lang; discriminate E).
    destruct lang; [|discriminate E]. destruct (Z.leb_spec (zlen s) 0x7fff) as [L|L]; [|discriminate E].
    exists s. split; [reflexivity|]. split; [reflexivity|]. pose proof (zlen_nonneg s).
    replace c with (LuaFixnum (Z.shiftl (zlen s) 16)) by congruence.
    rewrite Z.shiftl_mul_pow2 by lia. change (2 ^ 16) with 65536.
    rewrite <- (wrap_id 32 (zlen s * 65536)) at 2; [apply LuaFixnum_number|lia|apply width32; lia].
Qed.

Lemma call_sound lang f args c : Forall (value_of lang) args ->
  const_call lang f args = Ok (Some c) -> call_means lang f args c.
Proof.
  intros A E. unfold const_call in E.
  destruct (cfun_pico8_only f && match lang with Picotron => true | Pico8 => false end) eqn:P; [discriminate E|].
  assert (L : cfun_pico8_only f = true -> lang = Pico8).
  { intros K. rewrite K in P. destruct lang; [reflexivity|discriminate P]. }
  clear P.
  destruct args as [|a [|b [|d [|e args]]]]; destruct f; cbn beta iota in E; try discriminate E;
    repeat match goal with H : Forall _ (_ :: _) |- _ => apply Forall_cons_iff in H; destruct H end;
    cbn [call_means];
    try (split; [now apply L|]);
    try (apply (unary_sound lang UBnot); [assumption|exact E]);
    try (apply (binary_sound lang BBand); [assumption|assumption|exact E]);
    try (apply (binary_sound lang BBor); [assumption|assumption|exact E]);
    try (apply (binary_sound lang BBxor); [assumption|assumption|exact E]);
    try (apply (binary_sound lang BShl); [assumption|assumption|exact E]);
    try (apply (binary_sound lang BShr); [assumption|assumption|exact E]);
    try (apply (binary_sound lang BLshr); [assumption|assumption|exact E]);
    try (apply (binary_sound lang BRotl); [assumption|assumption|exact E]);
    try (apply (binary_sound lang BRotr); [assumption|assumption|exact E]);
    apply Ok_inj in E.
  - (* abs *) destruct a as [| |v|v|]; try discriminate E; cbn [lua_abs] in E.
    + destruct H as [x N]. pose proof (fix_inv _ _ _ N) as ->. pose proof N as [W V].
      assert (Vv : v = x mod 2 ^ 32) by congruence. clear V. subst v.
      rewrite signed_mod in E by exact W.
      destruct (Z.eqb_spec (x mod 2 ^ 32) 0x80000000); [discriminate E|].
      exists x. split; [exact N|]. replace c with (LuaFixnum (Z.abs x)) by congruence.
      rewrite <- (wrap_id 32 (Z.abs x)) at 2; [apply LuaFixnum_number|lia|].
      apply width32' in W. apply width32. lia.
    + destruct H as [x N]. destruct lang; [destruct N as [_ K]; discriminate K|]. pose proof N as [W V]. injection V as ->.
      destruct (Z.eqb_spec x (-0x8000000000000000)); [discriminate E|].
      exists x. split; [exact N|]. replace c with (LuaInteger (Z.abs x)) by congruence.
      rewrite <- (wrap_id 64 (Z.abs x)) at 2; [apply LuaInteger_number|lia|].
      unfold in_width in *. change (2 ^ (64 - 1)) with 0x8000000000000000 in *. lia.
  - (* ceil *) destruct a as [| |v|v|]; try discriminate E; cbn [lua_ceil] in E.
    + destruct H as [x N]. pose proof (fix_inv _ _ _ N) as ->. pose proof N as [W V].
      assert (Vv : v = x mod 2 ^ 32) by congruence. clear V. subst v.
      rewrite land_lo in E. destruct (Z.eqb_spec ((x mod 2 ^ 32) mod 65536) 0) as [M|M]; cbn [negb] in E.
      * exists x, x. split; [exact N|]. replace c with (LuaFixnum (x mod 2 ^ 32)) by congruence.
        split; [|lia]. split; [exact W|]. unfold LuaFixnum. rewrite land_mask32. now rewrite Z.mod_mod by lia.
      * cbn zeta in E. apply width32' in W. rewrite land_hi in E by lia.
        destruct (Z.eqb_spec (x mod 2 ^ 32 / 65536 * 65536 + 65536) 0x80000000) as [O|O]; [discriminate E|].
        exists x, (x / 65536 * 65536 + 65536). split; [exact N|].
        replace c with (LuaFixnum (x mod 2 ^ 32 / 65536 * 65536 + 65536)) by congruence.
        split; [|lia]. split; [apply width32; lia|]. unfold LuaFixnum. rewrite land_mask32.
        destruct (mod32_shift x) as [k K]. rewrite K in *.
        replace ((x + k * 2 ^ 32) / 65536) with (x / 65536 + k * 65536) by
          (replace (x + k * 2 ^ 32) with (x + k * 65536 * 65536) by ring; now rewrite Z.div_add by lia).
        replace ((x / 65536 + k * 65536) * 65536 + 65536) with (x / 65536 * 65536 + 65536 + k * 2 ^ 32) by ring.
        now rewrite Z.mod_add by lia.
    + destruct H as [x N]. destruct lang; [destruct N as [_ K]; discriminate K|].
      replace c with (VInt v) by congruence. eauto.
  - (* flr *) destruct a as [| |v|v|]; try discriminate E; cbn [lua_floor] in E.
    + destruct H as [x N]. pose proof (fix_inv _ _ _ N) as ->. pose proof N as [W V].
      assert (Vv : v = x mod 2 ^ 32) by congruence. clear V. subst v.
      destruct (floor8 x W) as (r & NR & B). exists x, r. split; [exact N|].
      match type of E with Some ?z = _ => replace c with z by congruence end. split; [exact NR|exact B].
    + destruct H as [x N]. destruct lang; [destruct N as [_ K]; discriminate K|].
      replace c with (VInt v) by congruence. eauto.
  - (* max *) unfold lua_max in E. destruct (is_number a && is_number b) eqn:N; [|discriminate E].
    apply andb_true_iff in N as [Na Nb].
    destruct (is_number_ex lang a) as [x NX]; auto. destruct (is_number_ex lang b) as [y NY]; auto.
    rewrite (number_signed _ _ _ NX), (number_signed _ _ _ NY) in E.
    exists x, y. split; [exact NX|]. split; [exact NY|].
    destruct (Z.ltb_spec y x); [rewrite Z.max_l by lia|rewrite Z.max_r by lia]; congruence.
  - (* min *) unfold lua_min in E. destruct (is_number a && is_number b) eqn:N; [|discriminate E].
    apply andb_true_iff in N as [Na Nb].
    destruct (is_number_ex lang a) as [x NX]; auto. destruct (is_number_ex lang b) as [y NY]; auto.
    rewrite (number_signed _ _ _ NX), (number_signed _ _ _ NY) in E.
    exists x, y. split; [exact NX|]. split; [exact NY|].
    destruct (Z.ltb_spec x y); [rewrite Z.min_l by lia|rewrite Z.min_r by lia]; congruence.
  - (* mid *) unfold lua_mid in E. destruct (is_number a && is_number b && is_number d) eqn:N; [|discriminate E].
    apply andb_true_iff in N as [N Nd]. apply andb_true_iff in N as [Na Nb].
    destruct (is_number_ex lang a) as [x NX]; auto. destruct (is_number_ex lang b) as [y NY]; auto.
    destruct (is_number_ex lang d) as [z NZ]; auto.
    rewrite (number_signed _ _ _ NX), (number_signed _ _ _ NY), (number_signed _ _ _ NZ) in E.
    exists x, y, z. split; [exact NX|]. split; [exact NY|]. split; [exact NZ|].
    destruct (Z.ltb_spec x y), (Z.ltb_spec y z), (Z.ltb_spec x z); cbn [Bool.eqb negb] in E;
      match type of E with Some ?v = _ => replace c with v by congruence end;
      match goal with
      | |- number _ a ?m => replace m with x by lia; assumption
      | |- number _ b ?m => replace m with y by lia; assumption
      | |- number _ d ?m => replace m with z by lia; assumption
      end.
Qed.
