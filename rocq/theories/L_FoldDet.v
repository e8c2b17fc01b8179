(** The machine's results are determined, and folding finds every one of them, except shifts
    and rotations by the smallest number. *)
From Coq Require Import Lia.
From Verif Require Import M_Base L_Util M_Fold S_Fold L_Fold L_FoldExpr.
Open Scope Z_scope.
Ltac Zify.zify_post_hook ::= Z.div_mod_to_equations.
Local Opaque recursion_limit.

Lemma width_pos lang : 0 < width lang. Proof. destruct lang; cbn; lia. Qed.
Lemma number_width lang a x : number lang a x -> in_width (width lang) x.
Proof. destruct lang; now intros [W _]. Qed.
Lemma number_of lang x : in_width (width lang) x -> exists a, number lang a x.
Proof. destruct lang; cbn [width number]; intros; eexists; split; eauto. Qed.
Lemma number_fun lang a b x : number lang a x -> number lang b x -> a = b.
Proof. destruct lang; intros [_ A] [_ B]; congruence. Qed.

Lemma bits_eq w r r' : 0 < w -> in_width w r -> in_width w r' ->
  (forall i, 0 <= i < w -> Z.testbit r i = Z.testbit r' i) -> r = r'.
Proof.
  intros H A B E. assert (P : 0 < 2 ^ w) by (apply Z.pow_pos_nonneg; lia).
  assert (M : r mod 2 ^ w = r' mod 2 ^ w).
  { apply Z.bits_inj'. intros i Hi. destruct (Z.ltb_spec i w).
    - rewrite !Z.mod_pow2_bits_low by lia. apply E. lia.
    - now rewrite !Z.mod_pow2_bits_high by lia. }
  apply (wraps_eq w r' r r' H); [|now apply wraps_id]. split; [exact A|].
  rewrite Zminus_mod, M, Z.sub_diag. apply Z.mod_0_l. lia.
Qed.

Lemma arith_det lang op x y r r' : in_width (width lang) r -> in_width (width lang) r' ->
  arith lang op x y r -> arith lang op x y r' -> r = r'.
Proof.
  intros W W' A B. pose proof (width_pos lang) as P.
  assert (DI : forall n n', distance lang y n -> distance lang y n' -> n = n').
  { destruct lang; cbn [distance]; lia. }
  destruct op; cbn [arith] in A, B; try contradiction.
  - apply (bits_eq _ r r' P W W'). intros i Hi. now rewrite A, B by exact Hi.
  - apply (bits_eq _ r r' P W W'). intros i Hi. now rewrite A, B by exact Hi.
  - apply (bits_eq _ r r' P W W'). intros i Hi. now rewrite A, B by exact Hi.
  - destruct A as (n & D & A1 & A2), B as (n' & D' & B1 & B2). pose proof (DI _ _ D D') as <-.
    destruct (Z.leb_spec 0 n) as [L|L].
    + exact (wraps_eq _ _ _ _ P (A1 L) (B1 L)).
    + destruct (A2 L) as [_ ->], (B2 L) as [_ ->]. reflexivity.
  - destruct A as (n & D & A1 & A2), B as (n' & D' & B1 & B2). pose proof (DI _ _ D D') as <-.
    destruct (Z.leb_spec 0 n) as [L|L].
    + destruct (A1 L) as [_ ->], (B1 L) as [_ ->]. reflexivity.
    + exact (wraps_eq _ _ _ _ P (A2 L) (B2 L)).
  - destruct A as (_ & n & D & A1 & A2), B as (_ & n' & D' & B1 & B2). pose proof (DI _ _ D D') as <-.
    destruct (Z.leb_spec 0 n) as [L|L].
    + exact (wraps_eq _ _ _ _ P (A1 L) (B1 L)).
    + exact (wraps_eq _ _ _ _ P (A2 L) (B2 L)).
  - destruct A as (_ & n & D & A), B as (_ & n' & D' & B). pose proof (DI _ _ D D') as <-.
    apply (bits_eq _ r r' P W W'). intros i Hi.
    assert (E : i = ((i - n) mod width lang + n) mod width lang).
    { rewrite Z.add_mod_idemp_l by lia. replace (i - n + n) with i by lia. now rewrite Z.mod_small by lia. }
    rewrite E. rewrite A, B by (apply Z.mod_pos_bound; lia). reflexivity.
  - destruct A as (_ & n & D & A), B as (_ & n' & D' & B). pose proof (DI _ _ D D') as <-.
    apply (bits_eq _ r r' P W W'). intros i Hi. now rewrite A, B by exact Hi.
  - exact (wraps_eq _ _ _ _ P A B).
  - exact (wraps_eq _ _ _ _ P A B).
  - destruct lang; [congruence|exact (wraps_eq _ _ _ _ P A B)].
  - destruct A as (_ & _ & ->), B as (_ & _ & ->). reflexivity.
  - destruct A as (_ & A), B as (_ & B). destruct lang; [|exact (wraps_eq _ _ _ _ P A B)].
    destruct A as (q & -> & M1 & L1), B as (q' & -> & M2 & L2). lia.
  - destruct A as (_ & -> & _), B as (_ & -> & _). reflexivity.
Qed.

(** Decimal texts are unique. *)
Lemma horner_nonneg s : forall a, 0 <= a -> Forall (fun d => 48 <= d <= 57) s -> 0 <= horner a s.
Proof.
  induction s as [|d s IH]; intros a A F; [exact A|]. inversion F; subst. cbn [horner]. apply IH; [lia|assumption].
Qed.
Lemma decimal_unique s : forall t v, is_decimal s v -> is_decimal t v -> s = t.
Proof.
  assert (K : forall n s t v, (length s < n)%nat -> is_decimal s v -> is_decimal t v -> s = t);
    [|intros; eapply (K (S (length s))); eauto].
  clear s. induction n as [|n IH]; intros s t v L S T; [lia|].
  assert (LAST : forall u, is_decimal u v -> exists u', u = u' ++ [48 + v mod 10] /\
    ((u' = [] /\ v < 10) \/ (is_decimal u' (v / 10) /\ 10 <= v))).
  { intros u (N & F & V & Hd). destruct (exists_last N) as (u' & d & ->). exists u'.
    apply Forall_app in F as [F1 F2]. inversion F2 as [|? ? D _]; subst.
    rewrite horner_app. cbn [horner]. set (h := horner 0 u') in *.
    assert (0 <= h) by (apply horner_nonneg; [lia|exact F1]).
    assert (E : (h * 10 + (d - 48)) mod 10 = d - 48) by lia.
    assert (E2 : (h * 10 + (d - 48)) / 10 = h) by lia. rewrite E, E2. split; [f_equal; f_equal; lia|].
    destruct u' as [|c u']; [left; split; [reflexivity|subst h; cbn [horner]; lia]|]. right.
    assert (Hh : h <> 0).
    { cbn [app hd] in Hd. inversion F1 as [|? ? C1 C2]; subst. intros Z0.
      assert (c <> 48) by (intros ->; specialize (Hd eq_refl); destruct u'; discriminate Hd).
      assert (POS : forall l a, 0 < a -> Forall (fun d => 48 <= d <= 57) l -> 0 < horner a l).
      { induction l as [|e l IHl]; intros a A G; [exact A|]. inversion G; subst. cbn [horner]. apply IHl; [lia|assumption]. }
      pose proof (POS u' (0 * 10 + (c - 48)) ltac:(lia) C2) as Q. subst h. cbn [horner] in Z0. lia. }
    split; [|lia]. split; [discriminate|]. split; [exact F1|]. split; [reflexivity|].
    cbn [app hd] in *. intros C. specialize (Hd C). destruct u'; discriminate Hd. }
  destruct (LAST s S) as (s' & -> & CS), (LAST t T) as (t' & -> & CT). f_equal.
  destruct CS as [[-> VS]|[DS VS]], CT as [[-> VT]|[DT VT]]; try lia; [reflexivity|].
  rewrite app_length in L. cbn in L. apply (IH s' t' (v / 10)); [lia|assumption|assumption].
Qed.
Lemma decimal_nonneg s v : is_decimal s v -> 0 <= v.
Proof. intros (_ & F & <- & _). apply horner_nonneg; [lia|exact F]. Qed.
Lemma decimal_no_minus s v : is_decimal (45 :: s) v -> False.
Proof. intros (_ & F & _). inversion F; subst. lia. Qed.
Lemma int_text_unique s t v : int_text s v -> int_text t v -> s = t.
Proof.
  intros [[A S]|[A (s' & -> & S)]] [[B T]|[B (t' & -> & T)]]; try lia.
  - eapply decimal_unique; eauto.
  - f_equal. eapply decimal_unique; eauto.
Qed.
Lemma text_unique lang a s t : text lang a s -> text lang a t -> s = t.
Proof.
  intros [A|(x & N & A)] [B|(y & M & B)].
  - congruence.
  - subst a. exfalso. eapply number_str; exact M.
  - subst a. exfalso. eapply number_str; exact N.
  - pose proof (number_det _ _ _ _ N M) as <-. destruct lang.
    + destruct A as [_ A], B as [_ B]. eapply int_text_unique; eauto.
    + eapply int_text_unique; eauto.
Qed.

Lemma bool_iff_eq (P : Prop) b c : (b = true <-> P) -> (c = true <-> P) -> b = c.
Proof. intros A B. destruct b, c; auto; [symmetry|]; tauto. Qed.

Lemma binary_det lang op a b c c' : binary_means lang op a b c -> binary_means lang op a b c' -> c = c'.
Proof.
  intros A B. destruct op; cbn [binary_means] in A, B;
    try (destruct A as (x & y & r & X & Y & R & A), B as (x' & y' & r' & X' & Y' & R' & B);
         pose proof (number_det _ _ _ _ X X') as <-; pose proof (number_det _ _ _ _ Y Y') as <-;
         pose proof (arith_det _ _ _ _ _ _ (number_width _ _ _ R) (number_width _ _ _ R') A B) as <-;
         exact (number_fun _ _ _ _ R R'));
    try (destruct A as [_ (t & -> & A)], B as [_ (t' & -> & B)]; f_equal; eapply bool_iff_eq; eauto; fail);
    try (destruct A as (t & -> & A), B as (t' & -> & B); f_equal; eapply bool_iff_eq; eauto; fail).
  - destruct A as [[T ->]|[T ->]], B as [[U ->]|[U ->]]; try reflexivity; contradiction.
  - destruct A as [[T ->]|[T ->]], B as [[U ->]|[U ->]]; try reflexivity; contradiction.
  - destruct A as (s & t & S & T & ->), B as (s' & t' & S' & T' & ->).
    now rewrite (text_unique _ _ _ _ S S'), (text_unique _ _ _ _ T T').
Qed.
Lemma unary_det lang op a c c' : unary_means lang op a c -> unary_means lang op a c' -> c = c'.
Proof.
  intros A B. pose proof (width_pos lang) as P. destruct op; cbn [unary_means] in A, B.
  - destruct A as (x & r & X & R & A), B as (x' & r' & X' & R' & B). pose proof (number_det _ _ _ _ X X') as <-.
    rewrite (wraps_eq _ _ _ _ P A B) in R. exact (number_fun _ _ _ _ R R').
  - destruct A as (x & r & X & R & A), B as (x' & r' & X' & R' & B). pose proof (number_det _ _ _ _ X X') as <-.
    assert (r = r'). { apply (bits_eq _ r r' P (number_width _ _ _ R) (number_width _ _ _ R')). intros i Hi. now rewrite A, B by exact Hi. }
    subst r'. exact (number_fun _ _ _ _ R R').
  - destruct A as (t & -> & A), B as (t' & -> & B); f_equal; eapply bool_iff_eq; eauto.
  - destruct A as (s & -> & -> & A), B as (s' & E & _ & B). injection E as <-. exact (number_fun _ _ _ _ A B).
Qed.

(** Folding succeeds wherever the machine's result is defined. *)
Lemma number_neq8 x v : number Pico8 (VInt v) x -> False. Proof. intros [_ E]. discriminate E. Qed.
Lemma range_true v : in_width 32 v -> is_signed_fixnum_in_range v = true.
Proof. intros H. apply width32' in H. unfold is_signed_fixnum_in_range. lia. Qed.

Lemma text_tostr lang a s : text lang a s -> exists t, lua_tostr a = Some t.
Proof.
  intros [->|(x & N & T)]; [eexists; reflexivity|]. destruct lang; destruct N as [W ->]; cbn [lua_tostr]; [|eauto].
  destruct T as [M _]. unfold fixnum_is_whole. rewrite land_lo.
  assert (E : ((x mod 2 ^ 32) mod 65536 =? 0) = true) by lia. rewrite E. eauto.
Qed.

Lemma shift_complete lang op x y a b r : number lang a x -> number lang b y -> y <> - 2 ^ (width lang - 1) ->
  arith lang (op_of op) x y r -> exists c, lua_shift recursion_limit op a b = Ok (Some c).
Proof.
  intros A B N R. destruct limit_SS as [f ->]. destruct lang.
  - destruct A as [X ->], B as [Y ->]. change (2 ^ (width Pico8 - 1)) with (2 ^ 31) in N.
    assert (D : y mod 65536 = 0 /\ (op = Shl -> y < 0 -> 0 <= x)).
    { destruct op; cbn [arith op_of] in R.
      - destruct R as (n & D & _ & K). cbn in D. split; [lia|]. intros _ L. apply K. lia.
      - destruct R as (n & D & _). cbn in D. split; [lia|discriminate].
      - destruct R as (_ & n & D & _). cbn in D. split; [lia|discriminate].
      - destruct R as (_ & n & D & _). cbn in D. split; [lia|discriminate].
      - destruct R as (_ & n & D & _). cbn in D. split; [lia|discriminate]. }
    destruct D as [M Q]. change (VFix (x mod 2 ^ 32)) with (fx x). change (VFix (y mod 2 ^ 32)) with (fx y).
    destruct (Z.leb_spec 0 y) as [L|L].
    + rewrite shift_pos by assumption. rewrite M. eexists; reflexivity.
    + rewrite shift_neg by assumption. pose proof (opp_width y Y N) as O.
      assert (M2 : (- y) mod 65536 = 0) by lia.
      destruct op; try (rewrite shift_pos by (assumption || lia); rewrite M2; eexists; reflexivity).
      specialize (Q eq_refl L). destruct (Z.ltb_spec x 0); [lia|].
      rewrite shift_pos by (assumption || lia); rewrite M2; eexists; reflexivity.
  - destruct A as [X ->], B as [Y ->]. change (2 ^ (width Picotron - 1)) with (2 ^ 63) in N.
    destruct op; cbn [arith op_of] in R; try (destruct R as (K & _); discriminate K).
    + destruct R as (n & <- & _ & K). destruct (Z.leb_spec 0 y) as [L|L].
      * rewrite ishift_pos by assumption. eexists. reflexivity.
      * rewrite ishift_neg by assumption. cbn [is_sh iflip]. rewrite ishift_pos; [| |lia].
        -- cbn [ishift_val]. destruct (K L) as [K1 _]. destruct (Z.leb_spec 0 x); [|lia]. eexists. reflexivity.
        -- unfold in_width in *. change (2 ^ (64 - 1)) with (2 ^ 63) in *. lia.
    + destruct R as (n & <- & K & _). destruct (Z.leb_spec 0 y) as [L|L].
      * rewrite ishift_pos by assumption. cbn [ishift_val].
        destruct (K L) as [K1 _]. specialize (K1 eq_refl). destruct (Z.leb_spec 0 x); [|lia]. eexists. reflexivity.
      * rewrite ishift_neg by assumption. cbn [is_sh iflip]. rewrite ishift_pos; [| |lia]; [eexists; reflexivity|].
        unfold in_width in *. change (2 ^ (64 - 1)) with (2 ^ 63) in *. lia.
Qed.

Definition by_minimum (lang : language) (op : binop) (b : lval) : Prop :=
  shift_op op = true /\ number lang b (- 2 ^ (width lang - 1)).

Lemma binary_complete lang op a b c : value_of lang a -> value_of lang b -> ~ by_minimum lang op b ->
  binary_means lang op a b c -> const_binary op a b = Ok (Some c).
Proof.
  intros A B N M.
  assert (K : exists c', const_binary op a b = Ok (Some c')).
  2:{ destruct K as [c' K]. rewrite K. f_equal. f_equal. apply (binary_sound lang) in K; [|assumption|assumption].
      eapply binary_det; eauto. }
  assert (SH : forall o, op = op_of o -> exists c', const_binary op a b = Ok (Some c')).
  { intros o ->. assert (Q : exists x y r, number lang a x /\ number lang b y /\ number lang c r /\ arith lang (op_of o) x y r)
      by (destruct o; exact M).
    destruct Q as (x & y & r & X & Y & R & AR).
    assert (D : y <> - 2 ^ (width lang - 1)).
    { intros ->. apply N. split; [now destruct o|exact Y]. }
    destruct (shift_complete lang o x y a b r X Y D AR) as [c' E]. exists c'. destruct o; exact E. }
  destruct op; try (eapply (SH Shl); reflexivity); try (eapply (SH Shr); reflexivity); try (eapply (SH Lshr); reflexivity);
    try (eapply (SH Rotl); reflexivity); try (eapply (SH Rotr); reflexivity); clear SH N; cbn [const_binary binary_means] in *.
  1-2: eexists; reflexivity.
  - unfold lua_not_eq. destruct (_ && _); eexists; reflexivity.
  - unfold lua_eq. destruct (_ && _); eexists; reflexivity.
  - destruct M as [C _]. unfold lua_less, lua_cmp. destruct C as [(x & y & X & Y)|(s & t & -> & ->)]; [|eexists; reflexivity].
    rewrite (number_is _ _ _ X), (number_is _ _ _ Y). eexists; reflexivity.
  - destruct M as [C _]. unfold lua_less_eq, lua_cmp. destruct C as [(x & y & X & Y)|(s & t & -> & ->)]; [|eexists; reflexivity].
    rewrite (number_is _ _ _ X), (number_is _ _ _ Y). eexists; reflexivity.
  - destruct M as [C _]. unfold lua_greater, lua_cmp. destruct C as [(x & y & X & Y)|(s & t & -> & ->)]; [|eexists; reflexivity].
    rewrite (number_is _ _ _ X), (number_is _ _ _ Y). eexists; reflexivity.
  - destruct M as [C _]. unfold lua_greater_eq, lua_cmp. destruct C as [(x & y & X & Y)|(s & t & -> & ->)]; [|eexists; reflexivity].
    rewrite (number_is _ _ _ X), (number_is _ _ _ Y). eexists; reflexivity.
  - destruct M as (x & y & r & X & Y & _). destruct lang; destruct X as [_ ->], Y as [_ ->]; eexists; reflexivity.
  - destruct M as (x & y & r & X & Y & _). destruct lang; destruct X as [_ ->], Y as [_ ->]; eexists; reflexivity.
  - destruct M as (x & y & r & X & Y & _). destruct lang; destruct X as [_ ->], Y as [_ ->]; eexists; reflexivity.
  - destruct M as (s & t & S & T & _). unfold lua_cat. destruct (text_tostr _ _ _ S) as [u ->], (text_tostr _ _ _ T) as [v ->].
    eexists; reflexivity.
  - destruct M as (x & y & r & X & Y & _). destruct lang; destruct X as [_ ->], Y as [_ ->]; eexists; reflexivity.
  - destruct M as (x & y & r & X & Y & _). destruct lang; destruct X as [_ ->], Y as [_ ->]; eexists; reflexivity.
  - destruct M as (x & y & r & X & Y & R & E). destruct lang; destruct X as [WX ->], Y as [WY ->]; [|eexists; reflexivity].
    cbn [arith] in E. destruct R as [WR _]. cbn [lua_mul]. rewrite !signed_mod, Z.shiftr_div_pow2 by (assumption || lia).
    change (2 ^ 16) with 65536. rewrite <- E, range_true by exact WR. eexists; reflexivity.
  - destruct M as (x & y & r & X & Y & R & L & Z0 & E). subst lang. destruct X as [WX ->], Y as [WY ->].
    destruct R as [WR _]. cbn [lua_div]. rewrite !signed_mod, Z.shiftl_mul_pow2 by (assumption || lia).
    change (2 ^ 16) with 65536. rewrite div_trunc_quot by exact Z0. rewrite <- E, range_true by exact WR.
    apply width32' in WY. destruct (Z.eqb_spec (y mod 2 ^ 32) 0); [lia|]. eexists; reflexivity.
  - destruct M as (x & y & r & X & Y & R & Z0 & E). destruct lang; destruct X as [WX ->], Y as [WY ->].
    + destruct E as (q & E & M & L). destruct R as [WR _]. cbn [lua_idiv lua_div].
      rewrite !signed_mod, Z.shiftl_mul_pow2 by (assumption || lia).
      change (2 ^ 16) with 65536. rewrite div_trunc_quot by exact Z0. rewrite <- E, range_true.
      2:{ clear E. apply width32' in WR. apply width32. lia. }
      clear E. apply width32' in WY. destruct (Z.eqb_spec (y mod 2 ^ 32) 0); [lia|]. eexists; reflexivity.
    + cbn [lua_idiv]. destruct (Z.eqb_spec y 0); [contradiction|]. eexists; reflexivity.
  - destruct M as (x & y & r & X & Y & R & Z0 & E & P). destruct lang; destruct X as [WX ->], Y as [WY ->].
    + specialize (P eq_refl). destruct R as [WR _]. cbn [lua_mod]. rewrite neg_mod, !signed_mod by assumption.
      rewrite <- E, range_true by exact WR. clear E. apply width32' in WY.
      destruct (Z.eqb_spec (y mod 2 ^ 32) 0); [lia|]. destruct (Z.ltb_spec y 0); [lia|]. eexists; reflexivity.
    + cbn [lua_mod]. destruct (Z.eqb_spec y 0); [contradiction|]. eexists; reflexivity.
  - destruct M as (x & y & r & _ & _ & _ & []).
Qed.

Lemma unary_complete lang op a c : value_of lang a -> unary_means lang op a c -> const_unary lang op a = Ok (Some c).
Proof.
  intros A M. assert (K : exists c', const_unary lang op a = Ok (Some c')).
  2:{ destruct K as [c' K]. rewrite K. f_equal. f_equal. apply unary_sound in K; [|assumption]. eapply unary_det; eauto. }
  destruct op; cbn [const_unary unary_means] in *.
  - destruct M as (x & r & X & _). destruct lang; destruct X as [_ ->]; eexists; reflexivity.
  - destruct M as (x & r & X & _). destruct lang; destruct X as [_ ->]; eexists; reflexivity.
  - eexists; reflexivity.
  - destruct M as (s & -> & -> & [W _]). unfold const_unary. cbn [lua_len]. apply width32' in W.
    destruct (Z.leb_spec (zlen s) 0x7fff); [eexists; reflexivity|lia].
Qed.


(** Shifts by the smallest number: everything is shifted out, a rotation changes nothing. *)
Definition zero_of (lang : language) : lval := match lang with Pico8 => VFix 0 | Picotron => VInt 0 end.
Definition min_result (lang : language) (op : binop) (a : lval) : lval :=
  match op with BRotl | BRotr => a | _ => zero_of lang end.
Lemma zero_number lang : number lang (zero_of lang) 0.
Proof. destruct lang; (split; [vm_compute; split; congruence|reflexivity]). Qed.
Lemma zero_width w : 0 < w -> in_width w 0.
Proof. intros H. unfold in_width. assert (0 < 2 ^ (w - 1)) by (apply Z.pow_pos_nonneg; lia). lia. Qed.
Lemma big_shift w x n r : 0 < w -> w <= n -> wraps w (x * 2 ^ n) r -> r = 0.
Proof.
  intros H L W. apply (wraps_eq w _ _ _ H W). split; [now apply zero_width|].
  rewrite Z.sub_0_l. assert (0 < 2 ^ w) by (apply Z.pow_pos_nonneg; lia).
  apply Z.mod_divide; [lia|]. apply Z.divide_opp_r. apply Z.divide_mul_r. exists (2 ^ (n - w)).
  rewrite <- Z.pow_add_r by lia. f_equal. lia.
Qed.
Lemma min_means lang op a b c : by_minimum lang op b -> binary_means lang op a b c -> c = min_result lang op a.
Proof.
  intros [S N] M. pose proof (width_pos lang) as P.
  assert (Q : exists x y r, number lang a x /\ number lang b y /\ number lang c r /\ arith lang op x y r)
    by (destruct op; try discriminate S; exact M).
  destruct Q as (x & y & r & X & Y & R & A). pose proof (number_det _ _ _ _ N Y) as <-. clear Y M.
  assert (DI : exists n, n + width lang <= 0 /\ n mod width lang = 0 /\ forall n', distance lang (- 2 ^ (width lang - 1)) n' -> n' = n).
  { destruct lang; cbn [width distance].
    - exists (-32768). split; [lia|]. split; [reflexivity|]. intros n' D. change (2 ^ (32 - 1)) with 2147483648 in D. lia.
    - exists (- 2 ^ 63). split; [lia|]. split; [reflexivity|]. intros n' D. symmetry. exact D. }
  destruct DI as (n & LN & MN & DI).
  assert (RW : forall rr, number lang c rr -> number lang a rr -> c = a) by (intros; eapply number_fun; eauto).
  assert (Z0 : r = 0 -> c = zero_of lang).
  { intros ->. eapply number_fun; [exact R|apply zero_number]. }
  destruct op; try discriminate S; cbn [arith min_result] in *.
  - destruct A as (n' & D & _ & A). rewrite (DI _ D) in A. destruct (A ltac:(lia)) as [X0 ->].
    apply Z0. apply Z.div_small. split; [exact X0|].
    apply number_width in X. destruct X as [_ X]. eapply Z.lt_le_trans; [exact X|]. apply Z.pow_le_mono_r; lia.
  - destruct A as (n' & D & _ & A). rewrite (DI _ D) in A. apply Z0. apply (big_shift (width lang) x (- n)); [lia|lia|]. apply A. lia.
  - destruct A as (_ & n' & D & _ & A). rewrite (DI _ D) in A. apply Z0. apply (big_shift (width lang) x (- n)); [lia|lia|]. apply A. lia.
  - destruct A as (_ & n' & D & A). rewrite (DI _ D) in A. apply (RW r R).
    replace r with x; [exact X|]. apply (bits_eq _ _ _ P (number_width _ _ _ X) (number_width _ _ _ R)). intros i Hi.
    rewrite <- (A i Hi). f_equal. rewrite <- Z.add_mod_idemp_r, MN, Z.add_0_r by lia. now rewrite Z.mod_small by lia.
  - destruct A as (_ & n' & D & A). rewrite (DI _ D) in A. apply (RW r R).
    replace r with x; [exact X|]. apply (bits_eq _ _ _ P (number_width _ _ _ X) (number_width _ _ _ R)). intros i Hi.
    rewrite (A i Hi). f_equal. rewrite <- Z.add_mod_idemp_r, MN, Z.add_0_r by lia. now rewrite Z.mod_small by lia.
Qed.

(** A machine that computes as it should exists; its other expressions give the values 1 and 2. *)
Definition is_min (lang : language) (b : lval) : bool :=
  match lang, b with
  | Pico8, VFix v => v =? 2 ^ 31
  | Picotron, VInt v => v =? - 2 ^ 63
  | _, _ => false
  end.
Definition sample_bin (lang : language) (op : binop) (a b : lval) : option lval :=
  if shift_op op && is_min lang b then Some (min_result lang op a)
  else match const_binary op a b with Ok r => r | Err _ => None end.
Definition fun_op (f : cfun) : option binop :=
  match f with
  | FBand => Some BBand | FBor => Some BBor | FBxor => Some BBxor | FShl => Some BShl | FShr => Some BShr
  | FLshr => Some BLshr | FRotl => Some BRotl | FRotr => Some BRotr | _ => None
  end.
Definition sample_call (lang : language) (f : cfun) (args : list lval) : option lval :=
  match fun_op f, args with
  | Some op, [a; b] => sample_bin lang op a b
  | _, _ => match const_call lang f args with Ok r => r | Err _ => None end
  end.
Definition unRV (r : rval) : lval := match r with RV v => v | RRef _ => VNil end.
Definition sample_machine (lang : language) : machine Z :=
  {| m_un := fun op a s => match const_unary lang op (unRV a) with Ok (Some c) => Some (RV c, s) | _ => None end;
     m_bin := fun op a b s => match sample_bin lang op (unRV a) (unRV b) with Some c => Some (RV c, s) | _ => None end;
     m_call := fun f args s => match sample_call lang f (map unRV args) with Some c => Some ([RV c], s) | _ => None end;
     m_other := fun id multi args s => Some ([RV (VBool true); RRef id], s + 1) |}.

Lemma is_min_number lang b y : number lang b y -> (is_min lang b = true <-> y = - 2 ^ (width lang - 1)).
Proof.
  destruct lang; intros [W ->]; cbn [is_min width].
  - apply width32' in W. change (2 ^ (32 - 1)) with (2 ^ 31). rewrite Z.eqb_eq. split; intros; [lia|subst; reflexivity].
  - change (2 ^ (64 - 1)) with (2 ^ 63). rewrite Z.eqb_eq. reflexivity.
Qed.
Lemma is_min_iff lang b : is_min lang b = true <-> number lang b (- 2 ^ (width lang - 1)).
Proof.
  split.
  - destruct lang, b; cbn [is_min]; try discriminate; intros E; apply Z.eqb_eq in E; subst; (split; [vm_compute; split; congruence|reflexivity]).
  - intros N. now apply (is_min_number _ _ _ N).
Qed.
Lemma sample_bin_ok lang op a b c : value_of lang a -> value_of lang b -> binary_means lang op a b c ->
  sample_bin lang op a b = Some c.
Proof.
  intros A B M. unfold sample_bin. destruct (shift_op op && is_min lang b) eqn:S.
  - apply andb_true_iff in S as [S I]. apply is_min_iff in I. f_equal. symmetry. eapply min_means; [|exact M]. now split.
  - rewrite (binary_complete lang op a b c A B); [reflexivity| |exact M].
    intros [S1 S2]. apply is_min_iff in S2. rewrite S1, S2 in S. discriminate S.
Qed.
Lemma sample_call_ok lang f args c : Forall (value_of lang) args -> call_means lang f args c ->
  sample_call lang f args = Some c.
Proof.
  intros A M. destruct args as [|a [|b [|d [|e args]]]]; destruct f; cbn [call_means] in M; try contradiction;
    repeat match goal with H : Forall _ (_ :: _) |- _ => apply Forall_cons_iff in H; destruct H end;
    cbn [sample_call fun_op]; try (destruct M as [_ M]; apply sample_bin_ok; assumption).
  - destruct M as (x & X & R). unfold const_call. cbn [cfun_pico8_only andb]. destruct lang; destruct X as [W ->]; cbn [lua_abs].
    + destruct R as [WR E]. apply width32' in W. apply width32' in WR. rewrite signed_mod by exact W.
      destruct (Z.eqb_spec (x mod 2 ^ 32) 0x80000000); [lia|]. f_equal. rewrite E. unfold LuaFixnum. now rewrite land_mask32.
    + destruct R as [WR ->]. unfold in_width in W, WR. change (2 ^ (64 - 1)) with 0x8000000000000000 in *.
      destruct (Z.eqb_spec x (-0x8000000000000000)); [lia|]. f_equal. unfold LuaInteger. rewrite num_to_luaint_wrap, wrap_id; [reflexivity|lia|exact WR].
  - destruct M as (x & r & X & R & M). unfold const_call. cbn [cfun_pico8_only andb]. destruct lang; destruct X as [W ->]; cbn [lua_ceil].
    + idtac.
      destruct R as [WR E]. rewrite land_lo.
      destruct (Z.eqb_spec ((x mod 2 ^ 32) mod 65536) 0) as [Q|Q]; cbn [negb].
      * f_equal. subst c. unfold LuaFixnum. rewrite land_mask32. rewrite Z.mod_mod by lia. f_equal. f_equal. lia.
      * cbn zeta. apply width32' in W. apply width32' in WR. rewrite land_hi by lia.
        assert (RX : r = x / 65536 * 65536 + 65536) by lia.
        destruct (mod32_shift x) as [k K].
        assert (D : x mod 2 ^ 32 / 65536 = x / 65536 + k * 65536).
        { rewrite K. replace (x + k * 2 ^ 32) with (x + k * 65536 * 65536) by ring. now rewrite Z.div_add by lia. }
        rewrite D. destruct (Z.eqb_spec ((x / 65536 + k * 65536) * 65536 + 65536) 0x80000000) as [O|O]; [lia|].
        f_equal. subst c. unfold LuaFixnum. rewrite land_mask32. f_equal.
        replace ((x / 65536 + k * 65536) * 65536 + 65536) with (r + k * 2 ^ 32) by (rewrite RX; ring).
        now rewrite Z.mod_add by lia.
    + subst r. destruct R as [_ ->]. reflexivity.
  - destruct M as (x & r & X & R & M). unfold const_call. cbn [cfun_pico8_only andb]. destruct lang; destruct X as [W ->]; cbn [lua_floor].
    + destruct (floor8 x W) as (r' & R' & M' & L'). assert (r = r') by lia. subst r'. f_equal. eapply number_fun; eauto.
    + subst r. destruct R as [_ ->]. reflexivity.
  - destruct M as [-> M]. unfold const_call. cbn [cfun_pico8_only andb].
    pose proof (unary_complete Pico8 UBnot a c ltac:(assumption) M) as K. cbn [const_unary] in K. now apply Ok_inj in K.
  - destruct M as (x & y & X & Y & R). unfold const_call. cbn [cfun_pico8_only andb]. unfold lua_max.
    rewrite (number_is _ _ _ X), (number_is _ _ _ Y), (number_signed _ _ _ X), (number_signed _ _ _ Y). cbn [andb]. f_equal.
    destruct (Z.ltb_spec y x); [rewrite Z.max_l in R by lia|rewrite Z.max_r in R by lia]; eapply number_fun; eauto.
  - destruct M as (x & y & X & Y & R). unfold const_call. cbn [cfun_pico8_only andb]. unfold lua_min.
    rewrite (number_is _ _ _ X), (number_is _ _ _ Y), (number_signed _ _ _ X), (number_signed _ _ _ Y). cbn [andb]. f_equal.
    destruct (Z.ltb_spec x y); [rewrite Z.min_l in R by lia|rewrite Z.min_r in R by lia]; eapply number_fun; eauto.
  - destruct M as (x & y & z & X & Y & V & R). unfold const_call. cbn [cfun_pico8_only andb]. unfold lua_mid.
    rewrite (number_is _ _ _ X), (number_is _ _ _ Y), (number_is _ _ _ V), (number_signed _ _ _ X), (number_signed _ _ _ Y), (number_signed _ _ _ V).
    cbn [andb]. f_equal.
    destruct (Z.ltb_spec x y), (Z.ltb_spec y z), (Z.ltb_spec x z); cbn [Bool.eqb negb];
      match goal with
      | |- a = _ => apply (number_fun lang a c x X)
      | |- b = _ => apply (number_fun lang b c y Y)
      | |- d = _ => apply (number_fun lang d c z V)
      end;
      match goal with |- number _ _ ?t => match type of R with number _ _ ?m => replace t with m by lia; exact R end end.
Qed.
Lemma sample_machine_ok lang : machine_ok lang (sample_machine lang).
Proof.
  split; [|split].
  - intros op a c s A M. cbn [sample_machine m_un unRV]. now rewrite (unary_complete lang op a c A M).
  - intros op a b c s A B M. cbn [sample_machine m_bin unRV]. now rewrite (sample_bin_ok lang op a b c A B M).
  - intros f args c s A M. cbn [sample_machine m_call]. rewrite map_map.
    rewrite (map_ext _ (fun x => x)) by reflexivity. rewrite map_id. now rewrite (sample_call_ok lang f args c A M).
Qed.
