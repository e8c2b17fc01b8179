(** String literals: the printer's output denotes the string, the parser agrees with the
    specification, and the tokenizer sees one token. *)
From Verif Require Import M_Base L_Util M_Compress M_Fold M_Num M_Token M_Str S_Num S_Str S_Token L_Num L_NumFmt L_Token L_TokenSeq.
Open Scope Z_scope.

(** *** The parser *)
Lemma space_mem : forall c, space c <-> mem c k_wspace = true.
Proof.
  intros c. split.
  - intros [->|[->|[->| ->]]]; reflexivity.
  - intros H. apply wspace_cases in H. unfold space. tauto.
Qed.
Lemma dec_digit_iff : forall c, is_digit 10 c <-> is_dec_digit c = true.
Proof. intros c. unfold is_digit, is_dec_digit, digit_value. destruct (Z.ltb_spec c 58); lia. Qed.

Lemma skip_wspace_ok : forall w s, Forall space w -> ~ starts space s -> s <> [] -> skip_wspace (w ++ s) = Ok s.
Proof.
  induction w as [|c w IH]; intros s Hw Hs Hn; cbn [app].
  - destruct s as [|c s]; [contradiction|]. cbn [skip_wspace].
    destruct (mem c k_wspace) eqn:M; [|reflexivity]. exfalso. apply Hs. exists c, s. split; [reflexivity|]. apply space_mem. exact M.
  - inversion_clear Hw. cbn [skip_wspace]. apply space_mem in H. rewrite H. apply IH; assumption.
Qed.
Lemma span_max_ok : forall n d s, (length d <= n)%nat -> Forall (is_digit 10) d -> (length d = n \/ ~ starts (is_digit 10) s) ->
  span_max n is_dec_digit (d ++ s) = (d, s).
Proof.
  induction n as [|n IH]; intros [|c d] s Hl Hd Hs; cbn in Hl; try lia; cbn [app].
  - reflexivity.
  - destruct Hs as [Hs|Hs]; [discriminate Hs|]. destruct s as [|c s]; [reflexivity|]. cbn [span_max].
    destruct (is_dec_digit c) eqn:D; [|reflexivity]. exfalso. apply Hs. exists c, s. split; [reflexivity|]. apply dec_digit_iff. exact D.
  - inversion_clear Hd. cbn [span_max]. apply dec_digit_iff in H. rewrite H. rewrite IH; [reflexivity|lia|assumption|].
    destruct Hs as [Hs|Hs]; [left; cbn in Hs; lia|right; exact Hs].
Qed.
Lemma lang_chr_byte : forall lang n, lang_chr lang n = byte_char lang n.
Proof. intros [|] n; unfold lang_chr, byte_char; cbn; destruct (n <? 128); reflexivity. Qed.

Lemma maybe_int_dec : forall d, Forall (is_digit 10) d -> d <> [] -> maybe_int k_digits10 d = Some (digits_value 10 0 d).
Proof.
  intros d Hd Hn. unfold maybe_int. rewrite (lower_digits 10 d Hd).
  rewrite (int_of_digits_ok 10 k_digits10 d); [reflexivity|left; auto|exact Hd|exact Hn].
Qed.
Lemma lower_hex_eq : forall c, is_digit 16 (lower_hex c) -> lower_ch c = lower_hex c.
Proof.
  intros c. unfold is_digit, lower_hex, lower_ch. intros [H _].
  destruct ((65 <=? c) && (c <=? 70)) eqn:E; destruct ((65 <=? c) && (c <=? 90)) eqn:E'; lia.
Qed.
Lemma maybe_int_hex : forall h l, is_digit 16 (lower_hex h) -> is_digit 16 (lower_hex l) ->
  maybe_int k_digits16 [h; l] = Some (16 * digit_value (lower_hex h) + digit_value (lower_hex l)).
Proof.
  intros h l Hh Hl. unfold maybe_int. cbn [lower map]. rewrite (lower_hex_eq h Hh), (lower_hex_eq l Hl).
  rewrite (int_of_digits_ok 16 k_digits16); [|right; auto|apply Forall_cons; [assumption|apply Forall_cons; [assumption|apply Forall_nil]]|discriminate].
  cbn [digits_value]. f_equal. lia.
Qed.

Lemma assoc_none_digit : forall c, is_digit 10 c -> assoc c k_char_escapes = None.
Proof.
  intros c H. apply dec_digit_iff in H. unfold is_dec_digit in H.
  cbn -[Z.eqb].
  repeat match goal with |- context [Z.eqb ?a c] => destruct (Z.eqb_spec a c); [exfalso; lia|] end. reflexivity.
Qed.
Lemma named_assoc : forall e c, In (e, c) named_escapes -> assoc e k_char_escapes = Some c.
Proof.
  intros e c H. cbn in H.
  repeat (destruct H as [H|H]; [injection H as <- <-; reflexivity|]). contradiction.
Qed.

(** The escape that the parser cannot read: \z and white space up to the closing quote. *)
Lemma final_skip_app : forall a s, final_skip s -> final_skip (a ++ s).
Proof. intros a s [x [w [-> H]]]. exists (a ++ x), w. rewrite app_assoc. auto. Qed.

(** [quoted] where \z is followed by something. *)
Inductive quoted_g (lang : language) (q : Z) : list Z -> list Z -> Prop :=
  | g_end : quoted_g lang q [] []
  | g_plain c s v : c <> 10 -> c <> 13 -> c <> 92 -> c <> q -> quoted_g lang q s v -> quoted_g lang q (c :: s) (c :: v)
  | g_named e c s v : In (e, c) named_escapes -> quoted_g lang q s v -> quoted_g lang q (92 :: e :: s) (c :: v)
  | g_decimal d s v :
      Forall (is_digit 10) d -> (1 <= length d <= 3)%nat -> (length d = 3%nat \/ ~ starts (is_digit 10) s) ->
      digits_value 10 0 d < 256 ->
      quoted_g lang q s v -> quoted_g lang q (92 :: d ++ s) (byte_char lang (digits_value 10 0 d) :: v)
  | g_hex h l s v :
      is_digit 16 (lower_hex h) -> is_digit 16 (lower_hex l) ->
      quoted_g lang q s v ->
      quoted_g lang q (92 :: 120 :: h :: l :: s) (byte_char lang (16 * digit_value (lower_hex h) + digit_value (lower_hex l)) :: v)
  | g_skip w s v : Forall space w -> ~ starts space s -> s <> [] -> quoted_g lang q s v -> quoted_g lang q (92 :: 122 :: w ++ s) v.
Lemma g_quoted : forall lang q s v, quoted_g lang q s v -> quoted lang q s v.
Proof.
  intros lang q s v H. induction H;
    [apply q_end|apply q_plain; assumption|apply q_named; assumption|apply q_decimal; assumption|apply q_hex; assumption|apply q_skip; assumption].
Qed.
Lemma quoted_g_of : forall lang q s v, quoted lang q s v -> ~ final_skip s -> quoted_g lang q s v.
Proof.
  intros lang q s v H. induction H as [|c s v H1 H2 H3 H4 Hq IH|e c s v Hi Hq IH|d s v Hd Hl Hs Hv Hq IH|h l s v Hh Hl Hq IH|w s v Hw Hs Hq IH]; intros Hf.
  - apply g_end.
  - apply g_plain; try assumption. apply IH. intros K. apply Hf. apply (final_skip_app [c]). exact K.
  - apply g_named; try assumption. apply IH. intros K. apply Hf. apply (final_skip_app [92; e]). exact K.
  - apply g_decimal; try assumption. apply IH. intros K. apply Hf. apply (final_skip_app (92 :: d)). exact K.
  - apply g_hex; try assumption. apply IH. intros K. apply Hf. apply (final_skip_app [92; 120; h; l]). exact K.
  - apply g_skip; try assumption.
    + intros ->. apply Hf. exists [], w. rewrite app_nil_r. auto.
    + apply IH. intros K. apply Hf. apply (final_skip_app (92 :: 122 :: w)). exact K.
Qed.

Lemma parse_quoted_ok : forall lang q s v, quoted_g lang q s v ->
  forall n, (length s <= n)%nat -> parse_quoted n lang s = Ok v.
Proof.
  intros lang q s v H. induction H as [|c s v H1 H2 H3 H4 Hq IH|e c s v Hi Hq IH|d s v Hd Hl Hs Hv Hq IH|h l s v Hh Hl Hq IH|w s v Hw Hs Hne Hq IH];
    intros n Hn.
  - destruct n; reflexivity.
  - destruct n as [|n]; cbn in Hn; [lia|]. cbn [parse_quoted]. destruct (Z.eqb_spec c 92); [contradiction|].
    rewrite IH; [reflexivity|lia].
  - destruct n as [|n]; cbn in Hn; [lia|]. cbn [parse_quoted]. cbn [Z.eqb Pos.eqb]. unfold parse_char_escape.
    rewrite (named_assoc e c Hi). cbn [bind]. rewrite IH; [reflexivity|lia].
  - destruct d as [|c d]; [cbn in Hl; lia|]. pose proof Hd as Hd0. inversion_clear Hd.
    destruct n as [|n]; cbn in Hn; [lia|]. cbn [app parse_quoted]. cbn [Z.eqb Pos.eqb]. unfold parse_char_escape.
    rewrite (assoc_none_digit c H).
    assert (Hc : c <> 122 /\ c <> 120) by (apply dec_digit_iff in H; unfold is_dec_digit in H; lia). destruct Hc as [Hc1 Hc2].
    destruct (Z.eqb_spec c 122); [contradiction|]. destruct (Z.eqb_spec c 120); [contradiction|].
    apply dec_digit_iff in H as H'. rewrite H'.
    rewrite span_max_ok; [|cbn in Hl; lia|assumption|destruct Hs as [Hs|Hs]; [left; cbn in Hs; lia|right; exact Hs]].
    rewrite maybe_int_dec by (assumption || discriminate).
    destruct (Z.leb_spec 256 (digits_value 10 0 (c :: d))); [lia|]. cbn [bind].
    rewrite IH.
    + rewrite lang_chr_byte. reflexivity.
    + rewrite app_length in Hn. lia.
  - destruct n as [|n]; cbn in Hn; [lia|]. cbn [parse_quoted]. cbn [Z.eqb Pos.eqb]. unfold parse_char_escape.
    change (assoc 120 k_char_escapes) with (@None Z). cbn [Z.eqb Pos.eqb firstn skipn].
    rewrite maybe_int_hex by assumption. cbn [bind]. rewrite IH; [|lia].
    rewrite lang_chr_byte. reflexivity.
  - destruct n as [|n]; cbn in Hn; [lia|]. cbn [parse_quoted]. cbn [Z.eqb Pos.eqb]. unfold parse_char_escape.
    change (assoc 122 k_char_escapes) with (@None Z). cbn [Z.eqb Pos.eqb].
    rewrite skip_wspace_ok; [|exact Hw|exact Hs|exact Hne].
    cbn [bind]. rewrite IH; [reflexivity|rewrite app_length in Hn; lia].
Qed.

Lemma slice_one : forall (q : Z) body, slice_ends 1 (q :: body ++ [q]) = body.
Proof.
  intros q body. unfold slice_ends. cbn [skipn length]. rewrite app_length. cbn [length].
  replace (S (length body + 1) - 2 * 1)%nat with (length body) by lia.
  rewrite firstn_app, Nat.sub_diag, firstn_all. cbn. apply app_nil_r.
Qed.
Lemma parse_literal_quoted : forall lang q s, q = 34 \/ q = 39 ->
  parse_string_literal lang (q :: s) = (let s := slice_ends 1 (q :: s) in parse_quoted (length s) lang s).
Proof. intros lang q s [->| ->]; reflexivity. Qed.

Lemma quoted_parsed : forall lang text v, quoted_literal lang text v ->
  (forall x w q, text = x ++ 92 :: 122 :: w ++ [q] -> ~ Forall space w) -> parse_string_literal lang text = Ok v.
Proof.
  intros lang text v [q [body [Hq [-> H]]]] Hf. rewrite parse_literal_quoted by exact Hq. rewrite slice_one. cbv zeta.
  apply (parse_quoted_ok lang q); [|lia]. apply quoted_g_of; [exact H|]. intros [x [w [-> Hw]]].
  apply (Hf (q :: x) w q); [|exact Hw]. cbn. rewrite <- app_assoc. reflexivity.
Qed.

(** *** The tokenizer *)
Lemma scan_plain : forall q c s r, c <> 10 -> c <> 92 -> c <> q -> scan_string q MText s = r -> scan_string q MText (c :: s) = scons c r.
Proof.
  intros q c s r H1 H2 H3 <-. cbn [scan_string].
  destruct (Z.eqb_spec c 10); [contradiction|]. destruct (Z.eqb_spec c 92); [contradiction|].
  destruct (Z.eqb_spec c q); [contradiction|]. reflexivity.
Qed.
Lemma scan_quoted : forall lang q s v, q = 34 \/ q = 39 -> quoted lang q s v ->
  forall r, scan_string q MText (s ++ q :: r) = SDone (s ++ [q]) r.
Proof.
  intros lang q s v Hq H.
  induction H as [|c s v H1 H2 H3 H4 _ IH|e c s v Hi _ IH|d s v Hd Hl Hs Hv _ IH|h l s v Hh Hl _ IH|w s v Hw Hs _ IH]; intros r.
  - destruct Hq as [->| ->]; reflexivity.
  - cbn [app]. rewrite (scan_plain _ _ _ _ H1 H3 H4 (IH r)). reflexivity.
  - cbn [app scan_string Z.eqb Pos.eqb].
    assert (He : e <> 122) by (cbn in Hi; repeat (destruct Hi as [Hi|Hi]; [injection Hi as <- <-; discriminate|]); contradiction).
    destruct (Z.eqb_spec e 122); [contradiction|]. rewrite IH. reflexivity.
  - assert (P : forall d, Forall (is_digit 10) d -> scan_string q MText ((d ++ s) ++ q :: r) = SDone ((d ++ s) ++ [q]) r).
    { clear -Hq IH. intros d. induction d as [|c d IHd]; intros Hd; [apply IH|]. inversion_clear Hd. cbn [app].
      apply dec_digit_iff in H. unfold is_dec_digit in H.
      erewrite scan_plain; [|lia|lia|lia|apply IHd; assumption]. reflexivity. }
    destruct d as [|c d]; [cbn in Hl; lia|]. inversion_clear Hd. cbn [app scan_string Z.eqb Pos.eqb].
    assert (Hc : c <> 122) by (apply dec_digit_iff in H; unfold is_dec_digit in H; lia).
    destruct (Z.eqb_spec c 122); [contradiction|]. rewrite P by assumption. reflexivity.
  - cbn [app scan_string Z.eqb Pos.eqb].
    assert (X : forall c, is_digit 16 (lower_hex c) -> c <> 10 /\ c <> 92 /\ c <> q).
    { intros c. unfold is_digit, lower_hex. destruct ((65 <=? c) && (c <=? 70)) eqn:E; lia. }
    destruct (X h Hh) as [X1 [X2 X3]]. destruct (X l Hl) as [Y1 [Y2 Y3]].
    pose proof (scan_plain _ _ _ _ Y1 Y2 Y3 (IH r)) as P. pose proof (scan_plain _ _ _ _ X1 X2 X3 P) as P2.
    cbn [scan_string] in P2. rewrite P2. reflexivity.
  - assert (P : forall w, Forall space w -> scan_string q MSkip ((w ++ s) ++ q :: r) = SDone ((w ++ s) ++ [q]) r).
    { clear -Hq IH Hs. intros w. induction w as [|c w IHw]; intros Hw.
      - cbn [app]. rewrite <- (IH r). destruct s as [|c s].
        + destruct Hq as [->| ->]; reflexivity.
        + cbn [app scan_string]. destruct (mem c k_wspace) eqn:M; [|reflexivity].
          exfalso. apply Hs. exists c, s. split; [reflexivity|]. apply space_mem. exact M.
      - inversion_clear Hw. cbn [app scan_string]. apply space_mem in H. rewrite H. rewrite IHw by assumption. reflexivity. }
    cbn [app scan_string Z.eqb Pos.eqb]. rewrite P by assumption. reflexivity.
Qed.

Lemma quoted_one_token : forall lang text v, quoted_literal lang text v -> one_token lang text.
Proof.
  intros lang text v [q [body [Hq [-> H]]]] rest. cbn [app]. rewrite tokenize_cons.
  assert (R : tok_round lang q ((body ++ [q]) ++ rest) = Round [Tok TString (q :: body ++ [q])] rest).
  { rewrite <- app_assoc. cbn [app]. pose proof (scan_quoted lang q body v Hq H rest) as S.
    unfold tok_round. rewrite S. destruct Hq as [->| ->]; destruct lang; reflexivity. }
  rewrite R. reflexivity.
Qed.

(** *** The printer, between quotes *)
Section Printer.
Context (isdigit : Z -> bool) (isdigit_spec : forall c, 0 <= c < 128 -> isdigit c = (48 <=? c) && (c <=? 57)).

Lemma isdigit_ascii : forall c, 48 <= c <= 57 -> isdigit c = true.
Proof. intros c H. rewrite isdigit_spec by lia. lia. Qed.


Lemma zero_pad_3 : forall d, Forall (is_digit 10) d -> (length d <= 3)%nat ->
  Forall (is_digit 10) (zero_pad 3 d) /\ length (zero_pad 3 d) = 3%nat /\ digits_value 10 0 (zero_pad 3 d) = digits_value 10 0 d.
Proof.
  intros d Hd Hl. unfold zero_pad. split; [|split].
  - apply Forall_app. split; [|exact Hd]. apply Forall_forall. intros x Hx. apply repeat_spec in Hx. subst. apply zero_digit. auto.
  - rewrite app_length, repeat_length. lia.
  - apply digits_value_zeros.
Qed.

Lemma numeric_escape : forall lang q d c t v,
  Forall (is_digit 10) d -> (1 <= length d <= 3)%nat -> digits_value 10 0 d = c -> 0 <= c < 128 ->
  forallb isdigit d = true -> quoted_g lang q t v ->
  forall s, (starts (is_digit 10) t -> next_is isdigit s = true) ->
  quoted_g lang q (92 :: (if forallb isdigit d && next_is isdigit s then zero_pad 3 d else d) ++ t) (c :: v).
Proof.
  intros lang q d c t v Hd Hl Hc Hr Hi Ht s Hs. rewrite Hi. cbn [andb].
  assert (Hb : byte_char lang c = c) by (destruct lang; cbn; [reflexivity|]; destruct (Z.ltb_spec c 128); [reflexivity|lia]).
  destruct (next_is isdigit s) eqn:N.
  - destruct (zero_pad_3 d Hd ltac:(lia)) as [Z1 [Z2 Z3]].
    pose proof (g_decimal lang q (zero_pad 3 d) t v Z1 ltac:(lia) (or_introl Z2) ltac:(lia) Ht) as K.
    rewrite Z3, Hc, Hb in K. exact K.
  - pose proof (g_decimal lang q d t v Hd Hl) as K. rewrite Hc, Hb in K. apply K; [|lia|exact Ht].
    right. intros S. specialize (Hs S). congruence.
Qed.

(** The body starts with a digit only if the string does. *)
Lemma escape_body_start : forall table ex s, starts (is_digit 10) (escape_body isdigit table ex s) ->
  (table = k_char_escapes_rev \/ table = k_char_escapes_rev_min) -> next_is isdigit s = true.
Proof.
  intros table ex [|c s] [d [t [E Hd]]] Ht; [discriminate E|]. cbn [escape_body] in E. cbn [next_is].
  destruct (assoc_str c table) as [e|] eqn:A.
  - destruct (c =? ex).
    + cbn [app] in E. injection E as -> _. apply isdigit_ascii. apply dec_digit_iff in Hd. unfold is_dec_digit in Hd. lia.
    + cbn [app] in E. injection E as <- _. apply dec_digit_iff in Hd. discriminate Hd.
  - cbn [app] in E. injection E as -> _. apply isdigit_ascii. apply dec_digit_iff in Hd. unfold is_dec_digit in Hd. lia.
Qed.

Lemma dig48 : forall d, Forall (fun c => 48 <= c <= 57) d -> Forall (is_digit 10) d /\ forallb isdigit d = true.
Proof.
  induction d as [|c d IH]; intros H; [split; [constructor|reflexivity]|]. inversion_clear H.
  destruct (IH H1) as [I1 I2]. split.
  - constructor; [|exact I1]. unfold is_digit, digit_value. destruct (Z.ltb_spec c 58); lia.
  - cbn. rewrite isdigit_ascii, I2 by assumption. reflexivity.
Qed.

Lemma escape_body_quoted : forall lang table q s, (table = k_char_escapes_rev \/ table = k_char_escapes_rev_min) ->
  q = 34 \/ q = 39 ->
  quoted_g lang q (escape_body isdigit table (if q =? 34 then 39 else 34) s) s.
Proof.
  intros lang table q s Ht Hq.
  induction s as [|c s IH]; [apply g_end|]. cbn [escape_body].
  set (ex := if q =? 34 then 39 else 34) in *.
  assert (Ex : ex <> q /\ ex <> 10 /\ ex <> 13 /\ ex <> 92) by (subst ex; destruct Hq as [->| ->]; cbn; lia).
  assert (Hst : starts (is_digit 10) (escape_body isdigit table ex s) -> next_is isdigit s = true)
    by (intros K; eapply escape_body_start; eassumption).
  destruct (assoc_str c table) as [e|] eqn:A.
  - destruct (Z.eqb_spec c ex) as [->|Hx]; [apply g_plain; tauto|].
    assert (C : (exists n, e = [n] /\ In (n, c) named_escapes /\ isdigit n = isdigit n) \/
                (Forall (fun c => 48 <= c <= 57) e /\ (1 <= length e <= 3)%nat /\ digits_value 10 0 e = c /\ 0 <= c < 128)).
    { clear -A Ht. assert (A' : assoc_str c k_char_escapes_rev = Some e).
      { destruct Ht as [->| ->]; [exact A|]. cbn -[Z.eqb] in A |- *.
        repeat match type of A with context [Z.eqb ?a c] => destruct (Z.eqb_spec a c); [subst c; exact A|] end. discriminate A. }
      clear A. rename A' into A. cbn -[Z.eqb] in A.
      repeat match type of A with context [Z.eqb ?a c] => destruct (Z.eqb_spec a c);
        [injection A as <-; subst c;
         first [left; eexists; split; [reflexivity|split; [cbn; tauto|reflexivity]]
               |right; split; [repeat constructor; lia|split; [cbn; lia|split; [reflexivity|lia]]]]|] end.
      discriminate A. }
    destruct C as [[n [-> [Hn _]]]|[D1 [D2 [D3 D4]]]].
    + assert (Hd : isdigit n = false).
      { rewrite isdigit_spec.
        - cbn in Hn. repeat (destruct Hn as [Hn|Hn]; [injection Hn as <- _; reflexivity|]). contradiction.
        - cbn in Hn. repeat (destruct Hn as [Hn|Hn]; [injection Hn as <- _; lia|]). contradiction. }
      cbn [forallb]. rewrite Hd. cbn [andb app]. apply g_named; assumption.
    + destruct (dig48 e D1) as [D5 D6]. cbn [app]. apply numeric_escape; assumption.
  - cbn [app]. apply g_plain; [| | | |exact IH].
    all: intros ->; clear -A Ht Hq; destruct Ht as [->| ->], Hq as [->| ->]; discriminate A.
Qed.


Definition table_of (use_ctrl_chars : bool) := if use_ctrl_chars then k_char_escapes_rev_min else k_char_escapes_rev.
Lemma table_ok : forall b, table_of b = k_char_escapes_rev \/ table_of b = k_char_escapes_rev_min.
Proof. intros [|]; cbn; auto. Qed.

Lemma format_quoted_ok : forall lang ctrl quote v, (quote = None \/ quote = Some 34 \/ quote = Some 39) ->
  let text := format_quoted isdigit ctrl quote v in
  quoted_literal lang text v /\ parse_string_literal lang text = Ok v.
Proof.
  intros lang ctrl quote v Hq text. unfold format_quoted in text.
  set (q := match quote with Some q => q | None => if (count_ch 34 v <=? count_ch 39 v)%nat then 34 else 39 end) in text.
  assert (Q : q = 34 \/ q = 39).
  { subst q. destruct Hq as [->|[->| ->]]; auto. destruct (_ <=? _)%nat; auto. }
  clearbody q. pose proof (escape_body_quoted lang (table_of ctrl) q v (table_ok ctrl) Q) as G. unfold table_of in G.
  split.
  - exists q. eexists. split; [exact Q|]. split; [reflexivity|]. apply g_quoted. exact G.
  - unfold text. rewrite parse_literal_quoted by exact Q. rewrite slice_one. cbv zeta.
    eapply parse_quoted_ok; [exact G|lia].
Qed.
End Printer.

(** *** Long brackets *)
Lemma closing_eq : forall n, closing n = long_end n.
Proof. reflexivity. Qed.
Lemma closing_len : forall n, length (closing n) = (n + 2)%nat.
Proof. intros n. unfold closing. cbn. rewrite app_length, repeat_length. cbn. lia. Qed.
Lemma nth_rep : forall n i, (i < n)%nat -> nth i (repeat 61 n) 0 = 61.
Proof. induction n as [|n IH]; intros [|i] H; try lia; [reflexivity|]. cbn. apply IH. lia. Qed.
Lemma closing_nth : forall n i, (i < n + 2)%nat -> nth i (closing n) 0 = if (i =? 0)%nat || (i =? n + 1)%nat then 93 else 61.
Proof.
  intros n i H. unfold closing. destruct i as [|i]; [reflexivity|].
  destruct (Nat.eqb_spec (S i) (n + 1)); cbn [nth Nat.eqb orb].
  - rewrite app_nth2; rewrite repeat_length; [|lia]. replace (i - n)%nat with 0%nat by lia. reflexivity.
  - rewrite app_nth1 by (rewrite repeat_length; lia). apply nth_rep; lia.
Qed.

(** Occurrences of the closing bracket before the end: inside, or the last character
    shared with the real one. *)
Lemma closing_first : forall n body rest, find_sub (closing n) body = None ->
  (forall x, body <> x ++ 93 :: repeat 61 n) ->
  find_sub (closing n) (body ++ closing n ++ rest) = Some (body, rest).
Proof.
  induction body as [|c body IH]; intros rest Hn He; [cbn [app]; apply (find_sub_here (closing n) rest)|].
  rewrite find_sub_eq in Hn. destruct (is_prefix (closing n) (c :: body)) eqn:P; [discriminate Hn|].
  destruct (find_sub (closing n) body) as [[? ?]|] eqn:F; [discriminate Hn|].
  rewrite find_sub_eq. cbn [app].
  rewrite (IH rest eq_refl) by (intros x K; apply (He (c :: x)); rewrite K; reflexivity).
  destruct (is_prefix (closing n) (c :: body ++ closing n ++ rest)) eqn:P2; [exfalso|reflexivity].
  apply is_prefix_iff in P2 as [r E].
  assert (Nt : forall i, (i < n + 2)%nat -> nth i (c :: body ++ closing n ++ rest) 0 = nth i (closing n) 0)
    by (intros i Hi; rewrite E; apply app_nth1; rewrite closing_len; exact Hi).
  destruct (le_lt_dec (n + 1) (length body)) as [L|L].
  - (* wholly inside *)
    assert (P3 : is_prefix (closing n) (c :: body) = true); [|congruence].
    apply is_prefix_iff. change (c :: body ++ closing n ++ rest) with ((c :: body) ++ closing n ++ rest) in E.
    exists (skipn (n + 2) (c :: body)). pose proof (f_equal (firstn (n + 2)) E) as E2.
    rewrite firstn_app in E2. replace (n + 2 - length (c :: body))%nat with 0%nat in E2 by (cbn; lia).
    rewrite firstn_O, app_nil_r in E2. rewrite firstn_app, closing_len, Nat.sub_diag, firstn_O, app_nil_r in E2.
    rewrite (firstn_all2 (closing n)) in E2 by (rewrite closing_len; lia).
    rewrite <- E2. symmetry. apply firstn_skipn.
  - destruct (Nat.eq_dec (length body) n) as [L2|L2].
    + (* the body ends with the bracket's start *)
      apply (He []). cbn [app]. 
      assert (E2 : firstn (n + 1) (c :: body ++ closing n ++ rest) = firstn (n + 1) (closing n ++ r)) by (rewrite E; reflexivity).
      change (c :: body ++ closing n ++ rest) with ((c :: body) ++ closing n ++ rest) in E2.
      rewrite firstn_app in E2. replace (n + 1 - length (c :: body))%nat with 0%nat in E2 by (cbn; lia).
      rewrite firstn_O, app_nil_r in E2. rewrite (firstn_all2 (c :: body)) in E2 by (cbn; lia). rewrite E2.
      unfold closing. replace (n + 1)%nat with (S n) by lia. cbn [app firstn]. f_equal.
      rewrite <- app_assoc, firstn_app, repeat_length, Nat.sub_diag, firstn_O, app_nil_r. apply firstn_all2. rewrite repeat_length. lia.
    + specialize (Nt (S (length body)) ltac:(lia)). cbn [nth] in Nt.
      rewrite app_nth2 in Nt by lia. rewrite Nat.sub_diag in Nt. rewrite closing_nth in Nt by lia.
      destruct (Nat.eqb_spec (S (length body)) 0); [lia|]. destruct (Nat.eqb_spec (S (length body)) (n + 1)); [lia|].
      discriminate Nt.
Qed.

Lemma contains_len : forall p s, contains p s = true -> (length p <= length s)%nat.
Proof.
  intros p s H. unfold contains in H. destruct (find_sub p s) as [[a b]|] eqn:F; [|discriminate H].
  apply find_sub_app in F. subst. rewrite !app_length. lia.
Qed.
Lemma equals_loop_ok : forall fuel i v, (0 < fuel)%nat -> (length v < fuel + i)%nat ->
  exists n, equals_loop fuel i v = Ok n /\ contains (long_end n) v = false.
Proof.
  induction fuel as [|fuel IH]; intros i v H0 H; [lia|]. cbn [equals_loop].
  destruct (contains (long_end i) v) eqn:C; [|eauto].
  apply contains_len in C. rewrite <- closing_eq, closing_len in C. apply IH; lia.
Qed.

Lemma norm_newlines_id : forall s, ~ In 13 s -> norm_newlines s = s.
Proof.
  induction s as [|c s IH]; intros H; [reflexivity|].
  assert (Hs : ~ In 13 s) by (intros K; apply H; right; exact K).
  assert (Hc : c <> 13) by (intros ->; apply H; left; reflexivity). specialize (IH Hs).
  destruct (Z.eq_dec c 10) as [->|H10].
  - destruct s as [|d s]; [reflexivity|]. assert (d <> 13) by (intros ->; apply Hs; left; reflexivity).
    transitivity (10 :: norm_newlines (d :: s)); [|rewrite IH; reflexivity].
    destruct d as [|d|d]; try reflexivity. repeat (destruct d as [d|d|]; try reflexivity). contradiction.
  - transitivity (c :: norm_newlines s); [|rewrite IH; reflexivity].
    destruct c as [|c|c]; try reflexivity. repeat (destruct c as [c|c|]; try reflexivity); contradiction.
Qed.
Lemma index_open : forall n s, index_of 91 (repeat 61 n ++ 91 :: s) = Some n.
Proof. induction n as [|n IH]; intros s; [reflexivity|]. cbn [repeat app index_of Z.eqb Pos.eqb]. rewrite IH. reflexivity. Qed.
Lemma long_slice : forall n body, slice_ends (n + 2) (91 :: repeat 61 n ++ 91 :: body ++ closing n) = body.
Proof.
  intros n body. unfold slice_ends.
  replace (91 :: repeat 61 n ++ 91 :: body ++ closing n) with ((91 :: repeat 61 n ++ [91]) ++ body ++ closing n)
    by (cbn; rewrite <- app_assoc; reflexivity).
  assert (L : length (91 :: repeat 61 n ++ [91]) = (n + 2)%nat) by (cbn; rewrite app_length, repeat_length; cbn; lia).
  set (P := 91 :: repeat 61 n ++ [91]) in *. clearbody P.
  rewrite skipn_app, L, Nat.sub_diag, skipn_all2 by lia. cbn [app skipn].
  rewrite !app_length, L, closing_len. replace (n + 2 + (length body + (n + 2)) - 2 * (n + 2))%nat with (length body) by lia.
  rewrite firstn_app, Nat.sub_diag, firstn_O, app_nil_r. apply firstn_all.
Qed.

Lemma long_parsed : forall lang text v, long_literal text v -> parse_string_literal lang text = Ok v.
Proof.
  intros lang text v [n [body [-> [H13 [_ Hb]]]]]. unfold parse_string_literal. cbv beta iota.
  rewrite index_open. rewrite long_slice, norm_newlines_id by exact H13.
  f_equal. destruct Hb as [->|[-> Hv]]; [reflexivity|].
  destruct v as [|[|c|c] v]; try reflexivity. repeat (destruct c as [c|c|]; try reflexivity). exfalso. apply Hv. reflexivity.
Qed.

Lemma unique_closing : forall n body rest, (forall x y, body ++ closing n = x ++ closing n ++ y -> y = []) ->
  find_sub (closing n) (body ++ closing n ++ rest) = Some (body, rest).
Proof.
  intros n body rest H. apply closing_first.
  - destruct (find_sub (closing n) body) as [[a b]|] eqn:F; [|reflexivity]. exfalso. apply find_sub_app in F.
    specialize (H a (b ++ closing n)). rewrite F, <- !app_assoc in H. specialize (H eq_refl).
    apply (f_equal (@length Z)) in H. rewrite app_length, closing_len in H. cbn in H. lia.
  - intros x E. specialize (H x (repeat 61 n ++ [93])).
    assert (E2 : body ++ closing n = x ++ closing n ++ repeat 61 n ++ [93]).
    { rewrite E. unfold closing. rewrite <- !app_assoc. cbn. rewrite <- !app_assoc. reflexivity. }
    specialize (H E2). destruct n; discriminate H.
Qed.
Lemma long_one_token : forall lang text v, long_literal text v -> one_token lang text.
Proof.
  intros lang text v [n [body [-> [_ [Hu _]]]]] rest.
  pose proof (scan_long_make n body rest (unique_closing n body rest Hu)) as S.
  cbn [app]. rewrite tokenize_cons.
  assert (R : tok_round lang 91 ((repeat 61 n ++ 91 :: body ++ closing n) ++ rest)
            = Round [Tok TString (91 :: repeat 61 n ++ 91 :: body ++ closing n)] rest).
  { replace ((repeat 61 n ++ 91 :: body ++ closing n) ++ rest) with (repeat 61 n ++ 91 :: body ++ closing n ++ rest)
      by (rewrite <- !app_assoc; cbn [app]; rewrite <- !app_assoc; reflexivity).
    assert (Nx : next_is (fun c => mem c [61; 91]) (repeat 61 n ++ 91 :: body ++ closing n ++ rest) = true) by (destruct n; reflexivity).
    unfold tok_round. change (mem 91 k_wspace) with false. change (is_dec_digit 91 || ((91 =? 46) && next_is is_dec_digit (repeat 61 n ++ 91 :: body ++ closing n ++ rest))) with false.
    replace (is_ident_char lang 91) with false by (destruct lang; reflexivity).
    change ((91 =? 34) || (91 =? 39)) with false. rewrite Nx. change (91 =? 91) with true. cbn [andb].
    unfold closing in *. rewrite S. reflexivity. }
  rewrite R. reflexivity.
Qed.

(** The printer in long brackets. *)
Lemma format_long_ok : forall v, ~ In 13 v ->
  exists n text, get_long_brackets_equals v = Ok n /\ format_long v = Ok text /\
    ((forall x, v <> x ++ 93 :: repeat 61 n) -> long_literal text v).
Proof.
  intros v H13. destruct (equals_loop_ok (S (length v)) 0 v ltac:(lia) ltac:(lia)) as [n [En Hc]].
  exists n. unfold format_long, get_long_brackets_equals. rewrite En. cbn [bind]. eexists. split; [reflexivity|]. split; [reflexivity|].
  intros He. set (nl := match v with 10 :: _ => [10] | _ => [] end).
  assert (Hnl : nl = [10] /\ hd 0 v = 10 \/ nl = [] /\ hd 0 v <> 10).
  { subst nl. destruct v as [|[|c|c] w]; try (right; split; [reflexivity|discriminate]).
    repeat (destruct c as [c|c|]; try (right; split; [reflexivity|discriminate])). left. split; reflexivity. }
  clearbody nl. exists n, (nl ++ v). split; [|split; [|split]].
  - rewrite <- app_assoc. reflexivity.
  - rewrite in_app_iff. intros [K|K]; [|exact (H13 K)]. destruct Hnl as [[-> _]|[-> _]]; [|contradiction].
    destruct K as [K|[]]. discriminate K.
  - intros x y E.
    assert (F : find_sub (closing n) ((nl ++ v) ++ closing n ++ []) = Some (nl ++ v, [])).
    { apply closing_first.
      - unfold contains in Hc. destruct (find_sub (long_end n) v) as [[? ?]|] eqn:Fv; [discriminate Hc|].
        destruct Hnl as [[-> _]|[-> _]]; [|exact Fv]. cbn [app]. rewrite find_sub_eq.
        change (is_prefix (closing n) (10 :: v)) with false. change (closing n) with (long_end n). rewrite Fv. reflexivity.
      - intros z E2. destruct Hnl as [[-> _]|[-> _]]; [|exact (He z E2)].
        destruct z as [|d z]; cbn in E2; [discriminate E2|]. injection E2 as _ E2. exact (He z E2). }
    rewrite app_nil_r in F. rewrite E in F.
    destruct y as [|d y]; [reflexivity|]. exfalso.
    (* an occurrence followed by something would be found first *)
    assert (K : exists a b, find_sub (closing n) (x ++ closing n ++ d :: y) = Some (a, b) /\ (length a <= length x)%nat).
    { clear. induction x as [|c x IH].
      - exists [], (d :: y). split; [apply (find_sub_here (closing n) (d :: y))|reflexivity].
      - rewrite find_sub_eq. cbn [app]. destruct (is_prefix (closing n) (c :: x ++ closing n ++ d :: y)).
        + eexists. eexists. split; [reflexivity|cbn; lia].
        + destruct IH as [a [b [-> L]]]. exists (c :: a), b. split; [reflexivity|cbn; lia]. }
    destruct K as [a [b [K L]]]. rewrite K in F. injection F as -> ->.
    apply (f_equal (@length Z)) in E. rewrite !app_length, closing_len in E. cbn [length] in E. rewrite ?app_length in L. lia.
  - destruct Hnl as [[-> _]|[-> Hv]]; [left; reflexivity|right; split; [reflexivity|exact Hv]].
Qed.

Lemma find_sub_none_iff : forall p s, find_sub p s = None <-> forall x y, s <> x ++ p ++ y.
Proof.
  intros p s. split.
  - intros H x y ->. revert H. induction x as [|c x IH]; cbn [app].
    + rewrite find_sub_here. discriminate.
    + rewrite find_sub_eq. destruct (is_prefix p (c :: x ++ p ++ y)); [discriminate|].
      destruct (find_sub p (x ++ p ++ y)) as [[? ?]|]; [discriminate|]. intros _. apply IH. reflexivity.
  - intros H. destruct (find_sub p s) as [[a b]|] eqn:F; [|reflexivity]. apply find_sub_app in F. exfalso. exact (H a b F).
Qed.
Lemma contains_iff : forall p s, contains p s = true <-> exists x y, s = x ++ p ++ y.
Proof.
  intros p s. unfold contains. destruct (find_sub p s) as [[a b]|] eqn:F.
  - apply find_sub_app in F. split; [eauto|reflexivity].
  - rewrite find_sub_none_iff in F. split; [discriminate|]. intros [x [y E]]. exfalso. exact (F x y E).
Qed.
Lemma equals_loop_level : forall fuel i v n, (forall m, (m < i)%nat -> contains (long_end m) v = true) ->
  equals_loop fuel i v = Ok n -> level v n.
Proof.
  induction fuel as [|fuel IH]; intros i v n Hi E; [discriminate E|]. cbn [equals_loop] in E.
  destruct (contains (long_end i) v) eqn:C.
  - apply (IH (S i) v n); [|exact E]. intros m Hm. destruct (Nat.eq_dec m i) as [->|]; [exact C|apply Hi; lia].
  - apply Ok_inj in E. subst n. split.
    + intros x y K. assert (contains (long_end i) v = true) by (apply contains_iff; eauto). congruence.
    + intros m Hm. specialize (Hi m Hm). apply contains_iff in Hi. exact Hi.
Qed.

Section All.
Context (isdigit : Z -> bool) (isdigit_spec : forall c, 0 <= c < 128 -> isdigit c = (48 <=? c) && (c <=? 57)).
Lemma format_literal_ok : forall lang ctrl complex long quote v,
  (quote = None \/ quote = Some 34 \/ quote = Some 39) ->
  exists text, format_string_literal isdigit ctrl complex long quote v = Ok text /\
    ((long = Some false \/ forall n x, level v n -> v <> x ++ 93 :: repeat 61 n) ->
     (quoted_literal lang text v \/ long_literal text v) /\ parse_string_literal lang text = Ok v /\ one_token lang text).
Proof.
  intros lang ctrl complex long quote v Hq.
  pose proof (format_quoted_ok isdigit isdigit_spec lang ctrl quote v Hq) as [Q1 Q2].
  pose proof (quoted_one_token lang _ v Q1) as Q3.
  unfold format_string_literal.
  assert (D : long = Some false \/ long <> Some false) by (destruct long as [[|]|]; auto; right; discriminate).
  destruct D as [->|Hl]; [eexists; split; [reflexivity|]; intros _; auto|].
  destruct (negb (mem 0 v) && negb (mem 13 v) && (complex || negb (contains [93; 93] v))) eqn:C.
  - assert (H13 : ~ In 13 v).
    { intros K. apply mem_true in K. rewrite K in C. cbn in C. rewrite andb_false_r in C. discriminate C. }
    destruct (format_long_ok v H13) as [n [text [E1 [E2 E3]]]]. rewrite E2. cbn [bind].
    assert (Lv : level v n) by (eapply equals_loop_level; [|exact E1]; intros; lia).
    assert (L : (long = Some false \/ forall n x, level v n -> v <> x ++ 93 :: repeat 61 n) -> long_literal text v).
    { intros [K|K]; [contradiction|]. apply E3. intros x. apply K. exact Lv. }
    destruct long as [[|]|].
    + exists text. split; [reflexivity|]. intros H. specialize (L H).
      split; [auto|]. split; [apply long_parsed; exact L|eapply long_one_token; exact L].
    + contradiction.
    + eexists. split; [reflexivity|]. intros H. specialize (L H). destruct (_ <? _).
      * split; [auto|]. split; [apply long_parsed; exact L|eapply long_one_token; exact L].
      * auto.
  - assert (X : match long with Some false => Ok (format_quoted isdigit ctrl quote v) | _ => Ok (format_quoted isdigit ctrl quote v) end
                = Ok (format_quoted isdigit ctrl quote v)) by (destruct long as [[|]|]; reflexivity).
    exists (format_quoted isdigit ctrl quote v). split; [|auto]. destruct long as [[|]|]; reflexivity.
Qed.
End All.

(** *** Where the tokenizer hangs *)
Lemma scan_string_loop : forall q s m, scan_string q m s = SLoop ->
  (m = MSkip /\ Forall space s) \/ (m = MEscape /\ exists w, s = 122 :: w /\ Forall space w) \/ final_skip s.
Proof.
  induction s as [|c s IH]; intros m E.
  - destruct m; try discriminate E. left. split; [reflexivity|constructor].
  - cbn [scan_string] in E.
    assert (K : forall m', scons c (scan_string q m' s) = SLoop -> scan_string q m' s = SLoop)
      by (intros m' K; destruct (scan_string q m' s); try discriminate K; reflexivity).
    assert (T : (if c =? 10 then SUnterm [c] s else if c =? 92 then scons c (scan_string q MEscape s)
        else if c =? q then SDone [c] s else scons c (scan_string q MText s)) = SLoop -> final_skip (c :: s)).
    { destruct (c =? 10); [discriminate|]. destruct (Z.eqb_spec c 92) as [->|].
      - intros E1. apply K in E1. destruct (IH _ E1) as [[X _]|[[_ [w [-> Hw]]]|X]]; [discriminate X| |apply (final_skip_app [92]); exact X].
        exists [], w. auto.
      - destruct (c =? q); [discriminate|]. intros E1. apply K in E1.
        destruct (IH _ E1) as [[X _]|[[X _]|X]]; [discriminate X|discriminate X|apply (final_skip_app [c]); exact X]. }
    destruct m.
    + right. right. exact (T E).
    + apply K in E. destruct (Z.eqb_spec c 122) as [->|].
      * destruct (IH _ E) as [[_ X]|[[X _]|X]]; [right; left; eauto|discriminate X|right; right; apply (final_skip_app [122]); exact X].
      * destruct (IH _ E) as [[X _]|[[X _]|X]]; [discriminate X|discriminate X|right; right; apply (final_skip_app [c]); exact X].
    + destruct (mem c k_wspace) eqn:M.
      * apply K in E. destruct (IH _ E) as [[_ X]|[[X _]|X]]; [|discriminate X|right; right; apply (final_skip_app [c]); exact X].
        left. split; [reflexivity|]. constructor; [apply space_mem; exact M|exact X].
      * right. right. exact (T E).
Qed.

Lemma round_suffix : forall lang ch t a r, tok_round lang ch t = Round a r -> exists x, t = x ++ r.
Proof.
  intros lang ch t a r E. pose proof (round_len _ _ _ _ _ E) as Hl. unfold tok_round in E.
  assert (Y : forall x : list Z, ch :: t = x ++ r -> exists x, t = x ++ r).
  { intros [|y x] K; [|injection K as _ K; eauto]. cbn in K. subst r. cbn in Hl. lia. }
  assert (SL : forall s, exists x, s = x ++ skip_line s).
  { induction s as [|c s [x IH]]; [exists []; reflexivity|]. cbn. destruct (c =? 10); [exists [c]; reflexivity|].
    exists (c :: x). cbn. rewrite <- IH. reflexivity. }
  assert (S1 : exists x, t = x ++ skipn 1 t) by (exists (firstn 1 t); symmetry; apply firstn_skipn).
  assert (LS : forall s, match scan_long s with LOk _ _ r | LUnterm r | LNo r => exists x, s = x ++ r end).
  { intros s. destruct (scan_long s) as [v i y|y|y] eqn:F.
    - apply scan_long_ok in F as [n [-> _]]. exists (91 :: repeat 61 n ++ 91 :: i ++ (93 :: repeat 61 n ++ [93])).
      cbn. rewrite <- !app_assoc. cbn. rewrite <- !app_assoc. cbn. rewrite <- !app_assoc. reflexivity.
    - unfold scan_long in F.
      destruct s as [|[|c|c] w]; try discriminate F; repeat (destruct c as [c|c|]; try discriminate F).
      destruct (span (Z.eqb 61) w) as [pad u] eqn:F'. apply span_app in F'. subst w.
      destruct u as [|[|c|c] w]; try discriminate F; repeat (destruct c as [c|c|]; try discriminate F).
      destruct (find_sub _ w) as [[? ?]|]; [discriminate F|]. injection F as <-.
      exists (91 :: pad ++ [91]). cbn. rewrite <- app_assoc. reflexivity.
    - unfold scan_long in F. destruct s as [|c w]; [injection F as <-; exists []; reflexivity|].
      destruct (Z.eq_dec c 91) as [->|Hc].
      + destruct (span (Z.eqb 61) w) as [pad u] eqn:F'. apply span_app in F'. subst w.
        assert (y = u).
        { destruct u as [|[|x|x] w]; try (injection F as <-; reflexivity);
            repeat (destruct x as [x|x|]; try (injection F as <-; reflexivity)).
          destruct (find_sub _ w) as [[? ?]|]; discriminate F. }
        subst. exists (91 :: pad). reflexivity.
      + assert (y = c :: w).
        { destruct c as [|x|x]; try (injection F as <-; reflexivity);
            repeat (destruct x as [x|x|]; try (injection F as <-; reflexivity)). exfalso. apply Hc. reflexivity. }
        subst. exists []. reflexivity. }
  destruct (mem ch k_wspace); [injection E as <- <-; exists []; reflexivity|].
  destruct (is_dec_digit ch || ((ch =? 46) && next_is is_dec_digit t)).
  { destruct (scan_number lang (ch :: t)) as [x y] eqn:F. injection E as <- <-. apply (Y x). eapply scan_number_app; eassumption. }
  destruct (is_ident_char lang ch).
  { destruct (span (is_ident_char lang) (ch :: t)) as [x y] eqn:F. injection E as <- <-. apply (Y x). eapply span_app; eassumption. }
  destruct ((ch =? 34) || (ch =? 39)).
  { destruct (scan_string ch MText t) as [x y|x y|] eqn:F; [| |discriminate E]; injection E as <- <-; exists x; eapply scan_string_app; eauto. }
  destruct ((ch =? 91) && next_is (fun c => mem c [61; 91]) t).
  { specialize (LS (ch :: t)). destruct (scan_long (ch :: t)); injection E as <- <-; destruct LS as [x LS]; exact (Y x LS). }
  destruct ((ch =? 45) && next_is (Z.eqb 45) t).
  { specialize (LS (skipn 1 t)). destruct S1 as [x1 S1]. destruct (SL (skipn 1 t)) as [x2 S2].
    destruct (scan_long (skipn 1 t)) as [v i y|y|y].
    - assert (r = y) by congruence. subst r. destruct LS as [x LS]. exists (x1 ++ x). rewrite <- app_assoc, <- LS. exact S1.
    - assert (r = skip_line (skipn 1 t)) by congruence. subst r. exists (x1 ++ x2). rewrite <- app_assoc, <- S2. exact S1.
    - assert (r = skip_line (skipn 1 t)) by congruence. subst r. exists (x1 ++ x2). rewrite <- app_assoc, <- S2. exact S1. }
  destruct ((ch =? 47) && is_pico8 lang && next_is (Z.eqb 47) t).
  { destruct S1 as [x1 S1]. destruct (SL (skipn 1 t)) as [x2 S2]. assert (r = skip_line (skipn 1 t)) by congruence. subst r.
    exists (x1 ++ x2). rewrite <- app_assoc, <- S2. exact S1. }
  destruct (mem ch punct_chars).
  { destruct (scan_punct lang ch t) as [x y] eqn:F. injection E as <- <-. exists x. eapply scan_punct_app; eassumption. }
  destruct ((ch =? 33) && next_is (Z.eqb 61) t).
  - assert (r = skipn 1 t) by congruence. subst r. exact S1.
  - injection E as <- <-. exists []. reflexivity.
Qed.

Lemma tokenize_hang : forall n lang s, (length s <= n)%nat -> forall e, tokenize lang s = Err e -> e = EFuel /\ final_skip s.
Proof.
  induction n as [|n IH]; intros lang [|c t] Hn e E; cbn in Hn; try lia; try discriminate E.
  rewrite tokenize_cons in E. destruct (tok_round lang c t) as [a r|] eqn:R.
  - destruct (tokenize lang r) as [b|e'] eqn:F; cbn [bind] in E; [discriminate E|]. assert (e' = e) by congruence. subst e'.
    pose proof (round_len _ _ _ _ _ R) as Rl. apply round_suffix in R as [x ->].
    apply IH in F as [-> F]; [|lia]. split; [reflexivity|]. apply (final_skip_app (c :: x)). exact F.
  - assert (e = EFuel) by congruence. split; [assumption|].
    unfold tok_round in R.
    repeat match type of R with
    | (if ?x then _ else _) = _ => destruct x; try discriminate R
    | (let '(_, _) := ?x in _) = _ => destruct x; try discriminate R
    | match scan_long ?x with _ => _ end = _ => destruct (scan_long x); try discriminate R
    | match scan_string ?q ?m ?x with _ => _ end = _ => destruct (scan_string q m x) eqn:S; try discriminate R
    end.
    apply scan_string_loop in S. destruct S as [[S _]|[[S _]|S]]; [discriminate S|discriminate S|].
    apply (final_skip_app [c]). exact S.
Qed.

(** Tokens stand in the source in order. *)
Lemma round_value : forall lang ch t a r ty v, tok_round lang ch t = Round a r -> In (Tok ty v) a ->
  exists y, ch :: t = v ++ y /\ (length r <= length y)%nat.
Proof.
  intros lang ch t a r ty v E Hin. pose proof (round_shape _ _ _ _ _ E) as [->|[[ty' [v' ->]]|[b [-> _]]]]; [contradiction| |].
  - destruct Hin as [Hin|[]]. injection Hin as -> ->. apply round_tok in E as [x [-> [-> _]]]. exists r. split; [reflexivity|lia].
  - unfold tok_round in E.
    repeat match type of E with
    | (if ?x then _ else _) = _ => destruct x; try discriminate E
    | (let '(_, _) := ?x in _) = _ => destruct x; try discriminate E
    | match scan_long ?x with _ => _ end = _ => destruct (scan_long x); try discriminate E
    | match scan_string ?q ?m ?x with _ => _ end = _ => destruct (scan_string q m x) as [p y|p y|] eqn:S; try discriminate E
    end.
    all: assert (Hb : b = [] \/ b = [TErr] \/ exists p, b = [Tok TString (ch :: p)] /\ t = p ++ r) by
      (first [assert (b = [Tok TString (ch :: p)]) by congruence; assert (y = r) by congruence; subst;
              right; right; exists p; split; [reflexivity|]; eapply scan_string_app; eauto
             |left; congruence|right; left; congruence]).
    all: destruct Hin as [Hin|Hin]; [discriminate Hin|]; destruct Hb as [->|[->|[p' [-> ->]]]].
    all: try (destruct Hin as [Hin|[]]; first [discriminate Hin|injection Hin as <- <-; exists r; split; [reflexivity|lia]]).
    all: contradiction.
Qed.
Lemma pos_text : forall n lang i s l p ty v, tok_loop_pos n lang i s = Ok l -> In (p, Tok ty v) l ->
  exists x y, s = x ++ v ++ y /\ p = (i + length x)%nat.
Proof.
  induction n as [|n IH]; intros lang i [|c t] l p ty v E Hin; cbn [tok_loop_pos] in E; try discriminate E;
    try (injection E as <-; contradiction).
  destruct (tok_round lang c t) as [a r|] eqn:R; [|discriminate E].
  destruct (tok_loop_pos n lang _ r) as [b|] eqn:F; [|discriminate E]. cbn [bind] in E. apply Ok_inj in E. subst l.
  apply in_app_iff in Hin as [Hin|Hin].
  - apply in_map_iff in Hin as [z [E Hin]]. injection E as <- ->.
    eapply round_value in Hin as [y [Hy _]]; [|exact R]. exists [], y. cbn. split; [exact Hy|lia].
  - destruct (IH _ _ _ _ _ _ _ F Hin) as [x [y [-> ->]]]. pose proof (round_len _ _ _ _ _ R) as Rl.
    apply round_suffix in R as [z ->]. exists (c :: z ++ x), y. split; [cbn; rewrite <- !app_assoc; reflexivity|].
    cbn [length]. rewrite !app_length in *. lia.
Qed.
Lemma pos_order : forall lang s l1 p ty v q t l2, tokenize_pos lang s = Ok (l1 ++ (p, Tok ty v) :: (q, t) :: l2) ->
  Forall (fun x => snd x <> TErr) (l1 ++ (p, Tok ty v) :: (q, t) :: l2) -> (p + length v <= q)%nat.
Proof.
  intros lang s l1 p ty v q t l2 E Hf. apply pos_round in E as [ch [x [r [m [k [-> [_ [-> [E2 _]]]]]]]]]; [|exact Hf].
  assert (Hf2 : Forall (fun x => snd x <> TErr) ((q, t) :: l2)).
  { rewrite Forall_app in Hf. destruct Hf as [_ Hf]. inversion_clear Hf. assumption. }
  destruct t as [ty2 v2|]; [|inversion_clear Hf2; contradiction].
  apply (pos_text k lang _ r _ q ty2 v2) in E2 as [x' [y [_ ->]]]; [lia|left; reflexivity].
Qed.
