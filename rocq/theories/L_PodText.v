(** String literals of pods, as text, as bytes and inside metadata. *)
From Coq Require Import String List ZArith Lia Bool.
From Verif Require Import M_Base L_Util M_Fold M_Num M_Token M_Str M_Charset M_Expr M_Pod S_Num S_Str S_Token S_Pod L_Str L_Luastr.
Import ListNotations.
Open Scope Z_scope.

(** [escaped body v]: what stands between the quotes of a literal for [v]. *)
Definition special (c : Z) : Prop := c = 0 \/ c = 10 \/ c = 13 \/ c = 34 \/ c = 92.
Inductive escaped : list Z -> list Z -> Prop :=
| x_nil : escaped [] []
| x_plain c b s : ~ special c -> escaped b s -> escaped (c :: b) (c :: s)
| x_named e c b s : In (e, c) [(110, 10); (114, 13); (92, 92); (34, 34)] -> escaped b s -> escaped (92 :: e :: b) (c :: s)
| x_zero b s : ~ starts (is_digit 10) b -> escaped b s -> escaped (92 :: 48 :: b) (0 :: s)
| x_zero3 b s : escaped b s -> escaped (92 :: 48 :: 48 :: 48 :: b) (0 :: s)
| x_bracket b s : ~ starts (is_digit 10) b -> escaped b s -> escaped (92 :: 57 :: 51 :: b) (93 :: s).

Lemma digit10 c : is_digit 10 c <-> 48 <= c <= 57.
Proof. rewrite dec_digit_iff. unfold is_dec_digit. lia. Qed.
Lemma starts_cons P c s : starts P (c :: s) <-> P c.
Proof. split; [intros (x & t & [= -> ->] & H); exact H|intros H; exists c, s; auto]. Qed.
Lemma starts_nil P : ~ starts P [].
Proof. intros (x & t & E & _). discriminate. Qed.

Lemma d10 c : 48 <= c <= 57 -> is_digit 10 c.
Proof. now rewrite digit10. Qed.
Lemma escaped_quoted b s : escaped b s -> quoted_g Picotron 34 b s.
Proof.
  induction 1 as [|c b s N _ IH|e c b s H _ IH|b s N _ IH|b s _ IH|b s N _ IH].
  - constructor.
  - unfold special in N. apply g_plain; try lia. exact IH.
  - apply g_named; [|exact IH]. cbn in H |- *. intuition congruence.
  - apply (g_decimal Picotron 34 [48] b s); [repeat (constructor; [apply d10; lia|]); constructor|cbn; lia|now right|cbn; lia|exact IH].
  - apply (g_decimal Picotron 34 [48; 48; 48] b s); [repeat (constructor; [apply d10; lia|]); constructor|cbn; lia|now left|cbn; lia|exact IH].
  - apply (g_decimal Picotron 34 [57; 51] b s); [repeat (constructor; [apply d10; lia|]); constructor|cbn; lia|now right|cbn; lia|exact IH].
Qed.
Definition literal (b : list Z) : list Z := 34 :: b ++ [34].
Lemma literal_reads b s : escaped b s -> parse_string_literal Picotron (literal b) = Ok s /\ one_token Picotron (literal b).
Proof.
  intros H. apply escaped_quoted in H. split.
  - unfold literal. rewrite parse_literal_quoted by auto. rewrite slice_one. cbv zeta. eapply parse_quoted_ok; [exact H|lia].
  - apply (quoted_one_token _ _ s). exists 34, b. split; [auto|]. split; [reflexivity|]. now apply g_quoted.
Qed.

(** ** What [format_pod] prints for a string *)
Section Printer.
Context (isdigit : Z -> bool) (isdigit_spec : forall c, 0 <= c < 128 -> isdigit c = (48 <=? c) && (c <=? 57)).
Definition body (s : list Z) : list Z := escape_body isdigit k_char_escapes_rev_min 39 s.
Lemma format_str_eq s : format_str isdigit s = Ok (literal (body s)).
Proof. reflexivity. Qed.
Lemma body_start s : starts (is_digit 10) (body s) -> next_is isdigit s = true.
Proof.
  intros (c & t & E & D). apply digit10 in D. destruct s as [|x s]; [discriminate|]. cbn [body escape_body next_is] in *. unfold body in E.
  cbn [escape_body] in E. destruct (assoc_str x k_char_escapes_rev_min) as [e|] eqn:A.
  - destruct (x =? 39); cbn [app] in E; [injection E as -> _|injection E as <- _; lia]. rewrite isdigit_spec by lia. lia.
  - injection E as -> _. rewrite isdigit_spec by lia. lia.
Qed.
Lemma body_escaped s : escaped (body s) s.
Proof.
  induction s as [|c s IH]; [constructor|]. pose proof (body_start s) as B. unfold body in *. cbn [escape_body].
  set (r := escape_body isdigit k_char_escapes_rev_min 39 s) in *. clearbody r. cbn -[Z.eqb].
  destruct (Z.eqb_spec 10 c) as [<-|]; [cbn; rewrite isdigit_spec by lia; cbn; apply x_named; [cbn; auto|exact IH]|].
  destruct (Z.eqb_spec 13 c) as [<-|]; [cbn; rewrite isdigit_spec by lia; cbn; apply x_named; [cbn; auto|exact IH]|].
  destruct (Z.eqb_spec 92 c) as [<-|]; [cbn; rewrite isdigit_spec by lia; cbn; apply x_named; [cbn; auto|exact IH]|].
  destruct (Z.eqb_spec 34 c) as [<-|]; [cbn; rewrite isdigit_spec by lia; cbn; apply x_named; [cbn; auto|exact IH]|].
  destruct (Z.eqb_spec 39 c) as [<-|]; [cbn; apply x_plain; [unfold special; lia|exact IH]|].
  destruct (Z.eqb_spec 0 c) as [<-|]; [|cbn; apply x_plain; [unfold special; lia|exact IH]].
  cbn [forallb andb app]. rewrite isdigit_spec by lia. cbn [Z.leb Z.compare Pos.compare Pos.compare_cont andb].
  destruct (next_is isdigit s) eqn:N; cbn.
  - now apply x_zero3.
  - apply x_zero; [|exact IH]. intros K. specialize (B K). congruence.
Qed.
Lemma body_plain s : ~ In 0 (body s).
Proof.
  pose proof (body_escaped s) as E. revert E. generalize (body s) as b. intros b E. induction E; cbn; try tauto.
  - unfold special in *. intuition lia.
  - intros [K|[K|K]]; [lia| |tauto]. cbn in H. intuition congruence.
  - intuition lia.
  - intuition lia.
  - intuition lia.
Qed.
End Printer.
Lemma escaped_plain b s : escaped b s -> ~ In 0 b.
Proof.
  intros E. induction E; cbn; try tauto.
  - unfold special in *. intuition lia.
  - intros [K|[K|K]]; [lia| |tauto]. cbn in H. intuition congruence.
  - intuition lia.
  - intuition lia.
  - intuition lia.
Qed.

(** ** Brackets in metadata *)
Definition bracket (s : list Z) : bool := match s with c :: _ => c =? 93 | [] => false end.
Fixpoint esc (s : list Z) : list Z :=
  match s with
  | [] => []
  | c :: t => let t' := esc t in if (c =? 93) && bracket t' then [92; 57; 51] ++ t' else c :: t'
  end.
Fixpoint pairs (s : list Z) : nat :=
  match s with
  | [] => 0
  | c :: t => (if (c =? 93) && bracket (esc t) then 1 else 0) + pairs t
  end.
Lemma esc_cons c t : c <> 93 -> esc (c :: t) = c :: esc t.
Proof. intros H. cbn [esc]. destruct (Z.eqb_spec c 93); [contradiction|reflexivity]. Qed.
Lemma esc_bracket t : bracket t = false -> bracket (esc t) = false.
Proof.
  destruct t as [|c t]; [reflexivity|]. cbn [bracket]. intros H. cbn [esc]. rewrite H. cbn [andb]. exact H.
Qed.
Lemma rfind_none s : rfind_sub (asc "]]") s = None -> esc s = s /\ pairs s = 0%nat.
Proof.
  change (asc "]]") with [93; 93]. induction s as [|c t IH]; [split; reflexivity|]. cbn [rfind_sub]. destruct (rfind_sub [93; 93] t) as [[a b]|]; [discriminate|].
  destruct (IH eq_refl) as (E & P). destruct (is_prefix [93; 93] (c :: t)) eqn:F; [discriminate|]. intros _. cbn [esc pairs]. rewrite E, P.
  destruct (Z.eqb_spec c 93) as [->|]; [|now split]. destruct t as [|d t]; [now split|]. cbn [bracket].
  destruct (Z.eqb_spec d 93) as [->|]; [|now split]. cbn in F. discriminate F.
Qed.
Lemma rfind_some s a b : rfind_sub (asc "]]") s = Some (a, b) -> s = a ++ 93 :: 93 :: b /\ esc b = b /\ pairs b = 0%nat /\ bracket b = false.
Proof.
  change (asc "]]") with [93; 93]. revert a. induction s as [|c t IH]; intros a; [discriminate|]. cbn [rfind_sub].
  destruct (rfind_sub [93; 93] t) as [[a' b']|] eqn:R.
  - intros [= <- <-]. destruct (IH a' eq_refl) as (-> & K). now split.
  - destruct (is_prefix [93; 93] (c :: t)) eqn:F; [|discriminate]. intros [= <- <-].
    destruct t as [|d t]; [unfold is_prefix in F; cbn -[Z.eqb] in F; destruct (93 =? c); discriminate F|]. unfold is_prefix in F. cbn -[Z.eqb] in F.
    destruct (Z.eqb_spec 93 c) as [<-|]; [|discriminate]. destruct (Z.eqb_spec 93 d) as [<-|]; [|discriminate].
    split; [reflexivity|]. destruct (rfind_none (93 :: t) R) as (E & P). cbn [skipn length]. cbn -[Z.eqb] in E, P. rewrite Z.eqb_refl in E, P. cbn [andb] in E, P.
    destruct (bracket (esc t)) eqn:B.
    + discriminate.
    + injection E as E. split; [exact E|]. split; [exact P|]. rewrite E in B. exact B.
Qed.
Lemma esc_tail a x y : esc x = esc y -> esc (a ++ x) = esc (a ++ y) /\ (pairs (a ++ x) + pairs y = pairs (a ++ y) + pairs x)%nat.
Proof.
  intros E. induction a as [|c a (I1 & I2)]; [split; [exact E|cbn; lia]|]. cbn [app esc pairs]. rewrite I1. split; [reflexivity|].
  destruct ((c =? 93) && bracket (esc (a ++ y))); lia.
Qed.
Lemma escape_loop_ok s : forall fuel, (pairs s <= fuel)%nat -> escape_loop fuel s = Ok (esc s).
Proof.
  remember (pairs s) as n eqn:En. revert s En. induction n as [|n IH]; intros s En fuel L.
  - assert (R : rfind_sub (asc "]]") s = None).
    { destruct (rfind_sub (asc "]]") s) as [[a b]|] eqn:R; [|reflexivity]. destruct (rfind_some _ _ _ R) as (-> & E & P & B). exfalso.
      destruct (esc_tail a (93 :: 93 :: b) (92 :: 57 :: 51 :: 93 :: b)) as (_ & K); [|cbn in K; rewrite E, B, P in K; cbn in K; lia].
      cbn [esc Z.eqb Pos.eqb andb]. rewrite E, B. reflexivity. }
    destruct (rfind_none s R) as (E & _). rewrite E. destruct fuel; cbn [escape_loop]; rewrite R; reflexivity.
  - destruct fuel as [|fuel]; [lia|]. cbn [escape_loop]. destruct (rfind_sub (asc "]]") s) as [[a b]|] eqn:R.
    + destruct (rfind_some _ _ _ R) as (-> & E & P & B). change (asc "\93]" ++ b) with (92 :: 57 :: 51 :: 93 :: b).
      destruct (esc_tail a (93 :: 93 :: b) (92 :: 57 :: 51 :: 93 :: b)) as (K1 & K2); [cbn [esc Z.eqb Pos.eqb andb]; rewrite E, B; reflexivity|].
      rewrite K1. apply IH; [|lia]. cbn in K2. rewrite E, B, P in K2. cbn in K2. lia.
    + destruct (rfind_none s R) as (_ & P). lia.
Qed.
Lemma pairs_length s : (pairs s <= length s)%nat.
Proof. induction s as [|c s IH]; cbn [pairs length]; [lia|]. destruct ((c =? 93) && bracket (esc s)); lia. Qed.
Lemma escape_meta_eq s : escape_meta s = Ok (esc s).
Proof. apply escape_loop_ok, pairs_length. Qed.

(** Text that ends with something else than a bracket is escaped by itself. *)
Definition closed (s : list Z) : Prop := s <> [] /\ last s 0 <> 93.
Lemma esc_nil s : esc s = [] -> s = [].
Proof. destruct s as [|c s]; [easy|]. cbn [esc]. now destruct ((c =? 93) && bracket (esc s)). Qed.
Lemma esc_app x y : closed x -> esc (x ++ y) = esc x ++ esc y.
Proof.
  intros (N & L). induction x as [|c x IH]; [contradiction|]. destruct x as [|d x].
  - cbn in L. cbn [app]. rewrite !esc_cons by exact L. reflexivity.
  - cbn [app]. cbn [app] in IH. change (esc (c :: d :: x ++ y)) with (let t' := esc (d :: x ++ y) in if (c =? 93) && bracket t' then [92; 57; 51] ++ t' else c :: t').
    rewrite IH by (easy || exact L). change (esc (c :: d :: x)) with (let t' := esc (d :: x) in if (c =? 93) && bracket t' then [92; 57; 51] ++ t' else c :: t').
    cbv zeta. destruct (esc (d :: x)) as [|e r] eqn:E; [apply esc_nil in E; discriminate|]. cbn [app bracket].
    destruct ((c =? 93) && (e =? 93)); reflexivity.
Qed.
Lemma esc_none s : ~ In 93 s -> esc s = s.
Proof. induction s as [|c s IH]; [reflexivity|]. cbn [In]. intros H. rewrite esc_cons by tauto. now rewrite IH by tauto. Qed.
Lemma esc_no_pair s : forall x y, esc s <> x ++ 93 :: 93 :: y.
Proof.
  induction s as [|c s IH]; intros x y E; [destruct x; discriminate|]. cbn [esc] in E. destruct ((c =? 93) && bracket (esc s)) eqn:B.
  - cbn [app] in E. destruct x as [|? [|? [|? x]]]; try discriminate. injection E as _ _ _ E. now apply (IH x y).
  - destruct x as [|? x]; [|injection E as _ E; now apply (IH x y)]. injection E as -> E. rewrite E in B. discriminate B.
Qed.
Lemma esc_starts b : starts (is_digit 10) (esc b) -> starts (is_digit 10) b.
Proof.
  destruct b as [|c b]; [easy|]. intros (x & t & E & D). apply digit10 in D. apply starts_cons. apply digit10. cbn [esc] in E.
  destruct ((c =? 93) && bracket (esc b)); [injection E as <- _; lia|injection E as <- _; exact D].
Qed.
Lemma esc_escaped b s : escaped b s -> escaped (esc b) s.
Proof.
  induction 1 as [|c b s N _ IH|e c b s H _ IH|b s N _ IH|b s _ IH|b s N _ IH].
  - constructor.
  - cbn [esc]. destruct (Z.eqb_spec c 93) as [->|]; cbn [andb]; [|now apply x_plain]. destruct (bracket (esc b)) eqn:B; [|now apply x_plain].
    apply x_bracket; [|exact IH]. destruct (esc b) as [|d r]; [discriminate|]. cbn [bracket] in B. rewrite starts_cons, digit10. lia.
  - rewrite (esc_cons 92) by lia. rewrite esc_cons by (cbn in H; intuition congruence). now apply x_named.
  - rewrite (esc_cons 92), (esc_cons 48) by lia. apply x_zero; [|exact IH]. intros K. now apply N, esc_starts.
  - rewrite (esc_cons 92), !(esc_cons 48) by lia. now apply x_zero3.
  - rewrite (esc_cons 92), (esc_cons 57), (esc_cons 51) by lia. apply x_bracket; [|exact IH]. intros K. now apply N, esc_starts.
Qed.
Lemma esc_literal b : esc (literal b) = literal (esc b).
Proof.
  unfold literal. rewrite esc_cons by lia. f_equal. induction b as [|c b IH]; [reflexivity|]. cbn [app esc]. rewrite IH.
  destruct (esc b) as [|d r]; cbn [app bracket].
  - destruct (c =? 93); reflexivity.
  - destruct ((c =? 93) && (d =? 93)); reflexivity.
Qed.

(** ** Bytes and back *)
Definition enc (s : list Z) : list Z := match encode_luastr s with Ok b => b | Err _ => [] end.
Definition deco (s : list Z) : list Z := decode_luastr (enc s).
Lemma text_ok_encode s : text_ok s -> encode_luastr s = Ok (enc s).
Proof.
  intros H. assert (exists b, encode_luastr s = Ok b) as (b & E); [|unfold enc; now rewrite E].
  induction H as [|c s (H1 & H2 & H3) _ (b & IH)]; [now exists []|]. cbn [encode_luastr]. rewrite IH.
  assert (exists a, utf8_encode c = Ok a) as (a & ->); [|cbn; eauto]. unfold utf8_encode.
  repeat match goal with |- context [if ?x then _ else _] => destruct x eqn:?; eauto end. lia.
Qed.
Lemma text_ok_app a b : text_ok (a ++ b) <-> text_ok a /\ text_ok b.
Proof. apply Forall_app. Qed.
Lemma ascii_text s : Forall ascii s -> text_ok s.
Proof. apply Forall_impl. unfold ascii, char_ok. lia. Qed.
Lemma enc_app a b : text_ok a -> text_ok b -> enc (a ++ b) = enc a ++ enc b.
Proof.
  intros A B. assert (C : text_ok (a ++ b)) by (now apply text_ok_app). apply text_ok_encode in A, B, C. rewrite encode_app, A, B in C. cbn in C. congruence.
Qed.
Lemma enc_ascii s : Forall ascii s -> enc s = s.
Proof. intros H. unfold enc. now rewrite encode_asciis. Qed.
Lemma enc_bytes s : text_ok s -> bytes_ok (enc s).
Proof.
  intros H. apply (encode_bytes_ok s); [|now apply text_ok_encode]. apply Forall_impl with (2 := H). unfold char_ok. lia.
Qed.
Lemma enc_deco s : text_ok s -> encode_luastr (deco s) = encode_luastr s.
Proof. intros H. unfold deco. rewrite encode_decode by now apply enc_bytes. now rewrite text_ok_encode. Qed.

Lemma enc_high x : 128 <= x -> char_ok x -> enc [x] <> [] /\ Forall (fun c => 128 <= c) (enc [x]).
Proof.
  intros L C. assert (X : encode_luastr [x] = Ok (enc [x])) by (apply text_ok_encode; now constructor). cbn [encode_luastr] in X.
  destruct (utf8_encode x) as [y|] eqn:U; [|discriminate]. cbn in X. rewrite app_nil_r in X. apply ok_inj in X. rewrite <- X. apply (encode_high x); [exact U|exact L].
Qed.
Lemma escaped_encode b s : escaped b s -> text_ok s -> text_ok b /\ escaped (enc b) (enc s).
Proof.
  assert (P : forall c b s, ascii c -> text_ok s -> text_ok b -> enc (c :: s) = c :: enc s /\ enc (c :: b) = c :: enc b /\ text_ok (c :: b)).
  { intros c b' s' A T T'. assert (F : Forall ascii [c]) by (now constructor). pose proof (ascii_text _ F) as G. split; [|split].
    - change (c :: s') with ([c] ++ s'). rewrite enc_app, enc_ascii by easy. reflexivity.
    - change (c :: b') with ([c] ++ b'). rewrite enc_app, enc_ascii by easy. reflexivity.
    - change (c :: b') with ([c] ++ b'). now apply text_ok_app. }
  assert (St : forall b, text_ok b -> starts (is_digit 10) (enc b) -> starts (is_digit 10) b).
  { intros [|x t] T (c & r & E & D); [discriminate|]. apply digit10 in D. apply starts_cons, digit10. inversion T; subst.
    destruct (Z_lt_ge_dec x 128) as [L|L].
    - destruct (P x t [] ltac:(unfold ascii, char_ok in *; lia) ltac:(constructor) H2) as (_ & K & _). rewrite K in E. injection E as -> _. exact D.
    - change (x :: t) with ([x] ++ t) in E. rewrite enc_app in E by (try easy; now constructor).
      destruct (enc_high x ltac:(lia) ltac:(assumption)) as (N & F).
      destruct (enc [x]) as [|z y]; [easy|]. inversion F; subst. injection E as -> _. lia. }
  induction 1 as [|c b s N E IH|e c b s H E IH|b s N E IH|b s E IH|b s N E IH]; intros T.
  - split; [constructor|]. constructor.
  - inversion T as [|? ? Hc Ts]; subst. destruct (IH Ts) as (T' & X). destruct (Z_lt_ge_dec c 128) as [L|L].
    + destruct (P c b s ltac:(unfold ascii, char_ok in *; lia) Ts T') as (-> & -> & K). split; [exact K|]. now apply x_plain.
    + split; [now constructor|]. change (c :: s) with ([c] ++ s). change (c :: b) with ([c] ++ b).
      assert (Tc : text_ok [c]) by (now constructor). rewrite !enc_app by easy. destruct (enc_high c ltac:(lia) Hc) as (_ & F).
      clear -F X. induction F; [exact X|]. cbn [app]. apply x_plain; [unfold special; lia|assumption].
  - inversion T as [|? ? Hc Ts]; subst. destruct (IH Ts) as (T' & X).
    assert (Ae : ascii e /\ ascii c) by (unfold ascii; cbn in H; repeat destruct H as [H|H]; try easy; injection H as <- <-; lia). destruct Ae as (Ae & Ac).
    destruct (P e b s Ae Ts T') as (_ & K1 & K2). destruct (P c b s Ac Ts T') as (-> & _ & _).
    destruct (P 92 (e :: b) s ltac:(unfold ascii; lia) Ts K2) as (_ & -> & K4). rewrite K1. split; [exact K4|]. now apply x_named.
  - inversion T as [|? ? Hc Ts]; subst. destruct (IH Ts) as (T' & X). assert (A48 : ascii 48) by (unfold ascii; lia). assert (A92 : ascii 92) by (unfold ascii; lia).
    destruct (P 48 b s A48 Ts T') as (_ & K1 & K2). destruct (P 0 b s ltac:(unfold ascii; lia) Ts T') as (-> & _ & _).
    destruct (P 92 (48 :: b) s A92 Ts K2) as (_ & -> & K4). rewrite K1. split; [exact K4|]. apply x_zero; [|exact X]. intros K. now apply N, St.
  - inversion T as [|? ? Hc Ts]; subst. destruct (IH Ts) as (T' & X). assert (A48 : ascii 48) by (unfold ascii; lia). assert (A92 : ascii 92) by (unfold ascii; lia).
    destruct (P 48 b s A48 Ts T') as (_ & K1 & K2). destruct (P 48 (48 :: b) s A48 Ts K2) as (_ & K3 & K4). destruct (P 48 (48 :: 48 :: b) s A48 Ts K4) as (_ & K5 & K6).
    destruct (P 0 b s ltac:(unfold ascii; lia) Ts T') as (-> & _ & _).
    destruct (P 92 (48 :: 48 :: 48 :: b) s A92 Ts K6) as (_ & -> & K7). rewrite K5, K3, K1. split; [exact K7|]. now apply x_zero3.
  - inversion T as [|? ? Hc Ts]; subst. destruct (IH Ts) as (T' & X). assert (A57 : ascii 57) by (unfold ascii; lia). assert (A51 : ascii 51) by (unfold ascii; lia).
    destruct (P 51 b s A51 Ts T') as (_ & K1 & K2). destruct (P 57 (51 :: b) s A57 Ts K2) as (_ & K3 & K4).
    destruct (P 93 b s ltac:(unfold ascii; lia) Ts T') as (-> & _ & _).
    destruct (P 92 (57 :: 51 :: b) s ltac:(unfold ascii; lia) Ts K4) as (_ & -> & K7). rewrite K3, K1. split; [exact K7|]. apply x_bracket; [|exact X]. intros K. now apply N, St.
Qed.
(** The bytes above 127 at the beginning. *)
Fixpoint high (s : list Z) : nat := match s with c :: t => if c <? 128 then 0 else S (high t) | [] => 0 end.
Lemma high_split s : Forall (fun c => 128 <= c) (firstn (high s) s) /\ apart (skipn (high s) s).
Proof.
  induction s as [|c s (I1 & I2)]; [split; [constructor|exact I]|]. cbn [high]. destruct (Z.ltb_spec c 128); cbn [firstn skipn]; [now split|].
  split; [now constructor|exact I2].
Qed.
Lemma escaped_high b s : escaped b s -> firstn (high b) b = firstn (high s) s /\ escaped (skipn (high b) b) (skipn (high s) s).
Proof.
  intros E. induction E as [|c b s N E (I1 & I2)|e c b s H E _|b s N E _|b s E _|b s N E _].
  - split; [reflexivity|constructor].
  - cbn [high]. destruct (c <? 128) eqn:L; cbn [firstn skipn]; [split; [reflexivity|now apply x_plain]|]. split; [now rewrite I1|exact I2].
  - assert (c < 128) by (clear -H; cbn in H; destruct H as [H|[H|[H|[H|[]]]]]; injection H as <- <-; lia).
    cbn [high]. destruct (Z.ltb_spec c 128); [|lia]. cbn. split; [reflexivity|now apply x_named].
  - cbn. split; [reflexivity|now apply x_zero].
  - cbn. split; [reflexivity|now apply x_zero3].
  - cbn. split; [reflexivity|now apply x_bracket].
Qed.
Lemma decode_starts b : starts (is_digit 10) (decode_luastr b) -> starts (is_digit 10) b.
Proof.
  intros (c & t & E & D). apply digit10 in D. destruct b as [|x b]; [discriminate|]. apply starts_cons, digit10.
  destruct (Z_lt_ge_dec x 128).
  - rewrite decode_ascii in E by lia. now injection E as -> _.
  - rewrite decode_cons in E. destruct (Z.ltb_spec x 128); [lia|]. destruct (seq8 x b) as [[y k]|] eqn:S8.
    + destruct (seq8_high _ _ _ _ S8). apply (f_equal (hd 0)) in E. cbn [hd] in E. lia.
    + apply (f_equal (hd 0)) in E. cbn [hd] in E. lia.
Qed.
Lemma escaped_decode b s : escaped b s -> escaped (decode_luastr b) (decode_luastr s).
Proof.
  remember (length b) as n eqn:En. assert (L : (length b <= n)%nat) by lia. clear En. revert b s L. induction n as [|n IH]; intros b s L E.
  { destruct b; [|cbn in L; lia]. inversion E. constructor. }
  destruct (high s) as [|k] eqn:H.
  - destruct E as [|c b s N E|e c b s Hi E|b s N E|b s E|b s N E]; cbn [length] in L.
    + constructor.
    + cbn [high] in H. destruct (Z.ltb_spec c 128); [|discriminate]. rewrite !decode_ascii by lia. apply x_plain; [exact N|]. apply IH; [lia|exact E].
    + assert (c < 128 /\ e < 128) by (repeat destruct Hi as [Hi|Hi]; try easy; injection Hi as <- <-; lia).
      rewrite !decode_ascii by lia. apply x_named; [exact Hi|]. apply IH; [lia|exact E].
    + rewrite !decode_ascii by lia. apply x_zero; [intros K; now apply N, decode_starts|]. apply IH; [lia|exact E].
    + rewrite !decode_ascii by lia. apply x_zero3. apply IH; [lia|exact E].
    + rewrite !decode_ascii by lia. apply x_bracket; [intros K; now apply N, decode_starts|]. apply IH; [lia|exact E].
  - destruct (escaped_high b s E) as (E1 & E2). rewrite <- (firstn_skipn (high b) b), <- (firstn_skipn (high s) s).
    destruct (high_split b) as (A1 & A2). destruct (high_split s) as (B1 & B2). rewrite !decode_app by easy. rewrite E1.
    assert (Lb : (length (skipn (high b) b) <= n)%nat).
    { rewrite skipn_length. assert (Hb : (0 < high b)%nat); [|lia]. apply (f_equal (@length Z)) in E1. rewrite !firstn_length, H in E1.
      destruct s as [|? s]; [discriminate|]. cbn [length] in E1. destruct (high b); [cbn in E1; lia|lia]. }
    specialize (IH _ _ Lb E2). pose proof (decode_high _ B1) as F. clear -F IH. induction F; [exact IH|]. cbn [app]. apply x_plain; [unfold special; lia|assumption].
Qed.
Lemma escaped_deco b s : escaped b s -> text_ok s -> escaped (deco b) (deco s).
Proof. intros E T. destruct (escaped_encode b s E T) as (_ & X). now apply escaped_decode. Qed.
Lemma deco_literal b : text_ok b -> deco (literal b) = literal (deco b).
Proof.
  intros T. unfold deco, literal. assert (Q : Forall ascii [34]) by (repeat constructor; unfold ascii; lia). pose proof (ascii_text _ Q) as G.
  change (34 :: b ++ [34]) with ([34] ++ b ++ [34]). rewrite !enc_app by (try apply text_ok_app; auto). rewrite !enc_ascii by easy.
  cbn [app]. rewrite decode_ascii by lia. rewrite decode_app by (cbn; lia). reflexivity.
Qed.
