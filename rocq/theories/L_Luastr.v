(** Text and bytes: encoding and decoding with escapes for bytes that are not UTF-8. *)
From Coq Require Import List ZArith Lia Bool.
From Verif Require Import M_Base L_Util M_Charset M_Pod.
Import ListNotations.
Open Scope Z_scope.

Lemma ok_inj {A} (x y : A) : Ok x = Ok y -> x = y.
Proof. congruence. Qed.

Definition ascii (c : Z) : Prop := 0 <= c < 128.
(** Nothing, or an ASCII character, comes next. *)
Definition apart (s : list Z) : Prop := match s with c :: _ => c < 128 | [] => True end.

Definition seq8 (a : Z) (s : list Z) : option (Z * nat) :=
  match s with
  | [] => None
  | b :: s2 =>
      if utf8_2 a b then Some ((a - 0xc0) * 64 + (b - 0x80), 1%nat)
      else match s2 with
      | [] => None
      | c :: s3 =>
          if utf8_3 a b c then Some ((a - 0xe0) * 4096 + (b - 0x80) * 64 + (c - 0x80), 2%nat)
          else match s3 with
          | [] => None
          | d :: _ =>
              if utf8_4 a b c d then Some ((a - 0xf0) * 262144 + (b - 0x80) * 4096 + (c - 0x80) * 64 + (d - 0x80), 3%nat) else None
          end
      end
  end.

Lemma decode_cons a s : decode_luastr (a :: s) =
  if a <? 128 then a :: decode_luastr s
  else match seq8 a s with Some (c, k) => c :: decode_luastr (skipn k s) | None => 0xdc00 + a :: decode_luastr s end.
Proof.
  cbn [decode_luastr]. destruct (a <? 128); [reflexivity|]. unfold seq8.
  destruct s as [|b [|c [|d s]]]; cbn [skipn]; try reflexivity;
    repeat match goal with |- context [if ?x then _ else _] => destruct x end; reflexivity.
Qed.
Lemma decode_ascii a s : a < 128 -> decode_luastr (a :: s) = a :: decode_luastr s.
Proof. intros H. rewrite decode_cons. destruct (Z.ltb_spec a 128); [reflexivity|lia]. Qed.

Lemma cont_ascii b : b < 128 -> cont b = false.
Proof. unfold cont. lia. Qed.
Lemma seq8_app a s rest : apart rest -> seq8 a (s ++ rest) = seq8 a s.
Proof.
  intros A. destruct rest as [|x rest]; [now rewrite app_nil_r|]. cbn in A. pose proof (cont_ascii x A) as C.
  destruct s as [|b [|c [|d s]]]; cbn [app seq8]; try reflexivity.
  - unfold utf8_2, utf8_3, utf8_4. rewrite C, !andb_false_r. cbn [andb].
    destruct rest as [|y [|z rest]]; try reflexivity; rewrite !andb_false_r; reflexivity.
  - destruct (utf8_2 a b); [reflexivity|]. unfold utf8_3, utf8_4. rewrite C, !andb_false_r. cbn [andb]. destruct rest as [|y rest]; reflexivity.
  - destruct (utf8_2 a b), (utf8_3 a b c); try reflexivity. unfold utf8_4. rewrite C, !andb_false_r. reflexivity.
Qed.
Lemma seq8_len a s c k : seq8 a s = Some (c, k) -> (k <= length s)%nat.
Proof.
  unfold seq8. destruct s as [|b [|c' [|d s]]]; try easy; cbn [length];
    repeat match goal with |- context [if ?x then _ else _] => destruct x end; intros [= <- <-]; lia.
Qed.
Lemma decode_app s : forall rest, apart rest -> decode_luastr (s ++ rest) = decode_luastr s ++ decode_luastr rest.
Proof.
  remember (length s) as n eqn:En. assert (L : (length s <= n)%nat) by lia. clear En. revert s L.
  induction n; intros s L rest A; (destruct s as [|a s]; [reflexivity|]); cbn [length] in L; [lia|].
  cbn [app]. rewrite !decode_cons. destruct (a <? 128); [cbn [app]; now rewrite IHn by (auto; lia)|].
  rewrite seq8_app by exact A. destruct (seq8 a s) as [[c k]|] eqn:E.
  - pose proof (seq8_len _ _ _ _ E). rewrite skipn_app. replace (k - length s)%nat with 0%nat by lia. cbn [skipn app].
    rewrite IHn by (auto; rewrite skipn_length; lia). reflexivity.
  - cbn [app]. now rewrite IHn by (auto; lia).
Qed.
Lemma seq8_high a s c k : seq8 a s = Some (c, k) -> 128 <= c /\ Forall (fun x => 128 <= x) (firstn k s).
Proof.
  unfold seq8, utf8_2, utf8_3, utf8_4, cont. destruct s as [|b [|c' [|d s]]]; try easy;
    repeat match goal with |- context [if ?x then _ else _] => destruct x eqn:?; try discriminate end; intros [= <- <-]; cbn [firstn];
    (split; [lia|repeat (constructor; [lia|]); constructor]).
Qed.
Lemma decode_high s : Forall (fun c => 128 <= c) s -> Forall (fun c => 128 <= c) (decode_luastr s).
Proof.
  remember (length s) as n eqn:En. assert (L : (length s <= n)%nat) by lia. clear En. revert s L.
  induction n; intros s L F; (destruct s as [|a s]; [constructor|]); cbn [length] in L; [lia|].
  inversion F; subst. rewrite decode_cons. destruct (Z.ltb_spec a 128); [lia|]. destruct (seq8 a s) as [[c k]|] eqn:E.
  - constructor; [now apply seq8_high in E|]. apply IHn; [rewrite skipn_length; lia|].
    rewrite <- (firstn_skipn k s) in H2. now apply Forall_app in H2.
  - constructor; [lia|]. now apply IHn; [lia|].
Qed.
Lemma decode_asciis s rest : Forall ascii s -> decode_luastr (s ++ rest) = s ++ decode_luastr rest.
Proof. induction 1 as [|c s H _ IH]; [reflexivity|]. cbn [app]. rewrite decode_ascii by (unfold ascii in H; lia). now rewrite IH. Qed.
Lemma decode_asciis_all s : Forall ascii s -> decode_luastr s = s.
Proof. intros H. rewrite <- (app_nil_r s) at 1. rewrite decode_asciis by easy. cbn. now rewrite app_nil_r. Qed.

(** ** Encoding *)
Lemma encode_app a : forall b, encode_luastr (a ++ b) = (x <- encode_luastr a ;; y <- encode_luastr b ;; Ok (x ++ y))%res.
Proof.
  induction a as [|c a IH]; intros b; cbn [app encode_luastr].
  - cbn [bind]. destruct (encode_luastr b); reflexivity.
  - destruct (utf8_encode c); cbn [bind]; [|reflexivity]. rewrite IH. destruct (encode_luastr a); cbn [bind]; [|reflexivity].
    destruct (encode_luastr b); cbn [bind]; [now rewrite app_assoc|reflexivity].
Qed.
Lemma encode_asciis s : Forall ascii s -> encode_luastr s = Ok s.
Proof.
  induction 1 as [|c s H _ IH]; [reflexivity|]. cbn [encode_luastr]. rewrite IH. unfold utf8_encode, ascii in *.
  destruct (Z.ltb_spec c 128); [reflexivity|lia].
Qed.
Lemma encode_high c b : utf8_encode c = Ok b -> 128 <= c -> b <> [] /\ Forall (fun x => 128 <= x) b.
Proof.
  unfold utf8_encode. intros E H. destruct (Z.ltb_spec c 128); [lia|].
  repeat match type of E with context [if ?x then _ else _] => destruct x eqn:?; try discriminate end; apply ok_inj in E; subst b;
    (split; [discriminate|]); repeat (constructor; [lia|]); constructor.
Qed.
Lemma encode_bytes c b : utf8_encode c = Ok b -> 0 <= c < 0x110000 -> bytes_ok b.
Proof.
  unfold utf8_encode. intros E H. 
  repeat match type of E with context [if ?x then _ else _] => destruct x eqn:?; try discriminate end; apply ok_inj in E; subst b;
    repeat (constructor; [unfold is_byte; lia|]); constructor.
Qed.
Lemma encode_bytes_ok s b : Forall (fun c => 0 <= c < 0x110000) s -> encode_luastr s = Ok b -> bytes_ok b.
Proof.
  intros F. revert b. induction F as [|c s H _ IH]; intros b; cbn [encode_luastr]; [intros [= <-]; constructor|].
  destruct (utf8_encode c) as [x|] eqn:E; [|discriminate]. destruct (encode_luastr s) as [y|]; [|discriminate]. intros [= <-].
  apply Forall_app. split; [now apply encode_bytes with (c := c)|now apply IH].
Qed.

(** Bytes that were decoded are encoded as themselves. *)
Lemma escaped_byte a : 128 <= a < 256 -> utf8_encode (0xdc00 + a) = Ok [a].
Proof.
  intros H. unfold utf8_encode. replace (0xdc00 + a <? 0x80) with false by lia. replace (0xdc00 + a <? 0x800) with false by lia.
  replace ((0xdc80 <=? 0xdc00 + a) && (0xdc00 + a <=? 0xdcff)) with true by lia. do 2 f_equal. lia.
Qed.
Lemma seq8_encode a s c k : 128 <= a < 256 -> bytes_ok s -> seq8 a s = Some (c, k) -> utf8_encode c = Ok (a :: firstn k s).
Proof.
  intros Ha B. unfold seq8, utf8_2, utf8_3, utf8_4, cont.
  destruct s as [|b s]; [easy|].
  assert (Two : forall x, (194 <=? a) && (a <=? 223) && ((128 <=? b) && (b <=? 191)) = true -> x = (a - 192) * 64 + (b - 128) -> utf8_encode x = Ok [a; b]).
  { intros x H ->. unfold utf8_encode. set (x := (a - 192) * 64 + (b - 128)). assert (x = (a - 192) * 64 + (b - 128)) by reflexivity. clearbody x.
    replace (x <? 128) with false by lia. replace (x <? 2048) with true by lia. repeat f_equal; lia. }
  destruct ((194 <=? a) && (a <=? 223) && ((128 <=? b) && (b <=? 191))) eqn:E2.
  { intros [= <- <-]. cbn [firstn]. now apply Two. }
  clear Two E2. destruct s as [|c0 s]; [easy|].
  match goal with |- context [if ?x then _ else _] => destruct x eqn:E3 end.
  { intros [= <- <-]. cbn [firstn]. unfold utf8_encode. set (x := (a - 224) * 4096 + _ + _).
    assert (Ex : x = (a - 224) * 4096 + (b - 128) * 64 + (c0 - 128)) by reflexivity. clearbody x.
    assert (N : ~ (0xd800 <= x <= 0xdfff)) by lia.
    replace (x <? 128) with false by lia. replace (x <? 2048) with false by lia.
    replace ((56448 <=? x) && (x <=? 56575)) with false by lia. replace ((55296 <=? x) && (x <=? 57343)) with false by lia.
    replace (x <? 65536) with true by lia. repeat f_equal; lia. }
  clear E3. destruct s as [|d s]; [easy|].
  match goal with |- context [if ?x then _ else _] => destruct x eqn:E4; [|discriminate] end.
  intros [= <- <-]. cbn [firstn]. unfold utf8_encode. set (x := (a - 240) * 262144 + _ + _ + _).
  assert (Ex : x = (a - 240) * 262144 + (b - 128) * 4096 + (c0 - 128) * 64 + (d - 128)) by reflexivity. clearbody x.
  replace (x <? 128) with false by lia. replace (x <? 2048) with false by lia.
  replace ((56448 <=? x) && (x <=? 56575)) with false by lia. replace ((55296 <=? x) && (x <=? 57343)) with false by lia.
  replace (x <? 65536) with false by lia. repeat f_equal; lia.
Qed.
Lemma encode_decode b : bytes_ok b -> encode_luastr (decode_luastr b) = Ok b.
Proof.
  remember (length b) as n eqn:En. assert (L : (length b <= n)%nat) by lia. clear En. revert b L.
  induction n; intros b L F; (destruct b as [|a s]; [reflexivity|]); cbn [length] in L; [lia|].
  inversion F as [|? ? Ha Fs]; subst. unfold is_byte in Ha. rewrite decode_cons. destruct (Z.ltb_spec a 128).
  - cbn [encode_luastr]. rewrite IHn by (auto; lia). unfold utf8_encode. destruct (Z.ltb_spec a 128); [reflexivity|lia].
  - destruct (seq8 a s) as [[c k]|] eqn:E.
    + cbn [encode_luastr]. rewrite (seq8_encode a s c k) by (auto; lia). rewrite <- (firstn_skipn k s) in Fs. apply Forall_app in Fs. destruct Fs.
      rewrite IHn; [|rewrite skipn_length; lia|easy]. cbn [bind app]. now rewrite firstn_skipn.
    + cbn [encode_luastr]. rewrite escaped_byte by lia. rewrite IHn by (auto; lia). reflexivity.
Qed.
(** Text that is valid Unicode is decoded as itself. *)
Lemma decode_char c b rest : utf8_encode c = Ok b -> 0 <= c < 0x110000 -> ~ (0xdc80 <= c <= 0xdcff) -> decode_luastr (b ++ rest) = c :: decode_luastr rest.
Proof.
  unfold utf8_encode. intros E H N. destruct (Z.ltb_spec c 128).
  { apply ok_inj in E; subst b. now apply decode_ascii. }
  destruct (Z.ltb_spec c 2048).
  { apply ok_inj in E; subst b. cbn [app]. rewrite decode_cons. unfold seq8, utf8_2, cont.
    match goal with |- context [if ?x then _ else _] => replace x with false by lia end.
    match goal with |- context [if ?x then _ else _] => replace x with true by lia end. cbn [skipn]. f_equal. lia. }
  replace ((56448 <=? c) && (c <=? 56575)) with false in E by lia.
  destruct ((55296 <=? c) && (c <=? 57343)) eqn:Es; [discriminate|].
  destruct (Z.ltb_spec c 65536); apply ok_inj in E; subst b; cbn [app]; rewrite decode_cons; unfold seq8, utf8_2, utf8_3, utf8_4, cont.
  - match goal with |- context [if ?x then _ else _] => replace x with false by lia end.
    match goal with |- context [if ?x then _ else _] => replace x with false by lia end.
    match goal with |- context [if ?x then _ else _] => replace x with true by lia end. cbn [skipn]. f_equal. lia.
  - match goal with |- context [if ?x then _ else _] => replace x with false by lia end.
    match goal with |- context [if ?x then _ else _] => replace x with false by lia end.
    match goal with |- context [if ?x then _ else _] => replace x with false by lia end.
    match goal with |- context [if ?x then _ else _] => replace x with true by lia end. cbn [skipn]. f_equal. lia.
Qed.
Lemma seq8_range a s c k : 128 <= a < 256 -> bytes_ok s -> seq8 a s = Some (c, k) -> 128 <= c < 0x110000 /\ ~ (0xd800 <= c < 0xe000).
Proof.
  intros Ha B E. pose proof (seq8_high _ _ _ _ E) as (L & _). assert (U : c < 0x110000).
  { revert E. unfold seq8, utf8_2, utf8_3, utf8_4, cont. destruct s as [|b [|c' [|d s]]]; try easy;
    repeat match goal with |- context [if ?x then _ else _] => destruct x eqn:? end; try discriminate; intros [= <- <-]; lia. }
  split; [lia|]. pose proof (seq8_encode a s c k Ha B E) as X. unfold utf8_encode in X. intros N.
  destruct (Z.ltb_spec c 128); [lia|]. destruct (Z.ltb_spec c 2048); [lia|].
  destruct ((0xdc80 <=? c) && (c <=? 0xdcff)) eqn:E2.
  - apply ok_inj in X. assert (K : c - 0xdc00 = a /\ firstn k s = []) by (split; congruence). destruct K as (K1 & K2). clear -E K1 Ha L N.
    unfold seq8, utf8_2, utf8_3, utf8_4, cont in E. destruct s as [|b [|c' [|d s]]]; try easy;
    repeat match type of E with context [if ?x then _ else _] => destruct x eqn:? end; try discriminate; injection E as <- <-; lia.
  - destruct ((0xd800 <=? c) && (c <=? 0xdfff)) eqn:E3; [discriminate|]. lia.
Qed.
