(** Templates from arguments. *)
From Coq Require Import List Arith.
From Verif Require Import M_Base L_Util M_Compress M_Fold M_Num M_Token M_Str M_Text M_Split S_Split L_Split L_Split2.
Import ListNotations.
Open Scope Z_scope.

(** as [sound_ty], with any separator *)
Inductive ok_ty : ty -> Prop :=
| ok_plain k : ok_ty (TPlain k)
| ok_split sep types plural : Forall ok_ty types -> plural_ok types plural -> ok_ty (TSplit sep types plural).
Lemma ok_sound t : ok_ty t -> ~ In [] (separators t) -> sound_ty t.
Proof.
  induction t as [k|sep types plural IH] using ty_induct; intros O N; [constructor|]. inversion_clear O as [|? ? ? F P]. cbn [separators] in N.
  constructor; [intros ->; apply N; now left| |exact P]. apply Forall_forall. intros t I. rewrite Forall_forall in IH, F. apply IH; [exact I|now apply F|].
  intros In'. apply N. right. apply in_flat_map. eauto.
Qed.

Lemma add_word_ok w split split' : add_word w split = Ok split' -> Forall ok_ty split -> Forall ok_ty split' /\ split' <> [] /\ exists x, split' = split ++ x.
Proof.
  unfold add_word. assert (A : forall k, Forall ok_ty split -> Forall ok_ty (split ++ [TPlain k]) /\ split ++ [TPlain k] <> [] /\ exists x, split ++ [TPlain k] = split ++ x).
  { intros k F. split; [apply Forall_app; split; [exact F|repeat constructor]|]. split; [now destruct split|eauto]. }
  destruct (zeqb_list w _); [intros E; apply Ok_inj in E; subst; auto|]. destruct (zeqb_list w _); [intros E; apply Ok_inj in E; subst; auto|].
  destruct (_ || _); [intros E; apply Ok_inj in E; subst; auto|]. destruct w; [|discriminate]. destruct (rev split) as [|t r] eqn:Er; [discriminate|]. destruct (is_split t); [|discriminate].
  intros E F. apply Ok_inj in E. subst split'. split; [exact F|]. split; [intros ->; discriminate Er|]. exists []. symmetry. apply app_nil_r.
Qed.
Lemma plural_grow {A} (l x : list A) pl : plural_ok l pl -> plural_ok (l ++ x) pl.
Proof. destruct pl as [(b, e)|]; cbn; [rewrite app_length; lia|easy]. Qed.
Lemma add_plural_ok split pl pl' : split <> [] -> plural_ok split pl -> add_plural split pl = Ok pl' -> plural_ok split pl'.
Proof.
  intros N P E. unfold add_plural in E. destruct split as [|t split]; [easy|]. cbn [length] in E. destruct pl as [(b, e)|].
  - destruct (Nat.eqb_spec e (S (length split) - 1)); [|discriminate E]. apply Ok_inj in E. subst pl'. cbn in *. lia.
  - apply Ok_inj in E. subst pl'. cbn. lia.
Qed.
Section Args.
Context (isalpha : Z -> bool) (lang : language).
Local Notation rec := (parse_rec isalpha lang).
Lemma rec_ok : forall fuel deep s split sep ex pl t r, rec fuel deep s split sep ex pl = Ok (t, r) -> Forall ok_ty split -> plural_ok split pl -> ok_ty t /\ is_split t = true.
Proof.
  induction fuel as [|fuel IH]; intros deep s split sep ex pl t r E F P; cbn [parse_rec] in E; [discriminate E|].
  assert (Fin : forall s', match sep with None => Err ECheck | Some sep => Ok (TSplit sep split pl, s') end = Ok (t, r) -> ok_ty t /\ is_split t = true).
  { intros s' Q. destruct sep as [sp|]; [|discriminate Q]. apply Ok_inj in Q. injection Q as <- <-. split; [now constructor|reflexivity]. }
  destruct s as [|ch s]; [destruct deep; [discriminate E|eauto]|].
  destruct (ch =? 0); [destruct deep; [discriminate E|eauto]|]. destruct (ch =? 41); [destruct deep; [eauto|discriminate E]|].
  destruct (ch =? 40).
  - destruct ex; [discriminate E|]. destruct (rec fuel true s [] None false None) as [(t1, s1)|] eqn:E1; [|discriminate E]. cbn [bind] in E.
    destruct (IH _ _ _ _ _ _ _ _ E1 (Forall_nil ok_ty) I) as (O1 & _). eapply IH; [exact E| |now apply plural_grow]. apply Forall_app. split; [exact F|now constructor].
  - destruct (isalpha ch).
    + destruct (take_alpha isalpha s) as (w, s1). set (sg := if ends_with [115] (ch :: w) then removelast (ch :: w) else ch :: w) in E. clearbody sg.
      destruct (add_word sg split) as [sp|] eqn:Ew; [|discriminate E]. cbn [bind] in E. destruct (add_word_ok _ _ _ Ew F) as (F' & N & x & ->).
      destruct (if ends_with [115] (ch :: w) then add_plural (split ++ x) pl else Ok pl) as [pl'|] eqn:Epl; [|discriminate E]. cbn [bind] in E.
      destruct (ex && _); [discriminate E|]. eapply IH; [exact E|exact F'|]. destruct (ends_with [115] (ch :: w)).
      * eapply add_plural_ok; [exact N| |exact Epl]. now apply plural_grow.
      * apply Ok_inj in Epl. subst pl'. now apply plural_grow.
    + destruct (separator lang ch s) as [(c, s1)|]; [|discriminate E]. cbn [bind] in E.
      destruct (match sep with None => Ok c | Some sep0 => if zeqb_list sep0 c then Ok sep0 else Err ECheck end) as [sp|]; [|discriminate E]. cbn [bind] in E.
      destruct (negb ex); [discriminate E|]. eapply IH; eauto.
Qed.

(** ** It ends *)
Lemma span_max_len f n : forall s, (length (snd (span_max n f s)) <= length s)%nat.
Proof. induction n as [|n IH]; intros [|c s]; cbn [span_max]; try (cbn; lia). destruct (f c); [|cbn; lia]. specialize (IH s). destruct (span_max n f s). cbn in *. lia. Qed.
Lemma skip_wspace_len s r : skip_wspace s = Ok r -> (length r <= length s)%nat.
Proof. induction s as [|c s IH]; cbn [skip_wspace]; [discriminate|]. destruct (mem c k_wspace); [intros E; apply IH in E; cbn; lia|]. intros E. apply Ok_inj in E. subst. lia. Qed.
Lemma ext_ends v : v < 0x80000000 -> ext_unicode_to_lang_str lang v <> Err EFuel.
Proof.
  intros V. unfold ext_unicode_to_lang_str. destruct (Z.ltb_spec v 0x80); [discriminate|].
  cbn [ext_unicode_loop]. rewrite !Z.shiftr_div_pow2 by lia.
  repeat match goal with |- context [?a <=? ?b] => let Q := fresh "Q" in destruct (Z.leb_spec a b) as [Q|Q]; [|discriminate] end.
  exfalso. match goal with Q : 64 / 2 ^ (0 + 1 + 1 + 1 + 1 + 1) <= ?x |- _ => revert Q end.
  change (64 / 2 ^ (0 + 1 + 1 + 1 + 1 + 1)) with 2. change (2 ^ 6) with 64. rewrite !Z.div_div by lia. intros K. cbn in K. clear - H K V. Z.div_mod_to_equations. lia.
Qed.
Lemma find_len p s a b : find_sub p s = Some (a, b) -> (length b <= length s)%nat.
Proof. intros E. apply find_sub_some in E as (-> & _). rewrite !app_length. lia. Qed.
Lemma escape_ends s : parse_char_escape lang s <> Err EFuel /\ forall a r, parse_char_escape lang s = Ok (a, r) -> (length r <= length s)%nat.
Proof.
  unfold parse_char_escape. destruct s as [|esc t]; [split; [discriminate|intros; discriminate]|].
  assert (Q : forall (x r' : list Z) , (length r' <= length t)%nat -> Ok (x, r') <> Err EFuel /\ forall a r, Ok (x, r') = Ok (a, r) -> (length r <= length (esc :: t))%nat).
  { intros x r' L. split; [discriminate|]. intros a r E. injection E as <- <-. cbn. lia. }
  destruct (assoc esc k_char_escapes); [apply Q; lia|]. destruct (esc =? 122).
  { destruct (skip_wspace t) as [r|e] eqn:E; cbn [bind]; [apply Q; now apply skip_wspace_len|].
    split; [|intros; discriminate]. intros Q'. injection Q' as ->. clear -E. induction t as [|c t IH]; cbn [skip_wspace] in E; [discriminate E|]. destruct (mem c k_wspace); [auto|discriminate E]. }
  destruct (esc =? 120). { destruct (maybe_int _ _); [apply Q; rewrite skipn_length; lia|split; [discriminate|intros; discriminate]]. }
  destruct (is_dec_digit esc).
  { pose proof (span_max_len is_dec_digit 2 t) as L. destruct (span_max 2 is_dec_digit t) as (d, r). cbn in L. destruct (maybe_int _ _) as [v|]; [|split; [discriminate|intros; discriminate]].
    destruct (256 <=? v); [split; [discriminate|intros; discriminate]|now apply Q]. }
  destruct (_ && _); [|split; [discriminate|intros; discriminate]]. destruct t as [|c t]; [split; [discriminate|intros; discriminate]|].
  assert (D : @Err (list Z * list Z) ECheck <> Err EFuel /\ forall a r : list Z, @Err (list Z * list Z) ECheck = Ok (a, r) -> (length r <= length (esc :: c :: t))%nat) by (split; [discriminate|intros; discriminate]).
  destruct (Z.eq_dec c 123) as [->|Nc].
  - destruct (find_sub [125] t) as [(d, r)|] eqn:Ef; [|exact D]. destruct (maybe_int k_digits16 d) as [v|]; [|exact D].
    destruct (Z.leb_spec 0x80000000 v) as [|Lv]; [exact D|]. pose proof (ext_ends v Lv) as Ne.
    destruct (ext_unicode_to_lang_str lang v) as [u|e]; cbn [bind]; [apply Q; apply find_len in Ef; cbn; lia|]. split; [congruence|intros; discriminate].
  - destruct c as [|p|p]; try exact D. repeat (destruct p as [p|p|]; try exact D). now elim Nc.
Qed.
Lemma separator_ends ch s : separator lang ch s <> Err EFuel /\ forall a r, separator lang ch s = Ok (a, r) -> (length r <= length s)%nat.
Proof.
  unfold separator.
  assert (Q : forall (x r' : list Z) , (length r' <= length s)%nat -> Ok (x, r') <> Err EFuel /\ forall a r, Ok (x, r') = Ok (a, r) -> (length r <= length s)%nat).
  { intros x r' L. split; [discriminate|]. intros a r E. injection E as <- <-. lia. }
  destruct (ch =? 92); [|apply Q; lia]. destruct s as [|c s]; [apply Q; cbn; lia|].
  destruct (Z.eq_dec c 40) as [->|N1]; [apply Q; cbn; lia|]. destruct (Z.eq_dec c 41) as [->|N2]; [apply Q; cbn; lia|].
  destruct (Z.eq_dec c 119) as [->|N3]; [destruct s; apply Q; cbn; lia|].
  pose proof (escape_ends (c :: s)) as H. destruct c as [|p|p]; try exact H. repeat (destruct p as [p|p|]; try exact H; try lia).
Qed.
Lemma take_alpha_len s : (length (snd (take_alpha isalpha s)) <= length s)%nat.
Proof. induction s as [|c s IH]; [cbn; lia|]. cbn [take_alpha]. destruct (isalpha c); [|cbn; lia]. destruct (take_alpha isalpha s). cbn in *. lia. Qed.
Lemma rec_ends : forall fuel deep s split sep ex pl, (length s < fuel)%nat -> rec fuel deep s split sep ex pl <> Err EFuel /\
  forall t r, rec fuel deep s split sep ex pl = Ok (t, r) -> (length r <= length s)%nat.
Proof.
  induction fuel as [|fuel IH]; intros deep s split sep ex pl L; [lia|]. cbn [parse_rec].
  assert (D : @Err (ty * list Z) ECheck <> Err EFuel /\ forall (t : ty) (r : list Z), @Err (ty * list Z) ECheck = Ok (t, r) -> (length r <= length s)%nat) by (split; [discriminate|intros; discriminate]).
  assert (Fin : forall s' : list Z, (length s' <= length s)%nat -> match sep with None => Err ECheck | Some sep => Ok (TSplit sep split pl, s') end <> Err EFuel /\
    forall t r, match sep with None => Err ECheck | Some sep => Ok (TSplit sep split pl, s') end = Ok (t, r) -> (length r <= length s)%nat).
  { intros s' L'. destruct sep; [|exact D]. split; [discriminate|]. intros t r E. apply Ok_inj in E. injection E as <- <-. exact L'. }
  destruct s as [|ch s]; [destruct deep; [exact D|apply Fin; lia]|]. cbn [length] in L.
  destruct (ch =? 0); [destruct deep; [exact D|apply Fin; cbn; lia]|]. destruct (ch =? 41); [destruct deep; [apply Fin; cbn; lia|exact D]|].
  destruct (ch =? 40).
  - destruct ex; [exact D|]. destruct (IH true s [] None false None ltac:(lia)) as (N1 & L1). destruct (rec fuel true s [] None false None) as [(t1, s1)|e]; cbn [bind].
    + specialize (L1 _ _ eq_refl). destruct (IH deep s1 (split ++ [t1]) sep true pl ltac:(lia)) as (N2 & L2). split; [exact N2|]. intros t r E. apply L2 in E. cbn. lia.
    + split; [congruence|intros; discriminate].
  - destruct (isalpha ch).
    + pose proof (take_alpha_len s) as Lt. destruct (take_alpha isalpha s) as (w, s1). cbn in Lt. set (sg := if ends_with [115] (ch :: w) then removelast (ch :: w) else ch :: w). clearbody sg.
      assert (Nw : add_word sg split <> Err EFuel).
      { unfold add_word. destruct (zeqb_list sg _); [discriminate|]. destruct (zeqb_list sg _); [discriminate|]. destruct (_ || _); [discriminate|]. destruct sg; [|discriminate]. destruct (rev split); [discriminate|]. destruct (is_split _); discriminate. }
      destruct (add_word sg split) as [sp|]; cbn [bind]; [|split; [congruence|intros; discriminate]].
      assert (Np : (if ends_with [115] (ch :: w) then add_plural sp pl else Ok pl) <> Err EFuel).
      { destruct (ends_with _ _); [|discriminate]. unfold add_plural. destruct pl as [(b, e)|]; [destruct (_ =? _)%nat|]; discriminate. }
      destruct (if ends_with [115] (ch :: w) then add_plural sp pl else Ok pl) as [pl'|]; cbn [bind]; [|split; [congruence|intros; discriminate]].
      destruct (ex && _); [exact D|]. destruct (IH deep s1 sp sep true pl' ltac:(lia)) as (N2 & L2). split; [exact N2|]. intros t r E. apply L2 in E. cbn. lia.
    + destruct (separator_ends ch s) as (Ns & Ls). destruct (separator lang ch s) as [(c, s1)|]; cbn [bind]; [|split; [congruence|intros; discriminate]]. specialize (Ls _ _ eq_refl).
      destruct (match sep with None => Ok c | Some sep0 => if zeqb_list sep0 c then Ok sep0 else Err ECheck end) as [sp|e] eqn:Es; cbn [bind].
      * destruct (negb ex); [exact D|]. destruct (IH deep s1 split (Some sp) false pl ltac:(lia)) as (N2 & L2). split; [exact N2|]. intros t r E. apply L2 in E. cbn. lia.
      * destruct sep as [sp|]; [|discriminate Es]. destruct (zeqb_list sp c); [discriminate Es|]. injection Es as <-. exact D.
Qed.
End Args.
