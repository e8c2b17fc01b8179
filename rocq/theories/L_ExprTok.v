(** The tokenizer only makes proper tokens. *)
From Coq Require Import String List ZArith Lia Bool.
From Verif Require Import M_Base L_Util M_Fold M_Token L_Token M_Expr S_Expr L_Expr.
Import ListNotations.
Open Scope Z_scope.

(** What the first characters of a word tell. *)
Definition odd (w : list Z) : Prop :=
  match w with
  | [] => True
  | a :: t => 48 <= a <= 57 \/ (a = 46 /\ exists b t', t = b :: t' /\ (48 <= b <= 57 \/ 97 <= b <= 102)) \/ a = 34 \/ a = 39 \/
      (a = 91 /\ exists b t', t = b :: t')
  end.
Lemma odd_plain w : w <> [] -> odd w -> plain_word w.
Proof.
  intros N Ha. destruct w as [|a t]; [easy|]. cbn [odd] in Ha.
  assert (Ne : forall w, In w (symbols ++ keywords) -> match w with
      | c :: w' => negb ((48 <=? c) && (c <=? 57)) && (negb (c =? 46) || match w' with b :: _ => b =? 46 | [] => true end)
                   && negb (c =? 34) && negb (c =? 39) && (negb (c =? 91) || match w' with [] => true | _ => false end) | [] => true end = true).
  { apply forallb_forall. vm_compute. reflexivity. }
  assert (No : ~ In (a :: t) (symbols ++ keywords)).
  { intros I. specialize (Ne _ I). cbn beta iota in Ne. destruct Ha as [Ha|[(-> & b & t' & -> & Hb')|[->|[->|(-> & b & t' & ->)]]]]; lia. }
  rewrite in_app_iff in No. split; [tauto|]. unfold is_keyword. destruct (existsb _ _) eqn:E; [|easy]. apply existsb_in in E. tauto.
Qed.
Lemma ident_plain lang c w : is_ident_char lang c = true -> is_keyword (c :: w) = false -> plain_word (c :: w).
Proof.
  intros C K. split; [|easy]. intros I.
  assert (H : forallb (fun w => match w with c :: _ => negb (is_ident_char lang c) || is_keyword w | [] => true end) symbols = true) by (destruct lang; vm_compute; reflexivity).
  rewrite forallb_forall in H. specialize (H _ I). cbn beta iota in H. rewrite C, K in H. discriminate H.
Qed.
Lemma punct_not_keyword c w : mem c (33 :: punct_chars) = true -> is_keyword (c :: w) = false.
Proof.
  intros C. destruct (is_keyword (c :: w)) eqn:E; [|easy]. unfold is_keyword in E. apply existsb_in in E.
  assert (H : forallb (fun w => match w with c :: _ => negb (mem c (33 :: punct_chars)) | [] => true end) keywords = true) by (vm_compute; reflexivity).
  rewrite forallb_forall in H. specialize (H _ E). cbn beta iota in H. rewrite C in H. discriminate H.
Qed.

Lemma number_head lang ch t a r : scan_number lang (ch :: t) = (a, r) -> is_dec_digit ch || ((ch =? 46) && next_is is_dec_digit t) = true ->
  a <> [] /\ odd a.
Proof.
  intros E H. pose proof (scan_number_app _ _ _ _ E) as Ea.
  assert (Two : exists x a', a = x :: a' /\ (ch = 46 -> a' <> [])).
  { destruct lang; cbn [scan_number] in E.
    - unfold number_pico8 in E. destruct (starts_with2 48 [98; 66] (ch :: t)) eqn:E1.
      { apply starts_with2_cases in E1 as (b & t' & Et & _). rewrite Et in E. cbn [skipn firstn] in E. destruct (span _ t') in E. injection E as <- _. exists 48, (b :: l). easy. }
      destruct (starts_with2 48 [120; 88] (ch :: t)) eqn:E2.
      { apply starts_with2_cases in E2 as (b & t' & Et & _). rewrite Et in E. cbn [skipn firstn] in E. destruct (span _ t') in E. injection E as <- _. exists 48, (b :: l). easy. }
      cbn [span] in E. destruct (is_dec_digit ch || (ch =? 46)) eqn:E3.
      2:{ apply orb_false_iff in E3 as (E3 & E4). rewrite E3, E4 in H. discriminate H. }
      destruct t as [|b t].
      + cbn [span] in E. injection E as <- _. exists ch, []. split; [easy|]. intros ->. discriminate H.
      + cbn [span] in E. destruct (is_dec_digit b || (b =? 46)) eqn:E4.
        * destruct (span _ t) in E. injection E as <- _. exists ch, (b :: l). easy.
        * injection E as <- _. exists ch, []. split; [easy|]. intros ->. cbn [next_is] in H. apply orb_false_iff in E4 as (E4 & _). rewrite E4 in H. discriminate H.
    - cbn [number_picotron] in E. destruct (is_ident_char Picotron ch || (ch =? 46) || _) eqn:E1.
      2:{ apply orb_false_iff in E1 as (E1 & _). apply orb_false_iff in E1 as (E1 & E2). rewrite E2 in H. unfold is_dec_digit in H. unfold is_ident_char in E1. lia. }
      destruct t as [|b t].
      + cbn [number_picotron] in E. injection E as <- _. exists ch, []. split; [easy|]. intros ->. discriminate H.
      + cbn [number_picotron] in E. destruct (is_ident_char Picotron b || (b =? 46) || _) eqn:E4.
        * destruct (number_picotron _ b t) in E. injection E as <- _. exists ch, (b :: l). easy.
        * injection E as <- _. exists ch, []. split; [easy|]. intros ->. cbn [next_is] in H. apply orb_false_iff in E4 as (E4 & _). apply orb_false_iff in E4 as (E4 & _).
          unfold is_dec_digit in H. unfold is_ident_char in E4. lia. }
  destruct Two as (x & a' & -> & Ta). split; [easy|]. cbn [app] in Ea. injection Ea as <- ->. cbn [odd].
  destruct (is_dec_digit ch) eqn:D; [left; unfold is_dec_digit in D; lia|]. cbn [orb] in H. apply andb_prop in H as (H1 & H2). assert (ch = 46) as -> by lia.
  specialize (Ta eq_refl). destruct a' as [|b a']; [easy|]. cbn [app next_is] in H2. right. left. split; [easy|]. exists b, a'. split; [easy|]. unfold is_dec_digit in H2. lia.
Qed.
Lemma round_proper lang ch t a r : tok_round lang ch t = Round a r -> Forall (fun x => x = TErr \/ proper x) a.
Proof.
  unfold tok_round. destruct (mem ch k_wspace); [intros [= <- _]; constructor|].
  destruct (is_dec_digit ch || ((ch =? 46) && next_is is_dec_digit t)) eqn:E1.
  { destruct (scan_number lang (ch :: t)) as (v, u) eqn:E. intros [= <- _]. destruct (number_head _ _ _ _ _ E E1). constructor; [right; now apply odd_plain|constructor]. }
  destruct (is_ident_char lang ch) eqn:E2.
  { cbn [span]. rewrite E2. destruct (span _ t) as (v, u). intros [= <- _]. constructor; [right|constructor]. unfold ident_tok.
    destruct (is_keyword (ch :: v)) eqn:K; [exact K|now apply (ident_plain lang)]. }
  destruct ((ch =? 34) || (ch =? 39)) eqn:E3.
  { assert (P : forall v, proper (Tok TString (ch :: v))) by (intros v; apply odd_plain; [easy|cbn [odd]; lia]).
    destruct (scan_string ch MText t); intros [= <- _]; repeat (apply Forall_cons; [first [left; reflexivity|right; apply P]|]); apply Forall_nil. }
  destruct ((ch =? 91) && next_is (fun c => mem c [61; 91]) t) eqn:E4.
  { destruct (scan_long (ch :: t)) as [v i u|u|u] eqn:E; intros [= <- _]; [|repeat (constructor; [now left|]); constructor..]. constructor; [right|constructor].
    destruct (scan_long_ok _ _ _ _ E) as (n & _ & Ev & _). apply odd_plain; rewrite ?Ev; [easy|]. cbn [odd]. do 4 right. split; [easy|].
    destruct n; cbn [repeat app]; eauto. }
  destruct ((ch =? 45) && next_is (Z.eqb 45) t); [destruct (scan_long _); intros [= <- _]; repeat constructor; auto|].
  destruct ((ch =? 47) && is_pico8 lang && next_is (Z.eqb 47) t); [intros [= <- _]; constructor|].
  destruct (mem ch punct_chars) eqn:E7.
  { destruct (scan_punct lang ch t) as (v, u). intros [= <- _]. constructor; [right|constructor]. apply punct_not_keyword. cbn [mem existsb]. unfold mem in E7. rewrite E7. apply orb_true_r. }
  destruct ((ch =? 33) && next_is (Z.eqb 61) t); intros [= <- _]; (constructor; [|constructor]); [right; reflexivity|now left].
Qed.
Lemma tokens_proper lang s ts : tokenize lang s = Ok ts -> ~ In TErr ts -> Forall proper ts.
Proof.
  unfold tokenize. generalize (length s) as n. intros n. revert s ts. induction n as [|n IH]; intros [|ch t] ts E N; cbn [tok_loop] in E; try discriminate E; try (injection E as <-; constructor).
  destruct (tok_round lang ch t) as [a r|] eqn:R; [|discriminate E]. destruct (tok_loop n lang r) as [b|] eqn:L; [|discriminate E]. injection E as <-.
  rewrite in_app_iff in N. apply Forall_app. split.
  - pose proof (round_proper _ _ _ _ _ R) as F. rewrite Forall_forall in *. intros x I. destruct (F x I) as [->|P]; [tauto|easy].
  - apply (IH r b L). tauto.
Qed.
