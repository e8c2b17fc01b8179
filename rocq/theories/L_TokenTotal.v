(** The printer never gets stuck on the tokens of an error-free program. *)
From Verif Require Import M_Base L_Util M_Fold M_Token M_Str S_Str S_Token L_Token L_TokenSeq L_Str.
Open Scope Z_scope.

Definition noq (v : list Z) : Prop := Forall (fun c => c <> 34 /\ c <> 39) v.
Lemma span_all : forall f s a b, span f s = (a, b) -> Forall (fun c => f c = true) a.
Proof.
  induction s as [|c s IH]; intros a b E; cbn [span] in E; [injection E as <- <-; constructor|].
  destruct (f c) eqn:F; [|injection E as <- <-; constructor]. destruct (span f s) as [x y] eqn:G.
  injection E as <- <-. constructor; [exact F|]. eapply IH. reflexivity.
Qed.
Lemma noq_of : forall f (v : list Z), f 34 = false -> f 39 = false -> Forall (fun c => f c = true) v -> noq v.
Proof. intros f v H1 H2 H. eapply Forall_impl; [|exact H]. cbn. intros c Hc. split; intros ->; congruence. Qed.
Lemma ident_noq : forall lang, is_ident_char lang 34 = false /\ is_ident_char lang 39 = false.
Proof. intros [|]; split; reflexivity. Qed.
Lemma number_picotron_noq : forall h s p a b, number_picotron h p s = (a, b) -> noq a.
Proof.
  induction s as [|c s IH]; intros p a b E; cbn [number_picotron] in E; [injection E as <- <-; constructor|].
  destruct (_ || _ || _) eqn:F; [|injection E as <- <-; constructor]. destruct (number_picotron h c s) as [x y] eqn:G.
  injection E as <- <-. apply Forall_cons; [|eapply IH; eassumption]. split; intros ->; destruct h; discriminate F.
Qed.
Lemma scan_number_noq : forall lang s a b, scan_number lang s = (a, b) -> noq a.
Proof.
  intros [|] s a b E; cbn [scan_number] in E; [|eapply number_picotron_noq; eassumption].
  unfold number_pico8 in E.
  destruct (starts_with2 48 [98; 66] s) eqn:S1; [|destruct (starts_with2 48 [120; 88] s) eqn:S2].
  - apply starts_with2_cases in S1 as [d [t [-> M]]]. cbn [skipn firstn] in E.
    destruct (span _ t) as [x y] eqn:F. injection E as <- <-. apply span_all in F.
    apply Forall_cons; [lia|]. apply mem_true in M. apply Forall_cons; [cbn in M; lia|].
    eapply noq_of; [| |exact F]; reflexivity.
  - apply starts_with2_cases in S2 as [d [t [-> M]]]. cbn [skipn firstn] in E.
    destruct (span _ t) as [x y] eqn:F. injection E as <- <-. apply span_all in F.
    apply Forall_cons; [lia|]. apply mem_true in M. apply Forall_cons; [cbn in M; lia|].
    eapply noq_of; [| |exact F]; reflexivity.
  - apply span_all in E. eapply noq_of; [| |exact E]; reflexivity.
Qed.
Lemma accept_noq : forall c s a b, accept c s = (a, b) -> c <> 34 /\ c <> 39 -> noq a.
Proof. intros c s a b E H. apply accept_inv in E as [[-> _]|[-> _]]; [constructor|]. apply Forall_cons; [exact H|constructor]. Qed.
Lemma scan_punct_noq : forall lang c s a b, scan_punct lang c s = (a, b) -> c <> 34 /\ c <> 39 -> noq a.
Proof.
  intros lang c s a b E H. unfold scan_punct in E.
  repeat match type of E with
  | context [accept ?k ?u] => let A := fresh "A" in destruct (accept k u) as [? ?] eqn:A; apply accept_noq in A;
      [|first [exact H|destruct (c =? 60); lia|lia]]
  | (if ?x then _ else _) = _ => destruct x
  | (let '(_, _) := (if ?x then _ else _) in _) = _ => destruct x
  | (let '(_, _) := (_, _) in _) = _ => cbn beta iota zeta in E
  | match ?l with [] => _ | _ => _ end = _ => destruct l
  end.
  all: injection E as <- <-; unfold noq in *; 
    repeat match goal with A : Forall _ (_ :: _) |- _ => inversion_clear A end;
    repeat first [assumption|apply Forall_nil|apply Forall_app; split|apply Forall_cons].
Qed.

Lemma scan_string_end : forall q s m a b, scan_string q m s = SDone a b -> exists x, a = x ++ [q].
Proof.
  induction s as [|c s IH]; intros m a b E; [destruct m; discriminate E|]. cbn [scan_string] in E.
  assert (K : forall m', scons c (scan_string q m' s) = SDone a b -> exists x, a = x ++ [q]).
  { intros m' K. destruct (scan_string q m' s) as [a' b'| |] eqn:F; try discriminate K. injection K as <- <-.
    apply IH in F as [x ->]. exists (c :: x). reflexivity. }
  assert (T : (if c =? 10 then SUnterm [c] s else if c =? 92 then scons c (scan_string q MEscape s)
      else if c =? q then SDone [c] s else scons c (scan_string q MText s)) = SDone a b -> exists x, a = x ++ [q]).
  { destruct (c =? 10); [discriminate|]. destruct (c =? 92); [apply K|]. destruct (Z.eqb_spec c q) as [->|]; [|apply K].
    intros E1. injection E1 as <- <-. exists []. reflexivity. }
  destruct m; [exact (T E)|exact (K _ E)|]. destruct (mem c k_wspace); [exact (K _ E)|exact (T E)].
Qed.
Lemma round_kind : forall lang ch t ty v r, tok_round lang ch t = Round [Tok ty v] r ->
  (ty = TString /\ exists x q, v = x ++ [q] /\ (q = 34 \/ q = 39 \/ q = 93)) \/ (ty <> TString /\ noq v).
Proof.
  intros lang ch t ty v r E. unfold tok_round in E.
  destruct (mem ch k_wspace); [discriminate E|].
  destruct (is_dec_digit ch || _).
  { destruct (scan_number lang (ch :: t)) as [x y] eqn:F. injection E as <- <- <-. right. split; [discriminate|].
    eapply scan_number_noq; eassumption. }
  destruct (is_ident_char lang ch).
  { destruct (span (is_ident_char lang) (ch :: t)) as [x y] eqn:F. right. unfold ident_tok in E.
    assert (v = x) by congruence. subst v. split.
    - assert (ty = if is_keyword x then TKeyword else TIdent) as -> by congruence. destruct (is_keyword x); discriminate.
    - eapply noq_of; [| |eapply span_all; exact F]; apply ident_noq. }
  destruct ((ch =? 34) || (ch =? 39)) eqn:Q.
  { destruct (scan_string ch MText t) as [x y|x y|] eqn:F; try discriminate E. injection E as <- <- <-. left. split; [reflexivity|].
    apply scan_string_end in F as [z ->]. exists (ch :: z), ch. split; [reflexivity|]. lia. }
  destruct ((ch =? 91) && _).
  { destruct (scan_long (ch :: t)) as [x i y|y|y] eqn:F; try discriminate E. injection E as <- <- <-. left. split; [reflexivity|].
    apply scan_long_ok in F as [n [_ [-> _]]]. exists (91 :: repeat 61 n ++ 91 :: i ++ 93 :: repeat 61 n), 93.
    split; [|auto]. cbn. rewrite <- !app_assoc. cbn. rewrite <- !app_assoc. reflexivity. }
  destruct ((ch =? 45) && _); [destruct (scan_long (skipn 1 t)); discriminate E|].
  destruct ((ch =? 47) && _ && _); [discriminate E|].
  assert (Hc : ch <> 34 /\ ch <> 39) by lia.
  destruct (mem ch punct_chars) eqn:M.
  { destruct (scan_punct lang ch t) as [x y] eqn:F. injection E as <- <- <-. right. split; [discriminate|].
    apply Forall_cons; [exact Hc|]. eapply scan_punct_noq; eassumption. }
  destruct ((ch =? 33) && _); [|discriminate E].
  assert (ty = TPunct) as -> by congruence. assert (v = [33; 61]) as -> by congruence.
  right. split; [discriminate|]. apply Forall_cons; [lia|]. apply Forall_cons; [lia|constructor].
Qed.

Lemma hang_quote : forall n lang s, (length s <= n)%nat -> forall e, tokenize lang s = Err e -> ~ noq s.
Proof.
  induction n as [|n IH]; intros lang [|c t] Hn e E H; cbn in Hn; try lia; try discriminate E.
  rewrite tokenize_cons in E. destruct (tok_round lang c t) as [a r|] eqn:R.
  - destruct (tokenize lang r) as [b|e'] eqn:F; cbn [bind] in E; [discriminate E|].
    pose proof (round_len _ _ _ _ _ R) as Rl. apply round_suffix in R as [x ->].
    apply IH in F; [|lia]. apply F. unfold noq in *. inversion_clear H. apply Forall_app in H1. tauto.
  - unfold tok_round in R. assert (Hc : c <> 34 /\ c <> 39) by (inversion_clear H; assumption).
    replace ((c =? 34) || (c =? 39)) with false in R by lia.
    repeat match type of R with
    | (if ?x then _ else _) = _ => destruct x; try discriminate R
    | (let '(_, _) := ?x in _) = _ => destruct x; try discriminate R
    | match scan_long ?x with _ => _ end = _ => destruct (scan_long x); try discriminate R
    end.
Qed.
Lemma final_skip_last : forall s x q, final_skip s -> s = x ++ [q] -> q = 122 \/ space q.
Proof.
  intros s x q [y [w [-> Hw]]] E. destruct w as [|c w] using rev_ind.
  - left. change (y ++ [92; 122]) with (y ++ [92] ++ [122]) in E. rewrite app_assoc in E. apply app_inj_tail in E as [_ E]. congruence.
  - right. apply Forall_app in Hw as [_ Hw]. inversion_clear Hw.
    replace (y ++ 92 :: 122 :: w ++ [c]) with ((y ++ 92 :: 122 :: w) ++ [c]) in E by (rewrite <- app_assoc; reflexivity).
    apply app_inj_tail in E as [_ <-]. assumption.
Qed.

Lemma need_whitespace_total : forall lang p t, lexeme lang p -> lexeme lang t -> exists b, need_whitespace_between lang p t = Ok b.
Proof.
  intros lang [ty v|] [ty2 v2|] Hp Ht; try (destruct Hp; contradiction); try (destruct Ht; contradiction).
  unfold need_whitespace_between. cbn [tok_value].
  destruct (tokenize lang (v ++ v2)) as [ts|e] eqn:E; [cbn [bind]; eauto|]. exfalso.
  pose proof Ht as [_ Ht2]. cbn [tok_value] in Ht2.
  apply lexeme_round in Hp as [ch [x [-> R]]]. apply lexeme_round in Ht as [ch2 [x2 [-> R2]]].
  pose proof (round_kind _ _ _ _ _ _ R) as [[-> _]|[_ K]].
  - (* a string ends itself *)
    assert (O : tokenize lang ((ch :: x) ++ ch2 :: x2) = Ok (Tok TString (ch :: x) :: [Tok ty2 (ch2 :: x2)])); [|congruence].
    cbn [app]. rewrite tokenize_cons. rewrite app_nil_r in R.
    assert (R' : tok_round lang ch (x ++ ch2 :: x2) = Round [Tok TString (ch :: x)] (ch2 :: x2)).
    { revert R. unfold tok_round. destruct (mem ch k_wspace); [discriminate|].
      destruct (is_dec_digit ch) eqn:D.
      { cbn [orb]. destruct (scan_number lang (ch :: x)); discriminate. }
      cbn [orb].
      destruct ((ch =? 46) && next_is is_dec_digit x) eqn:D46; [destruct (scan_number lang (ch :: x)); discriminate|].
      destruct (is_ident_char lang ch).
      { destruct (span (is_ident_char lang) (ch :: x)) as [a b]. unfold ident_tok. destruct (is_keyword a); discriminate. }
      destruct ((ch =? 34) || (ch =? 39)) eqn:Q.
      { replace (ch =? 46) with false by lia. cbn [andb].
        destruct (scan_string ch MText x) as [a b| |] eqn:F; try discriminate. intros R. injection R as Ea Eb. subst a b.
        rewrite <- (app_nil_r x) in F at 1. rewrite (scan_string_ext _ _ _ _ (ch2 :: x2) F). reflexivity. }
      destruct ((ch =? 91) && next_is (fun c => mem c [61; 91]) x) eqn:B.
      { assert (ch = 91) by lia. subst ch. change (91 =? 46) with false. cbn [andb].
        change (91 =? 91) with true in *. cbn [andb] in B |- *.
        destruct x as [|c x]; [discriminate B|]. cbn [next_is app] in B |- *. rewrite B.
        destruct (scan_long (91 :: c :: x)) as [a i b|b|b] eqn:F; try discriminate. intros R. injection R as Ea Eb. subst a b.
        apply scan_long_ok in F as [n [E1 [E2 F]]].
        apply (find_sub_ext _ i [] (ch2 :: x2)) in F.
        assert (S2 : 91 :: c :: x ++ ch2 :: x2 = 91 :: repeat 61 n ++ 91 :: i ++ (93 :: repeat 61 n ++ [93]) ++ ch2 :: x2).
        { change (91 :: c :: x ++ ch2 :: x2) with ((91 :: c :: x) ++ ch2 :: x2). rewrite E2. cbn [app].
          rewrite <- !app_assoc. cbn [app]. rewrite <- !app_assoc. cbn [app]. rewrite <- !app_assoc. reflexivity. }
        rewrite S2, (scan_long_make n i (ch2 :: x2) F), <- E2. reflexivity. }
      destruct ((ch =? 45) && next_is (Z.eqb 45) x); [destruct (scan_long (skipn 1 x)); discriminate|].
      destruct ((ch =? 47) && is_pico8 lang && next_is (Z.eqb 47) x); [discriminate|].
      destruct (mem ch punct_chars); [destruct (scan_punct lang ch x); discriminate|].
      destruct ((ch =? 33) && next_is (Z.eqb 61) x); discriminate. }
    rewrite R', Ht2. reflexivity.
  - pose proof (round_kind _ _ _ _ _ _ R2) as [[-> [z [q [Ez Hq]]]]|[_ K2]].
    + pose proof (tokenize_hang _ _ _ (le_n _) _ E) as [_ F].
      apply (final_skip_last _ ((ch :: x) ++ z) q) in F; [unfold space in F; lia|]. rewrite Ez, app_assoc. reflexivity.
    + eapply hang_quote in E; [|apply le_n]. apply E. unfold noq in *. apply Forall_app. auto.
Qed.

Lemma output_loop_total : forall lang l prev nl, Forall (good_item lang) l ->
  match prev with Some p => lexeme lang p | None => True end -> exists out, output_loop lang prev nl l = Ok out.
Proof.
  induction l as [|x l IH]; intros prev nl Hl Hp; [eexists; reflexivity|]. inversion_clear Hl. cbn [output_loop].
  destruct prev as [p|].
  - destruct (o_glued x); [|destruct (_ || _ || _)]; cbn [bind].
    + destruct (IH (Some (o_tok x)) (nl || o_linebreak x) H0 H) as [out ->]. eexists. reflexivity.
    + destruct (IH (Some (o_tok x)) false H0 H) as [out ->]. eexists. reflexivity.
    + destruct (need_whitespace_total lang p (o_tok x) Hp H) as [b ->]. cbn [bind].
      destruct (IH (Some (o_tok x)) (nl || o_linebreak x) H0 H) as [out ->]. eexists. reflexivity.
  - cbn [bind]. destruct (IH (Some (o_tok x)) (nl || o_linebreak x) H0 H) as [out ->]. eexists. reflexivity.
Qed.

Lemma need_whitespace_of : forall lang p t, tokenize lang (tok_value p ++ tok_value t) = Ok [p; t] ->
  need_whitespace_between lang p t = Ok false.
Proof.
  intros lang p t E. unfold need_whitespace_between. rewrite E. cbn [bind].
  assert (R : forall t, tok_eqb t t = true).
  { intros [ty v|]; [|reflexivity]. cbn. rewrite zeqb_list_refl. destruct ty; reflexivity. }
  rewrite !R. reflexivity.
Qed.
Lemma printed_tokens : forall lang items, Forall (fun x => lexeme lang (o_tok x)) items -> glued_apart lang None items ->
  exists out, output_tokens lang items = Ok out /\ tokenize lang out = Ok (map o_tok items).
Proof.
  intros lang items H G. destruct (output_loop_total lang items None false H I) as [out E]. exists out. split; [exact E|].
  apply (output_loop_ok lang items None false out H); [|exact E].
  clear E H. revert G. generalize (@None tok). induction items as [|x l IH]; intros prev G; cbn; [exact I|].
  destruct G as [G1 G2]. split; [|apply IH; exact G2]. destruct prev as [p|]; [|exact I]. intros K. apply need_whitespace_of. apply G1. exact K.
Qed.
Lemma printed_source : forall lang src l items, tokenize_pos lang src = Ok l -> Forall (fun x => snd x <> TErr) l ->
  glued_adjacent None l items -> exists out, output_tokens lang items = Ok out /\ tokenize lang out = Ok (map snd l).
Proof.
  intros lang src l items E Hf H. destruct (glued_adjacent_ok lang src l [] items None E Hf I H) as [H1 _].
  destruct (output_loop_total lang items None false H1 I) as [out O]. exists out. split; [exact O|].
  eapply source_reprinted; eassumption.
Qed.
(** The space is only printed where it is needed. *)
Lemma space_needed : forall lang p t, lexeme lang p -> lexeme lang t ->
  exists b, need_whitespace_between lang p t = Ok b /\
    (b = false <-> tokenize lang (tok_value p ++ tok_value t) = Ok [p; t]).
Proof.
  intros lang p t Hp Ht. destruct (need_whitespace_total lang p t Hp Ht) as [b E]. exists b. split; [exact E|].
  split; [|intros K; apply need_whitespace_of in K; congruence].
  intros ->. apply no_ws_inv. exact E.
Qed.
