(** Token sequences: printing them with as little whitespace as possible keeps them. *)
From Verif Require Import M_Base L_Util M_Fold M_Token S_Str S_Token L_Token.
Open Scope Z_scope.

Definition total (l : list tok) : nat := length (concat (map tok_value l)).
Lemma total_app : forall a b, total (a ++ b) = (total a + total b)%nat.
Proof. intros. unfold total. rewrite map_app, concat_app, app_length. reflexivity. Qed.

(** The tokens a round may add. *)
Lemma round_shape : forall lang ch t a r, tok_round lang ch t = Round a r ->
  a = [] \/ (exists ty v, a = [Tok ty v]) \/ (exists b, a = TErr :: b /\ (total b + length r <= S (length t))%nat).
Proof.
  intros lang ch t a r E. pose proof (round_len _ _ _ _ _ E) as Hl. unfold tok_round in E.
  destruct (mem ch k_wspace); [injection E as <- <-; auto|].
  destruct (is_dec_digit ch || ((ch =? 46) && next_is is_dec_digit t)).
  { destruct (scan_number lang (ch :: t)). injection E as <- <-. eauto. }
  destruct (is_ident_char lang ch).
  { destruct (span (is_ident_char lang) (ch :: t)). injection E as <- <-. unfold ident_tok. eauto. }
  destruct ((ch =? 34) || (ch =? 39)).
  { destruct (scan_string ch MText t) as [x y|x y|] eqn:F; [| |discriminate E]; injection E as <- <-; [eauto|].
    right. right. exists [Tok TString (ch :: x)]. split; [reflexivity|].
    assert (t = x ++ y) by (eapply scan_string_app; eauto). subst. unfold total. cbn. rewrite app_nil_r, app_length. lia. }
  destruct ((ch =? 91) && next_is (fun c => mem c [61; 91]) t).
  { destruct (scan_long (ch :: t)); injection E as <- <-; [eauto| |].
    - right. right. exists [TErr]. cbn. split; [reflexivity|lia].
    - right. right. exists []. cbn. split; [reflexivity|lia]. }
  destruct ((ch =? 45) && next_is (Z.eqb 45) t).
  { assert (Ha : a = [] \/ a = [TErr]) by (destruct (scan_long (skipn 1 t)); injection E as <- <-; auto).
    clear E. destruct Ha as [->| ->]; [auto|]. right. right. exists []. cbn. split; [reflexivity|lia]. }
  destruct ((ch =? 47) && is_pico8 lang && next_is (Z.eqb 47) t); [injection E as <- <-; auto|].
  destruct (mem ch punct_chars).
  { destruct (scan_punct lang ch t). injection E as <- <-. eauto. }
  destruct ((ch =? 33) && next_is (Z.eqb 61) t); injection E as <- <-; [eauto|].
  right. right. exists []. cbn. split; [reflexivity|lia].
Qed.
Lemma round_total : forall lang ch t a r, tok_round lang ch t = Round a r -> (total a + length r <= S (length t))%nat.
Proof.
  intros lang ch t a r E. pose proof (round_len _ _ _ _ _ E) as Hl.
  apply round_shape in E as H. destruct H as [->|[[ty [v ->]]|[b [-> H]]]].
  - cbn. lia.
  - apply round_tok in E as [x [-> [-> _]]]. unfold total. cbn. rewrite app_nil_r, app_length. lia.
  - exact H.
Qed.
Lemma tokenize_total : forall n lang s ts, (length s <= n)%nat -> tokenize lang s = Ok ts -> (total ts <= length s)%nat.
Proof.
  induction n as [|n IH]; intros lang [|c t] ts Hn E; cbn in Hn; try lia; try (injection E as <-; cbn; lia).
  rewrite tokenize_cons in E. destruct (tok_round lang c t) as [a r|] eqn:R; [|discriminate E].
  destruct (tokenize lang r) as [b|] eqn:F; [|discriminate E]. injection E as <-.
  apply round_len in R as R1. apply round_total in R. apply IH in F; [|lia]. rewrite total_app. cbn. lia.
Qed.

(** When the text consists of exactly these tokens' texts, the first round finds the first. *)
Lemma tight_round : forall lang s ty v ts, tokenize lang s = Ok (Tok ty v :: ts) -> total (Tok ty v :: ts) = length s ->
  exists ch x r, v = ch :: x /\ s = v ++ r /\ tokenize lang r = Ok ts /\ tok_round lang ch (x ++ r) = Round [Tok ty v] r.
Proof.
  intros lang [|c t] ty v ts E Ht; [discriminate E|]. rewrite tokenize_cons in E.
  destruct (tok_round lang c t) as [a r|] eqn:R; [|discriminate E].
  destruct (tokenize lang r) as [b|] eqn:F; [|discriminate E]. apply Ok_inj in E.
  pose proof (round_len _ _ _ _ _ R) as Rl.
  apply round_shape in R as S. destruct S as [->|[[ty' [v' ->]]|[b' [-> _]]]]; cbn [app] in E; [| |discriminate E].
  - apply (tokenize_total (length r)) in F; [|lia]. rewrite E, Ht in F. cbn in F. lia.
  - injection E as -> -> ->. pose proof R as R0. apply round_tok in R as [x [-> [-> _]]].
    exists c, x, r. repeat split; assumption.
Qed.

Lemma tok_eqb_eq : forall a b, tok_eqb a b = true -> a = b.
Proof.
  intros [ta va|] [tb vb|] H; try discriminate H; [|reflexivity]. cbn in H. apply andb_prop in H as [H1 H2].
  apply zeqb_list_true in H2. subst. destruct ta, tb; try discriminate H1; reflexivity.
Qed.
Lemma tok_eqb_refl : forall a, tok_eqb a a = true.
Proof. intros [t v|]; [|reflexivity]. cbn. rewrite zeqb_list_refl. destruct t; reflexivity. Qed.

Lemma no_ws_inv : forall lang t1 t2, need_whitespace_between lang t1 t2 = Ok false ->
  tokenize lang (tok_value t1 ++ tok_value t2) = Ok [t1; t2].
Proof.
  intros lang t1 t2 H. unfold need_whitespace_between in H.
  destruct (tokenize lang (tok_value t1 ++ tok_value t2)) as [ts|]; [|discriminate H]. cbn in H.
  destruct ts as [|a [|b [|c ts]]]; try discriminate H. apply Ok_inj in H. apply negb_false_iff in H.
  apply andb_prop in H as [H1 H2]. apply tok_eqb_eq in H1. apply tok_eqb_eq in H2. subst. reflexivity.
Qed.


(** A token followed by something that ends it. *)
Lemma tokenize_step : forall lang ty v r r', (exists ch x, v = ch :: x /\ tok_round lang ch (x ++ r) = Round [Tok ty v] r) ->
  head_ok r r' -> forall ts, tokenize lang r' = Ok ts -> tokenize lang (v ++ r') = Ok (Tok ty v :: ts).
Proof.
  intros lang ty v r r' [ch [x [-> R]]] H ts E. apply round_tok in R as [x' [Ex [Er K]]].
  injection Ex as <-. cbn [app]. rewrite tokenize_cons, (K r' H), E. reflexivity.
Qed.
Lemma lexeme_round : forall lang ty v, lexeme lang (Tok ty v) ->
  exists ch x, v = ch :: x /\ tok_round lang ch (x ++ []) = Round [Tok ty v] [].
Proof.
  intros lang ty v [_ H]. apply tight_round in H as [ch [x [r [-> [H1 [H2 H3]]]]]].
  - assert (r = []) by (destruct r; [reflexivity|]; apply (f_equal (@length Z)) in H1; rewrite app_length in H1; cbn in H1; lia).
    subst r. eauto.
  - unfold total. cbn. rewrite app_nil_r. reflexivity.
Qed.
Lemma no_ws_round : forall lang t1 t2, need_whitespace_between lang t1 t2 = Ok false -> t1 <> TErr ->
  exists ty v ch x, t1 = Tok ty v /\ v = ch :: x /\ tok_round lang ch (x ++ tok_value t2) = Round [Tok ty v] (tok_value t2) /\
    tokenize lang (tok_value t2) = Ok [t2].
Proof.
  intros lang [ty v|] t2 H Hn; [|contradiction]. apply no_ws_inv in H.
  apply tight_round in H as [ch [x [r [-> [H1 [H2 H3]]]]]].
  - apply app_inv_head in H1. cbn in H1. subst r. exists ty, (ch :: x), ch, x. auto.
  - unfold total. cbn. rewrite app_nil_r. reflexivity.
Qed.
Lemma lexeme_value : forall lang t, lexeme lang t -> tok_value t <> [].
Proof. intros lang [ty v|] H; [|destruct H; contradiction]. apply lexeme_round in H as [ch [x [-> _]]]. discriminate. Qed.

(** Printing *)
Definition good_item (lang : language) (x : out_item) : Prop := lexeme lang (o_tok x).
Fixpoint glued_ok (lang : language) (prev : option tok) (l : list out_item) : Prop :=
  match l with
  | [] => True
  | x :: l =>
      (match prev with Some p => o_glued x = true -> need_whitespace_between lang p (o_tok x) = Ok false | None => True end)
      /\ glued_ok lang (Some (o_tok x)) l
  end.

Lemma output_loop_ok : forall lang l prev nl out, Forall (good_item lang) l -> glued_ok lang prev l ->
  output_loop lang prev nl l = Ok out ->
  match prev with
  | None => tokenize lang out = Ok (map o_tok l)
  | Some p => lexeme lang p -> tokenize lang (tok_value p ++ out) = Ok (p :: map o_tok l)
  end.
Proof.
  induction l as [|x l IH]; intros prev nl out Hl Hg E.
  - injection E as <-. destruct prev as [p|]; [|reflexivity]. intros [_ H]. rewrite app_nil_r. exact H.
  - inversion_clear Hl. destruct Hg as [G Hg]. cbn [output_loop] in E.
    destruct (match prev with None => _ | Some p => _ end) as [[sep nl']|] eqn:S; [|discriminate E]. cbn in E.
    destruct (output_loop lang (Some (o_tok x)) nl' l) as [rest|] eqn:R; [|discriminate E]. apply Ok_inj in E. subst out.
    pose proof (IH (Some (o_tok x)) nl' rest H0 Hg R H) as K. clear IH R. cbn in K.
    destruct prev as [p|].
    + intros Hp. cbn [map].
      assert (C : sep = [10] \/ sep = [32] \/ sep = [] /\ need_whitespace_between lang p (o_tok x) = Ok false).
      { destruct (o_glued x); [injection S as <- <-; right; right; auto|].
        destruct ((nl || o_linebreak x) || o_newline x); [injection S as <- <-; auto|].
        destruct (need_whitespace_between lang p (o_tok x)) as [[|]|] eqn:W; cbn in S; try discriminate S; injection S as <- <-; auto. }
      destruct C as [C|[C|[C W]]].
      1, 2: subst sep; destruct p as [ty v|]; [|destruct Hp; contradiction];
        apply lexeme_round in Hp as Hr; cbn [tok_value]; apply (tokenize_step lang ty v [] _ Hr);
        [left; reflexivity|]; cbn [app]; rewrite tokenize_cons; cbn -[tokenize]; rewrite K; reflexivity.
      subst sep. cbn [app]. apply no_ws_round in W as [ty [v [ch [y [-> [-> [R _]]]]]]]; [|apply Hp].
      cbn [tok_value]. apply (tokenize_step lang ty _ (tok_value (o_tok x))); [eauto| |exact K].
      pose proof (lexeme_value _ _ H) as V. destruct (tok_value (o_tok x)) as [|c w]; [contradiction|]. right. reflexivity.
    + injection S as <- <-. cbn [app map]. exact K.
Qed.

(** Tokens of an error-free source *)
Lemma pos_map : forall n lang i s, match tok_loop_pos n lang i s with Ok l => tok_loop n lang s = Ok (map snd l) | Err e => tok_loop n lang s = Err e end.
Proof.
  induction n as [|n IH]; intros lang i [|c t]; cbn [tok_loop_pos tok_loop]; try reflexivity.
  destruct (tok_round lang c t) as [a r|]; [|reflexivity].
  specialize (IH lang (i + (length (c :: t) - length r))%nat r).
  destruct (tok_loop_pos n lang _ r) as [b|e]; rewrite IH; cbn; [|reflexivity].
  rewrite map_app, map_map. cbn. rewrite map_id. reflexivity.
Qed.

(** What follows a token in the source. *)
Lemma pos_round : forall n lang i s l1 p ty v l2, tok_loop_pos n lang i s = Ok (l1 ++ (p, Tok ty v) :: l2) ->
  Forall (fun x => snd x <> TErr) (l1 ++ (p, Tok ty v) :: l2) ->
  exists ch x r m k, v = ch :: x /\ tok_round lang ch (x ++ r) = Round [Tok ty v] r /\ m = (p + length v)%nat /\
    tok_loop_pos k lang m r = Ok l2 /\ (i <= p)%nat.
Proof.
  induction n as [|n IH]; intros lang i [|c t] l1 p ty v l2 E Hf; cbn [tok_loop_pos] in E;
    try discriminate E; try (destruct l1; discriminate E).
  destruct (tok_round lang c t) as [a r|] eqn:R; [|discriminate E].
  destruct (tok_loop_pos n lang _ r) as [b|] eqn:F; [|discriminate E]. cbn [bind] in E. apply Ok_inj in E.
  pose proof (round_len _ _ _ _ _ R) as Rl.
  apply round_shape in R as S. destruct S as [->|[[ty' [v' ->]]|[b' [-> _]]]]; cbn [map app] in E.
  - subst b. apply IH in F as [ch [x [r' [m [k [H1 [H2 [H3 [H4 H5]]]]]]]]]; [|exact Hf]. exists ch, x, r', m, k. repeat split; auto. lia.
  - destruct l1 as [|y l1]; cbn [app] in E.
    + injection E as -> -> -> ->. pose proof R as R0. apply round_tok in R as [x [-> [-> _]]].
      exists c, x, r, (p + length (c :: x))%nat, n. repeat split; [exact R0| |lia].
      rewrite <- F. f_equal. cbn [length]. rewrite app_length. lia.
    + injection E as _ ->. cbn [app] in Hf. inversion_clear Hf.
      apply IH in F as [ch [x [r' [m [k [H1 [H2 [H3 [H4 H5]]]]]]]]]; [|assumption]. exists ch, x, r', m, k. repeat split; auto. lia.
  - exfalso. rewrite <- E in Hf. inversion_clear Hf. apply H. reflexivity.
Qed.

Lemma source_lexeme : forall lang s l1 p t l2, tokenize_pos lang s = Ok (l1 ++ (p, t) :: l2) ->
  Forall (fun x => snd x <> TErr) (l1 ++ (p, t) :: l2) -> lexeme lang t.
Proof.
  intros lang s l1 p t l2 E Hf.
  assert (Ht : t <> TErr) by (rewrite Forall_app in Hf; destruct Hf as [_ Hf]; inversion_clear Hf; assumption).
  destruct t as [ty v|]; [|contradiction]. split; [exact Ht|].
  apply pos_round in E as [ch [x [r [m [k [-> [R _]]]]]]]; [|exact Hf]. cbn [tok_value].
  pose proof (tokenize_step lang ty (ch :: x) r [] ltac:(eauto) I [] eq_refl) as K. rewrite app_nil_r in K. exact K.
Qed.

Lemma source_adjacent : forall lang s l1 p t1 q t2 l2, tokenize_pos lang s = Ok (l1 ++ (p, t1) :: (q, t2) :: l2) ->
  Forall (fun x => snd x <> TErr) (l1 ++ (p, t1) :: (q, t2) :: l2) -> q = (p + length (tok_value t1))%nat ->
  need_whitespace_between lang t1 t2 = Ok false.
Proof.
  intros lang s l1 p t1 q t2 l2 E Hf Hq.
  assert (Hx : t1 <> TErr /\ t2 <> TErr).
  { rewrite Forall_app in Hf. destruct Hf as [_ Hf]. inversion_clear Hf. inversion_clear H0. auto. }
  destruct Hx as [Ht1 Ht2]. destruct t1 as [ty1 v1|]; [|contradiction]. destruct t2 as [ty2 v2|]; [|contradiction].
  apply pos_round in E as [ch [x [r [m [k [-> [R [Hm [E2 _]]]]]]]]]; [|exact Hf].
  assert (Hf2 : Forall (fun x => snd x <> TErr) ((q, Tok ty2 v2) :: l2)).
  { rewrite Forall_app in Hf. destruct Hf as [_ Hf]. inversion_clear Hf. assumption. }
  assert (m = q) by (cbn in *; lia). subst m.
  (* the next round starts right behind the token *)
  destruct k as [|k]; destruct r as [|c w]; cbn [tok_loop_pos] in E2; try discriminate E2.
  destruct (tok_round lang c w) as [a r'|] eqn:R2; [|discriminate E2].
  destruct (tok_loop_pos k lang _ r') as [b|] eqn:F; [|discriminate E2]. cbn [bind] in E2. apply Ok_inj in E2.
  apply round_shape in R2 as S. destruct S as [->|[[ty' [v' ->]]|[b' [-> _]]]]; cbn [map app] in E2.
  - exfalso. pose proof (round_len _ _ _ _ _ R2) as Rl. subst b.
    change ((q, Tok ty2 v2) :: l2) with ([] ++ (q, Tok ty2 v2) :: l2) in F.
    apply pos_round in F as [? [? [? [? [? [_ [_ [_ [_ H5]]]]]]]]]; [|exact Hf2].
    change (length (c :: w)) with (S (length w)) in H5. lia.
  - injection E2 as _ -> -> ->. pose proof R2 as R20. apply round_tok in R2 as [y [-> [-> K2]]].
    unfold need_whitespace_between. cbn [tok_value].
    assert (T2 : tokenize lang (c :: y) = Ok [Tok ty2 (c :: y)]).
    { rewrite tokenize_cons. pose proof (K2 [] I) as K2'. rewrite app_nil_r in K2'. rewrite K2'. reflexivity. }
    rewrite (tokenize_step lang ty1 (ch :: x) (c :: y ++ r') (c :: y) ltac:(eauto) (or_intror eq_refl) _ T2).
    cbn [bind]. rewrite !tok_eqb_refl. reflexivity.
  - discriminate E2.
Qed.

(** Printing an error-free source again. *)
Lemma glued_adjacent_toks : forall l prev items, glued_adjacent prev l items -> map o_tok items = map snd l.
Proof.
  induction l as [|[q t] l IH]; intros prev [|x items] H; cbn in H; try contradiction; [reflexivity|].
  destruct H as [<- [_ H]]. cbn. rewrite (IH _ _ H). reflexivity.
Qed.
Lemma glued_adjacent_ok : forall lang s l l1 items prev,
  tokenize_pos lang s = Ok (l1 ++ l) -> Forall (fun x => snd x <> TErr) (l1 ++ l) ->
  match prev with Some p => exists l0, l1 = l0 ++ [p] | None => True end ->
  glued_adjacent prev l items -> Forall (good_item lang) items /\ glued_ok lang (option_map snd prev) items.
Proof.
  induction l as [|[q t] l IH]; intros l1 [|x items] prev E Hf Hp H; cbn in H; try contradiction; [split; [constructor|exact I]|].
  destruct H as [Hx [Hg H]].
  apply (IH (l1 ++ [(q, t)]) items (Some (q, t))) in H as [H1 H2]; [|rewrite <- app_assoc; assumption..|eauto].
  split.
  - constructor; [|exact H1]. unfold good_item. rewrite Hx. eapply source_lexeme; eassumption.
  - cbn [glued_ok]. rewrite Hx. split; [|exact H2]. destruct prev as [[p t0]|]; [|exact I]. cbn. intros G. specialize (Hg G).
    destruct Hp as [l0 ->]. rewrite <- app_assoc in *. cbn [app] in *. eapply source_adjacent; eassumption.
Qed.
Lemma source_reprinted : forall lang s l items out, tokenize_pos lang s = Ok l -> Forall (fun x => snd x <> TErr) l ->
  glued_adjacent None l items -> output_tokens lang items = Ok out -> tokenize lang out = Ok (map snd l).
Proof.
  intros lang s l items out E Hf H O.
  destruct (glued_adjacent_ok lang s l [] items None E Hf I H) as [H1 H2].
  apply (output_loop_ok lang items None false out H1 H2) in O. cbn in O. rewrite O. f_equal.
  eapply glued_adjacent_toks. eassumption.
Qed.
