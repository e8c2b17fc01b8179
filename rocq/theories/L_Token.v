(** Facts about the tokenizer: fuel, what a round consumes, and that it is decided by the
    first character behind the token. *)
From Verif Require Import M_Base L_Util M_Fold M_Token.
Open Scope Z_scope.

Lemma mem_true : forall c l, mem c l = true <-> In c l.
Proof.
  intros c l. unfold mem. rewrite existsb_exists. split.
  - intros [x [Hx E]]. apply Z.eqb_eq in E. subst. exact Hx.
  - intros H. exists c. split; [exact H|apply Z.eqb_refl].
Qed.

Lemma span_app : forall f s a b, span f s = (a, b) -> s = a ++ b.
Proof.
  induction s as [|c s IH]; cbn; intros a b E; [injection E as <- <-; reflexivity|].
  destruct (f c); [|injection E as <- <-; reflexivity].
  destruct (span f s) as [a' b']. injection E as <- <-. rewrite (IH a' b' eq_refl). reflexivity.
Qed.
Definition stop (f : Z -> bool) (u : list Z) : Prop := match u with c :: _ => f c = false | [] => True end.
Lemma span_iff : forall f a u, span f (a ++ u) = (a, u) <-> forallb f a = true /\ stop f u.
Proof.
  induction a as [|c a IH]; intros u; cbn [app forallb].
  - destruct u as [|c u]; cbn; [tauto|]. destruct (f c) eqn:E.
    + destruct (span f u). split; [discriminate|intros [_ H]; discriminate].
    + tauto.
  - cbn. destruct (f c); [|split; [discriminate|intros [H _]; discriminate]].
    destruct (span f (a ++ u)) as [a' u'] eqn:E. rewrite <- IH, E. cbn.
    split; intros H; injection H as -> ->; reflexivity.
Qed.

(** The texts [u'] that end a token wherever [u] does. *)
Definition head_ok (u u' : list Z) : Prop :=
  match u' with
  | [] => True
  | c' :: _ => mem c' k_wspace = true \/ match u with c :: _ => c = c' | [] => False end
  end.

Lemma stop_head : forall f u u', (forall c, mem c k_wspace = true -> f c = false) -> head_ok u u' -> stop f u -> stop f u'.
Proof.
  intros f u [|c' u'] Hf H Hs; [exact I|]. cbn in *. destruct H as [H|H]; [auto|].
  destruct u as [|c u]; [contradiction|]. subst. exact Hs.
Qed.
Lemma span_head : forall f a u u', (forall c, mem c k_wspace = true -> f c = false) -> head_ok u u' ->
  span f (a ++ u) = (a, u) -> span f (a ++ u') = (a, u').
Proof.
  intros f a u u' Hf H E. apply span_iff in E as [E1 E2]. apply span_iff. split; [exact E1|].
  eapply stop_head; eauto.
Qed.

Lemma wspace_cases : forall c, mem c k_wspace = true -> c = 32 \/ c = 9 \/ c = 13 \/ c = 10.
Proof. intros c H. apply mem_true in H. cbn in H. intuition lia. Qed.
Ltac wsp := let c := fresh in let H := fresh in intros c H; apply wspace_cases in H as [-> | [-> | [-> | ->]]]; reflexivity.

(** Numbers *)
Lemma number_picotron_app : forall h s p a b, number_picotron h p s = (a, b) -> s = a ++ b.
Proof.
  induction s as [|c s IH]; cbn [number_picotron]; intros p a b E; [injection E as <- <-; reflexivity|].
  match type of E with (if ?x then _ else _) = _ => destruct x end; [|injection E as <- <-; reflexivity].
  destruct (number_picotron h c s) as [a' b'] eqn:E'. injection E as <- <-. rewrite (IH _ _ _ E'). reflexivity.
Qed.
Lemma number_picotron_head : forall h a p u u', head_ok u u' ->
  number_picotron h p (a ++ u) = (a, u) -> number_picotron h p (a ++ u') = (a, u').
Proof.
  induction a as [|c a IH]; intros p u u' H; cbn [app number_picotron].
  - destruct u' as [|c' u']; [reflexivity|]. cbn in H. cbn [number_picotron]. destruct H as [H|H].
    + intros _. apply wspace_cases in H as [-> | [-> | [-> | ->]]]; reflexivity.
    + destruct u as [|c u]; [contradiction|]. subst c'. cbn [number_picotron].
      match goal with |- (if ?x then _ else _) = _ -> _ => destruct x end; [|reflexivity].
      destruct (number_picotron h c u). discriminate.
  - match goal with |- (if ?x then _ else _) = _ -> _ => destruct x end; [|discriminate].
    destruct (number_picotron h c (a ++ u)) as [a' b'] eqn:E. intros E2. injection E2 as -> ->.
    rewrite (IH c u u' H E). reflexivity.
Qed.

Lemma starts_with2_cases : forall a bs s, starts_with2 a bs s = true -> exists b t, s = a :: b :: t /\ mem b bs = true.
Proof.
  intros a bs [|x [|y t]] H; try discriminate H. cbn in H. apply andb_prop in H as [H1 H2].
  apply Z.eqb_eq in H1. subst. eauto.
Qed.

Lemma scan_number_app : forall lang s a b, scan_number lang s = (a, b) -> s = a ++ b.
Proof.
  intros [|] s a b E; cbn in E; [|eapply number_picotron_app; eassumption].
  unfold number_pico8 in E.
  destruct (starts_with2 48 [98; 66] s) eqn:E1.
  { apply starts_with2_cases in E1 as [x [t [-> _]]]. cbn [skipn firstn] in E.
    destruct (span _ t) as [a' b'] eqn:E'. injection E as <- <-. rewrite (span_app _ _ _ _ E'). reflexivity. }
  destruct (starts_with2 48 [120; 88] s) eqn:E2.
  { apply starts_with2_cases in E2 as [x [t [-> _]]]. cbn [skipn firstn] in E.
    destruct (span _ t) as [a' b'] eqn:E'. injection E as <- <-. rewrite (span_app _ _ _ _ E'). reflexivity. }
  eapply span_app; eassumption.
Qed.

(** The first two characters decide about a prefix; the second may be the one behind. *)
Lemma starts_with2_head : forall a bs c t u u', head_ok u u' -> (forall x, mem x k_wspace = true -> mem x bs = false) ->
  (t = [] -> starts_with2 a bs (c :: t ++ u) = false) ->
  starts_with2 a bs (c :: t ++ u') = starts_with2 a bs (c :: t ++ u).
Proof.
  intros a bs c [|x t] u u' H Hb H0; [|reflexivity]. specialize (H0 eq_refl). cbn [app] in *.
  rewrite H0. destruct u' as [|c' u']; [reflexivity|]. cbn in H. destruct H as [H|H].
  - cbn. rewrite (Hb _ H). apply andb_false_r.
  - destruct u as [|d u]; [contradiction|]. subst. exact H0.
Qed.

Lemma number_pico8_two : forall s, (starts_with2 48 [98; 66] s = true \/ starts_with2 48 [120; 88] s = true) ->
  forall a b, number_pico8 s = (a, b) -> (2 <= length a)%nat.
Proof.
  intros s H a b E. unfold number_pico8 in E.
  destruct (starts_with2 48 [98; 66] s) eqn:E1.
  { apply starts_with2_cases in E1 as [x [t [-> _]]]. cbn [skipn firstn] in E.
    destruct (span _ t) as [a' b'] eqn:E'. injection E as <- <-. cbn. lia. }
  destruct (starts_with2 48 [120; 88] s) eqn:E2.
  { apply starts_with2_cases in E2 as [x [t [-> _]]]. cbn [skipn firstn] in E.
    destruct (span _ t) as [a' b'] eqn:E'. injection E as <- <-. cbn. lia. }
  destruct H as [H|H]; discriminate.
Qed.

Lemma number_picotron_hex : forall s, starts_with2 48 [120; 88] s = true ->
  forall h p a b, number_picotron h p s = (a, b) -> (2 <= length a)%nat.
Proof.
  intros s H h p a b E. apply starts_with2_cases in H as [x [t [-> Hx]]]. apply mem_true in Hx. cbn in Hx.
  assert (Hi : is_ident_char Picotron x = true) by (destruct Hx as [<-|[<-|[]]]; reflexivity).
  cbn [number_picotron] in E. rewrite Hi in E. cbn in E.
  destruct (number_picotron h x t). injection E as <- <-. cbn. lia.
Qed.

Lemma scan_number_head : forall lang c t u u', head_ok u u' ->
  scan_number lang (c :: t ++ u) = (c :: t, u) -> scan_number lang (c :: t ++ u') = (c :: t, u').
Proof.
  intros [|] c t u u' H E; cbn [scan_number] in *.
  - assert (Hs : forall bs, bs = [98; 66] \/ bs = [120; 88] ->
        starts_with2 48 bs (c :: t ++ u') = starts_with2 48 bs (c :: t ++ u)).
    { intros bs Hbs. apply starts_with2_head; [exact H| |].
      - destruct Hbs as [->| ->]; wsp.
      - intros ->. destruct (starts_with2 48 bs (c :: [] ++ u)) eqn:E1; [|reflexivity].
        assert (2 <= length [c])%nat; [|cbn in *; lia].
        eapply number_pico8_two; [|exact E]. destruct Hbs as [->| ->]; auto. }
    unfold number_pico8 in *. rewrite !Hs by auto.
    destruct (starts_with2 48 [98; 66] (c :: t ++ u)) eqn:E1.
    { destruct t as [|x t].
      { exfalso. cbn [app] in E1. apply starts_with2_cases in E1 as [y [w [E3 _]]]. injection E3 as -> ->.
        cbn [app skipn firstn] in E. destruct (span _ w). discriminate E. }
      cbn [app skipn firstn] in *. destruct (span _ (t ++ u)) as [a b] eqn:E2. injection E as -> ->.
      rewrite (span_head _ t u u'); [reflexivity|wsp|exact H|exact E2]. }
    destruct (starts_with2 48 [120; 88] (c :: t ++ u)) eqn:E1b.
    { destruct t as [|x t].
      { exfalso. cbn [app] in E1b. apply starts_with2_cases in E1b as [y [w [E3 _]]]. injection E3 as -> ->.
        cbn [app skipn firstn] in E. destruct (span _ w). discriminate E. }
      cbn [app skipn firstn] in *. destruct (span _ (t ++ u)) as [a b] eqn:E2. injection E as -> ->.
      rewrite (span_head _ t u u'); [reflexivity|wsp|exact H|exact E2]. }
    apply (span_head _ (c :: t) u u'); [wsp|exact H|exact E].
  - rewrite (starts_with2_head 48 [120; 88] c t u u' H).
    + apply (number_picotron_head _ (c :: t) _ u u'); assumption.
    + wsp.
    + intros ->. destruct (starts_with2 48 [120; 88] (c :: [] ++ u)) eqn:E1; [|reflexivity].
      apply number_picotron_hex in E; [cbn in E; lia|exact E1].
Qed.

(** Strings *)
Lemma scan_string_app : forall q s m a b, scan_string q m s = SDone a b \/ scan_string q m s = SUnterm a b -> s = a ++ b.
Proof.
  induction s as [|c s IH]; intros m a b H.
  - destruct m; cbn in H; destruct H as [H|H]; try discriminate H; injection H as <- <-; reflexivity.
  - assert (K : forall m', scons c (scan_string q m' s) = SDone a b \/ scons c (scan_string q m' s) = SUnterm a b ->
              c :: s = a ++ b).
    { intros m' [K|K]; destruct (scan_string q m' s) as [a' b'|a' b'|] eqn:E; try discriminate K;
      injection K as <- <-; cbn; f_equal; apply (IH m'); auto. }
    cbn [scan_string] in H.
    assert (T : (if c =? 10 then SUnterm [c] s else if c =? 92 then scons c (scan_string q MEscape s)
        else if c =? q then SDone [c] s else scons c (scan_string q MText s)) = SDone a b \/
        (if c =? 10 then SUnterm [c] s else if c =? 92 then scons c (scan_string q MEscape s)
        else if c =? q then SDone [c] s else scons c (scan_string q MText s)) = SUnterm a b -> c :: s = a ++ b).
    { destruct (c =? 10); [intros [T|T]; [discriminate T|injection T as <- <-; reflexivity]|].
      destruct (c =? 92); [apply K|]. destruct (c =? q); [|apply K].
      intros [T|T]; [injection T as <- <-; reflexivity|discriminate T]. }
    destruct m; [exact (T H)|apply (K _ H)|]. destruct (mem c k_wspace); [apply (K _ H)|exact (T H)].
Qed.

Lemma scan_string_ext : forall q a m b b', scan_string q m (a ++ b) = SDone a b -> scan_string q m (a ++ b') = SDone a b'.
Proof.
  induction a as [|c a IH]; intros m b b' E.
  - exfalso. cbn [app] in E.
    assert (K : forall s m b, scan_string q m s = SDone [] b -> False).
    { intros [|c s] m0 b0 E0; [destruct m0; discriminate E0|]. cbn [scan_string] in E0.
      assert (K' : forall m, scons c (scan_string q m s) = SDone [] b0 -> False)
        by (intros m' K'; destruct (scan_string q m' s); discriminate K').
      assert (T : (if c =? 10 then SUnterm [c] s else if c =? 92 then scons c (scan_string q MEscape s)
        else if c =? q then SDone [c] s else scons c (scan_string q MText s)) = SDone [] b0 -> False).
      { destruct (c =? 10); [discriminate|]. destruct (c =? 92); [apply K'|]. destruct (c =? q); [discriminate|apply K']. }
      destruct m0; [exact (T E0)|exact (K' _ E0)|]. destruct (mem c k_wspace); [exact (K' _ E0)|exact (T E0)]. }
    exact (K _ _ _ E).
  - cbn [app scan_string] in *.
    assert (K : forall m, scons c (scan_string q m (a ++ b)) = SDone (c :: a) b ->
                scons c (scan_string q m (a ++ b')) = SDone (c :: a) b').
    { intros m' K. destruct (scan_string q m' (a ++ b)) as [x y|x y|] eqn:E1; try discriminate K.
      injection K as -> ->. rewrite (IH _ _ b' E1). reflexivity. }
    assert (T : (if c =? 10 then SUnterm [c] (a ++ b) else if c =? 92 then scons c (scan_string q MEscape (a ++ b))
        else if c =? q then SDone [c] (a ++ b) else scons c (scan_string q MText (a ++ b))) = SDone (c :: a) b ->
        (if c =? 10 then SUnterm [c] (a ++ b') else if c =? 92 then scons c (scan_string q MEscape (a ++ b'))
        else if c =? q then SDone [c] (a ++ b') else scons c (scan_string q MText (a ++ b'))) = SDone (c :: a) b').
    { destruct (c =? 10); [discriminate|]. destruct (c =? 92); [apply K|]. destruct (c =? q); [|apply K].
      intros T. destruct a as [|x a]; [reflexivity|]. discriminate T. }
    destruct m; [exact (T E)|exact (K _ E)|]. destruct (mem c k_wspace); [exact (K _ E)|exact (T E)].
Qed.

(** Searching *)
Lemma is_prefix_iff : forall p s, is_prefix p s = true <-> exists r, s = p ++ r.
Proof.
  intros p s. unfold is_prefix. split.
  - intros H. apply zeqb_list_true in H. exists (skipn (length p) s). rewrite H at 1. symmetry. apply firstn_skipn.
  - intros [r ->]. rewrite firstn_app, Nat.sub_diag, firstn_all. cbn. rewrite app_nil_r. apply zeqb_list_refl.
Qed.
Lemma is_prefix_skip : forall p s, is_prefix p s = true -> s = p ++ skipn (length p) s.
Proof.
  intros p s H. apply is_prefix_iff in H as [r H]. rewrite H at 2. rewrite skipn_app, Nat.sub_diag, skipn_all. exact H.
Qed.
Lemma find_sub_eq : forall pat s, find_sub pat s =
  if is_prefix pat s then Some ([], skipn (length pat) s)
  else match s with
       | [] => None
       | c :: t => match find_sub pat t with Some (a, b) => Some (c :: a, b) | None => None end
       end.
Proof. intros pat [|c s]; reflexivity. Qed.
Lemma find_sub_app : forall pat s a b, find_sub pat s = Some (a, b) -> s = a ++ pat ++ b.
Proof.
  induction s as [|c s IH]; intros a b E; rewrite find_sub_eq in E.
  - destruct (is_prefix pat []) eqn:P; [|discriminate E]. injection E as <- <-.
    apply is_prefix_skip. exact P.
  - destruct (is_prefix pat (c :: s)) eqn:P.
    + injection E as <- <-. apply is_prefix_skip. exact P.
    + destruct (find_sub pat s) as [[a' b']|] eqn:E'; [|discriminate E]. injection E as <- <-.
      rewrite (IH _ _ eq_refl) at 1. reflexivity.
Qed.
Lemma find_sub_here : forall pat b, find_sub pat (pat ++ b) = Some ([], b).
Proof.
  intros pat b. rewrite find_sub_eq. replace (is_prefix pat (pat ++ b)) with true.
  - rewrite skipn_app, Nat.sub_diag, skipn_all. reflexivity.
  - symmetry. apply is_prefix_iff. eauto.
Qed.
Lemma is_prefix_short : forall p x b b', (length p <= length x)%nat -> is_prefix p (x ++ b) = is_prefix p (x ++ b').
Proof.
  intros p x b b' H. unfold is_prefix. rewrite !firstn_app.
  replace (length p - length x)%nat with 0%nat by lia. reflexivity.
Qed.
Lemma find_sub_ext : forall pat a b b', find_sub pat (a ++ pat ++ b) = Some (a, b) -> find_sub pat (a ++ pat ++ b') = Some (a, b').
Proof.
  induction a as [|c a IH]; intros b b' E; [cbn [app]; apply (find_sub_here pat b')|].
  rewrite find_sub_eq in E. rewrite find_sub_eq. cbn [app] in *.
  assert (P : is_prefix pat (c :: a ++ pat ++ b') = is_prefix pat (c :: a ++ pat ++ b)).
  { change (is_prefix pat ((c :: a) ++ pat ++ b') = is_prefix pat ((c :: a) ++ pat ++ b)).
    rewrite !app_assoc. apply is_prefix_short. rewrite app_length. lia. }
  rewrite P. destruct (is_prefix pat (c :: a ++ pat ++ b)); [discriminate E|].
  destruct (find_sub pat (a ++ pat ++ b)) as [[x y]|] eqn:E'; [|discriminate E]. injection E as -> ->.
  rewrite (IH _ b' E'). reflexivity.
Qed.

(** Long brackets *)
Lemma scan_long_ok : forall s v i r, scan_long s = LOk v i r ->
  exists n, s = 91 :: repeat 61 n ++ 91 :: i ++ (93 :: repeat 61 n ++ [93]) ++ r /\
    v = 91 :: repeat 61 n ++ 91 :: i ++ 93 :: repeat 61 n ++ [93] /\
    find_sub (93 :: repeat 61 n ++ [93]) (i ++ (93 :: repeat 61 n ++ [93]) ++ r) = Some (i, r).
Proof.
  intros s v i r H. unfold scan_long in H.
  destruct s as [|[|c|c] t]; try discriminate H; repeat (destruct c as [c|c|]; try discriminate H).
  destruct (span (Z.eqb 61) t) as [pad u] eqn:E.
  assert (Hp : pad = repeat 61 (length pad)).
  { apply span_app in E as E'. subst t. apply span_iff in E as [E _]. clear H. induction pad as [|x pad IH]; [reflexivity|].
    cbn [forallb] in E. apply andb_prop in E as [E1 E2]. apply Z.eqb_eq in E1. subst x. cbn. rewrite <- IH by assumption. reflexivity. }
  apply span_app in E. subst t.
  destruct u as [|[|c|c] w]; try discriminate H; repeat (destruct c as [c|c|]; try discriminate H).
  destruct (find_sub (93 :: pad ++ [93]) w) as [[i' r']|] eqn:F; [|discriminate H].
  assert (v = 91 :: pad ++ 91 :: i' ++ 93 :: pad ++ [93]) by congruence.
  assert (i' = i) by congruence. assert (r' = r) by congruence. subst v i' r'. clear H.
  exists (length pad). rewrite <- Hp. apply find_sub_app in F as F'. subst w.
  repeat split. exact F.
Qed.
Lemma scan_long_make : forall n i r, find_sub (93 :: repeat 61 n ++ [93]) (i ++ (93 :: repeat 61 n ++ [93]) ++ r) = Some (i, r) ->
  scan_long (91 :: repeat 61 n ++ 91 :: i ++ (93 :: repeat 61 n ++ [93]) ++ r)
  = LOk (91 :: repeat 61 n ++ 91 :: i ++ 93 :: repeat 61 n ++ [93]) i r.
Proof.
  intros n i r F. unfold scan_long. cbv beta iota.
  replace (span (Z.eqb 61) (repeat 61 n ++ 91 :: i ++ (93 :: repeat 61 n ++ [93]) ++ r))
    with (repeat 61 n, 91 :: i ++ (93 :: repeat 61 n ++ [93]) ++ r).
  - cbv beta iota. rewrite F. reflexivity.
  - symmetry. apply span_iff. split; [|reflexivity]. clear F. induction n; [reflexivity|]. cbn. exact IHn.
Qed.
Lemma scan_long_len : forall s, match scan_long s with LOk _ _ r | LUnterm r => (S (length r) <= length s)%nat | LNo r => (length r <= length s)%nat end.
Proof.
  intros s. destruct (scan_long s) as [v i r|r|r] eqn:E.
  - apply scan_long_ok in E as [n [-> _]]. cbn. rewrite ?app_length. cbn. rewrite ?app_length. cbn. rewrite ?app_length. lia.
  - unfold scan_long in E.
    destruct s as [|[|c|c] t]; try discriminate E; repeat (destruct c as [c|c|]; try discriminate E).
    destruct (span (Z.eqb 61) t) as [pad u] eqn:F. apply span_app in F. subst t.
    destruct u as [|[|c|c] w]; try discriminate E; repeat (destruct c as [c|c|]; try discriminate E).
    destruct (find_sub _ w) as [[? ?]|]; [discriminate E|]. injection E as <-. cbn. rewrite app_length. cbn. lia.
  - unfold scan_long in E.
    destruct s as [|c t]; [injection E as <-; reflexivity|].
    destruct (Z.eq_dec c 91) as [->|Hc].
    + destruct (span (Z.eqb 61) t) as [pad u] eqn:F. apply span_app in F. subst t.
      assert (r = u).
      { destruct u as [|[|x|x] w]; try (injection E as <-; reflexivity);
          repeat (destruct x as [x|x|]; try (injection E as <-; reflexivity)).
        destruct (find_sub _ w) as [[? ?]|]; discriminate E. }
      subst. cbn. rewrite app_length. lia.
    + assert (r = c :: t).
      { destruct c as [|x|x]; try (injection E as <-; reflexivity);
          repeat (destruct x as [x|x|]; try (injection E as <-; reflexivity)). exfalso. apply Hc. reflexivity. }
      subst. reflexivity.
Qed.

Lemma skip_line_len : forall s, (length (skip_line s) <= length s)%nat.
Proof. induction s as [|c s IH]; [reflexivity|]. cbn. destruct (c =? 10); lia. Qed.

(** Punctuation *)
Lemma accept_app : forall c s a b, accept c s = (a, b) -> s = a ++ b.
Proof.
  intros c [|x s] a b E; cbn in E; [injection E as <- <-; reflexivity|].
  destruct (x =? c); injection E as <- <-; reflexivity.
Qed.
Lemma accept_head : forall c a u u', mem c k_wspace = false -> head_ok u u' ->
  accept c (a ++ u) = (a, u) -> accept c (a ++ u') = (a, u').
Proof.
  intros c a u u' Hc H E. destruct a as [|x [|y a]]; cbn [app] in *.
  - destruct u' as [|c' u']; [reflexivity|]. unfold head_ok in H. cbn [accept]. destruct H as [H|H].
    + destruct (Z.eqb_spec c' c) as [->|]; [congruence|reflexivity].
    + destruct u as [|d u]; [contradiction|]. subst d. cbn in E. destruct (c' =? c); [discriminate E|reflexivity].
  - cbn in *. destruct (x =? c); [reflexivity|discriminate E].
  - cbn in *. destruct (x =? c); discriminate E.
Qed.

Lemma accept_cases : forall k u, accept k u = ([], u) \/ exists t, u = k :: t /\ accept k u = ([k], t).
Proof.
  intros k [|x t]; [left; reflexivity|]. cbn. destruct (Z.eqb_spec x k) as [->|]; [right; eauto|left; reflexivity].
Qed.
Lemma accept_inv : forall k u a b, accept k u = (a, b) -> a = [] /\ b = u \/ a = [k] /\ u = k :: b.
Proof.
  intros k u a b E. destruct (accept_cases k u) as [F|[t [-> F]]]; rewrite F in E; injection E as <- <-; auto.
Qed.
Lemma scan_punct_app : forall lang c s a b, scan_punct lang c s = (a, b) -> s = a ++ b.
Proof.
  intros lang c s a b E. unfold scan_punct in E.
  repeat match type of E with
  | context [if ?x then _ else _] => destruct x
  end;
  repeat match type of E with
  | context [accept ?k ?u] => let F := fresh in destruct (accept k u) as [? ?] eqn:F; apply accept_inv in F as [[-> F]|[-> F]]
  | _ => progress cbn [app] in E
  end; injection E as <- <-; cbn [app]; congruence.
Qed.
Lemma scan_punct_head : forall lang c a u u', mem c punct_chars = true -> head_ok u u' ->
  scan_punct lang c (a ++ u) = (a, u) -> scan_punct lang c (a ++ u') = (a, u').
Proof.
  intros lang c a u u' Hc H E.
  assert (Hk : mem c k_wspace = false).
  { destruct (mem c k_wspace) eqn:W; [|reflexivity]. apply wspace_cases in W as [-> | [-> | [-> | ->]]]; discriminate Hc. }
  assert (N : forall k, mem k k_wspace = false -> accept k u = ([], u) -> accept k u' = ([], u'))
    by (intros k K1 K2; exact (accept_head k [] u u' K1 H K2)).
  assert (Hk2 : mem (if c =? 60 then 62 else 60) k_wspace = false) by (destruct (c =? 60); reflexivity).
  unfold scan_punct in *.
  destruct a as [|x [|y [|z [|w a]]]]; cbn [app] in *.
  all: repeat match type of E with
  | context [accept ?k (?x :: ?s)] => cbn [accept] in *; destruct (x =? k)
  | context [accept ?k ?v] => is_var v; let F := fresh in let t := fresh in
      destruct (accept_cases k v) as [F|[t [? F]]]; rewrite F in E;
      [rewrite ?(N c Hk F), ?(N 61 eq_refl F), ?(N _ Hk2 F)|]
  | context [if ?x then _ else _] => destruct x eqn:?
  | _ => progress cbn [app] in *
  end; try discriminate E; try reflexivity.
Qed.

(** Rounds *)
Lemma next_is_head : forall f t u u', (forall c, mem c k_wspace = true -> f c = false) -> head_ok u u' ->
  (t = [] -> next_is f u = false) -> next_is f (t ++ u') = next_is f (t ++ u).
Proof.
  intros f [|c t] u u' Hf H H0; [|reflexivity]. cbn [app]. rewrite (H0 eq_refl).
  destruct u' as [|c' u']; [reflexivity|]. unfold head_ok in H. cbn. destruct H as [H|H]; [apply Hf; exact H|].
  destruct u as [|d u]; [contradiction|]. subst. exact (H0 eq_refl).
Qed.

Lemma round_len : forall lang ch t a r, tok_round lang ch t = Round a r -> (length r <= length t)%nat.
Proof.
  intros lang ch t a r E. unfold tok_round in E.
  destruct (mem ch k_wspace); [injection E as <- <-; lia|].
  destruct (is_dec_digit ch || ((ch =? 46) && next_is is_dec_digit t)) eqn:D.
  { destruct (scan_number lang (ch :: t)) as [x y] eqn:F. injection E as <- <-. apply scan_number_app in F as F'.
    destruct x as [|c x].
    - exfalso. cbn in F'. subst y. clear -F D. destruct lang; cbn [scan_number] in F.
      + unfold number_pico8 in F. destruct (starts_with2 48 [98; 66] (ch :: t)) eqn:S1.
        { apply starts_with2_cases in S1 as [b [w [S1 _]]]. rewrite S1 in F. cbn [skipn firstn] in F.
          destruct (span _ w). discriminate F. }
        destruct (starts_with2 48 [120; 88] (ch :: t)) eqn:S2.
        { apply starts_with2_cases in S2 as [b [w [S2 _]]]. rewrite S2 in F. cbn [skipn firstn] in F.
          destruct (span _ w). discriminate F. }
        cbn [span] in F. destruct (is_dec_digit ch || (ch =? 46)) eqn:G; [destruct (span _ t); discriminate F|].
        destruct (is_dec_digit ch); [discriminate G|]. destruct (ch =? 46); discriminate.
      + cbn [number_picotron] in F.
        assert (G : is_ident_char Picotron ch || (ch =? 46) = true).
        { unfold is_ident_char, is_dec_digit in *. destruct ((48 <=? ch) && (ch <=? 57)); [reflexivity|].
          destruct (ch =? 46); [apply orb_true_r|discriminate D]. }
        rewrite G in F. cbn [orb] in F. destruct (number_picotron _ ch t). discriminate F.
    - apply (f_equal (@length Z)) in F'. cbn in F'. rewrite app_length in F'. lia. }
  destruct (is_ident_char lang ch) eqn:I.
  { destruct (span (is_ident_char lang) (ch :: t)) as [x y] eqn:F. injection E as <- <-.
    cbn [span] in F. rewrite I in F. destruct (span (is_ident_char lang) t) as [x' y'] eqn:F'. injection F as <- <-.
    apply span_app in F'. subst t. rewrite app_length. lia. }
  destruct ((ch =? 34) || (ch =? 39)).
  { destruct (scan_string ch MText t) as [x y|x y|] eqn:F; [| |discriminate E]; injection E as <- <-;
    assert (t = x ++ y) by (eapply scan_string_app; eauto); subst; rewrite app_length; lia. }
  destruct ((ch =? 91) && next_is (fun c => mem c [61; 91]) t) eqn:L.
  { pose proof (scan_long_len (ch :: t)) as K. apply andb_prop in L as [L L2]. apply Z.eqb_eq in L. subst ch.
    destruct (scan_long (91 :: t)) as [v i y|y|y] eqn:F; injection E as <- <-; cbn in K; try lia.
    unfold scan_long in F. destruct (span (Z.eqb 61) t) as [pad w] eqn:S. apply span_app in S. subst t.
    assert (y = w); [|subst; rewrite app_length; lia].
    destruct w as [|[|x|x] w]; try (injection F as <-; reflexivity);
      repeat (destruct x as [x|x|]; try (injection F as <-; reflexivity)).
    destruct (find_sub _ w) as [[? ?]|]; discriminate F. }
  destruct ((ch =? 45) && next_is (Z.eqb 45) t).
  { pose proof (scan_long_len (skipn 1 t)) as K. pose proof (skip_line_len (skipn 1 t)) as K2.
    assert (length (skipn 1 t) <= length t)%nat by (rewrite skipn_length; lia).
    destruct (scan_long (skipn 1 t)); injection E as <- <-; cbv beta iota in K; [lia|etransitivity; [exact K2|exact H]..]. }
  destruct ((ch =? 47) && is_pico8 lang && next_is (Z.eqb 47) t).
  { injection E as <- <-. pose proof (skip_line_len (skipn 1 t)) as K2.
    assert (H : (length (skipn 1 t) <= length t)%nat) by (rewrite skipn_length; lia). etransitivity; [exact K2|exact H]. }
  destruct (mem ch punct_chars).
  { destruct (scan_punct lang ch t) as [x y] eqn:F. injection E as <- <-. apply scan_punct_app in F. subst.
    rewrite app_length. lia. }
  destruct ((ch =? 33) && next_is (Z.eqb 61) t); injection E as <- <-; [destruct t; cbn; lia|lia].
Qed.

Lemma tok_loop_enough : forall n lang s, (length s <= n)%nat -> forall m, (length s <= m)%nat -> tok_loop m lang s = tok_loop n lang s.
Proof.
  induction n as [|n IH]; intros lang [|c t] Hn m Hm; cbn in Hn; try lia; [destruct m; reflexivity|destruct m; reflexivity|].
  destruct m as [|m]; cbn in Hm; [lia|]. cbn [tok_loop].
  destruct (tok_round lang c t) as [a r|] eqn:E; [|reflexivity]. apply round_len in E.
  rewrite (IH lang r ltac:(lia) m ltac:(lia)). reflexivity.
Qed.
Lemma tokenize_cons : forall lang ch t, tokenize lang (ch :: t) =
  match tok_round lang ch t with
  | Hang => Err EFuel
  | Round a r => b <- tokenize lang r ;; Ok (a ++ b)
  end.
Proof.
  intros lang ch t. unfold tokenize at 1. cbn [length tok_loop].
  destruct (tok_round lang ch t) as [a r|] eqn:E; [|reflexivity]. apply round_len in E.
  unfold tokenize. rewrite (tok_loop_enough (length r) lang r ltac:(lia) (length t) ltac:(lia)). reflexivity.
Qed.

(** A token's text is what its round consumed, and the same token is found before any other
    text that ends it. *)
Lemma round_tok : forall lang ch t ty v r, tok_round lang ch t = Round [Tok ty v] r ->
  exists x, v = ch :: x /\ t = x ++ r /\
    forall r', head_ok r r' -> tok_round lang ch (x ++ r') = Round [Tok ty v] r'.
Proof.
  intros lang ch t ty v r E. unfold tok_round in E.
  destruct (mem ch k_wspace) eqn:W; [discriminate E|].
  destruct (is_dec_digit ch || ((ch =? 46) && next_is is_dec_digit t)) eqn:D.
  { pose proof E as E0. destruct (scan_number lang (ch :: t)) as [a y] eqn:F. injection E as <- <- <-.
    assert (Ha : exists x, a = ch :: x).
    { assert (R : tok_round lang ch t = Round [Tok TNumber a] y) by (unfold tok_round; rewrite W, D, F; reflexivity).
      apply round_len in R. apply scan_number_app in F. destruct a as [|c a]; cbn in F; [subst y; cbn in R; lia|].
      exists a. congruence. }
    destruct Ha as [x ->]. apply scan_number_app in F as F'. cbn in F'. injection F' as ->.
    exists x. repeat split. intros r' H. unfold tok_round. rewrite W.
    assert (D' : is_dec_digit ch || ((ch =? 46) && next_is is_dec_digit (x ++ r')) = true).
    { destruct x as [|c x]; [|exact D]. cbn [app] in *. destruct (is_dec_digit ch) eqn:D1; [reflexivity|]. exfalso.
      cbn in D. apply andb_prop in D as [D2 D3]. apply Z.eqb_eq in D2. subst ch.
      destruct y as [|c y]; [discriminate D3|]. cbn in D3.
      destruct lang; cbn [scan_number] in F.
      - unfold number_pico8 in F. change (starts_with2 48 [98; 66] (46 :: c :: y)) with false in F.
        change (starts_with2 48 [120; 88] (46 :: c :: y)) with false in F. cbn [span] in F. change (is_dec_digit 46 || (46 =? 46)) with true in F.
        cbv iota in F. rewrite D3 in F. cbn [orb] in F. destruct (span _ y). discriminate F.
      - cbn [number_picotron] in F. change (is_ident_char Picotron 46 || (46 =? 46)) with true in F. cbn [orb] in F.
        assert (G : is_ident_char Picotron c = true) by (unfold is_ident_char, is_dec_digit in *; rewrite D3; reflexivity).
        rewrite G in F. cbn [orb] in F. destruct (number_picotron _ c y). discriminate F. }
    rewrite D'. rewrite (scan_number_head lang ch x y r' H F). reflexivity. }
  assert (D' : forall x y r', t = x ++ y -> head_ok y r' -> is_dec_digit ch || ((ch =? 46) && next_is is_dec_digit (x ++ r')) = false).
  { intros x y r' -> H. destruct (is_dec_digit ch); [discriminate D|]. cbn in *. destruct (ch =? 46); [|reflexivity]. cbn in *.
    rewrite (next_is_head is_dec_digit x y r'); [exact D|wsp|exact H|]. intros ->. exact D. }
  destruct (is_ident_char lang ch) eqn:I.
  { destruct (span (is_ident_char lang) (ch :: t)) as [a y] eqn:F. injection E as Ety Ev <-.
    pose proof F as F0. cbn [span] in F. rewrite I in F. destruct (span (is_ident_char lang) t) as [x y'] eqn:F'. injection F as <- <-.
    apply span_app in F' as F''. subst t. subst v.
    exists x. repeat split. intros r' H. unfold tok_round. rewrite W, (D' x y' r' eq_refl H), I.
    change (ch :: x ++ r') with ((ch :: x) ++ r'). rewrite (span_head _ (ch :: x) y' r'); [|intros c Hc|exact H|exact F0].
    - unfold ident_tok. rewrite Ety. reflexivity.
    - apply wspace_cases in Hc as [-> | [-> | [-> | ->]]]; destruct lang; reflexivity. }
  destruct ((ch =? 34) || (ch =? 39)) eqn:Q.
  { destruct (scan_string ch MText t) as [x y|x y|] eqn:F; try discriminate E. injection E as <- <- <-.
    assert (t = x ++ y) by (eapply scan_string_app; eauto). subst t. exists x. repeat split.
    intros r' H. unfold tok_round. rewrite W, (D' x y r' eq_refl H), I, Q. rewrite (scan_string_ext _ _ _ _ r' F). reflexivity. }
  destruct ((ch =? 91) && next_is (fun c => mem c [61; 91]) t) eqn:L.
  { apply andb_prop in L as [L L2]. apply Z.eqb_eq in L. subst ch.
    destruct (scan_long (91 :: t)) as [w i y|y|y] eqn:F; try discriminate E. injection E as <- <- <-.
    apply scan_long_ok in F as [n [F1 [F2 F3]]].
    assert (Et : t = (repeat 61 n ++ 91 :: i ++ 93 :: repeat 61 n ++ [93]) ++ y).
    { injection F1 as ->. cbn. rewrite <- !app_assoc. cbn. rewrite <- !app_assoc. cbn. rewrite <- !app_assoc. reflexivity. }
    exists (repeat 61 n ++ 91 :: i ++ 93 :: repeat 61 n ++ [93]). repeat split; [exact F2|exact Et|].
    intros r' H. unfold tok_round. rewrite W, (D' _ y r' Et H), I, Q.
    assert (Nx : next_is (fun c => mem c [61; 91]) ((repeat 61 n ++ 91 :: i ++ 93 :: repeat 61 n ++ [93]) ++ r') = true)
      by (destruct n; reflexivity).
    rewrite Nx. cbn [Z.eqb Pos.eqb andb].
    pose proof (scan_long_make n i r' (find_sub_ext _ _ _ r' F3)) as M.
    replace (91 :: (repeat 61 n ++ 91 :: i ++ 93 :: repeat 61 n ++ [93]) ++ r')
      with (91 :: repeat 61 n ++ 91 :: i ++ (93 :: repeat 61 n ++ [93]) ++ r').
    - rewrite M, F2. reflexivity.
    - f_equal. rewrite <- !app_assoc. cbn. rewrite <- !app_assoc. cbn. rewrite <- !app_assoc. reflexivity. }
  assert (L' : forall x y r', t = x ++ y -> head_ok y r' -> (ch =? 91) && next_is (fun c => mem c [61; 91]) (x ++ r') = false).
  { intros x y r' -> H. destruct (ch =? 91); [|reflexivity]. cbn in *.
    rewrite (next_is_head _ x y r'); [exact L|wsp|exact H|]. intros ->. exact L. }
  destruct ((ch =? 45) && next_is (Z.eqb 45) t) eqn:C1.
  { destruct (scan_long (skipn 1 t)); discriminate E. }
  assert (C1' : forall x y r', t = x ++ y -> head_ok y r' -> (ch =? 45) && next_is (Z.eqb 45) (x ++ r') = false).
  { intros x y r' -> H. destruct (ch =? 45); [|reflexivity]. cbn [andb] in *.
    rewrite (next_is_head _ x y r'); [exact C1|wsp|exact H|]. intros ->. exact C1. }
  destruct ((ch =? 47) && is_pico8 lang && next_is (Z.eqb 47) t) eqn:C2; [discriminate E|].
  assert (C2' : forall x y r', t = x ++ y -> head_ok y r' -> (ch =? 47) && is_pico8 lang && next_is (Z.eqb 47) (x ++ r') = false).
  { intros x y r' -> H. destruct ((ch =? 47) && is_pico8 lang); [|reflexivity]. cbn [andb] in *.
    rewrite (next_is_head _ x y r'); [exact C2|wsp|exact H|]. intros ->. exact C2. }
  destruct (mem ch punct_chars) eqn:P.
  { destruct (scan_punct lang ch t) as [x y] eqn:F. injection E as <- <- <-. apply scan_punct_app in F as F'. subst t.
    exists x. repeat split. intros r' H. unfold tok_round.
    rewrite W, (D' x y r' eq_refl H), I, Q, (L' x y r' eq_refl H), (C1' x y r' eq_refl H), (C2' x y r' eq_refl H), P.
    rewrite (scan_punct_head lang ch x y r' P H F). reflexivity. }
  destruct ((ch =? 33) && next_is (Z.eqb 61) t) eqn:B; [|discriminate E].
  injection E as <- <- <-. apply andb_prop in B as [B1 B2]. apply Z.eqb_eq in B1. subst ch.
  destruct t as [|c t]; [discriminate B2|]. cbn [next_is] in B2. apply Z.eqb_eq in B2. subst c.
  exists [61]. repeat split. intros r' H. cbn [skipn] in *. unfold tok_round.
  rewrite W, (D' [61] t r' eq_refl H), I, Q, (L' [61] t r' eq_refl H), (C1' [61] t r' eq_refl H), (C2' [61] t r' eq_refl H), P.
  reflexivity.
Qed.
