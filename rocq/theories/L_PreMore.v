(** Every text has items; tabs; lines and columns. *)
From Verif Require Import M_Base M_Text M_Pre S_Pre L_Util L_Pre L_PreLoop.
Open Scope nat_scope.

Lemma inc_tail_dec after : inc_tail after \/ ~ inc_tail after.
Proof.
  set (s := 35%Z :: after). destruct (split_once (firstn (line_len s) s)) as [|w [|name [|]]] eqn:Q;
    try (right; intros (sp & name' & rest & -> & H1 & H2 & H3); destruct (inc_tail_line sp name' rest H1 H2 H3) as [_ E]; fold s in E; congruence).
  destruct (zeqb_list w str_include) eqn:W.
  - left. apply zeqb_list_true in W. subst w. now apply (inc_tail_inv after name).
  - right. intros (sp & name' & rest & -> & H1 & H2 & H3). destruct (inc_tail_line sp name' rest H1 H2 H3) as [_ E]. fold s in E.
    rewrite E in Q. injection Q as <- <-. rewrite zeqb_list_refl in W. discriminate W.
Qed.
(** Blanks, then an include. *)
Definition inc_line (s : list Z) : Prop := exists ws after, s = ws ++ 35%Z :: after /\ Forall blank ws /\ inc_tail after.
Lemma inc_line_cons c s : blank c -> inc_line s -> inc_line (c :: s).
Proof. intros B (ws & after & -> & F & T). exists (c :: ws), after. repeat split; [now constructor|exact T]. Qed.
Lemma inc_line_dec s : inc_line s \/ ~ inc_line s.
Proof.
  induction s as [|c s IH].
  - right. intros (ws & after & E & _). destruct ws; discriminate E.
  - destruct (Z.eq_dec c 35) as [->|N].
    + destruct (inc_tail_dec s) as [T|T].
      * left. exists [], s. repeat split; [constructor|exact T].
      * right. intros (ws & after & E & F & T'). destruct ws as [|x ws].
        -- injection E as <-. contradiction.
        -- injection E as <- E. inversion F. subst. unfold blank in *. lia.
    + assert (D : blank c \/ ~ blank c) by (unfold blank; lia). destruct D as [B|B].
      * destruct IH as [IH|IH]; [left; now apply inc_line_cons|]. right. intros (ws & after & E & F & T). apply IH.
        destruct ws as [|x ws]; [injection E as E _; congruence|]. injection E as <- ->. exists ws, after. inversion F. auto.
      * right. intros (ws & after & E & F & T). destruct ws as [|x ws]; [injection E as E _; congruence|]. injection E as <- E. inversion F. contradiction.
Qed.
Lemma line_begin_dec b : line_begin b \/ ~ line_begin b.
Proof.
  destruct b as [|c b] using rev_ind; [left; now left|]. destruct (Z.eq_dec c 10) as [->|N]; [left; right; eauto|].
  right. intros [E|[t E]]; [destruct b; discriminate E|]. apply app_inj_tail in E as [_ E]. congruence.
Qed.
Lemma inc_line_not_end s : inc_line s -> ~ line_end s.
Proof.
  intros (ws & after & -> & F & _) [E|[t E]]; [destruct ws; discriminate E|].
  destruct ws as [|x ws]; [discriminate E|]. injection E as -> _. inversion F. unfold blank in *. lia.
Qed.

(** At a place inside a line's leading blanks, no include line may follow. *)
Definition inv (before s : list Z) : Prop := inc_before before -> inc_line s -> line_begin before.
Lemma inv_line before t after : line_end after -> inv (before ++ t) after.
Proof. intros L _ I. now apply inc_line_not_end in I. Qed.

Definition finished (rest : list Z) : Prop := rest = [] \/ (exists t, rest = [91; 91]%Z ++ t) /\ ~ long_start rest.
Lemma items_step before it rest s : s = text_of it ++ rest -> item_ok before it rest ->
  (exists items r, rest = texts items ++ r /\ items_ok (before ++ text_of it) items r /\ finished r) ->
  exists items r, s = texts items ++ r /\ items_ok before items r /\ finished r.
Proof.
  intros -> OK (items & r & -> & IO & F). exists (it :: items), r. split; [unfold texts; cbn [map concat]; now rewrite <- app_assoc|].
  split; [|exact F]. now constructor.
Qed.
Theorem items_exist s : forall before, inv before s ->
  exists items rest, s = texts items ++ rest /\ items_ok before items rest /\ finished rest.
Proof.
  remember (length s) as n eqn:L. assert (LE : length s <= n) by lia. clear L. revert s LE.
  induction n as [n IH] using (well_founded_induction lt_wf). intros s LE before INV.
  destruct s as [|c s]; [exists [], []; repeat split; [constructor|now left]|].
  (* an include line *)
  destruct (line_begin_dec before) as [LB|LB].
  1: destruct (inc_line_dec (c :: s)) as [IL|IL].
  1:{ destruct IL as (ws & after & E & F & (sp & name & rest & -> & HG & HN & HL)).
      assert (E' : c :: s = text_of (Include ws sp name) ++ rest) by (rewrite E; cbn [text_of]; now rewrite <- !app_assoc).
      apply (items_step before _ _ _ E'); [repeat split; try assumption; apply HG || apply HN|].
      apply (IH (length rest)); [|lia|now apply inv_line].
      rewrite E' in LE. rewrite app_length in LE. pose proof (text_of_nonempty (Include ws sp name)).
      destruct (text_of (Include ws sp name)); [congruence|cbn [length] in LE; lia]. }
  1: assert (NI : ~ (inc_before before /\ inc_line (c :: s))) by tauto.
  2: assert (NI : ~ (inc_before before /\ inc_line (c :: s))) by (intros [X Y]; now apply LB, INV).
  all: clear INV LB.
  all: assert (NEXT : forall it rest, c :: s = text_of it ++ rest -> item_ok before it rest -> inv (before ++ text_of it) rest ->
      exists items r, c :: s = texts items ++ r /\ items_ok before items r /\ finished r)
    by (intros it rest E OK I; apply (items_step before it rest _ E OK);
        apply (IH (length rest)); [|lia|exact I]; rewrite E, app_length in LE; pose proof (text_of_nonempty it);
        destruct (text_of it); [congruence|cbn [length] in LE; lia]).
  all: assert (LAST : forall t x rest, ~ blank x -> inv (before ++ t ++ [x]) rest)
    by (intros t x rest N (b & ws & E & HB & HW) _; destruct ws as [|y ws] using rev_ind; [now rewrite E, app_nil_r|];
        rewrite !app_assoc in E; apply app_inj_tail in E as [_ ->]; apply Forall_app in HW as [_ HW]; inversion HW; contradiction).
  all: clear IH LE.
  all: destruct (Z.eq_dec c 35) as [->|N35].
  1,3: (apply (NEXT Hash s); [reflexivity| |apply (LAST [] 35%Z); unfold blank; lia];
        intros [X Y]; apply NI; split; [exact X|]; exists [], s; repeat split; [constructor|exact Y]).
  all: assert (DQ : (c = 34%Z \/ c = 39%Z) \/ (c <> 34%Z /\ c <> 39%Z)) by lia; destruct DQ as [Q|[Q1 Q2]].
  1,3: (assert (N92 : 92%Z <> c) by lia; destruct (string_cases c N92 s) as [(body & rest & E & B)|B];
    [apply (NEXT (Quoted c body) rest); [cbn [text_of app]; rewrite <- app_assoc; cbn [app]; now rewrite E|now split|
       cbn [text_of]; apply (LAST (c :: body) c); unfold blank; lia]
    |apply (NEXT (OpenQuoted c s) []); [cbn [text_of]; now rewrite app_nil_r|now repeat split|apply inv_line; now left]]).
  all: destruct (Z.eq_dec c 45) as [->|N45].
  1,3: destruct s as [|d s]; [|destruct (Z.eq_dec d 45) as [->|ND]].
  2,5: (destruct (long_brackets s) as [k|] eqn:LBR;
    [destruct (long_brackets_some s k LBR) as (n0 & body & rest & E & _ & FC);
     apply (NEXT (LongComment n0 body) rest); [cbn [text_of app]; now rewrite E|exact FC|];
     cbn [text_of]; replace ([45; 45]%Z ++ open_b n0 ++ body ++ close_b n0) with (([45; 45]%Z ++ open_b n0 ++ body ++ 93%Z :: eqs n0) ++ [93%Z])
       by (unfold close_b; rewrite <- !app_assoc; reflexivity);
     apply LAST; unfold blank; lia
    |apply long_brackets_none in LBR; destruct (line_len_split s) as (rest & E & NL & LE);
     apply (NEXT (LineComment (firstn (line_len s) s)) rest); [cbn [text_of app]; now rewrite <- E| |now apply inv_line];
     repeat split; [exact NL|exact LE|now rewrite <- E]]).
  1,3: (apply (NEXT (Other 45%Z) []); [reflexivity|repeat split; try discriminate|apply (LAST [] 45%Z); unfold blank; lia]).
  1,2: (apply (NEXT (Other 45%Z) (d :: s)); [reflexivity| |apply (LAST [] 45%Z); unfold blank; lia];
        repeat split; try discriminate; intros _ t E; injection E as E _; contradiction).
  all: destruct (Z.eq_dec c 91) as [->|N91].
  1,3: destruct s as [|d s]; [|destruct (Z.eq_dec d 91) as [->|ND]].
  2,5: (destruct (long_brackets (91%Z :: 91%Z :: s)) as [k|] eqn:LBR;
    [|exists [], (91%Z :: 91%Z :: s); split; [reflexivity|]; split; [constructor|]; right; split; [now exists s|now apply long_brackets_none]];
    destruct (long_brackets_some _ k LBR) as (n0 & body & rest & E & _ & FC);
    assert (n0 = 0) by (destruct n0 as [|n0]; [reflexivity|discriminate E]); subst n0;
    apply (NEXT (LongString body) rest); [exact E|exact FC|];
    cbn [text_of]; replace (open_b 0 ++ body ++ close_b 0) with ((open_b 0 ++ body ++ [93%Z]) ++ [93%Z])
      by (cbn [open_b close_b eqs repeat app]; now rewrite <- app_assoc);
    apply LAST; unfold blank; lia).
  1,3: (apply (NEXT (Other 91%Z) []); [reflexivity|repeat split; try discriminate|apply (LAST [] 91%Z); unfold blank; lia]).
  1,2: (apply (NEXT (Other 91%Z) (d :: s)); [reflexivity| |apply (LAST [] 91%Z); unfold blank; lia];
        repeat split; try discriminate; intros _ t E; injection E as E _; contradiction).
  all: (apply (NEXT (Other c) s); [reflexivity|repeat split; try assumption; congruence|]; cbn [text_of];
    intros (b & ws & E & HB & HW) IL2; destruct ws as [|y ws] using rev_ind; [now rewrite E, app_nil_r|]; exfalso;
    rewrite app_assoc in E; apply app_inj_tail in E as [E <-]; apply Forall_app in HW as [HW1 HW2]; inversion_clear HW2;
    apply NI; split; [exists b, ws; auto|now apply inc_line_cons]).
Qed.

(** *** Tabs *)
Lemma find_cut a b : (forall a' b', a ++ tab_break ++ b = a' ++ tab_break ++ b' -> length a <= length a') ->
  find k_tab_break (a ++ tab_break ++ b) = Some (length a).
Proof.
  intros M. destruct (find_min tab_break a b) as (k & E & L). change k_tab_break with tab_break. rewrite E. f_equal.
  destruct (find_some _ _ _ E) as (a' & b' & Q & <-). specialize (M _ _ Q). lia.
Qed.
Lemma tab_range_spec s l : tabs s l -> forall pre tab target fuel, tab <= target -> length s < fuel ->
  (forall t, nth_error l (target - tab) = Some t -> t <> [] \/ S (target - tab) < length l ->
     exists st, tab_range fuel (pre ++ s) tab (length pre) target = Ok (st, st + length t) /\
       text_slice (pre ++ s) st (st + length t) = t) /\
  (length l <= target - tab \/ nth_error l (target - tab) = Some [] /\ S (target - tab) = length l ->
     tab_range fuel (pre ++ s) tab (length pre) target = Err ECheck).
Proof.
  induction 1 as [s N|a b l M T IH]; intros pre tab target fuel LT LF; (destruct fuel as [|fuel]; [lia|]); cbn [tab_range];
    rewrite skipn_app, skipn_all, Nat.sub_diag; cbn [skipn app].
  - assert (FN : find k_tab_break s = None).
    { destruct (find k_tab_break s) as [k|] eqn:E; [|reflexivity]. destruct (find_some _ _ _ E) as (a & b & Q & _). now apply N in Q. }
    rewrite FN. rewrite app_length. split.
    + intros t Et Ht. assert (T0 : target - tab = 0) by (destruct (target - tab); [reflexivity|destruct n; discriminate Et]).
      rewrite T0 in *. injection Et as <-. destruct Ht as [Ht|Ht]; [|cbn in Ht; lia].
      assert (0 < length s) by (destruct s; [congruence|cbn; lia]).
      replace (length pre <? length pre + length s) with true by (symmetry; apply Nat.ltb_lt; lia).
      replace (tab =? target) with true by (symmetry; apply Nat.eqb_eq; lia).
      exists (length pre). split; [reflexivity|]. unfold text_slice. rewrite skipn_app, skipn_all, Nat.sub_diag. cbn [skipn app].
      now rewrite firstn_all2 by lia.
    + intros H. destruct (Nat.ltb_spec (length pre) (length pre + length s)) as [L|L]; [|reflexivity].
      destruct (Nat.eqb_spec tab target) as [->|NE].
      * exfalso. rewrite Nat.sub_diag in H. destruct H as [H|[H _]]; [cbn in H; lia|]. injection H as ->. cbn in L. lia.
      * destruct fuel as [|fuel]; [lia|]. cbn [tab_range]. rewrite app_length.
        replace (length pre + length s + length k_tab_break <? length pre + length s) with false; [reflexivity|].
        symmetry. apply Nat.ltb_ge. lia.
  - rewrite (find_cut a b M). replace (length pre <? length (pre ++ a ++ tab_break ++ b)) with true.
    2:{ symmetry. apply Nat.ltb_lt. rewrite !app_length. cbn [length tab_break]. lia. }
    destruct (Nat.eqb_spec tab target) as [->|NE].
    + rewrite Nat.sub_diag. split.
      * intros t Et _. injection Et as <-. exists (length pre). split; [reflexivity|].
        unfold text_slice. rewrite skipn_app, skipn_all, Nat.sub_diag. cbn [skipn app].
        replace (length pre + length a - length pre) with (length a) by lia. apply firstn_before.
      * intros [H|[_ H]]; [cbn in H; lia|]. cbn in H. inversion T; subst; discriminate H.
    + assert (E : target - tab = S (target - S tab)) by lia. rewrite E. cbn [nth_error length].
      assert (LF2 : length b < fuel) by (rewrite !app_length in LF; cbn [length tab_break] in LF; lia).
      specialize (IH (pre ++ a ++ tab_break) (S tab) target fuel ltac:(lia) LF2).
      rewrite <- !app_assoc in IH.
      replace (length (pre ++ a ++ tab_break)) with (length pre + length a + length k_tab_break) in IH
        by (rewrite !app_length; cbn [length tab_break k_tab_break]; lia).
      destruct IH as [IH1 IH2]. split.
      * intros t Et Ht. apply IH1; [exact Et|]. destruct Ht; [now left|right; lia].
      * intros H. apply IH2. destruct H as [H|[H1 H2]]; [left; lia|right; split; [exact H1|lia]].
Qed.
Lemma tabs_exist s : exists l, tabs s l.
Proof.
  remember (length s) as n eqn:L. assert (LE : length s <= n) by lia. clear L. revert s LE.
  induction n as [n IH] using (well_founded_induction lt_wf). intros s LE.
  destruct (find tab_break s) as [k|] eqn:E.
  - destruct (find_some _ _ _ E) as (a & b & -> & La).
    destruct (IH (length b)) with (s := b) as [l T]; [rewrite !app_length in LE; cbn [length tab_break] in LE; lia|lia|].
    exists (a :: l). constructor; [|exact T]. intros a' b' Q. rewrite Q in E. destruct (find_min tab_break a' b') as (j & Ej & Lj).
    rewrite Ej in E. injection E as ->. lia.
  - exists [s]. constructor. now apply find_none.
Qed.

(** *** Lines and columns *)
Lemma newlines_app a b : newlines (a ++ b) = newlines a + newlines b.
Proof. unfold newlines. now rewrite filter_app, app_length. Qed.
Lemma no_newline_zero s : no_newline s -> newlines s = 0.
Proof. induction 1 as [|c s Hc _ IH]; [reflexivity|]. unfold newlines in *. cbn [filter]. destruct (Z.eqb_spec 10 c); [congruence|exact IH]. Qed.
Lemma find_nl s : match find [10%Z] s with Some k => exists a b, s = a ++ 10%Z :: b /\ length a = k /\ no_newline a | None => no_newline s end.
Proof.
  induction s as [|c s IH].
  - cbn. constructor.
  - change (find [10%Z] (c :: s)) with (if M_Text.starts_with [10%Z] (c :: s) then Some 0 else option_map S (find [10%Z] s)).
    destruct (M_Text.starts_with [10%Z] (c :: s)) eqn:E.
    + apply starts_with_spec in E as [t E]. injection E as -> ->. exists [], t. repeat split. constructor.
    + assert (N : c <> 10%Z).
      { intros ->. assert (M_Text.starts_with [10%Z] (10%Z :: s) = true) by (apply starts_with_spec; now exists s). congruence. }
      destruct (find [10%Z] s) as [k|]; cbn [option_map].
      * destruct IH as (a & b & -> & <- & F). exists (c :: a), b. repeat split. now constructor.
      * now constructor.
Qed.
Lemma line_col_spec fuel : forall pre a b c line, line_begin a -> no_newline b -> length a < fuel ->
  line_col fuel (pre ++ a ++ b ++ c) (length (pre ++ a ++ b)) (length pre) line = Ok (line + newlines a, Z.of_nat (length b)).
Proof.
  induction fuel as [|fuel IH]; intros pre a b c line LB NB LF; [lia|]. cbn [line_col].
  rewrite skipn_before. pose proof (find_nl (a ++ b ++ c)) as F.
  destruct LB as [->|[t ->]].
  - cbn [app] in *. assert (D : (Ok (line, (Z.of_nat (length (pre ++ b)) - Z.of_nat (length pre))%Z) : res (nat * Z)) = Ok (line + newlines [], Z.of_nat (length b))).
    { f_equal. f_equal; [cbn; lia|]. rewrite app_length. lia. }
    rewrite D. destruct (length pre <? length (pre ++ b)); [|reflexivity].
    destruct (find [10%Z] (b ++ c)) as [k|]; [|reflexivity].
    destruct F as (x & y & E & <- & NX). replace (length (pre ++ b) <=? length pre + length x) with true; [reflexivity|].
    symmetry. apply Nat.leb_le. rewrite app_length. destruct (Nat.le_gt_cases (length b) (length x)) as [L|L]; [lia|exfalso].
    symmetry in E. destruct (app_len_le x (10%Z :: y) b c E ltac:(lia)) as (e & -> & E2).
    apply Forall_app in NB as [_ NB]. destruct e as [|z e]; [rewrite app_nil_r in L; lia|]. injection E2 as <- _. inversion NB. congruence.
  - destruct (find [10%Z] ((t ++ [10%Z]) ++ b ++ c)) as [k|].
    2:{ exfalso. apply Forall_app in F as [F _]. apply Forall_app in F as [_ F]. inversion F. congruence. }
    destruct F as (x & y & E & <- & NX).
    assert (L : length x <= length t).
    { destruct (Nat.le_gt_cases (length x) (length t)) as [L|L]; [exact L|exfalso].
      destruct (app_len_le (t ++ [10%Z]) (b ++ c) x (10%Z :: y) E) as (e & -> & _); [rewrite app_length; cbn; lia|].
      apply Forall_app in NX as [NX _]. apply Forall_app in NX as [_ NX]. inversion NX. congruence. }
    assert (LL : length pre + length x < length (pre ++ (t ++ [10%Z]) ++ b)) by (rewrite !app_length; cbn [length]; lia).
    replace (length pre <? length (pre ++ (t ++ [10%Z]) ++ b)) with true by (symmetry; apply Nat.ltb_lt; lia).
    replace (length (pre ++ (t ++ [10%Z]) ++ b) <=? length pre + length x) with false by (symmetry; apply Nat.leb_gt; lia).
    symmetry in E. rewrite <- app_assoc in E. destruct (app_len_le x (10%Z :: y) t ([10%Z] ++ b ++ c) E L) as (e & -> & E2).
    assert (exists a2, e ++ [10%Z] = 10%Z :: a2 /\ line_begin a2 /\ y = a2 ++ b ++ c) as (a2 & EA & LB2 & ->).
    { destruct e as [|z e]; cbn [app] in E2.
      - injection E2 as ->. exists []. repeat split. now left.
      - injection E2 as <- ->. exists (e ++ [10%Z]). cbn [app]. rewrite <- !app_assoc. repeat split. right. now exists e. }
    assert (ET : (x ++ e) ++ [10%Z] = (x ++ [10%Z]) ++ a2) by (rewrite <- !app_assoc, EA; reflexivity).
    rewrite ET in *. specialize (IH (pre ++ x ++ [10%Z]) a2 b c (S line) LB2 NB).
    rewrite <- !app_assoc in *. rewrite !app_length in *. cbn [length] in *.
    replace (S (length pre + length x)) with (length pre + (length x + 1)) by lia.
    rewrite IH; [|lia]. f_equal. f_equal. rewrite newlines_app, (no_newline_zero x NX). change (newlines ([10%Z] ++ a2)) with (S (newlines a2)). lia.
Qed.
Lemma get_line_col_spec pre a b c : line_begin a -> no_newline b ->
  get_line_col (pre ++ a ++ b ++ c) (length (pre ++ a ++ b)) (length pre) = Ok (newlines a, Z.of_nat (length b)).
Proof. intros LB NB. unfold get_line_col. rewrite line_col_spec by (try assumption; rewrite !app_length; lia). reflexivity. Qed.

Lemma tab_line_col_spec s l : tabs s l -> forall pre tab n k fuel t, nth_error l n = Some t -> k <= length t -> n < fuel ->
  tab <= 15 -> tab_line_col fuel (pre ++ s) (length pre + tab_start l n + k) (length pre) tab =
    (lc <- get_line_col (pre ++ s) (length pre + tab_start l n + k) (length pre + tab_start l (Nat.min n (15 - tab))) ;;
     Ok (Nat.min (tab + n) 15, lc)).
Proof.
  induction 1 as [s N|a b l M T IH]; intros pre tab n k fuel t Et Lk LF LT; (destruct fuel as [|fuel]; [lia|]); cbn [tab_line_col].
  - assert (n = 0) by (destruct n; [reflexivity|destruct n; discriminate Et]). subst n. injection Et as <-. cbn [tab_start Nat.min].
    rewrite skipn_before. assert (FN : find k_tab_break s = None).
    { destruct (find k_tab_break s) as [j|] eqn:E; [|reflexivity]. destruct (find_some _ _ _ E) as (a & b & Q & _). now apply N in Q. }
    rewrite FN. rewrite !Nat.add_0_r. replace (Nat.min tab 15) with tab by lia. now destruct (_ && _).
  - rewrite skipn_before, (find_cut a b M). destruct n as [|n].
    + injection Et as <-. cbn [tab_start Nat.min]. rewrite !Nat.add_0_r. replace (Nat.min tab 15) with tab by lia.
      replace (length pre + k <=? length pre + length a) with true by (symmetry; apply Nat.leb_le; lia). now destruct (_ && _).
    + cbn [tab_start nth_error] in *.
      replace (length pre <? length pre + (length a + 6 + tab_start l n) + k) with true by (symmetry; apply Nat.ltb_lt; lia).
      replace (length pre + (length a + 6 + tab_start l n) + k <=? length pre + length a) with false by (symmetry; apply Nat.leb_gt; lia).
      destruct (Nat.ltb_spec tab 15) as [L15|L15]; cbn [andb].
      * specialize (IH (pre ++ a ++ tab_break) (S tab) n k fuel t Et Lk ltac:(lia) ltac:(lia)). rewrite <- !app_assoc in IH.
        rewrite !app_length in IH. change (length tab_break) with 6 in IH. change (length k_tab_break) with 6.
        replace (length pre + (length a + 6 + tab_start l n) + k) with (length pre + (length a + 6) + tab_start l n + k) by lia.
        rewrite Nat.add_assoc in IH at 4. rewrite Nat.add_assoc in IH at 1.
        replace (length pre + length a + 6) with (length pre + (length a + 6)) in * by lia.
        rewrite IH. replace (15 - tab) with (S (15 - S tab)) by lia. cbn [Nat.min tab_start].
        replace (length pre + (length a + 6 + tab_start l (Nat.min n (15 - S tab)))) with (length pre + (length a + 6) + tab_start l (Nat.min n (15 - S tab))) by lia.
        replace (S tab + n) with (tab + S n) by lia. reflexivity.
      * assert (tab = 15) by lia. subst tab. change (15 - 15) with 0. cbn [Nat.min tab_start]. rewrite Nat.add_0_r.
        replace (Nat.min (15 + S n) 15) with 15 by lia. reflexivity.
Qed.

(** *** Trimming keeps the map right for a cart that is one piece of its own file *)
Lemma trim_single (file : list Z -> list Z -> nat -> Prop) c line n c' : file (i_path c) (i_code c) line ->
  i_map c = [mkmap 0 (i_path c) (i_code c) 0 line] -> trim_cart_to_tab c n = Ok c' -> cart_mapped file c'.
Proof.
  intros HF HM E. unfold trim_cart_to_tab in E. destruct (tab_range _ _ _ _ _) as [[st en]|]; [|discriminate E]. cbn [bind] in E.
  apply Ok_inj in E. subst c'. rewrite HM. cbn [trim_map m_idx m_path m_code m_src m_line Nat.ltb Nat.leb].
  rewrite zeqb_list_refl. unfold cart_mapped. cbn [i_map i_code app]. left.
  replace (en <? 0) with false by (symmetry; apply Nat.ltb_ge; lia). cbn [trim_map app]. intros j Hj.
  cbn [rev app List.find m_idx Nat.sub Nat.leb]. eexists. split; [reflexivity|]. cbn [m_path m_code m_src m_idx]. split; [exact HF|].
  rewrite nth_error_slice by exact Hj. f_equal. lia.
Qed.

Lemma tabs_place s l : tabs s l -> forall n t, nth_error l n = Some t -> exists pre post, s = pre ++ t ++ post /\ length pre = tab_start l n.
Proof.
  induction 1 as [s N|a b l M T IH]; intros n t E.
  - assert (n = 0) by (destruct n; [reflexivity|destruct n; discriminate E]). subst n. injection E as <-. exists [], []. now rewrite app_nil_r.
  - destruct n as [|n]; cbn [nth_error tab_start] in *.
    + injection E as <-. exists [], (tab_break ++ b). auto.
    + destruct (IH n t E) as (pre & post & -> & L). exists (a ++ tab_break ++ pre), post. rewrite <- !app_assoc. split; [reflexivity|].
      rewrite !app_length, L. cbn [length tab_break]. lia.
Qed.

(** *** Whole runs *)
Theorem preprocess_ok load path code line fuel out maps : preprocess_code load path code line fuel = Ok (out, maps) -> length code < fuel ->
  exists items, code = texts items /\ items_ok [] items [] /\ output_of (read_included_cart load) i_code items = Ok out /\
    forall file : list Z -> list Z -> nat -> Prop, file path code line ->
      (forall ws sp name c, In (Include ws sp name) items -> read_included_cart load name = Ok c -> cart_mapped file c) -> good_maps file maps out.
Proof.
  intros E L. destruct (items_exist code []) as (items & rest & C & OK & F); [intros _ _; now left|].
  set (named := fun name => exists ws sp, In (Include ws sp name) items).
  assert (NM : Forall (it_named named) items).
  { apply Forall_forall. intros it Hi. destruct it; cbn [it_named]; try exact I. exists ws, sp. exact Hi. }
  destruct F as [->|[[u ->] NL]].
  - exists items. rewrite app_nil_r in C. split; [exact C|]. split; [exact OK|].
    assert (H : forall file, match output_of (read_included_cart load) i_code items with
      | Ok out => exists maps, preprocess_code load path code line fuel = Ok (out, maps) /\
           (incs_mapped load path code line file named -> good_maps file maps out)
      | Err e => preprocess_code load path code line fuel = Err e end) by (intros file; now apply preprocess_items).
    destruct (output_of (read_included_cart load) i_code items) as [out'|e].
    + split.
      * destruct (H (fun _ _ _ => True)) as (maps' & E' & _). rewrite E in E'. injection E' as -> _. reflexivity.
      * intros file HF HI. destruct (H file) as (maps' & E' & G). rewrite E in E'. injection E' as <- <-. apply G. split; [exact HF|].
        intros name c (ws & sp & Hin) Rc. now apply (HI ws sp name).
    + specialize (H (fun _ _ _ => True)). congruence.
  - exfalso. destruct (output_of (read_included_cart load) i_code items) as [o|e] eqn:EO.
    + rewrite (preprocess_stuck load path code line (fun _ _ _ => True) named items u C OK NM NL (ex_intro _ o EO)) in E. discriminate E.
    + pose proof (loop_items load path code line (fun _ _ _ => True) named items _ _ _ _ (good_init load path code line (fun _ _ _ => True) named _ items C) OK NM) as H.
      rewrite EO in H. destruct H as (n & Ln & R). unfold preprocess_code in E.
      assert (LC : length (texts items) <= length code) by (rewrite C, app_length; lia).
      replace fuel with (n + (fuel - n)) in E by lia. rewrite R in E. discriminate E.
Qed.

Definition no_tab_names (fs : list Z -> res (list Z * nat)) : Prop :=
  forall path text line items, fs path = Ok (text, line) -> text = texts items -> items_ok [] items [] ->
  forall ws sp name, In (Include ws sp name) items -> tab_suffix name = None.
Theorem nested_mapped fs resolve depth : no_tab_names fs -> forall path c, read_cart_code fs resolve depth path = Ok c ->
  good_maps (fun p t l => fs p = Ok (t, l)) (i_map c) (i_code c).
Proof.
  intros NT. induction depth as [|depth IH]; intros path c E; [discriminate E|]. cbn [read_cart_code] in E.
  destruct (fs path) as [[text line]|] eqn:EF; [|discriminate E]. cbn [bind] in E.
  destruct (preprocess_code _ path text line (S (length text))) as [[out maps]|] eqn:EP; [|discriminate E]. cbn [bind] in E.
  apply Ok_inj in E. subst c. cbn [i_map i_code].
  destruct (preprocess_ok _ _ _ _ _ _ _ EP ltac:(lia)) as (items & C & OK & EO & G).
  apply G; [exact EF|]. intros ws sp name c Hin Rc. left. unfold read_included_cart in Rc.
  rewrite (NT _ _ _ _ EF C OK ws sp name Hin) in Rc. destruct (resolve path name) as [p|]; [|discriminate Rc]. now apply (IH p).
Qed.
Lemma hex_spec d v : hex_value d = Some v <-> hex_digit d v.
Proof.
  unfold hex_value, hex_digit.
  destruct ((48 <=? d) && (d <=? 57))%Z eqn:E1; [split; [intros E; injection E as <-; lia|intros H; f_equal; lia]|].
  destruct ((97 <=? d) && (d <=? 102))%Z eqn:E2; [split; [intros E; injection E as <-; lia|intros H; f_equal; lia]|].
  destruct ((65 <=? d) && (d <=? 70))%Z eqn:E3; [split; [intros E; injection E as <-; lia|intros H; f_equal; lia]|].
  split; [discriminate|lia].
Qed.
Lemma tab_suffix_spec name n v : tab_suffix name = Some (n, v) <-> exists d, name = n ++ [58%Z; d] /\ hex_digit d v.
Proof.
  unfold tab_suffix. split.
  - intros E. destruct (rev name) as [|d [|c r]] eqn:R; try discriminate E. destruct (Z.eqb_spec c 58) as [->|]; [|discriminate E].
    destruct (hex_value d) as [w|] eqn:H; [|discriminate E]. injection E as <- <-. exists d. split; [|now apply hex_spec].
    rewrite <- (rev_involutive name), R. cbn [rev]. now rewrite <- app_assoc.
  - intros (d & -> & H). apply hex_spec in H. rewrite rev_app_distr. cbn [rev app]. rewrite Z.eqb_refl, H. now rewrite rev_involutive.
Qed.
Lemma tab_suffix_none name : (forall n d v, name = n ++ [58%Z; d] -> ~ hex_digit d v) -> tab_suffix name = None.
Proof.
  intros H. destruct (tab_suffix name) as [[n v]|] eqn:E; [|reflexivity]. apply tab_suffix_spec in E as (d & E & Hd). now destruct (H n d v E).
Qed.
