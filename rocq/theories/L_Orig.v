(** Lemmas on printing with the whitespace and comments of the source. *)
From Coq Require Import String.
From Coq Require Import List ZArith Bool Lia.
From Verif Require Import M_Base L_Util M_Fold M_Token S_Token M_Str L_Str M_Expr M_Stmt M_Hints S_Gap S_Hints M_Keep L_Token L_TokenSeq L_TokenTotal L_Pipe L_Keep M_Orig S_Orig.
Import ListNotations.
Open Scope list_scope.
Open Scope Z_scope.

(** ** Gaps *)
Lemma gap_of_app lang a os b os' : gap_of lang a os -> gap_of lang b os' -> gap_of lang (a ++ b) (os ++ os').
Proof.
  intros G H. induction G as [|c g cs I G IH|c body g cs T G IH|c inner g cs T G IH]; cbn [app].
  - exact H.
  - now apply of_space.
  - rewrite <- app_assoc. cbn [app]. now apply of_line.
  - rewrite <- app_assoc. now apply of_block.
Qed.
Lemma gap_app lang a n b m : gap lang a n -> gap lang b m -> gap lang (a ++ b) (n + m).
Proof.
  intros G H. induction G as [|c g n I G IH|g n G IH|c g n T G IH|c g n T G IH]; cbn [app].
  - exact H.
  - now apply gap_space.
  - rewrite <- Z.add_assoc. now apply gap_break.
  - rewrite <- app_assoc, <- Z.add_assoc. cbn [app]. now apply gap_line.
  - rewrite <- app_assoc. now apply gap_block.
Qed.
Definition white (s : list Z) : Prop := forall c, In c s -> In c [32; 9; 13; 10].
Lemma white_gap lang : forall w, white w -> gap_of lang w [] /\ exists n, gap lang w n /\ 0 <= n /\ (In 10 w -> 1 <= n) /\ (~ In 10 w -> n = 0).
Proof.
  induction w as [|c w IH]; intros W; [split; [constructor|]; exists 0; split; [constructor|]; cbn; lia|].
  destruct IH as (G & n & N & P & A & B); [intros d I; apply W; now right|]. split; [apply of_space; [apply W; now left|exact G]|].
  destruct (Z.eq_dec c 10) as [->|Nc].
  - exists (1 + n). split; [now apply gap_break|]. split; [lia|]. split; [lia|]. intros K. exfalso. apply K. now left.
  - exists n. split; [apply gap_space; [|exact N]; destruct (W c (or_introl eq_refl)) as [<-|[<-|[<-|[<-|[]]]]]; lia|]. split; [lia|]. split.
    + intros [K|K]; [lia|now apply A].
    + intros K. apply B. intros I. apply K. now right.
Qed.

(** ** Whitespace *)
Section orig.
Context (isspace : Z -> bool) (spans : list Z -> option (nat * nat)) (lang : language).
Notation orig := (get_orig_wspace isspace spans).

Lemma before_white s : white s -> white (before_first_break s).
Proof.
  intros W c I. apply W. unfold before_first_break in I. destruct (span (fun c => negb (c =? 10)) s) as [a b] eqn:S. cbn [fst] in I.
  apply span_app in S. rewrite S. apply in_or_app. now left.
Qed.
Lemma before_none s : ~ In 10 (before_first_break s).
Proof.
  unfold before_first_break. destruct (span (fun c => negb (c =? 10)) s) as [a b] eqn:S. cbn [fst]. pose proof (span_app _ _ _ _ S) as Es. rewrite Es in S. apply span_iff in S as (S & _). intros I. rewrite forallb_forall in S. specialize (S 10 I). discriminate S.
Qed.
Lemma spaces_white n m : white (repeat 10 n ++ repeat 32 m).
Proof. intros c I. apply in_app_or in I as [I|I]; apply repeat_spec in I; subst c; cbn; auto. Qed.
Lemma orig_break text need : In 10 text -> In 10 (orig text true need).
Proof.
  intros I. unfold get_orig_wspace. cbn [negb andb].
  set (p := match text with [] => _ | _ :: _ => _ end).
  assert (P : exists t b, p = (t, b) /\ (In 10 t \/ b = true)).
  { unfold p. destruct text as [|c text]; [destruct I|]. destruct (forallb isspace (c :: text)); [eexists _, _; split; [reflexivity|now left]|].
    destruct (spans (c :: text)) as [[f l]|].
    - eexists _, _. split; [reflexivity|]. right. rewrite (proj2 (break_iff _) I). cbn [andb]. apply orb_true_r.
    - eexists _, _. split; [reflexivity|]. left. apply in_or_app. left. destruct (Nat.min (count_ch 10 (c :: text)) 2) as [|k] eqn:E; [exfalso|now left].
      assert (H : (1 <= count_ch 10 (c :: text))%nat); [|lia]. clear -I. unfold count_ch. assert (F : In 10 (filter (Z.eqb 10) (c :: text))) by (apply filter_In; split; [exact I|reflexivity]). destruct (filter (Z.eqb 10) (c :: text)); [destruct F|cbn [length]; lia]. }
  destruct P as (t & b & -> & B). destruct (has_break t) eqn:H; [rewrite andb_false_r; now apply break_iff|]. destruct B as [B|Eb]; [apply break_iff in B; congruence|]. rewrite Eb. cbn [negb andb]. apply in_or_app. right. now left.
Qed.
Lemma orig_white text allow need : text_ok isspace text ->
  white (orig text allow need) /\ (need = true -> In 10 (orig text allow need)) /\ (allow = false -> need = false -> ~ In 10 (orig text allow need)) /\
  (text <> [] -> space_only isspace text -> orig text allow need <> []).
Proof.
  intros Ok. unfold get_orig_wspace.
  set (p := match text with [] => _ | _ :: _ => _ end).
  assert (P : exists t b, p = (t, b) /\ white t /\ (need = true -> b = true) /\ (allow = false -> need = false -> b = false) /\ (text <> [] -> space_only isspace text -> t <> [])).
  { unfold p. destruct text as [|c text]; [exists [], need; repeat (split; [easy|]); easy|].
    destruct (forallb isspace (c :: text)) eqn:F; [exists (c :: text), need; split; [reflexivity|]; split; [exact (Ok F)|easy]|].
    assert (NS : ~ space_only isspace (c :: text)) by (unfold space_only; congruence).
    destruct (spans (c :: text)) as [[f l]|].
    - eexists _, _. split; [reflexivity|]. split; [apply spaces_white|]. split; [intros ->; reflexivity|]. split; [|easy]. intros -> ->. now rewrite andb_false_r.
    - eexists _, _. split; [reflexivity|]. split; [apply spaces_white|]. easy. }
  destruct P as (t & b & -> & W & B1 & B2 & T).
  set (u := if negb allow && has_break t then before_first_break t ++ [32] else t).
  assert (U : white u /\ (allow = false -> ~ In 10 u) /\ (t <> [] -> u <> [])).
  { unfold u. destruct allow; cbn [negb andb]; [easy|]. destruct (has_break t) eqn:H.
    - split; [|split].
      + intros c I. apply in_app_or in I as [I|[<-|[]]]; [exact (before_white t W c I)|cbn; auto].
      + intros _ I. apply in_app_or in I as [I|[I|[]]]; [exact (before_none t I)|discriminate I].
      + intros _ E. apply app_eq_nil in E as (_ & E). discriminate E.
    - split; [exact W|]. split; [intros _ I; apply break_iff in I; congruence|auto]. }
  destruct U as (U1 & U2 & U3). clearbody u. destruct (b && negb (has_break u)) eqn:D.
  - apply andb_prop in D as (-> & _). split; [|split; [|split]].
    + intros c I. apply in_app_or in I as [I|[<-|[]]]; [now apply U1|cbn; auto].
    + intros _. apply in_or_app. right. now left.
    + intros A N. specialize (B2 A N). discriminate B2.
    + intros _ _ E. apply app_eq_nil in E as (_ & E). discriminate E.
  - split; [exact U1|]. split; [|split; [intros A _; now apply U2|auto]]. intros N. rewrite (B1 N) in D. cbn [andb] in D. apply break_iff. now destruct (has_break u).
Qed.

(** ** Comments *)
Context (Asc : ascii_isspace isspace).
Lemma join_eq s t : joined isspace s t -> t = join_lines isspace false s.
Proof.
  induction 1 as [|c s t N J ->|w s t W H J ->]; [reflexivity| |]; cbn [join_lines].
  - cbn [andb]. destruct (Z.eqb_spec c 10); [contradiction|reflexivity].
  - cbn [andb]. rewrite Z.eqb_refl. f_equal. induction W as [|d w Wd W IH]; cbn [app].
    + destruct s as [|c s]; [reflexivity|]. cbn [join_lines]. rewrite (H c s eq_refl). reflexivity.
    + cbn [join_lines]. rewrite Wd. exact IH.
Qed.
Lemma join_plain : forall t, ~ In 10 t -> join_lines isspace false t = t.
Proof.
  induction t as [|c t IH]; intros N; [reflexivity|]. cbn [join_lines andb]. destruct (Z.eqb_spec c 10) as [->|_]; [destruct N; now left|]. rewrite IH; [reflexivity|]. intros K. apply N. now right.
Qed.
Lemma join_none : forall s k, ~ In 10 (join_lines isspace k s).
Proof.
  induction s as [|c s IH]; intros k; cbn [join_lines]; [auto|]. destruct (k && isspace c); [apply IH|]. destruct (Z.eqb_spec c 10) as [E|E]; intros [H|H]; try lia; exact (IH _ H).
Qed.
Lemma join_pre t : forall a, ~ In 10 a -> join_lines isspace false (a ++ t) = a ++ join_lines isspace false t.
Proof.
  induction a as [|c a IH]; intros N; [reflexivity|]. cbn [app join_lines andb]. destruct (Z.eqb_spec c 10) as [->|_]; [destruct N; now left|]. rewrite IH; [reflexivity|]. intros K. apply N. now right.
Qed.
Lemma join_post c t : isspace c = false -> ~ In 10 (c :: t) -> forall s k, join_lines isspace k (s ++ c :: t) = join_lines isspace k s ++ c :: t.
Proof.
  intros Hc N. induction s as [|d s IH]; intros k.
  - cbn [app join_lines]. rewrite Hc, andb_false_r. destruct (Z.eqb_spec c 10) as [->|_]; [destruct N; now left|]. rewrite join_plain; [reflexivity|]. intros K. apply N. now right.
  - cbn [app join_lines]. destruct (k && isspace d); [apply IH|]. destruct (d =? 10); cbn [app]; now rewrite IH.
Qed.
Lemma joined_prefix pat : pat <> [] -> forall s t, joined isspace s t -> forall p y, ~ In 32 p -> t ++ pat = p ++ y -> exists y', s ++ pat = p ++ y' /\ (y' = [] -> y = []).
Proof.
  intros NE. induction 1 as [|c s t N J IH|w s t W H J IH]; intros p y Np E; [exists y; auto| |].
  - destruct p as [|d p]; [exists ((c :: s) ++ pat); split; [reflexivity|]; discriminate|]. cbn [app] in E. injection E as <- E.
    destruct (IH p y) as (y' & E' & Y); [intros K; apply Np; now right|exact E|]. exists y'. cbn [app]. now rewrite E'.
  - destruct p as [|d p]; [exists ((10 :: w ++ s) ++ pat); split; [reflexivity|]; discriminate|]. cbn [app] in E. injection E as <- _. destruct Np. now left.
Qed.
Lemma joined_within pat : pat <> [] -> ~ In 32 pat -> forall s t, joined isspace s t -> forall x y, t ++ pat = x ++ pat ++ y -> exists x' y', s ++ pat = x' ++ pat ++ y' /\ (y' = [] -> y = []).
Proof.
  intros NE N32. induction 1 as [|c s t N J IH|w s t W H J IH]; intros x y E; [exists x, y; auto| |].
  - destruct x as [|d x].
    + destruct (joined_prefix pat NE (c :: s) (c :: t) (joined_char _ c s t N J) pat y N32 E) as (y' & E' & Y). exists [], y'. auto.
    + cbn [app] in E. injection E as <- E. destruct (IH x y E) as (x' & y' & E' & Y). exists (c :: x'), y'. cbn [app]. now rewrite E'.
  - destruct x as [|d x].
    + destruct pat as [|d pat]; [contradiction|]. cbn [app] in E. injection E as <- _. destruct N32. now left.
    + cbn [app] in E. injection E as <- E. destruct (IH x y E) as (x' & y' & E' & Y). exists (10 :: w ++ x'), y'. cbn [app]. split; [|exact Y]. now rewrite <- !app_assoc, E'.
Qed.
Lemma ends_once n q l : repeat 61 n ++ [93] = q ++ 93 :: l -> q = repeat 61 n /\ l = [].
Proof.
  revert q. induction n as [|n IH]; intros q E; cbn [repeat app] in *.
  - destruct q as [|c q]; [injection E as <-; auto|]. injection E as _ E. destruct q; discriminate E.
  - destruct q as [|c q]; [discriminate E|]. cbn [app] in E. injection E as <- E. destruct (IH q E) as (-> & ->). auto.
Qed.
Lemma not_within pat s : contains pat s = false -> forall x y, s <> x ++ pat ++ y.
Proof. intros C x y ->. unfold contains in C. destruct (find_sub_some pat x y) as (a & b & E). rewrite E in C. discriminate C. Qed.
Lemma line_closed n text pre post : contains (long_end n) (pre ++ text ++ post) = false -> (forall x k, text <> x ++ 93 :: repeat 61 k) ->
  forall x y, text ++ [93] ++ repeat 61 n ++ [93] = x ++ [93] ++ repeat 61 n ++ [93] ++ y -> y = [].
Proof.
  intros C N x y E. set (pat := long_end n) in *.
  assert (C' : forall x y, text <> x ++ pat ++ y).
  { intros a b Et. apply (not_within _ _ C (pre ++ a) (b ++ post)). rewrite Et. now rewrite <- !app_assoc. }
  destruct y as [|y0 y]; [reflexivity|exfalso].
  assert (E1 : text ++ pat = (x ++ pat) ++ y0 :: y) by (unfold pat, long_end; rewrite <- app_assoc; cbn [app]; rewrite <- app_assoc; exact E). clear E.
  assert (E2 : exists l, x ++ pat = text ++ l /\ pat = l ++ y0 :: y).
  { apply app_eq_app in E1 as (l & [(H1 & H2)|(H1 & H2)]); [|eauto]. exfalso. apply (C' x l). now rewrite H1, app_assoc. }
  destruct E2 as (l & E2 & E3).
  assert (E4 : exists q, text = x ++ q /\ pat = q ++ l).
  { apply app_eq_app in E2 as (q & [(H1 & H2)|(H1 & H2)]); [|eauto]. exfalso. apply (f_equal (@length Z)) in E3. apply (f_equal (@length Z)) in H2. rewrite app_length in *. cbn [length] in E3. lia. }
  destruct E4 as (q & E4 & E5). destruct l as [|l0 l]; [apply (C' x []); rewrite E4, E5, !app_nil_r; reflexivity|].
  assert (l0 = 93) by (unfold pat, long_end in E3; cbn [app] in E3; now injection E3 as <- _). subst l0.
  destruct q as [|q0 q]; [apply (f_equal (@length Z)) in E3; apply (f_equal (@length Z)) in E5; rewrite app_length in E3; cbn [length app] in E3, E5; lia|].
  unfold pat, long_end in E5. cbn [app] in E5. injection E5 as <- E5. apply ends_once in E5 as (-> & ->). apply (N x n). exact E4.
Qed.
Lemma close_space k : ~ In 32 ([93] ++ repeat 61 k ++ [93]).
Proof. intros I. apply in_app_or in I as [[I|[]]|I]; [discriminate I|]. apply in_app_or in I as [I|[I|[]]]; [apply repeat_spec in I; discriminate I|discriminate I]. Qed.
Lemma close_break k : ~ In 10 ([93] ++ repeat 61 k ++ [93]).
Proof. intros I. apply in_app_or in I as [[I|[]]|I]; [discriminate I|]. apply in_app_or in I as [I|[I|[]]]; [apply repeat_spec in I; discriminate I|discriminate I]. Qed.
Lemma open_break k : ~ In 10 ([45; 45; 91] ++ repeat 61 k ++ [91]).
Proof. intros I. apply in_app_or in I as [[I|[I|[I|[]]]]|I]; try discriminate I. apply in_app_or in I as [I|[I|[]]]; [apply repeat_spec in I; discriminate I|discriminate I]. Qed.

(** What a comment becomes is a gap, with no line break where none are allowed. *)
Lemma comment_gap c allow o : stays isspace lang c allow o -> exists out n, comment_text isspace allow c = Ok out /\ out <> [] /\
  (forall g os, gap_of lang g os -> gap_of lang (out ++ g) (o :: os)) /\ (forall g m, gap lang g m -> gap lang (out ++ g) (n + m)) /\ 0 <= n /\ (allow = false -> n = 0) /\
  (head out = head (oc_value c) \/ head out = Some 45) /\ ((allow = true -> oc_block c = true -> ~ In 10 (oc_value c)) -> In 10 out -> 1 <= n) /\
  (allow = true -> oc_block c = false -> 1 <= n).
Proof.
  assert (S93 : isspace 93 = false) by (rewrite Asc by lia; reflexivity).
  assert (BT : forall out inner, block_text out inner -> out <> [] /\ head out = Some 45 /\ (forall g os, gap_of lang g os -> gap_of lang (out ++ g) ((true, inner) :: os)) /\ (forall g m, gap lang g m -> gap lang (out ++ g) (0 + m))).
  { intros out inner T. pose proof T as (k & E & _). split; [rewrite E; discriminate|]. split; [now rewrite E|]. split; [intros g os G; now apply of_block|intros g m G; apply (gap_block lang out g m); [now exists inner|exact G]]. }
  intros [c0 text B V T|allow' text B T [->|N]|c0 text B V T N|text text' B T I J]; unfold comment_text; cbn [negb andb].
  - exists (c0 ++ [10]), 1. rewrite V. split; [reflexivity|]. split; [intros E; apply app_eq_nil in E as (_ & E); discriminate E|]. split; [intros g os G; rewrite <- app_assoc; cbn [app]; now apply of_line|].
    split; [intros g m G; rewrite <- app_assoc; cbn [app]; apply gap_line; [now exists text|exact G]|]. split; [lia|]. split; [discriminate|]. split; [auto|]. split; lia.
  - exists (oc_value c), 0. destruct (BT _ _ T) as (B1 & B2 & B3 & B4). repeat (split; [solve [auto|lia]|]). split; [|congruence]. intros NB I. destruct (NB eq_refl B I).
  - exists (oc_value c), 0. destruct (BT _ _ T) as (B1 & B2 & B3 & B4). assert (HB : has_break (oc_value c) = false).
    { destruct (has_break (oc_value c)) eqn:H; [|reflexivity]. apply break_iff in H. destruct T as (k & E & _). rewrite E in H. exfalso.
      replace ([45; 45; 91] ++ repeat 61 k ++ [91] ++ text ++ [93] ++ repeat 61 k ++ [93]) with (([45; 45; 91] ++ repeat 61 k ++ [91]) ++ text ++ ([93] ++ repeat 61 k ++ [93])) in H by (now rewrite <- !app_assoc).
      apply in_app_or in H as [H|H]; [exact (open_break k H)|]. apply in_app_or in H as [H|H]; [now apply N|exact (close_break k H)]. }
    rewrite HB, andb_false_r. repeat (split; [solve [auto|lia]|]). split; [|congruence]. intros _ I. apply break_iff in I. congruence.
  - assert (Hb : has_break (oc_value c) = true) by (apply break_iff; rewrite V; apply in_or_app; right; now left). rewrite Hb, B.
    destruct (equals_loop_ok (S (length (oc_value c))) 0 (oc_value c) ltac:(lia) ltac:(lia)) as (n & En & Hc). unfold get_long_brackets_equals. rewrite En. cbn [M_Base.bind].
    destruct T as (m & Ec & M & N10 & _).
    assert (Er : removelast (skipn 2 (oc_value c)) = text).
    { rewrite V, Ec. inversion M; subst m; cbn [app skipn]; rewrite removelast_app by discriminate; cbn [removelast]; apply app_nil_r. }
    rewrite Er. eexists _, 0. split; [reflexivity|].
    assert (BO : block_text (asc "--[" ++ repeat 61 n ++ [91] ++ text ++ [93] ++ repeat 61 n ++ [93]) text).
    { exists n. split; [reflexivity|]. apply (line_closed n text m [10]); [|exact N]. rewrite V, Ec, <- app_assoc in Hc. exact Hc. }
    destruct (BT _ _ BO) as (B1 & B2 & B3 & B4). repeat (split; [solve [auto|lia]|]). split; [|discriminate]. intros _ I. exfalso. clear BO B1 B2 B3 B4.
    change (asc "--[") with [45; 45; 91] in I. replace ([45; 45; 91] ++ repeat 61 n ++ [91] ++ text ++ [93] ++ repeat 61 n ++ [93]) with (([45; 45; 91] ++ repeat 61 n ++ [91]) ++ text ++ ([93] ++ repeat 61 n ++ [93])) in I by (now rewrite <- !app_assoc).
    apply in_app_or in I as [I|I]; [exact (open_break n I)|]. apply in_app_or in I as [I|I]; [now apply N10|exact (close_break n I)].
  - assert (Hb : has_break (oc_value c) = true).
    { apply break_iff. destruct T as (k & E & _). rewrite E. rewrite !in_app_iff. tauto. }
    rewrite Hb, B. eexists _, 0. split; [reflexivity|].
    assert (BO : block_text (join_lines isspace false (oc_value c)) text').
    { destruct T as (k & E & H). exists k. split.
      - rewrite E. replace ([45; 45; 91] ++ repeat 61 k ++ [91] ++ text ++ [93] ++ repeat 61 k ++ [93]) with (([45; 45; 91] ++ repeat 61 k ++ [91]) ++ text ++ 93 :: repeat 61 k ++ [93]) by (now rewrite <- !app_assoc).
        rewrite (join_pre _ _ (open_break k)), join_post by (exact S93 || exact (close_break k)). rewrite <- (join_eq _ _ J). now rewrite <- !app_assoc.
      - intros x y Ey. set (pat := [93] ++ repeat 61 k ++ [93]) in *.
        destruct (joined_within pat ltac:(discriminate) (close_space k) text text' J x y) as (x' & y' & E' & Y); [unfold pat in *; rewrite Ey; now rewrite <- !app_assoc|].
        apply Y. apply (H x'). rewrite E'. unfold pat. now rewrite <- !app_assoc. }
    destruct (BT _ _ BO) as (B1 & B2 & B3 & B4). repeat (split; [solve [auto|lia]|]). split; [|discriminate]. intros _ I'. destruct (join_none _ _ I').
Qed.
Lemma white_mem c : In c [32; 9; 13; 10] -> mem c k_wspace = true.
Proof. intros [<-|[<-|[<-|[<-|[]]]]]; reflexivity. Qed.
Lemma comment_follows w out c p r : white w -> (oc_text c <> [] -> space_only isspace (oc_text c) -> w <> []) -> out <> [] ->
  (head out = head (oc_value c) \/ head out = Some 45) -> may_follow isspace lang p c -> follows lang p (w ++ out ++ r).
Proof.
  intros W W3 NE Hd M. destruct w as [|x w]; [|left; apply white_mem, W; now left]. cbn [app]. destruct out as [|x out]; [contradiction|]. cbn [app follows head] in *.
  destruct M as [(M1 & M2)|(y & Hy & T1 & T2)]; [destruct (W3 M1 M2); reflexivity|]. right. rewrite Hy in Hd. destruct Hd as [[= ->]|[= ->]]; eexists (Tok TPunct [_]); split; try reflexivity; assumption.
Qed.
Lemma orig_comments_last allow c out : comment_text isspace allow c = Ok out -> forall cs nl co nl', orig_comments isspace spans allow nl cs = Ok (co, nl') ->
  exists nl'', orig_comments isspace spans allow nl (cs ++ [c]) = Ok (co ++ orig (oc_text c) (oc_newline c) false ++ out, nl'').
Proof.
  intros E. induction cs as [|d cs IH]; intros nl co nl'; cbn [orig_comments app].
  - intros [= <- <-]. rewrite E. cbn [M_Base.bind app]. rewrite app_nil_r. eexists. reflexivity.
  - destruct (comment_text isspace allow d) as [o|e]; cbn [M_Base.bind]; [|discriminate]. destruct (orig_comments _ _ _ _ cs) as [(rest & m)|e] eqn:R; cbn [M_Base.bind]; [|discriminate].
    intros [= <- <-]. destruct (IH _ _ _ R) as (nl'' & ->). cbn [M_Base.bind]. eexists. now rewrite <- !app_assoc.
Qed.
Lemma last_comment allow c text : line_text lang (oc_value c) text -> comment_text isspace allow c = Ok (oc_value c) /\ oc_value c <> [].
Proof.
  intros (m & E & M & N & _). unfold comment_text. replace (has_break (oc_value c)) with false; [rewrite andb_false_r|].
  - split; [reflexivity|]. rewrite E. now inversion M.
  - symmetry. destruct (has_break (oc_value c)) eqn:H; [|reflexivity]. apply break_iff in H. rewrite E in H. apply in_app_or in H as [H|H]; [|destruct (N H)].
    exfalso. inversion M; subst m; destruct H as [H|[H|[]]]; discriminate H.
Qed.
Lemma orig_comments_ok allow : forall cs os, Forall2 (fun c o => stays isspace lang c allow o /\ text_ok isspace (oc_text c)) cs os -> forall nl,
  exists co nl' n, orig_comments isspace spans allow nl cs = Ok (co, nl') /\ gap_of lang co os /\ gap lang co n /\ 0 <= n /\ (nl = false -> nl' = false) /\
    (allow = false -> (forall c, In c cs -> oc_newline c = false) -> n = 0) /\
    (forall c cs', cs = c :: cs' -> forall p r, may_follow isspace lang p c -> follows lang p (co ++ r)) /\ (cs = [] -> co = [] /\ nl' = nl) /\
    ((forall c, In c cs -> allow = true -> oc_block c = true -> ~ In 10 (oc_value c)) -> nl = true -> nl' = true \/ 1 <= n) /\
    (allow = true -> forall c, In c cs -> oc_block c = false \/ oc_newline c = true /\ In 10 (oc_text c) -> 1 <= n).
Proof.
  induction 1 as [|c o cs os (S & Tx) F IH]; intros nl; cbn [orig_comments].
  - exists [], nl, 0. repeat (split; [solve [constructor|auto|lia|discriminate]|]). intros _ c [].
  - destruct (orig_white (oc_text c) (oc_newline c) false Tx) as (W & _ & W2 & W3). assert (Wb : oc_newline c = true -> In 10 (oc_text c) -> In 10 (orig (oc_text c) (oc_newline c) false)) by (intros ->; apply orig_break). set (w := orig (oc_text c) (oc_newline c) false) in *. clearbody w.
    destruct (comment_gap c allow o S) as (out & k & E & NE & G1 & G2 & K0 & K1 & Hd & Kb & Kl). rewrite E. cbn [M_Base.bind].
    destruct (IH (nl && negb (has_break w) && negb (has_break out))) as (rest & nl' & n & -> & G & N & N0 & A & B & _ & _ & Nb & Nc). cbn [M_Base.bind].
    destruct (white_gap lang w W) as (Wg & k' & Wn & P0 & Pb & P1).
    exists (w ++ out ++ rest), nl', (k' + (k + n)). split; [reflexivity|]. split; [apply (gap_of_app lang w [] _ (o :: os)); auto|]. split; [apply gap_app; auto|]. split; [lia|]. split; [|split; [|split; [|split; [discriminate|split]]]].
    + intros ->. now apply A.
    + intros Al H. rewrite B, K1, P1; [reflexivity| |exact Al|exact Al|]; [apply W2; [apply H; now left|reflexivity]|]. intros d I. apply H. now right.
    + intros c' cs' [= <- <-] p r M. rewrite <- !app_assoc. now apply (comment_follows w out c).
    + intros NB Nl. destruct (has_break w) eqn:Ew; [right; apply break_iff, Pb in Ew; lia|]. destruct (has_break out) eqn:Eo.
      * right. apply break_iff in Eo. specialize (Kb (NB c (or_introl eq_refl)) Eo). lia.
      * rewrite Nl in Nb. destruct (Nb (fun d I => NB d (or_intror I)) eq_refl) as [->|H]; [now left|right; lia].
    + intros Al d [<-|I] D; [|specialize (Nc Al d I D); lia]. destruct D as [D|(D1 & D2)]; [specialize (Kl Al D); lia|]. specialize (Wb D1 D2). apply Pb in Wb. lia.
Qed.
Lemma orig_loop end_allow ends eos : forall l oss prev, oitems_ok isspace lang end_allow ends eos prev l oss -> (forall p, prev = Some p -> lexeme lang p) ->
  exists out, output_orig_loop isspace spans lang prev false l end_allow ends = Ok out /\ orig_text lang eos out l oss /\ tokenize lang out = Ok (map oi_tok l) /\
    (forall p, prev = Some p -> follows lang p out).
Proof.
  induction l as [|x l IH]; intros [|os oss] prev H Hp; cbn [oitems_ok output_orig_loop] in *; try contradiction.
  - destruct H as [(F & M)|(cs & c & os & text & -> & -> & Tx & LT & F & M)].
    + destruct (orig_comments_ok end_allow ends eos F false) as (co & nl' & n & -> & G & _ & _ & _ & _ & Fo & No & _ & _). cbn [M_Base.bind].
      exists co. split; [reflexivity|]. split; [now constructor; left|]. split.
      * pose proof (gap_skipped lang co eos [] G) as T. rewrite app_nil_r in T. rewrite T. reflexivity.
      * intros p ->. destruct ends as [|c cs]; [destruct (No eq_refl) as (-> & _); exact I|rewrite <- (app_nil_r co); exact (Fo c cs eq_refl p [] M)].
    + destruct (orig_comments_ok end_allow cs os F false) as (co & nl' & n & Ec & G & _ & _ & _ & _ & Fo & No & _ & _).
      destruct (last_comment end_allow c text LT) as (Eo & NE). destruct (orig_comments_last end_allow c _ Eo cs false co nl' Ec) as (nl'' & ->). cbn [M_Base.bind].
      destruct (orig_white (oc_text c) (oc_newline c) false Tx) as (W & _ & _ & W3). set (w := orig (oc_text c) (oc_newline c) false) in *. clearbody w.
      assert (GG : gap_of lang (co ++ w) os) by (rewrite <- (app_nil_r os); apply gap_of_app; [exact G|apply (white_gap lang w W)]).
      eexists. split; [reflexivity|]. split; [|split].
      * constructor. right. exists (co ++ w), os, (oc_value c), text. rewrite app_assoc. auto.
      * rewrite app_assoc, (gap_skipped lang _ os _ GG). exact (last_line_skipped lang _ text LT).
      * intros p ->. destruct cs as [|d cs].
        -- destruct (No eq_refl) as (-> & _). cbn [app] in *. rewrite <- (app_nil_r (oc_value c)). apply (comment_follows w _ c); auto.
        -- cbn [app] in M. exact (Fo d cs eq_refl p _ M).
  - destruct H as (L & Tx & (F & M) & H). rewrite orb_false_l.
    destruct (orig_comments_ok (oi_allow x) _ os F (oi_linebreak x)) as (co & nl & n & -> & G & N & N0 & A & B & Fo & No & Nb & Nc). cbn [M_Base.bind].
    destruct (orig_white (oi_text x) (oi_newline x) nl Tx) as (W & W1 & W2 & _). assert (Wb : oi_newline x = true -> In 10 (oi_text x) -> In 10 (orig (oi_text x) (oi_newline x) nl)) by (intros ->; apply orig_break). set (w := orig (oi_text x) (oi_newline x) nl) in *. clearbody w.
    set (z := match w, prev, oi_comments x with [], Some p, [] => _ | _, _, _ => _ end).
    assert (Z : exists w', z = Ok w' /\ white w' /\ nl && negb (has_break w') = false /\ (In 10 w <-> In 10 w') /\
      (forall p, prev = Some p -> forall r, follows lang p ((co ++ w') ++ tok_value (oi_tok x) ++ r))).
    { destruct w as [|a w].
      - assert (Nl : nl = false) by (destruct nl; [destruct (W1 eq_refl)|reflexivity]). rewrite Nl. cbn [andb]. unfold z. destruct prev as [p|].
        + destruct (oi_comments x) as [|c cs] eqn:Ec.
          * destruct (need_ws_lexeme lang p (oi_tok x) (Hp p eq_refl) L) as (b & -> & Hb). cbn [M_Base.bind]. destruct (No eq_refl) as (-> & _). exists (if b then [32] else []).
            split; [reflexivity|]. split; [destruct b; intros d [<-|[]] || intros d []; cbn; auto|]. split; [reflexivity|]. split; [destruct b; cbn; intuition lia|].
            intros q [= <-] r. destruct b; [now left|]. cbn [app]. apply follows_app; [exact (lexeme_value _ _ L)|]. pose proof (lexeme_value _ _ L) as V. unfold follows.
            destruct (tok_value (oi_tok x)) as [|d v] eqn:Ev; [contradiction|]. right. exists (oi_tok x). rewrite Ev. auto.
          * exists []. repeat (split; [solve [reflexivity|intros d []]|]). intros q [= <-] r. rewrite <- app_assoc. exact (Fo c cs eq_refl p _ M).
        + exists []. repeat (split; [solve [reflexivity|intros d []]|]). discriminate.
      - exists (a :: w). split; [reflexivity|]. split; [exact W|]. split; [|split; [tauto|]].
        + destruct nl; [|reflexivity]. rewrite (proj2 (break_iff _) (W1 eq_refl)). reflexivity.
        + intros p -> r. rewrite <- app_assoc. destruct (oi_comments x) as [|c cs] eqn:Ec; [|exact (Fo c cs eq_refl p _ M)]. destruct (No eq_refl) as (-> & _). left. apply white_mem, W. now left. }
    destruct Z as (w' & -> & Ww & Hn & Hb & Fw). cbn [M_Base.bind]. rewrite Hn. destruct (IH oss _ H ltac:(now intros ? [= <-])) as (rest & -> & K & T & Fr). cbn [M_Base.bind].
    eexists. split; [reflexivity|]. replace (co ++ w' ++ tok_value (oi_tok x) ++ rest) with ((co ++ w') ++ tok_value (oi_tok x) ++ rest) by (now rewrite <- app_assoc).
    destruct (white_gap lang w' Ww) as (Wg & k & Wn & P0 & P1 & P2).
    assert (GG : gap_of lang (co ++ w') os) by (rewrite <- (app_nil_r os); now apply gap_of_app).
    split; [|split].
    + apply (orig_token lang eos (co ++ w') os (n + k)); [exact GG|now apply gap_app| | |exact K].
      * intros NB Lb. assert (NB' : (forall c, In c (oi_comments x) -> oi_allow x = true -> oc_block c = true -> ~ In 10 (oc_value c)) \/ 1 <= n + k).
        { destruct NB as [NB|NB]; [left; intros c I _; now apply NB|]. destruct (oi_allow x) eqn:Al; [|left; discriminate]. right. destruct (NB Al) as [(c & I & D)|(D1 & D2)]; [specialize (Nc eq_refl c I D); lia|].
          specialize (Wb D1 D2). apply Hb, P1 in Wb. lia. }
        destruct NB' as [NB'|NB']; [|exact NB']. destruct (Nb NB' Lb) as [Nl|Hn1]; [apply W1, Hb, P1 in Nl; lia|lia].
      * intros (S1 & S2 & S3 & S4). rewrite (B S1 S4), P2; [reflexivity|]. intros I. apply Hb in I. revert I. apply W2; [exact S2|now apply A].
    + rewrite (gap_skipped lang _ os _ GG). cbn [map]. apply step_any; [exact L|now apply Fr|exact T].
    + intros p Ep. exact (Fw p Ep rest).
Qed.
End orig.
