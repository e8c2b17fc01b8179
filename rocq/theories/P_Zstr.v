(** C99: the template that is found in the executable. *)
From Coq Require Import List ZArith Bool Lia.
From Verif Require Import M_Base L_Util M_Text M_Zstr S_Zstr L_P64.
Import ListNotations.
Open Scope list_scope.
Open Scope Z_scope.

Lemma find_some p : forall s t, find_from p s = Some t -> exists a u, s = a ++ t /\ t = p ++ u /\ forall a' u', s = a' ++ p ++ u' -> (length a <= length a')%nat.
Proof.
  induction s as [|c s IH]; intros t; cbn [find_from]; destruct (starts_with p _) eqn:E; intros F; try discriminate F.
  - injection F as <-. apply p64_starts in E as (u & E). exists [], u. split; [reflexivity|]. split; [exact E|]. cbn. lia.
  - injection F as <-. apply p64_starts in E as (u & E). exists [], u. split; [reflexivity|]. split; [exact E|]. cbn. lia.
  - destruct (IH t F) as (a & u & -> & Et & M). exists (c :: a), u. split; [reflexivity|]. split; [exact Et|]. intros [|d a'] u' E'.
    + cbn [app] in E'. rewrite E' in E. rewrite (proj2 (p64_starts _ _)) in E; [discriminate E|now exists u'].
    + cbn [app] in E'. injection E' as _ E'. cbn [length]. specialize (M a' u' E'). lia.
Qed.
Lemma find_none p : forall s, find_from p s = None -> forall a u, s <> a ++ p ++ u.
Proof.
  induction s as [|c s IH]; cbn [find_from]; destruct (starts_with p _) eqn:E; intros F a u E'; try discriminate F.
  - symmetry in E'. apply app_eq_nil in E' as (-> & E'). rewrite (proj2 (p64_starts _ _)) in E; [discriminate E|]. exists u. now symmetry.
  - destruct a as [|d a]; cbn [app] in E'.
    + rewrite E' in E. rewrite (proj2 (p64_starts _ _)) in E; [discriminate E|now exists u].
    + injection E' as _ E'. exact (IH F a u E').
Qed.
Lemma in_iff p s : is_in p s = true <-> exists u v, s = u ++ p ++ v.
Proof.
  unfold is_in. destruct (find_from p s) as [t|] eqn:F.
  - split; [intros _|reflexivity]. destruct (find_some p s t F) as (a & u & -> & -> & _). now exists a, u.
  - split; [discriminate|]. intros (u & v & E). destruct (find_none p s F u v E).
Qed.
Lemma zero_some : forall s z r, up_to_zero s = Some (z, r) -> s = z ++ 0 :: r /\ ~ In 0 z.
Proof.
  induction s as [|c s IH]; intros z r; cbn [up_to_zero]; [discriminate|]. destruct (Z.eqb_spec c 0) as [->|N].
  - intros [= <- <-]. auto.
  - destruct (up_to_zero s) as [(z' & r')|]; [|discriminate]. intros [= <- <-]. destruct (IH z' r' eq_refl) as (-> & I). split; [reflexivity|]. intros [H|H]; [contradiction|now apply I].
Qed.
Lemma zero_none : forall s, up_to_zero s = None -> ~ In 0 s.
Proof.
  induction s as [|c s IH]; cbn [up_to_zero]; [auto|]. destruct (Z.eqb_spec c 0) as [->|N]; [discriminate|]. destruct (up_to_zero s) as [(z' & r')|]; [discriminate|]. intros _ [H|H]; [contradiction|exact (IH eq_refl H)].
Qed.
Lemma split_at {A} : forall (a b c d : list A), a ++ b = c ++ d -> (length a <= length c)%nat -> exists e, c = a ++ e /\ b = e ++ d.
Proof.
  induction a as [|x a IH]; intros b c d E L; [exists c; auto|]. destruct c as [|y c]; cbn [length app] in *; [lia|]. injection E as -> E. destruct (IH b c d E ltac:(lia)) as (e & -> & ->). now exists e.
Qed.
Lemma same_zero : forall w z r b, w ++ 0 :: r = z ++ 0 :: b -> ~ In 0 w -> ~ In 0 z -> w = z /\ r = b.
Proof.
  induction w as [|c w IH]; intros [|d z] r b E W Z; cbn [app] in E; [injection E as E2|injection E as E1 E2|injection E as E1 E2|injection E as E1 E2].
  - auto.
  - subst d. destruct Z. now left.
  - subst c. destruct W. now left.
  - subst d. destruct (IH z r b E2) as (-> & ->); [intros H; apply W; now right|intros H; apply Z; now right|]. auto.
Qed.
(** A text is behind the first one with a zero, or is the end of it. *)
Lemma later a z rest a' z' b' : a ++ z ++ 0 :: rest = a' ++ z' ++ 0 :: b' -> ~ In 0 z -> ~ In 0 z' -> (length a <= length a')%nat ->
  (exists d, z = d ++ z') \/ exists d, a' = a ++ z ++ 0 :: d /\ rest = d ++ z' ++ 0 :: b'.
Proof.
  intros E Z Z' L. apply split_at in E as (d & -> & E); [|exact L]. destruct (le_lt_dec (length d) (length z)) as [H|H].
  - left. symmetry in E. apply split_at in E as (w & -> & E); [|exact H]. exists d. symmetry in E. apply same_zero in E as (-> & _); [reflexivity| |exact Z']. intros I. apply Z. apply in_or_app. now right.
  - right. apply split_at in E as (w & -> & E); [|lia]. destruct w as [|c w]; [rewrite app_nil_r in H; lia|]. cbn [app] in E. injection E as <- E. exists w. split; [reflexivity|exact E].
Qed.
Lemma zstr_loop prefix infix (NZ : ~ In 0 prefix) : forall fuel data, (length data < fuel)%nat -> exists o, find_zstr_loop fuel data prefix infix = Ok o /\
  match o with
  | Some z => exists n, zstr_at data prefix infix n z /\ forall n' z', zstr_at data prefix infix n' z' -> (n <= n')%nat
  | None => forall n z, ~ zstr_at data prefix infix n z
  end.
Proof.
  induction fuel as [|fuel IH]; intros data L; [lia|]. cbn [find_zstr_loop]. destruct (find_from prefix data) as [s|] eqn:F.
  - destruct (find_some prefix data s F) as (a & u & Ed & Es & M).
    assert (M' : forall n' z', zstr_at data prefix infix n' z' -> exists a' b', data = a' ++ z' ++ 0 :: b' /\ length a' = n' /\ (length a <= n')%nat /\ ~ In 0 z' /\ exists x y, z' = x ++ infix ++ y).
    { intros n' z' ((a' & b' & E & <-) & Z & (t & T) & I). exists a', b'. split; [exact E|]. split; [reflexivity|]. split; [|auto]. apply (M a' (t ++ 0 :: b')). rewrite E, T. now rewrite <- !app_assoc. }
    destruct (up_to_zero s) as [(z & rest)|] eqn:U.
    + apply zero_some in U as (Eu & Z). destruct (is_in infix z) eqn:I.
      * apply in_iff in I. eexists. split; [reflexivity|]. exists (length a). split; [|intros n' z' H; destruct (M' n' z' H) as (a' & b' & _ & _ & Q & _); exact Q].
        split; [exists a, rest; split; [rewrite Ed, Eu; reflexivity|reflexivity]|]. split; [exact Z|]. split; [|exact I].
        rewrite Es in Eu. destruct (le_lt_dec (length prefix) (length z)) as [H|H]; [apply split_at in Eu as (e & -> & _); [now exists e|exact H]|].
        symmetry in Eu. apply split_at in Eu as (e & -> & Eu); [|lia]. destruct e as [|c e]; [rewrite app_nil_r in H; lia|]. cbn [app] in Eu. injection Eu as <- _. destruct NZ. apply in_or_app. right. now left.
      * assert (Lr : (length rest < fuel)%nat) by (rewrite Ed, Eu, !app_length in L; cbn [length] in L; lia).
        assert (NI : ~ exists x y, z = x ++ infix ++ y) by (intros H; apply in_iff in H; congruence).
        destruct (IH rest Lr) as (o & -> & H). exists o. split; [reflexivity|].
        assert (Back : forall n' z', zstr_at data prefix infix n' z' -> exists m, (n' = length a + length z + 1 + m)%nat /\ zstr_at rest prefix infix m z').
        { intros n' z' K. pose proof K as (_ & _ & P & _). destruct (M' n' z' K) as (a' & b' & E & En & La & Z' & (x & y & Ex)). rewrite Ed, Eu in E.
          destruct (later a z rest a' z' b' E Z Z' ltac:(lia)) as [(d & D)|(d & -> & D)].
          - destruct NI. exists (d ++ x), y. rewrite D, Ex. now rewrite <- !app_assoc.
          - exists (length d). split; [rewrite <- En, !app_length; cbn [length]; lia|]. split; [exists d, b'; auto|]. split; [exact Z'|]. split; [exact P|]. now exists x, y. }
        destruct o as [z'|].
        -- destruct H as (m & ((a' & b' & Er & <-) & Z' & P & I') & Q). exists (length a + length z + 1 + length a')%nat. split.
           ++ split; [|auto]. exists (a ++ z ++ 0 :: a'), b'. split; [rewrite Ed, Eu, Er; rewrite <- !app_assoc; reflexivity|rewrite !app_length; cbn [length]; lia].
           ++ intros n' z'' K. destruct (Back n' z'' K) as (m & -> & K'). specialize (Q m z'' K'). lia.
        -- intros n' z' K. destruct (Back n' z' K) as (m & _ & K'). exact (H m z' K').
    + apply zero_none in U. eexists. split; [reflexivity|]. intros n z H. destruct (M' n z H) as (a' & b' & E & En & La & _). rewrite Ed in E. apply split_at in E as (d & _ & E); [|lia]. apply U. rewrite E. rewrite !in_app_iff. cbn. auto.
  - eexists. split; [reflexivity|]. intros n z ((a & b & E & _) & _ & (t & T) & _). apply (find_none prefix data F a (t ++ 0 :: b)). rewrite E, T. now rewrite <- app_assoc.
Qed.

(** What is found is the first text in the data that ends with a zero, begins with the prefix (as "<?xml") and has the infix in it; nothing is
    found only if there is none. *)
Theorem C99_template : forall data prefix infix, ~ In 0 prefix -> exists o, find_zstr data prefix infix = Ok o /\
  match o with
  | Some z => exists n, zstr_at data prefix infix n z /\ forall n' z', zstr_at data prefix infix n' z' -> (n <= n')%nat
  | None => forall n z, ~ zstr_at data prefix infix n z
  end.
Proof. intros data prefix infix NZ. apply zstr_loop; [exact NZ|lia]. Qed.
(** Whatever is in the data before and behind a text that is there, if there is no other one before it, that one is found. *)
Theorem C99_found : forall before z after prefix infix t, ~ In 0 z -> z = prefix ++ t -> (exists u v, z = u ++ infix ++ v) ->
  (forall n z', zstr_at (before ++ z ++ 0 :: after) prefix infix n z' -> (length before <= n)%nat) ->
  find_zstr (before ++ z ++ 0 :: after) prefix infix = Ok (Some z).
Proof.
  intros before z after prefix infix t Z P I F. assert (H : zstr_at (before ++ z ++ 0 :: after) prefix infix (length before) z) by (split; [exists before, after; auto|]; split; [exact Z|]; split; [now exists t|exact I]).
  destruct (C99_template (before ++ z ++ 0 :: after) prefix infix) as ([z'|] & E & K); [intros J; apply Z; rewrite P; apply in_or_app; now left| |destruct (K _ _ H)].
  rewrite E. do 2 f_equal. destruct K as (n & K & M). specialize (M _ _ H). pose proof (F n z' K) as F'. destruct K as ((b' & a' & E' & L) & Z' & _).
  symmetry in E'. apply split_at in E' as (d & -> & E'); [|lia]. assert (D : d = []) by (rewrite app_length in F'; destruct d; [reflexivity|cbn [length] in F'; rewrite app_length in *; cbn [length] in *; lia]).
  subst d. cbn [app] in E'. now apply same_zero in E' as (-> & _).
Qed.
Print Assumptions C99_template.
Print Assumptions C99_found.
(** ** Cases: the first that begins so has not what is looked for in it; one is not ended *)
Example ex_found : find_zstr [7; 60; 1; 0; 60; 60; 5; 2; 0; 60; 5; 0] [60] [5] = Ok (Some [60; 60; 5; 2]) /\ find_zstr [60; 1; 0; 60; 5] [60] [5] = Ok None.
Proof. split; reflexivity. Qed.
Example ex_zstr_at : zstr_at [7; 60; 1; 0; 60; 60; 5; 2; 0; 60; 5; 0] [60] [5] 4 [60; 60; 5; 2].
Proof. split; [exists [7; 60; 1; 0], [60; 5; 0]; auto|]. split; [cbn; lia|]. split; [now exists [60; 5; 2]|]. now exists [60; 60], [2]. Qed.
