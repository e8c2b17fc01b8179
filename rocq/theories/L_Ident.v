(** Lemmas on the stream of identifiers: each is the least one after the last. *)
From Verif Require Import M_Base L_Util M_Rename S_Rename.
From Coq Require Import String Ascii List.
Import ListNotations.
Open Scope nat_scope.

Lemma zmem_In c l : zmem c l = true <-> In c l.
Proof.
  unfold zmem; rewrite existsb_exists. split.
  - intros (x & I & E). apply Z.eqb_eq in E. now subst.
  - intros I. exists c. split; [easy|apply Z.eqb_refl].
Qed.

Lemma mem_In n l : mem n l = true <-> In n l.
Proof.
  unfold mem; rewrite existsb_exists. split.
  - intros (x & I & E). apply zeqb_list_true in E. now subst.
  - intros I. exists n. split; [easy|apply zeqb_list_refl].
Qed.

Section Stream.
Context (chars : list Z).

(** position of a character *)
Definition ix (c : Z) : nat :=
  (fix go l := match l with [] => 0 | x :: l' => if (c =? x)%Z then 0 else S (go l') end) chars.
End Stream.

Lemma ix_cons x l c : ix (x :: l) c = if (c =? x)%Z then 0 else S (ix l c).
Proof. reflexivity. Qed.

Lemma ix_lt chars c : In c chars -> ix chars c < length chars.
Proof.
  induction chars as [|x l IH]; [easy|]. intros I. rewrite ix_cons. cbn [length].
  destruct (Z.eqb_spec c x); [lia|]. destruct I as [->|I]; [easy|]. specialize (IH I). lia.
Qed.

Lemma ix_inj chars c d : In c chars -> In d chars -> ix chars c = ix chars d -> c = d.
Proof.
  induction chars as [|x l IH]; [easy|]. intros I J. rewrite !ix_cons.
  destruct (Z.eqb_spec c x), (Z.eqb_spec d x); try congruence; try lia.
  intros E. apply IH; [| |lia].
  - destruct I; congruence.
  - destruct J; congruence.
Qed.

Lemma ix_app a c l : ~ In c a -> ix (a ++ c :: l) c = length a.
Proof.
  induction a as [|x a IH]; intros N; cbn [app].
  - rewrite ix_cons, Z.eqb_refl. easy.
  - rewrite ix_cons. destruct (Z.eqb_spec c x) as [->|].
    + destruct N. now left.
    + cbn [length]. rewrite IH; [easy|]. intros I. apply N. now right.
Qed.

Lemma char_before_ix chars c d : NoDup chars ->
  (char_before chars c d <-> In c chars /\ In d chars /\ ix chars c < ix chars d).
Proof.
  intros N. split.
  - intros (a & b & e & ->).
    assert (Nc : ~ In c a).
    { intros I. apply NoDup_remove_2 in N. apply N. apply in_or_app. now left. }
    assert (Nd : ~ In d (a ++ c :: b)).
    { replace (a ++ c :: b ++ d :: e) with ((a ++ c :: b) ++ d :: e) in N
        by (rewrite <- app_assoc; reflexivity).
      apply NoDup_remove_2 in N. intros I. apply N. apply in_or_app. now left. }
    split; [|split].
    + apply in_or_app. right. now left.
    + apply in_or_app. right. right. apply in_or_app. right. now left.
    + rewrite (ix_app a c) by easy.
      replace (a ++ c :: b ++ d :: e) with ((a ++ c :: b) ++ d :: e)
        by (rewrite <- app_assoc; reflexivity).
      rewrite (ix_app (a ++ c :: b) d) by easy. rewrite app_length. cbn [length]. lia.
  - intros (I & J & L). clear N. revert I J L. induction chars as [|x l IH]; [easy|].
    intros I J L. rewrite !ix_cons in L.
    destruct (Z.eqb_spec c x) as [->|Nc].
    + destruct (Z.eqb_spec d x) as [->|Nd]; [lia|].
      destruct J as [->|J]; [easy|].
      apply in_split in J. destruct J as (b & e & ->). exists [], b, e. reflexivity.
    + destruct (Z.eqb_spec d x) as [->|Nd]; [lia|].
      destruct I as [->|I]; [easy|]. destruct J as [->|J]; [easy|].
      destruct (IH I J ltac:(lia)) as (a & b & e & ->). now exists (x :: a), b, e.
Qed.

Lemma char_after_cons x y l c :
  char_after (x :: y :: l) c = if (c =? x)%Z then Some y else char_after (y :: l) c.
Proof. reflexivity. Qed.

Lemma char_after_some chars c d : NoDup chars -> char_after chars c = Some d ->
  In c chars /\ In d chars /\ ix chars d = S (ix chars c).
Proof.
  induction chars as [|x [|y l] IH]; intros N E; [discriminate E..|].
  rewrite char_after_cons in E. inversion N as [|? ? Nx N']; subst.
  destruct (Z.eqb_spec c x) as [->|Nc].
  - injection E as ->. split; [now left|]. split; [right; now left|].
    rewrite (ix_cons x _ x), Z.eqb_refl, ix_cons.
    destruct (Z.eqb_spec d x) as [->|]; [destruct Nx; now left|].
    rewrite ix_cons, Z.eqb_refl. easy.
  - destruct (IH N' E) as (I & J & L). split; [now right|]. split; [now right|].
    rewrite (ix_cons x _ c), (ix_cons x _ d). destruct (Z.eqb_spec c x); [easy|].
    destruct (Z.eqb_spec d x) as [->|]; [easy|]. lia.
Qed.

Lemma char_after_none chars c d : In c chars -> In d chars -> char_after chars c = None ->
  ix chars d <= ix chars c.
Proof.
  induction chars as [|x [|y l] IH]; intros I J E; [easy| |].
  - destruct I as [->|[]], J as [->|[]]. easy.
  - rewrite char_after_cons in E. rewrite (ix_cons x _ c), (ix_cons x _ d).
    destruct (Z.eqb_spec c x) as [->|Nc]; [discriminate E|].
    destruct (Z.eqb_spec d x) as [->|Nd]; [lia|].
    destruct I as [->|I]; [easy|]. destruct J as [->|J]; [easy|].
    specialize (IH I J E). lia.
Qed.

(** the character found by the loop over digits *)
Lemma skip_digits_spec chars fuel c : NoDup chars ->
  (forall x, c = Some x -> In x chars /\ length chars <= fuel + ix chars x) ->
  match skip_digits chars fuel c with
  | Some d => In d chars /\ isdigit d = false /\
              exists x, c = Some x /\ ix chars x <= ix chars d /\
              forall e, In e chars -> ix chars x <= ix chars e < ix chars d -> isdigit e = true
  | None => forall x e, c = Some x -> In e chars -> ix chars x <= ix chars e -> isdigit e = true
  end.
Proof.
  intros N. revert c. induction fuel as [|fuel IH]; intros c H.
  - destruct c as [x|]; [|easy]. destruct (H x eq_refl) as (I & L).
    pose proof (ix_lt chars x I). lia.
  - destruct c as [x|]; [|easy]. destruct (H x eq_refl) as (I & L). cbn [skip_digits].
    destruct (isdigit x) eqn:D.
    + specialize (IH (char_after chars x)).
      destruct (skip_digits chars fuel (char_after chars x)) as [d|].
      * destruct IH as (J & Dd & y & Ey & Ly & Hy).
        { intros y Ey. destruct (char_after_some _ _ _ N Ey) as (_ & Iy & Py). split; [easy|lia]. }
        destruct (char_after_some _ _ _ N Ey) as (_ & Iy & Py).
        split; [easy|]. split; [easy|]. exists x. split; [easy|]. split; [lia|].
        intros e Ie Le. destruct (Nat.eq_dec (ix chars e) (ix chars x)) as [Q|Q].
        -- now rewrite (ix_inj chars e x Ie I Q).
        -- apply Hy; [easy|lia].
      * intros z e [= <-] Ie Le. destruct (Nat.eq_dec (ix chars e) (ix chars x)) as [Q|Q].
        -- now rewrite (ix_inj chars e x Ie I Q).
        -- destruct (char_after chars x) as [y|] eqn:Ey.
           ++ destruct (char_after_some _ _ _ N Ey) as (_ & Iy & Py).
              refine (IH _ y e eq_refl Ie _); [|lia].
              intros y' [= <-]. split; [easy|lia].
           ++ pose proof (char_after_none chars x e I Ie Ey). lia.
    + split; [easy|]. split; [easy|]. exists x. split; [easy|]. split; [easy|].
      intros e _ Le. lia.
Qed.

Definition okc (chars : list Z) (first : bool) (c : Z) : Prop :=
  In c chars /\ (first = true -> isdigit c = false).

(** get_next_ident_char gives the next character that may be used *)
Lemma next_char_spec chars c first c' found : NoDup chars -> In c chars ->
  get_next_ident_char chars (Some c) first = (c', found) ->
  (found = true -> okc chars first c' /\ ix chars c < ix chars c' /\
     forall d, okc chars first d -> ix chars c < ix chars d -> ix chars c' <= ix chars d) /\
  (found = false -> c' = hd 0%Z chars /\ forall d, okc chars first d -> ix chars d <= ix chars c).
Proof.
  intros N I E. unfold get_next_ident_char in E.
  destruct first; cbn zeta iota in E.
  - pose proof (skip_digits_spec chars (length chars) (char_after chars c) N) as H.
    assert (P : forall x, char_after chars c = Some x -> In x chars /\ length chars <= length chars + ix chars x).
    { intros x Ex. destruct (char_after_some _ _ _ N Ex) as (_ & Ix & _). split; [easy|lia]. }
    specialize (H P). clear P.
    destruct (skip_digits chars (length chars) (char_after chars c)) as [d|]; injection E as <- <-.
    + split; [|easy]. intros _. destruct H as (J & Dd & x & Ex & Lx & Hx).
      destruct (char_after_some _ _ _ N Ex) as (_ & Ix & Px). split; [easy|]. split; [lia|].
      intros e (Ie & De) Le. destruct (Nat.le_gt_cases (ix chars d) (ix chars e)) as [?|G]; [easy|].
      exfalso. specialize (Hx e Ie ltac:(lia)). rewrite (De eq_refl) in Hx. discriminate Hx.
    + split; [easy|]. intros _. split; [easy|]. intros e (Ie & De).
      destruct (char_after chars c) as [x|] eqn:Ex.
      * destruct (char_after_some _ _ _ N Ex) as (_ & Ix & Px).
        destruct (Nat.le_gt_cases (ix chars e) (ix chars c)) as [?|G]; [easy|].
        exfalso. specialize (H x e eq_refl Ie ltac:(lia)). rewrite (De eq_refl) in H. discriminate H.
      * now apply char_after_none.
  - destruct (char_after chars c) as [x|] eqn:Ex; injection E as <- <-.
    + split; [|easy]. intros _. destruct (char_after_some _ _ _ N Ex) as (_ & Ix & Px).
      split; [easy|]. split; [lia|]. intros d _ Ld. lia.
    + split; [easy|]. intros _. split; [easy|]. intros d (Id & _). now apply char_after_none.
Qed.

(** order of two names of the same length *)
Fixpoint lexlt (chars : list Z) (s t : list Z) : Prop :=
  match s, t with
  | c :: s', d :: t' => ix chars c < ix chars d \/ (c = d /\ lexlt chars s' t')
  | _, _ => False
  end.

Definition lexle chars s t := s = t \/ lexlt chars s t.

Definition okw (chars : list Z) (first : bool) (s : list Z) : Prop :=
  (forall c, In c s -> In c chars) /\ (first = true -> isdigit (hd 0%Z s) = false).

Lemma ix_hd chars d : ix chars (hd 0%Z chars) = 0 \/ chars = [] /\ d = d :> Z.
Proof. destruct chars as [|x l]; [now right|]. left. cbn [hd]. now rewrite ix_cons, Z.eqb_refl. Qed.

Lemma hd_le chars d : In d chars -> hd 0%Z chars = d \/ ix chars (hd 0%Z chars) < ix chars d.
Proof.
  destruct chars as [|x l]; [easy|]. intros I. cbn [hd]. rewrite !ix_cons, Z.eqb_refl.
  destruct (Z.eqb_spec d x); [now left|]. right. lia.
Qed.

Lemma zeros_le chars n t : (forall c, In c t -> In c chars) -> length t = n ->
  lexle chars (repeat (hd 0%Z chars) n) t.
Proof.
  revert t. induction n as [|n IH]; intros [|d t] V L; try discriminate L; cbn [repeat].
  - now left.
  - injection L as L. destruct (hd_le chars d (V d (or_introl eq_refl))) as [<-|Q].
    + destruct (IH t (fun c h => V c (or_intror h)) L) as [->|Q]; [now left|].
      right. cbn [lexlt]. right. now split.
    + right. cbn [lexlt]. now left.
Qed.

Lemma bump_spec chars s : NoDup chars -> forall first s' found,
  (forall c, In c s -> In c chars) ->
  bump chars first s = (s', found) ->
  length s' = length s /\
  (found = true -> (forall c, In c s' -> In c chars) /\
     (first = true -> isdigit (hd 0%Z s) = false -> isdigit (hd 0%Z s') = false) /\
     lexlt chars s s' /\
     forall t, okw chars first t -> length t = length s -> lexlt chars s t -> lexle chars s' t) /\
  (found = false -> s' = repeat (hd 0%Z chars) (length s) /\
     forall t, okw chars first t -> length t = length s -> ~ lexlt chars s t).
Proof.
  intros N. induction s as [|c s IH]; intros first s' found V E.
  - cbn [bump] in E. injection E as <- <-. split; [easy|]. split; [easy|]. intros _. split; [easy|].
    intros [|] _ _; easy.
  - cbn [bump] in E. destruct (bump chars false s) as (s0, f0) eqn:B.
    destruct (IH false s0 f0 (fun x h => V x (or_intror h)) B) as (L0 & T0 & F0). clear IH B.
    destruct f0.
    + injection E as <- <-. destruct (T0 eq_refl) as (V0 & _ & Lt & Min). clear T0 F0.
      cbn [length]. split; [lia|]. split; [|easy]. intros _. split; [|split; [|split]].
      * intros x [->|h]; [apply V; now left|now apply V0].
      * now cbn [hd].
      * cbn [lexlt]. right. now split.
      * intros [|d t] (Vt & Dt) Lg Q; [discriminate Lg|]. injection Lg as Lg.
        cbn [lexlt] in Q. destruct Q as [Q|(<- & Q)].
        -- right. cbn [lexlt]. now left.
        -- destruct (Min t) as [->|Q']; try easy; [|now left|].
           ++ split; [|easy]. intros x h. apply Vt. now right.
           ++ right. cbn [lexlt]. right. now split.
    + destruct (get_next_ident_char chars (Some c) first) as (c', f1) eqn:G.
      injection E as <- <-. destruct (F0 eq_refl) as (-> & Max). clear T0 F0.
      destruct (next_char_spec chars c first c' f1 N (V c (or_introl eq_refl)) G) as (T1 & F1).
      cbn [length]. rewrite repeat_length. split; [easy|]. split; intros ->.
      * destruct (T1 eq_refl) as ((I & D) & Lc & Min). clear T1 F1. split; [|split; [|split]].
        -- intros x [->|h]; [easy|]. apply repeat_spec in h. subst x.
           destruct chars; [easy|]. now left.
        -- intros h _. cbn [hd]. now apply D.
        -- cbn [lexlt]. now left.
        -- intros [|d t] (Vt & Dt) Lg Q; [discriminate Lg|]. injection Lg as Lg.
           assert (Vt' : forall x, In x t -> In x chars) by (intros x h; apply Vt; now right).
           cbn [lexlt] in Q. destruct Q as [Q|(<- & Q)].
           ++ assert (Od : okc chars first d) by (split; [apply Vt; now left|exact Dt]).
              specialize (Min d Od Q). destruct (Nat.eq_dec (ix chars c') (ix chars d)) as [X|X].
              ** assert (c' = d) as <- by (apply (ix_inj chars); [easy|apply Vt; now left|easy]).
                 destruct (zeros_le chars (length s) t Vt' Lg) as [<-|Q2]; [now left|].
                 right. cbn [lexlt]. right. now split.
              ** right. cbn [lexlt]. left. lia.
           ++ exfalso. refine (Max t _ Lg Q). now split.
      * destruct (F1 eq_refl) as (-> & Mx). split; [reflexivity|].
        intros [|d t] (Vt & Dt) Lg Q; [discriminate Lg|]. injection Lg as Lg.
        cbn [lexlt] in Q. destruct Q as [Q|(<- & Q)].
        -- assert (Od : okc chars first d) by (split; [apply Vt; now left|exact Dt]).
           specialize (Mx d Od). lia.
        -- refine (Max t _ Lg Q). split; [|easy]. intros x h. apply Vt. now right.
Qed.

(** the first character an identifier can start with *)
Lemma first_char chars : NoDup chars -> (exists c, In c chars /\ isdigit c = false) ->
  let c := fst (get_next_ident_char chars None true) in
  okc chars true c /\ forall d, okc chars true d -> ix chars c <= ix chars d.
Proof.
  intros N (c0 & I0 & D0). unfold get_next_ident_char. cbn zeta iota.
  pose proof (skip_digits_spec chars (length chars) (hd_error chars) N) as H.
  assert (P : forall x, hd_error chars = Some x -> In x chars /\ length chars <= length chars + ix chars x).
  { intros x Ex. destruct chars; [easy|]. injection Ex as ->. split; [now left|lia]. }
  specialize (H P). clear P.
  destruct (skip_digits chars (length chars) (hd_error chars)) as [d|]; cbn [fst].
  - destruct H as (J & Dd & x & Ex & Lx & Hx). split; [easy|].
    intros e (Ie & De). destruct (Nat.le_gt_cases (ix chars d) (ix chars e)) as [?|G]; [easy|].
    exfalso. destruct chars as [|y l]; [easy|]. injection Ex as <-.
    specialize (Hx e Ie). rewrite (ix_cons y l y), Z.eqb_refl in Hx.
    specialize (Hx ltac:(lia)). rewrite (De eq_refl) in Hx. discriminate Hx.
  - exfalso. destruct chars as [|y l]; [easy|].
    specialize (H y c0 eq_refl I0). rewrite (ix_cons y l y), Z.eqb_refl in H.
    rewrite H in D0 by lia. discriminate D0.
Qed.

Definition before (chars : list Z) (s t : list Z) : Prop :=
  length s < length t \/ (length s = length t /\ lexlt chars s t).

Definition ok_or_nil (chars : list Z) (s : name) := s = [] \/ valid_ident chars s.

Lemma next_ident_spec chars s : NoDup chars -> (exists c, In c chars /\ isdigit c = false) ->
  ok_or_nil chars s ->
  valid_ident chars (next_ident chars s) /\ before chars s (next_ident chars s) /\
  forall t, valid_ident chars t -> before chars s t ->
    next_ident chars s = t \/ before chars (next_ident chars s) t.
Proof.
  intros N X O.
  assert (V : forall c, In c s -> In c chars) by (destruct O as [->|(_ & ? & _)]; easy).
  unfold next_ident. destruct (bump chars true s) as (s', found) eqn:B.
  destruct (bump_spec chars s N true s' found V B) as (L & T & F). destruct found.
  - destruct (T eq_refl) as (V' & D' & Lt & Min).
    assert (Ns : s <> []) by (intros ->; easy).
    destruct O as [->|(_ & _ & Ds)]; [easy|].
    split; [|split].
    + split; [|split]; [|easy|now apply D'].
      destruct s'; [destruct s; [easy|discriminate L]|easy].
    + right. now split.
    + intros t (Nt & Vt & Dt) [Q|(Lg & Q)].
      * right. left. lia.
      * destruct (Min t) as [->|Q']; try easy; [now left|]. right. right. split; [lia|easy].
  - destruct (F eq_refl) as (-> & Max). clear T F.
    destruct (first_char chars N X) as ((I & D) & Mn).
    set (c := fst (get_next_ident_char chars None true)) in *.
    split; [|split].
    + split; [easy|]. split; [|now apply D].
      intros x [<-|h]; [easy|]. apply repeat_spec in h. subst x.
      destruct chars; [easy|]. now left.
    + left. cbn [length]. rewrite repeat_length. lia.
    + intros t (Nt & Vt & Dt) [Q|(Lg & Q)].
      * cbn [length before]. unfold before. cbn [length]. rewrite repeat_length.
        destruct (Nat.eq_dec (length t) (S (length s))) as [Lt|Lt]; [|right; left; lia].
        destruct t as [|d t]; [easy|]. injection Lt as Lt.
        assert (Od : okc chars true d) by (split; [apply Vt; now left|intros _; exact Dt]).
        pose proof (Mn d Od) as M1.
        destruct (Nat.eq_dec (ix chars c) (ix chars d)) as [E|E].
        -- assert (c = d) as <- by (apply (ix_inj chars); [easy|apply Vt; now left|easy]).
           destruct (zeros_le chars (length s) t (fun x h => Vt x (or_intror h)) Lt) as [<-|Z].
           ++ now left.
           ++ right. right. cbn [length lexlt]. split; [lia|]. right. now split.
        -- right. right. cbn [length lexlt]. split; [lia|]. left. lia.
      * exfalso. refine (Max t _ (eq_sym Lg) Q). now split.
Qed.

Lemma lexlt_trans chars s t u : lexlt chars s t -> lexlt chars t u -> lexlt chars s u.
Proof.
  revert t u. induction s as [|c s IH]; intros [|d t] [|e u]; cbn [lexlt]; try easy.
  intros [Q|(<- & Q)] [R|(<- & R)]; try (left; lia). right. split; [easy|]. eauto.
Qed.

Lemma lexlt_irrefl chars s : ~ lexlt chars s s.
Proof. induction s as [|c s IH]; cbn [lexlt]; [easy|]. intros [Q|(_ & Q)]; [lia|easy]. Qed.

Lemma before_trans chars s t u : before chars s t -> before chars t u -> before chars s u.
Proof.
  intros [Q|(L & Q)] [R|(M & R)]; try (left; lia). right. split; [lia|]. eapply lexlt_trans; eauto.
Qed.

Lemma before_irrefl chars s : ~ before chars s s.
Proof. intros [Q|(_ & Q)]; [lia|]. now apply lexlt_irrefl in Q. Qed.

Lemma lexlt_spec chars s t : NoDup chars -> (forall c, In c s -> In c chars) ->
  (forall c, In c t -> In c chars) ->
  length s = length t ->
  (lexlt chars s t <-> exists p c d s' t', s = p ++ c :: s' /\ t = p ++ d :: t' /\ char_before chars c d).
Proof.
  intros N. revert t. induction s as [|c s IH]; intros [|d t] Vs Vt L; try discriminate L; cbn [lexlt].
  - split; [easy|]. intros ([|] & c & d & s' & t' & E & _); discriminate E.
  - injection L as L.
    assert (Vs' : forall c, In c s -> In c chars) by (intros x h; apply Vs; now right).
    assert (Vt' : forall c, In c t -> In c chars) by (intros x h; apply Vt; now right).
    split.
    + intros [Q|(<- & Q)].
      * exists [], c, d, s, t. split; [easy|]. split; [easy|]. apply char_before_ix; [easy|].
        split; [apply Vs; now left|]. split; [apply Vt; now left|easy].
      * apply IH in Q; try easy. destruct Q as (p & c' & d' & s' & t' & -> & -> & Q).
        now exists (c :: p), c', d', s', t'.
    + intros ([|x p] & c' & d' & s' & t' & E1 & E2 & Q).
      * injection E1 as -> ->. injection E2 as -> ->. apply char_before_ix in Q; [|easy]. now left.
      * injection E1 as -> E1. injection E2 as -> E2. right. split; [easy|]. apply IH; try easy.
        now exists p, c', d', s', t'.
Qed.

Lemma before_spec chars s t : NoDup chars -> (forall c, In c s -> In c chars) ->
  (forall c, In c t -> In c chars) ->
  (before chars s t <-> ident_before chars s t).
Proof.
  intros N Vs Vt. unfold before, ident_before. split.
  - intros [Q|(L & Q)]; [now left|]. right. split; [easy|]. now apply lexlt_spec in Q.
  - intros [Q|(L & Q)]; [now left|]. right. split; [easy|]. now apply lexlt_spec.
Qed.

Lemma raw_valid chars n : NoDup chars -> (exists c, In c chars /\ isdigit c = false) ->
  valid_ident chars (raw_ident chars n).
Proof.
  intros N X. induction n as [|n IH]; cbn [raw_ident].
  - refine (proj1 (next_ident_spec chars [] N X _)). now left.
  - refine (proj1 (next_ident_spec chars _ N X _)). now right.
Qed.

Lemma raw_before chars n m : NoDup chars -> (exists c, In c chars /\ isdigit c = false) ->
  n < m -> before chars (raw_ident chars n) (raw_ident chars m).
Proof.
  intros N X L. induction L as [|m L IH]; cbn [raw_ident].
  - refine (proj1 (proj2 (next_ident_spec chars _ N X _))). right. now apply raw_valid.
  - eapply before_trans; [exact IH|].
    refine (proj1 (proj2 (next_ident_spec chars _ N X _))). right. now apply raw_valid.
Qed.

(** the number of names up to a given one is finite: a rank that grows *)
Fixpoint value (chars : list Z) (s : list Z) (acc : nat) : nat :=
  match s with
  | [] => acc
  | c :: s' => value chars s' (acc * length chars + ix chars c)
  end.

Lemma raw_length chars n : NoDup chars -> (exists c, In c chars /\ isdigit c = false) ->
  forall t, valid_ident chars t -> before chars t (raw_ident chars n) ->
  exists m, m < n /\ raw_ident chars m = t.
Proof.
  intros N X t Vt. induction n as [|n IH]; intros Q.
  - exfalso. destruct (next_ident_spec chars [] N X (or_introl eq_refl)) as (_ & _ & Mn).
    assert (B : before chars [] t) by (left; destruct Vt as (Nt & _); destruct t; [easy|cbn; lia]).
    cbn [raw_ident] in Q. destruct (Mn t Vt B) as [E|E].
    + rewrite E in Q. now apply before_irrefl in Q.
    + eapply before_irrefl. eapply before_trans; [exact Q|exact E].
  - destruct (next_ident_spec chars (raw_ident chars n) N X (or_intror (raw_valid chars n N X))) as (_ & _ & Mn).
    assert (T : before chars t (raw_ident chars n) \/ t = raw_ident chars n \/ before chars (raw_ident chars n) t).
    { pose proof (raw_valid chars n N X) as (_ & Vr & _). destruct Vt as (_ & Vt & _).
      unfold before. revert Vr Vt. generalize (raw_ident chars n). clear. intros r Vr Vt.
      destruct (Nat.lt_trichotomy (length t) (length r)) as [L|[L|L]]; [tauto| |tauto].
      assert (G : lexlt chars t r \/ t = r \/ lexlt chars r t).
      { revert r L Vr. induction t as [|c t IH]; intros [|d r] L Vr; try discriminate L; [tauto|].
        injection L as L. cbn [lexlt].
        destruct (IH (fun c h => Vt c (or_intror h)) r L (fun c h => Vr c (or_intror h))) as [H|[->|H]];
        (destruct (Nat.lt_trichotomy (ix chars c) (ix chars d)) as [Q|[Q|Q]]; [tauto| |tauto]);
        (assert (c = d) as -> by (apply (ix_inj chars); [apply Vt; now left|apply Vr; now left|easy]); tauto). }
      destruct G as [G|[->|G]]; [left|right; left|right; right]; try easy; right; now split. }
    destruct T as [T|[->|T]].
    + destruct (IH T) as (m & L & E). exists m. split; [lia|easy].
    + exists n. split; [lia|easy].
    + exfalso. cbn [raw_ident] in Q. destruct (Mn t Vt T) as [E|E].
      * rewrite E in Q. now apply before_irrefl in Q.
      * eapply before_irrefl. eapply before_trans; [exact Q|exact E].
Qed.

(** every length is reached: the value of a name of a given length is bounded *)
Lemma value_lt chars s acc : (forall c, In c s -> In c chars) ->
  value chars s acc < (acc + 1) * length chars ^ length s.
Proof.
  revert acc. induction s as [|c s IH]; intros acc V; cbn [value length].
  - cbn [Nat.pow]. lia.
  - specialize (IH (acc * length chars + ix chars c) (fun x h => V x (or_intror h))).
    pose proof (ix_lt chars c (V c (or_introl eq_refl))).
    cbn [Nat.pow]. nia.
Qed.

Lemma value_lex chars s : forall t a b, (forall c, In c s -> In c chars) -> (forall c, In c t -> In c chars) ->
  length s = length t -> a <= b -> (lexlt chars s t -> value chars s a < value chars t b) /\
  (a < b -> value chars s a < value chars t b).
Proof.
  induction s as [|c s IH]; intros [|d t] a b Vs Vt L Lab; try discriminate L; cbn [value lexlt].
  - now split.
  - injection L as L.
    assert (Vs' : forall c, In c s -> In c chars) by (intros x h; apply Vs; now right).
    assert (Vt' : forall c, In c t -> In c chars) by (intros x h; apply Vt; now right).
    pose proof (ix_lt chars c (Vs c (or_introl eq_refl))).
    pose proof (ix_lt chars d (Vt d (or_introl eq_refl))).
    split.
    + intros [Q|(<- & Q)].
      * refine (proj2 (IH t _ _ Vs' Vt' L _) _); nia.
      * refine (proj1 (IH t _ _ Vs' Vt' L _) Q); nia.
    + intros Q. refine (proj2 (IH t _ _ Vs' Vt' L _) _); nia.
Qed.

Lemma raw_grows chars : NoDup chars -> (exists c, In c chars /\ isdigit c = false) ->
  forall l, exists n, l < length (raw_ident chars n).
Proof.
  intros N X l. induction l as [|l (n & IH)].
  - exists 0. destruct (raw_valid chars 0 N X) as (Nn & _). destruct (raw_ident chars 0); [easy|cbn; lia].
  - destruct (Nat.le_gt_cases (length (raw_ident chars n)) (S l)) as [L|L]; [|now exists n].
    assert (E : length (raw_ident chars n) = S l) by lia.
    (* within [B] more rounds the length changes *)
    set (B := length chars ^ S l).
    assert (G : forall k, (exists m, S l < length (raw_ident chars m)) \/
      (length (raw_ident chars (n + k)) = S l /\
       value chars (raw_ident chars n) 0 + k <= value chars (raw_ident chars (n + k)) 0)).
    { induction k as [|k [IHk|(Lk & Hk)]]; [right|now left|].
      - rewrite Nat.add_0_r. split; [easy|lia].
      - rewrite Nat.add_succ_r.
        pose proof (raw_before chars (n + k) (S (n + k)) N X ltac:(lia)) as [Q|(Q & R)].
        + left. exists (S (n + k)). lia.
        + right. split; [lia|].
          pose proof (raw_valid chars (n + k) N X) as (_ & V1 & _).
          pose proof (raw_valid chars (S (n + k)) N X) as (_ & V2 & _).
          pose proof (proj1 (value_lex chars _ _ 0 0 V1 V2 Q (le_n 0)) R). lia. }
    destruct (G B) as [?|(Lk & Hk)]; [easy|]. exfalso.
    pose proof (raw_valid chars (n + B) N X) as (_ & V & _).
    pose proof (value_lt chars _ 0 V) as W. rewrite Lk in W. unfold B in *. lia.
Qed.

Lemma raw_complete chars t : NoDup chars -> (exists c, In c chars /\ isdigit c = false) ->
  valid_ident chars t -> exists n, raw_ident chars n = t.
Proof.
  intros N X V. destruct (raw_grows chars N X (length t)) as (n & L).
  destruct (raw_length chars n N X t V ltac:(now left)) as (m & _ & E). now exists m.
Qed.

Lemma raw_inj chars n m : NoDup chars -> (exists c, In c chars /\ isdigit c = false) ->
  raw_ident chars n = raw_ident chars m -> n = m.
Proof.
  intros N X E. destruct (Nat.lt_trichotomy n m) as [L|[L|L]]; [|easy|].
  - pose proof (raw_before chars n m N X L) as Q. rewrite E in Q. now apply before_irrefl in Q.
  - pose proof (raw_before chars m n N X L) as Q. rewrite E in Q. now apply before_irrefl in Q.
Qed.

(** * The alphabet *)

Lemma ident_chars_In used alphabet c : In c (ident_chars used alphabet) <-> In c alphabet.
Proof.
  unfold ident_chars. rewrite in_app_iff, !filter_In. split.
  - intros [(_ & M)|(I & _)]; [now apply zmem_In|easy].
  - intros I. destruct (zmem c (filter (fun c => zmem c alphabet) used)) eqn:M.
    + apply zmem_In in M. apply filter_In in M. now left.
    + right. now split.
Qed.

Lemma ident_chars_NoDup used alphabet : NoDup used -> NoDup alphabet ->
  NoDup (ident_chars used alphabet).
Proof.
  intros N1 N2. unfold ident_chars.
  assert (D : forall (a b : list Z), NoDup a -> NoDup b -> (forall x, In x a -> ~ In x b) -> NoDup (a ++ b)).
  { clear. induction a as [|x a IH]; intros b Na Nb D; [easy|]. inversion Na; subst. cbn [app].
    constructor.
    - rewrite in_app_iff. intros [I|I]; [easy|]. exact (D x (or_introl eq_refl) I).
    - apply IH; auto. intros y I. apply D. now right. }
  apply D.
  - now apply NoDup_filter.
  - now apply NoDup_filter.
  - intros x I J. apply filter_In in J as (_ & J).
    apply zmem_In in I. rewrite I in J. discriminate J.
Qed.
