(** Parsing, renaming and printing of split strings. *)
From Coq Require Import List Arith.
From Verif Require Import M_Base L_Util M_Split S_Split L_Split.
Import ListNotations.
Open Scope Z_scope.

Inductive wf : ty -> part -> Prop :=
| wf_text k s : wf (TPlain k) (PText s)
| wf_data sep types plural tys parts : Forall2 wf tys parts -> wf (TSplit sep types plural) (PData sep parts tys).
Definition plain_kind (t : ty) : option kind := match t with TPlain k => k | TSplit _ _ _ => None end.
Fixpoint tree_of (t : ty) (p : part) {struct p} : tree :=
  match p with
  | PText s => Leaf (plain_kind t) s
  | PData sep parts types => Node sep (zip_with tree_of types parts)
  end.

Lemma assigned_in types plural n i t : assigned types plural n i t -> In t types \/ t = TPlain None.
Proof.
  intros (_ & H). destruct plural as [(b, e)|].
  - cbv zeta in H. left. destruct (i <? b)%nat; [now apply nth_error_In in H|]. destruct (_ <=? n)%nat; [destruct (_ <? _)%nat|]; now apply nth_error_In in H.
  - destruct H as [H|(_ & ->)]; [left; now apply nth_error_In in H|now right].
Qed.
Lemma types_in n types plural t : plural_ok types plural -> In t (get_types_of_len (TPlain None) n types plural) -> In t types \/ t = TPlain None.
Proof. intros P I. apply In_nth_error in I as (i & I). apply types_nth in I; [|exact P]. now apply assigned_in in I. Qed.

Definition parses (t : ty) : Prop := forall s, exists p, parse_ty t s = Ok p /\ wf t p /\ format p = s /\ reads t s (tree_of t p).
Lemma parse_parts_ok tys : Forall parses tys -> forall ss, length ss = length tys ->
  exists ps, parse_parts ss (map (fun t => (t, parse_ty t)) tys) = Ok ps /\ Forall2 wf tys ps /\ map format ps = ss /\ length (zip_with tree_of tys ps) = length ss /\
    forall i t s tr, nth_error tys i = Some t -> nth_error ss i = Some s -> nth_error (zip_with tree_of tys ps) i = Some tr -> reads t s tr.
Proof.
  induction 1 as [|t tys H _ IH]; intros ss L.
  - destruct ss; [|discriminate L]. exists []. repeat split; [constructor|]. intros [|i] t s tr E; discriminate E.
  - destruct ss as [|s ss]; [discriminate L|]. injection L as L. destruct (IH ss L) as (ps & E & W & M & Lz & R).
    destruct (H s) as (p & Ep & Wp & Fp & Rp). exists (p :: ps). cbn [map parse_parts]. rewrite Ep. cbn [bind]. rewrite E. cbn [bind]. split; [reflexivity|].
    split; [now constructor|]. split; [cbn; congruence|]. split; [cbn; now rewrite Lz|].
    intros [|i] t' s' tr E1 E2 E3; cbn in E1, E2, E3; [|eapply R; eauto]. injection E1 as <-. injection E2 as <-. injection E3 as <-. exact Rp.
Qed.
Theorem parse_ok t : sound_ty t -> parses t.
Proof.
  induction t as [k|sep types plural IH] using ty_induct; intros So s.
  - exists (PText s). split; [reflexivity|]. split; [constructor|]. split; [reflexivity|constructor].
  - inversion_clear So as [|? ? ? Ns Ft Pl]. change (plural_ok types plural) in Pl.
    destruct (py_split_ok sep s Ns) as (ss & Es & P & B). cbn [parse_ty]. rewrite Es. cbn [bind].
    change (TPlain None, fun s => Ok (PText s)) with ((fun t => (t, parse_ty t)) (TPlain None)). rewrite types_map.
    set (tys := get_types_of_len (TPlain None) (length ss) types plural). assert (Lt : length tys = length ss) by now apply types_len.
    assert (F : Forall parses tys).
    { apply Forall_forall. intros t I. apply types_in in I as [I| ->]; [|intros x; exists (PText x); split; [reflexivity|]; split; [constructor|]; split; [reflexivity|constructor]|exact Pl].
      rewrite Forall_forall in IH, Ft. apply IH; [exact I|now apply Ft]. }
    destruct (parse_parts_ok tys F ss (eq_sym Lt)) as (ps & Ep & W & M & Lz & R). rewrite Ep. cbn [bind]. rewrite map_map, map_id.
    exists (PData sep ps tys). split; [reflexivity|]. split; [now constructor|]. split.
    + cbn [format]. now rewrite M, join_between.
    + cbn [tree_of]. rewrite <- B. constructor; [exact Ns|exact P|exact Lz|]. intros i x tr E1 E2.
      destruct (nth_error tys i) as [t|] eqn:Et.
      * exists t. split; [|eapply R; eauto]. apply types_nth; [exact Pl|exact Et].
      * apply nth_error_None in Et. assert (i < length ss)%nat by (apply nth_error_Some; congruence). lia.
Qed.

Lemma reads_text t tr : forall s, reads t s tr -> text tr = s.
Proof.
  revert t. induction tr as [k s0|sep l IH] using tree_induct; intros t s R; inversion R as [|? types plural ss trs Ns P L H]; subst; [reflexivity|].
  cbn [text]. f_equal. clear P. assert (forall i s tr, nth_error ss i = Some s -> nth_error l i = Some tr -> text tr = s) as H'.
  { intros i s tr E1 E2. destruct (H i s tr E1 E2) as (t & _ & Rt). rewrite Forall_forall in IH. eapply IH; [now apply nth_error_In in E2|exact Rt]. }
  clear H IH R. revert ss L H'. induction l as [|x l IH]; intros ss L H'; destruct ss as [|s ss]; try discriminate L; [reflexivity|]. cbn [map]. f_equal.
  - apply (H' 0%nat); reflexivity.
  - injection L as L. apply IH; [exact L|]. intros i. apply (H' (S i)).
Qed.
Lemma assigned_unique types plural n i t t' : assigned types plural n i t -> assigned types plural n i t' -> t = t'.
Proof.
  intros (_ & H) (_ & H'). destruct plural as [(b, e)|].
  - cbv zeta in *. destruct (i <? b)%nat; [congruence|]. destruct (_ <=? n)%nat; [destruct (_ <? _)%nat|]; congruence.
  - destruct H as [H|(L & ->)], H' as [H'|(L' & ->)]; try congruence; exfalso; [apply (proj2 (nth_error_None _ _)) in L'|apply (proj2 (nth_error_None _ _)) in L]; congruence.
Qed.
Lemma list_nth_ext {A} (l l' : list A) : length l = length l' -> (forall i x y, nth_error l i = Some x -> nth_error l' i = Some y -> x = y) -> l = l'.
Proof.
  revert l'. induction l as [|x l IH]; intros [|y l'] L H; try discriminate L; [reflexivity|]. f_equal; [now apply (H 0%nat)|]. injection L as L. apply IH; [exact L|]. intros i. apply (H (S i)).
Qed.
Lemma reads_unique tr : forall t s tr', reads t s tr -> reads t s tr' -> tr = tr'.
Proof.
  induction tr as [k s0|sep l IH] using tree_induct; intros t s tr' R R'.
  - inversion R; subst. inversion R'; subst. reflexivity.
  - inversion R as [|? types plural ss trs Ns P L H]; subst. inversion R' as [|? ? ? ss' trs' _ P' L' H']; subst.
    assert (ss' = ss) as -> by (eapply pieces_unique; eauto). f_equal. apply list_nth_ext; [congruence|]. intros i x y E1 E2.
    assert (exists s, nth_error ss i = Some s) as (s & Es).
    { destruct (nth_error ss i) as [s|] eqn:Es; [eauto|]. apply nth_error_None in Es. assert (i < length l)%nat by (apply nth_error_Some; congruence). lia. }
    destruct (H i s x Es E1) as (t & A & Rt). destruct (H' i s y Es E2) as (t' & A' & Rt'). rewrite (assigned_unique _ _ _ _ _ _ A' A) in Rt'.
    rewrite Forall_forall in IH. eapply IH; [now apply nth_error_In in E1|exact Rt|exact Rt'].
Qed.

(** * Usages and renaming *)
Lemma format_tree t p : wf t p -> format p = text (tree_of t p).
Proof.
  revert t. induction p as [s|sep l tys IH] using part_induct; intros t W; inversion W as [|? types plural ? ? F]; subst; [reflexivity|].
  cbn [format tree_of text]. rewrite join_between. f_equal. clear W. induction F as [|t p tys ps H F IHF]; [reflexivity|]. inversion_clear IH as [|? ? I1 I2]. cbn. f_equal; [now apply I1|now apply IHF].
Qed.
Lemma usages_tree k t p : wf t p -> usages_of k t p = names k (tree_of t p).
Proof.
  revert t. induction p as [s|sep l tys IH] using part_induct; intros t W; inversion W as [|? types plural ? ? F]; subst.
  - cbn. now destruct k0 as [[]|].
  - cbn [usages_of tree_of names is_split]. clear W. induction F as [|t p tys ps H F IHF]; [reflexivity|]. inversion_clear IH as [|? ? I1 I2]. cbn. f_equal; [now apply I1|now apply IHF].
Qed.
Lemma rename_tree g m t p : wf t p -> wf t (rename_of g m t p) /\ tree_of t (rename_of g m t p) = renamed (dict_get g) (dict_get m) (tree_of t p).
Proof.
  revert t. induction p as [s|sep l tys IH] using part_induct; intros t W; inversion W as [|? types plural ? ? F]; subst.
  - destruct k as [[]|]; split; try constructor.
  - cbn [rename_of is_split]. assert (skipn (length tys) l = []) as ->.
    { apply skipn_all2. clear W IH. induction F; cbn; lia. }
    rewrite app_nil_r. clear W.
    assert (Forall2 wf tys (zip_with (rename_of g m) tys l) /\ zip_with tree_of tys (zip_with (rename_of g m) tys l) = map (renamed (dict_get g) (dict_get m)) (zip_with tree_of tys l)) as (A & B).
    { induction F as [|t p tys ps H F IHF]; [split; [constructor|reflexivity]|]. inversion_clear IH as [|? ? I1 I2]. destruct (IHF I2) as (A & B). destruct (I1 t H) as (C & D). cbn. split; [now constructor|]. now rewrite B, D. }
    split; [now constructor|]. cbn [tree_of renamed]. now rewrite B.
Qed.

(** * Reading what was renamed *)

(** [new] is [old] with some nonempty pieces replaced by ones without characters of [sep] *)
Inductive swap (sep : list Z) : list Z -> list Z -> Prop :=
| swap_nil : swap sep [] []
| swap_same c old new : swap sep old new -> swap sep (c :: old) (c :: new)
| swap_block x y old new : x <> [] -> y <> [] -> Forall (fun c => ~ In c sep) y -> swap sep old new -> swap sep (x ++ old) (y ++ new).
Lemma swap_refl sep s : swap sep s s.
Proof. induction s; constructor; auto. Qed.
Lemma swap_app sep a b a' b' : swap sep a a' -> swap sep b b' -> swap sep (a ++ b) (a' ++ b').
Proof. induction 1; intros H'; [exact H'|cbn; constructor; auto|rewrite <- !app_assoc; constructor; auto]. Qed.
Lemma swap_empty sep q : swap sep [] q -> q = [].
Proof. remember [] as o eqn:Eo. destruct 1 as [| |x y old new Nx Ny F H']; [reflexivity|discriminate|]. destruct x; [easy|discriminate]. Qed.
Lemma swap_sep sep v : (forall c, In c v -> In c sep) -> forall old q, swap sep old (v ++ q) -> exists old', old = v ++ old' /\ swap sep old' q.
Proof.
  induction v as [|c v IH]; intros Hv old q H; [now exists old|]. inversion H as [|? o n H'|x y o n Nx Ny F H' E1 E2]; subst.
  - destruct (IH (fun d I => Hv d (or_intror I)) _ _ H') as (old' & -> & S'). now exists old'.
  - destruct y as [|d y]; [easy|]. injection E2 as -> _. inversion_clear F as [|? ? Nd _]. elim Nd. apply Hv. now left.
Qed.
Lemma swap_find sep : sep <> [] -> forall new old, swap sep old new -> forall p q, new = p ++ sep ++ q -> exists p' q', old = p' ++ sep ++ q' /\ swap sep q' q.
Proof.
  intros Ns. assert (H0 : forall p old q, swap sep old (p ++ sep ++ q) -> exists p' q', old = p' ++ sep ++ q' /\ swap sep q' q).
  2:{ intros new old H p q ->. eauto. }
  assert (forall n p old q, (length p < n)%nat -> swap sep old (p ++ sep ++ q) -> exists p' q', old = p' ++ sep ++ q' /\ swap sep q' q) as H1; [|intros p old q; apply (H1 (S (length p))); lia].
  induction n as [|n IH]; intros p old q L H; [lia|]. destruct p as [|c p].
  - destruct (swap_sep sep sep (fun c I => I) _ _ H) as (q' & -> & S'). exists [], q'. now split.
  - inversion H as [|? o n' H'|x y o n' Nx Ny F H' E1 E2]; subst.
    + cbn in L. destruct (IH p o q ltac:(lia) H') as (p' & q' & -> & S'). exists (c :: p'), q'. now split.
    + destruct (le_ge_dec (length y) (length (c :: p))) as [Ly|Ly].
      * change (y ++ n' = (c :: p) ++ sep ++ q) in E2. destruct (app_cut _ _ _ _ E2 Ly) as (w & Ew & ->).
        apply (f_equal (@length Z)) in Ew. rewrite app_length in Ew. destruct y; [easy|]. cbn in Ew, L. destruct (IH w o q ltac:(lia) H') as (p' & q' & -> & S').
        exists (x ++ p'), q'. now rewrite <- app_assoc.
      * symmetry in E2. change ((c :: p) ++ sep ++ q = y ++ n') in E2. destruct (app_cut _ _ _ _ E2 ltac:(lia)) as (w & -> & Ew). destruct sep as [|d sep]; [easy|].
        destruct w as [|d' w].
        -- cbn [app] in Ew. subst n'. destruct (swap_sep (d :: sep) (d :: sep) (fun c I => I) _ _ H') as (q' & -> & S'). exists x, q'. now split.
        -- injection Ew as <- _. apply Forall_app in F as (_ & F). inversion_clear F as [|? ? Nd _]. elim Nd. now left.
Qed.
Lemma swap_pieces sep ss ss' : sep <> [] -> pieces sep ss -> Forall2 (swap sep) ss ss' -> pieces sep ss'.
Proof.
  intros Ns P. revert ss'. induction P as [x H|x l H P IH]; intros ss' F.
  - inversion F as [|? y ? ? S' F']; subst. inversion F'; subst. constructor. intros p q E.
    destruct (swap_find sep Ns _ _ S' p q E) as (p' & q' & E' & _). now apply H in E'.
  - inversion F as [|? y ? l' S' F']; subst. constructor; [|now apply IH]. intros p q E.
    destruct (swap_find sep Ns _ _ (swap_app sep _ _ _ _ S' (swap_refl sep sep)) p q E) as (p' & q' & E' & Q). apply H in E'. subst q'. now apply swap_empty in Q.
Qed.

(** names that can be renamed in strings of the type [t] *)
Definition fit (seps : list (list Z)) (f : list Z -> list Z) (x : list Z) : Prop :=
  f x = x \/ (x <> [] /\ f x <> [] /\ Forall (fun sep => Forall (fun c => ~ In c sep) (f x)) seps).
Lemma between_swap sep' sep ss ss' : Forall2 (swap sep') ss ss' -> swap sep' (between sep ss) (between sep ss').
Proof.
  induction 1 as [|x y l l' S' F IH]; [constructor|]. cbn [between]. apply swap_app; [exact S'|]. destruct F; [constructor|]. apply swap_app; [apply swap_refl|exact IH].
Qed.
Lemma renamed_swap g m seps sep tr : In sep seps -> Forall (fit seps g) (names KGlobal tr) -> Forall (fit seps m) (names KMember tr) -> swap sep (text tr) (text (renamed g m tr)).
Proof.
  intros I. assert (B : forall f x, fit seps f x -> swap sep x (f x)).
  { intros f x [->|(Nx & Nf & F)]; [apply swap_refl|]. rewrite <- (app_nil_r x) at 1. rewrite <- (app_nil_r (f x)). constructor; [exact Nx|exact Nf| |constructor]. rewrite Forall_forall in F. now apply F. }
  induction tr as [k s|s l IH] using tree_induct; intros G M.
  - destruct k as [[]|]; cbn in *; [inversion_clear M; auto|inversion_clear G; auto|apply swap_refl].
  - cbn [text renamed]. apply between_swap. cbn [names] in G, M. rewrite map_map. induction l as [|x l IHl]; [constructor|]. cbn [flat_map] in G, M. apply Forall_app in G as (G1 & G2), M as (M1 & M2).
    inversion_clear IH as [|? ? I1 I2]. constructor; [now apply I1|now apply IHl].
Qed.
Lemma reads_renamed g m seps tr : forall t s, reads t s tr -> incl (separators t) seps ->
  Forall (fit seps g) (names KGlobal tr) -> Forall (fit seps m) (names KMember tr) -> reads t (text (renamed g m tr)) (renamed g m tr).
Proof.
  induction tr as [k s0|sep l IH] using tree_induct; intros t s R Hs G M.
  - inversion R; subst. destruct k as [[]|]; constructor.
  - inversion R as [|? types plural ss trs Ns P L H]; subst. cbn [renamed text]. assert (Is : In sep seps) by (apply Hs; now left).
    assert (Hx : forall x, In x l -> Forall (fit seps g) (names KGlobal x) /\ Forall (fit seps m) (names KMember x)).
    { intros x I. cbn [names] in G, M. rewrite Forall_forall in G, M. split; apply Forall_forall; intros n In'; [apply G|apply M]; apply in_flat_map; eauto. }
    assert (Hss : ss = map text l).
    { apply list_nth_ext; [now rewrite map_length|]. intros i x y E1 E2. rewrite nth_error_map in E2. destruct (nth_error l i) as [tr|] eqn:El; [|discriminate E2]. injection E2 as <-.
      destruct (H i x tr E1 El) as (t & _ & Rt). symmetry. eapply reads_text, Rt. }
    constructor; [exact Ns| | |].
    + eapply swap_pieces; [exact Ns|exact P|]. rewrite Hss, map_map. clear -Is Hx. induction l as [|x l IHl]; constructor.
      * destruct (Hx x (or_introl eq_refl)). now apply (renamed_swap g m seps).
      * apply IHl. intros y I. apply Hx. now right.
    + now rewrite !map_length.
    + intros i s tr E1 E2. rewrite !nth_error_map in E1. rewrite nth_error_map in E2. destruct (nth_error l i) as [x|] eqn:El; cbn [option_map] in E1, E2; [|discriminate E2]. injection E1 as <-. injection E2 as <-.
      assert (exists s, nth_error ss i = Some s) as (s & Es) by (rewrite Hss, nth_error_map, El; eexists; reflexivity).
      destruct (H i s x Es El) as (t & A & Rt). exists t. rewrite !map_length, L. split; [exact A|]. apply nth_error_In in El as Il. destruct (Hx x Il) as (Gx & Mx). rewrite Forall_forall in IH.
      eapply IH; eauto. intros z Iz. apply Hs. cbn [separators]. right. apply in_flat_map. apply assigned_in in A as [A| ->]; [eauto|destruct Iz].
Qed.

(** * Padded templates *)
Lemma Forall2_nth {A B} (Q : A -> B -> Prop) l l' : Forall2 Q l l' -> forall i, match nth_error l i, nth_error l' i with Some x, Some y => Q x y | None, None => True | _, _ => False end.
Proof. induction 1 as [|x y l l' H F IH]; intros [|i]; cbn; auto. apply IH. Qed.
Lemma Forall2_len {A B} (Q : A -> B -> Prop) l l' : Forall2 Q l l' -> length l = length l'.
Proof. induction 1; cbn; congruence. Qed.
Lemma assigned_padded types types' plural k n i t t' : Forall2 padded types types' -> (plural <> None -> k = 0%nat) -> plural_ok types plural ->
  assigned types plural n i t -> assigned (types' ++ repeat (TPlain None) k) plural n i t' -> padded t t'.
Proof.
  intros F K P (Li & A) (_ & A'). pose proof (Forall2_nth _ _ _ F) as Hn. pose proof (Forall2_len _ _ _ F) as Ln. destruct plural as [(b, e)|].
  - rewrite (K ltac:(discriminate)) in A'. cbn [repeat] in A'. rewrite app_nil_r in A'. rewrite Ln in A. cbv zeta in *.
    assert (forall j, nth_error types j = Some t -> nth_error types' j = Some t' -> padded t t') as Hj by (intros j E E'; specialize (Hn j); now rewrite E, E' in Hn).
    destruct (i <? b)%nat; [eauto|]. destruct (_ <=? n)%nat; [destruct (_ <? _)%nat|]; eauto.
  - specialize (Hn i). destruct A as [A|(L & ->)].
    + rewrite A in Hn. destruct (nth_error types' i) as [y|] eqn:Ey; [|easy]. destruct A' as [A'|(L' & ->)].
      * rewrite nth_error_app1 in A' by (apply nth_error_Some; congruence). rewrite Ey in A'. now injection A' as <-.
      * assert (i < length types')%nat by (apply nth_error_Some; congruence). rewrite app_length in L'. lia.
    + destruct A' as [A'|(L' & ->)]; [|constructor]. rewrite nth_error_app2 in A' by lia. apply nth_error_In, repeat_spec in A'. subst. constructor.
Qed.
Lemma padded_sound t : forall t', padded t t' -> sound_ty t -> sound_ty t'.
Proof.
  induction t as [k|sep types plural IH] using ty_induct; intros t' H So; inversion H as [|? ? types' ? n F K]; subst; [constructor|].
  inversion_clear So as [|? ? ? Ns Ft Pl]. constructor; [exact Ns| |].
  - apply Forall_app. split; [|apply Forall_forall; intros x I; apply repeat_spec in I; subst; constructor]. clear H Pl K.
    induction F as [|x y l l' Q F IHF]; constructor; inversion_clear IH; inversion_clear Ft; auto.
  - destruct plural as [(b, e)|]; [|easy]. rewrite app_length, <- (Forall2_len _ _ _ F). lia.
Qed.
Lemma reads_padded tr : forall t t' s tr', sound_ty t -> padded t t' -> reads t s tr -> reads t' s tr' -> tr = tr'.
Proof.
  induction tr as [k s0|sep l IH] using tree_induct; intros t t' s tr' So H R R'.
  - inversion R; subst. inversion H; subst. inversion R'; subst. reflexivity.
  - inversion R as [|? types plural ss trs Ns P L Hr]; subst. inversion H as [|? ? types' ? n F K]; subst. inversion R' as [|? ? ? ss' trs' _ P' L' Hr']; subst.
    assert (ss' = ss) as -> by (eapply pieces_unique; eauto). inversion_clear So as [|? ? ? _ Ft Pl]. f_equal. apply list_nth_ext; [congruence|]. intros i x y E1 E2.
    assert (exists s, nth_error ss i = Some s) as (s & Es).
    { destruct (nth_error ss i) as [s|] eqn:Es; [eauto|]. apply nth_error_None in Es. assert (i < length l)%nat by (apply nth_error_Some; congruence). lia. }
    destruct (Hr i s x Es E1) as (t & A & Rt). destruct (Hr' i s y Es E2) as (t' & A' & Rt').
    rewrite Forall_forall in IH. eapply IH; [now apply nth_error_In in E1| |eapply assigned_padded; eauto|exact Rt|exact Rt'].
    apply assigned_in in A as [A| ->]; [|constructor]. rewrite Forall_forall in Ft. now apply Ft.
Qed.
