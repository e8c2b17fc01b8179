(** From the occurrences of names to trees that differ in names only. *)
From Coq Require Import String List ZArith Bool Lia.
From Verif Require Import M_Base M_Fold M_Token M_Expr M_Stmt M_Rename M_Names S_Rename S_Alpha L_Util L_Stmt L_Scope L_Alpha.
From Verif Require S_Run.
Import ListNotations.
Open Scope nat_scope.

Notation benv := (list (name * (nat * nat))).
Definition zip (e e' : benv) : pairs := combine (map fst e) (map fst e').

Lemma declare_fst d xs : map fst (declare d xs) = xs.
Proof.
  unfold declare. generalize 0 as n.
  induction xs as [|x xs IH]; intros n; [reflexivity|]. cbn [length repeat seq combine map fst]. now rewrite IH.
Qed.
Lemma declare_snd d xs : map snd (declare d xs) = combine (repeat d (length xs)) (seq 0 (length xs)).
Proof.
  unfold declare. generalize 0 as n. induction xs as [|x xs IH]; intros n; [reflexivity|]. cbn [length repeat seq combine map snd]. now rewrite IH.
Qed.
Lemma ids_fst (d : nat) : forall m n v, In v (combine (repeat d m) (seq n m)) -> fst v = d /\ n <= snd v.
Proof.
  induction m as [|m IH]; intros n v; [intros []|]. cbn [repeat seq combine]. intros [<-|H]; [cbn; lia|].
  apply IH in H. lia.
Qed.
Lemma ids_nodup (d : nat) : forall m n, NoDup (combine (repeat d m) (seq n m)).
Proof.
  induction m as [|m IH]; intros n; [constructor|]. cbn [repeat seq combine]. constructor; [|apply IH].
  intros H. apply ids_fst in H. cbn in H. lia.
Qed.
Lemma combine_app2 {A B} : forall (a : list A) (b : list B) c d, length a = length b -> combine (a ++ c) (b ++ d) = combine a b ++ combine c d.
Proof. induction a as [|x a IH]; intros [|y b] c d E; try discriminate E; [reflexivity|]. cbn. f_equal. apply IH. cbn in E. lia. Qed.
Lemma combine_rev {A B} : forall (a : list A) (b : list B), length a = length b -> combine (rev a) (rev b) = rev (combine a b).
Proof.
  induction a as [|x a IH]; intros [|y b] E; try discriminate E; [reflexivity|]. cbn [rev combine]. cbn in E.
  rewrite combine_app2 by (rewrite !rev_length; lia). rewrite IH by lia. reflexivity.
Qed.
Lemma zip_more d xs xs' e e' : length xs = length xs' ->
  zip (rev (declare d xs) ++ e) (rev (declare d xs') ++ e') = more xs xs' (zip e e').
Proof.
  intros L. unfold zip, more. rewrite !map_app, !map_rev, !declare_fst.
  rewrite combine_app2 by (rewrite !rev_length; exact L). now rewrite combine_rev.
Qed.
Lemma zip_frame d ls ls' e e' : length ls = length ls' ->
  zip (declare d ls ++ e) (declare d ls' ++ e') = combine ls ls' ++ zip e e'.
Proof. intros L. unfold zip. rewrite !map_app, !declare_fst. now apply combine_app2. Qed.

(** ** Shapes and labels *)
Lemma block_labels_app a b : block_labels (a ++ b) = block_labels a ++ block_labels b.
Proof. unfold block_labels. apply flat_map_app. Qed.
Lemma labels_no : (forall e, block_labels (names_ex e) = []) /\ (forall es, block_labels (names_exs es) = []) /\ (forall i, block_labels (names_its i) = []) /\
  (forall s, block_labels (names_st s) = match s with SLabel l => [l] | _ => [] end) /\ (forall b, block_labels (names_blk b) = labels b) /\
  (forall i, block_labels (names_ifs i) = []) /\ (forall e, block_labels (names_els e) = []).
Proof.
  assert (HM : forall l t, block_labels (map member l ++ [t]) = block_labels [t]).
  { induction l as [|x l IH]; intros t; [reflexivity|exact (IH t)]. }
  apply prog_all; intros; cbn [names_ex names_exs names_its names_st names_blk names_ifs names_els labels];
    repeat (rewrite ?block_labels_app; repeat match goal with H : block_labels _ = _ |- _ => rewrite H end); try reflexivity.
  - exact H0.
  - change (block_labels (names_ex v ++ names_its i) = []). now rewrite block_labels_app, H, H0.
  - exact (HM _ _).
  - exact H.
  - destruct s; reflexivity.
  - exact H1.
  - exact H1.
Qed.
Lemma labels_names b : block_labels (names_blk b) = labels b. Proof. apply labels_no. Qed.
Lemma labels_shape : forall b b', shape_blk b' = shape_blk b -> length (labels b) = length (labels b').
Proof.
  induction b as [|s b IH]; intros [|s' b'] E; try discriminate E; [reflexivity|]. cbn [shape_blk] in E. injection E as E1 E2.
  specialize (IH _ E2). destruct s, s'; try discriminate E1; cbn [labels]; cbn [length]; congruence.
Qed.

Lemma F2_cons {A B} (Q : A -> B -> Prop) a b l l' : Forall2 Q (a :: l) (b :: l') -> Q a b /\ Forall2 Q l l'.
Proof. intros H. inversion H; subst. now split. Qed.
Lemma meaning_in {A} (l : list (name * A)) x v : meaning l x = Some v -> In v (map snd l).
Proof. induction l as [|[y w] l IH]; [discriminate|]. cbn. destruct (zeqb_list x y); [intros [= ->]; now left|]. intros E. right. now apply IH. Qed.

Section Link.
Context (g k : list Z -> list Z) (root : benv).
Notation al_ex := (alpha_ex (Gg g) (Kk k)). Notation al_exs := (alpha_exs (Gg g) (Kk k)). Notation al_its := (alpha_its (Gg g) (Kk k)).
Notation al_st := (alpha_st (Gg g) (Kk k)). Notation al_blk := (alpha_blk (Gg g) (Kk k)). Notation al_ifs := (alpha_ifs (Gg g) (Kk k)). Notation al_els := (alpha_els (Gg g) (Kk k)).
Context (ROOT : forall x v, meaning root x = Some v -> g x = x).
Context (ENV : exists v, meaning root env_name = Some v).

(** What is known of each pair of occurrences. *)
Definition R (a b : occ) : Prop :=
  match a, b with
  | OLocal n v, OLocal n' v' => v = v' /\ (fst v <> 0 -> n <> env_name /\ n' <> env_name)
  | OGlobal n, OGlobal n' => g n' = n
  | OMember _ n, OMember _ n' => k n' = n
  | OLabel n v, OLabel n' v' => v = v' /\ v <> None
  | _, _ => False
  end.

Definition good (e e' : benv) (K : nat * nat) : Prop :=
  map snd e = map snd e' /\ NoDup (map snd (e ++ root)) /\ (forall v, In v (map snd (e ++ root)) -> fst v < fst K).
Definition lgood (e e' : benv) (K : nat * nat) : Prop :=
  map snd e = map snd e' /\ NoDup (map snd e) /\ (forall v, In v (map snd e) -> fst v < snd K).
Definition le2 (K K' : nat * nat) : Prop := fst K <= fst K' /\ snd K <= snd K'.
Lemma le2_refl K : le2 K K. Proof. split; lia. Qed.
Lemma le2_trans a b c : le2 a b -> le2 b c -> le2 a c. Proof. unfold le2. lia. Qed.
Lemma good_le e e' K K' : good e e' K -> le2 K K' -> good e e' K'.
Proof. intros (A & B & C) (D & _). split; [exact A|]. split; [exact B|]. intros v H. specialize (C v H). lia. Qed.
Lemma lgood_le e e' K K' : lgood e e' K -> le2 K K' -> lgood e e' K'.
Proof. intros (A & B & C) (_ & D). split; [exact A|]. split; [exact B|]. intros v H. specialize (C v H). lia. Qed.
Lemma good_pos e e' K : good e e' K -> 0 < fst K.
Proof.
  intros (_ & _ & C). destruct ENV as (v & E). enough (H : In v (map snd (e ++ root))) by (specialize (C v H); lia).
  rewrite map_app. apply in_or_app. right. eapply meaning_in. exact E.
Qed.
Lemma NoDup_app2 {A} : forall a b : list A, NoDup a -> NoDup b -> (forall x, In x a -> ~ In x b) -> NoDup (a ++ b).
Proof.
  induction a as [|x a IH]; intros b Ha Hb D; [exact Hb|]. inversion Ha; subst. cbn. constructor.
  - intros H. apply in_app_or in H. destruct H as [H|H]; [contradiction|]. exact (D x (or_introl eq_refl) H).
  - apply IH; auto. intros y Hy. apply D. now right.
Qed.
Lemma good_more e e' K d xs xs' : good e e' K -> d = fst K -> length xs = length xs' ->
  good (rev (declare d xs) ++ e) (rev (declare d xs') ++ e') (S d, snd K).
Proof.
  intros (A & B & C) -> L. split; [|split].
  - rewrite !map_app, !map_rev, !declare_snd, L, A. reflexivity.
  - rewrite <- app_assoc, map_app, map_rev, declare_snd. apply NoDup_app2; [apply NoDup_rev, ids_nodup|exact B|].
    intros v H H'. apply in_rev, ids_fst in H. specialize (C v H'). lia.
  - intros v H. rewrite <- app_assoc, map_app, map_rev, declare_snd in H. cbn [fst]. apply in_app_or in H. destruct H as [H|H].
    + apply in_rev, ids_fst in H. lia.
    + specialize (C v H). lia.
Qed.
Lemma lgood_frame e e' K ls ls' : lgood e e' K -> length ls = length ls' ->
  lgood (declare (snd K) ls ++ e) (declare (snd K) ls' ++ e') (fst K, S (snd K)).
Proof.
  intros (A & B & C) L. split; [|split].
  - rewrite !map_app, !declare_snd, L, A. reflexivity.
  - rewrite map_app, declare_snd. apply NoDup_app2; [apply ids_nodup|exact B|].
    intros v H H'. apply ids_fst in H. specialize (C v H'). lia.
  - intros v H. rewrite map_app, declare_snd in H. cbn [snd]. apply in_app_or in H. destruct H as [H|H].
    + apply ids_fst in H. lia.
    + specialize (C v H). lia.
Qed.

Lemma root_same : forall l : benv, NoDup (map snd l) -> forall x x' v, meaning l x = Some v -> meaning l x' = Some v -> x = x'.
Proof.
  induction l as [|[y w] l IH]; intros N x x' v; [discriminate|]. inversion N; subst. cbn.
  destruct (zeqb_list x y) eqn:E, (zeqb_list x' y) eqn:E'.
  - apply zeqb_list_true in E, E'. congruence.
  - intros [= <-] H. apply meaning_in in H. contradiction.
  - intros H [= <-]. apply meaning_in in H. contradiction.
  - now apply IH.
Qed.
Lemma zeqb_neq x y : zeqb_list x y = false -> x <> y. Proof. intros E ->. now rewrite zeqb_list_refl in E. Qed.
Lemma var_same : forall e e' : benv, map snd e = map snd e' -> NoDup (map snd (e ++ root)) -> forall x x',
  meaning (e ++ root) x = meaning (e' ++ root) x' -> (meaning (e ++ root) x = None -> g x' = x) -> same_var (Gg g) (zip e e') x x'.
Proof.
  induction e as [|[y v] e IH]; intros [|[y' v'] e'] E N x x' M G; try discriminate E.
  - cbn in *. destruct (meaning root x) as [v|] eqn:Q; [|now apply G]. rewrite (root_same root N x x' v Q (eq_sym M)). unfold Gg. eapply ROOT. symmetry. exact M.
  - cbn in E. injection E as <- E. cbn [map app snd] in N. inversion N; subst. cbn [app meaning] in M, G. cbn [zip map combine fst same_var].
    destruct (zeqb_list x y) eqn:Q, (zeqb_list x' y') eqn:Q'.
    + left. apply zeqb_list_true in Q, Q'. now subst.
    + symmetry in M. apply meaning_in in M. destruct H1. rewrite map_app in *. now rewrite E.
    + apply meaning_in in M. contradiction.
    + right. apply zeqb_neq in Q, Q'. split; [exact Q|]. split; [exact Q'|]. apply IH; auto.
Qed.
Lemma label_same : forall e e' : benv, map snd e = map snd e' -> NoDup (map snd e) -> forall x x' v,
  meaning e x = Some v -> meaning e' x' = Some v -> same_label (zip e e') x x'.
Proof.
  induction e as [|[y w] e IH]; intros [|[y' w'] e'] E N x x' v M M'; try discriminate E; [discriminate|].
  cbn in E. injection E as <- E. cbn [map snd] in N. inversion N; subst. cbn [meaning] in M, M'. cbn [zip map combine fst same_label].
  destruct (zeqb_list x y) eqn:Q, (zeqb_list x' y') eqn:Q'.
  - left. apply zeqb_list_true in Q, Q'. now subst.
  - injection M as <-. apply meaning_in in M'. rewrite <- E in M'. contradiction.
  - injection M' as <-. apply meaning_in in M. contradiction.
  - right. apply zeqb_neq in Q, Q'. split; [exact Q|]. split; [exact Q'|]. eapply IH; eauto.
Qed.

(** ** Reading the two lists of names side by side *)
Definition Link (e e' lab lab' : benv) (K : nat * nat) (l l' : list syn) (K1 : nat * nat) (e2 e2' : benv) (A : Prop) : Prop :=
  exists o o', occs_all (e ++ root) lab K l = (o, K1, e2 ++ root) /\ occs_all (e' ++ root) lab' K l' = (o', K1, e2' ++ root) /\ le2 K K1 /\
    forall rest rest', Forall2 R (o ++ rest) (o' ++ rest') -> A /\ Forall2 R rest rest'.

Lemma occs_all_app env lab K l l2 : occs_all env lab K (l ++ l2) =
  let '(o1, K, env) := occs_all env lab K l in let '(o2, K, env) := occs_all env lab K l2 in (o1 ++ o2, K, env).
Proof.
  revert env K. induction l as [|t l IH]; intros env K.
  - cbn. now destruct (occs_all env lab K l2) as [[o K'] env'].
  - cbn [app]. rewrite !occs_cons. destruct (occs env lab K t) as [[o1 K1] env1]. rewrite IH.
    destruct (occs_all env1 lab K1 l) as [[o2 K2] env2]. destruct (occs_all env2 lab K2 l2) as [[o3 K3] env3]. now rewrite app_assoc.
Qed.
Lemma link_app e e' lab lab' K l l' K1 e2 e2' A l2 l2' K2 e3 e3' B :
  Link e e' lab lab' K l l' K1 e2 e2' A -> Link e2 e2' lab lab' K1 l2 l2' K2 e3 e3' B ->
  Link e e' lab lab' K (l ++ l2) (l' ++ l2') K2 e3 e3' (A /\ B).
Proof.
  intros (o & o' & E & E' & L & H) (p & p' & F & F' & L2 & H2). exists (o ++ p), (o' ++ p').
  rewrite !occs_all_app, E, E', F, F'. split; [reflexivity|]. split; [reflexivity|]. split; [eapply le2_trans; eassumption|].
  intros rest rest' Q. rewrite <- !app_assoc in Q. apply H in Q. destruct Q as (a & Q). apply H2 in Q. tauto.
Qed.
Lemma link_nil e e' lab lab' K : Link e e' lab lab' K [] [] K e e' True.
Proof. exists [], []. split; [reflexivity|]. split; [reflexivity|]. split; [apply le2_refl|]. auto. Qed.
Lemma link_weak e e' lab lab' K l l' K1 e2 e2' (A B : Prop) : (A -> B) -> Link e e' lab lab' K l l' K1 e2 e2' A -> Link e e' lab lab' K l l' K1 e2 e2' B.
Proof. intros W (o & o' & E & E' & L & H). exists o, o'. repeat split; auto; try apply L; apply H in H0; tauto. Qed.
Lemma link_one e e' lab lab' K t t' K1 e2 e2' A o o' :
  occs (e ++ root) lab K t = (o, K1, e2 ++ root) -> occs (e' ++ root) lab' K t' = (o', K1, e2' ++ root) -> le2 K K1 ->
  (forall rest rest', Forall2 R (o ++ rest) (o' ++ rest') -> A /\ Forall2 R rest rest') -> Link e e' lab lab' K [t] [t'] K1 e2 e2' A.
Proof.
  intros E E' L H. exists (o ++ []), (o' ++ []). rewrite !occs_cons, E, E'. split; [reflexivity|]. split; [reflexivity|]. split; [exact L|].
  now rewrite !app_nil_r.
Qed.

Lemma mention_R e e' K x x' rest rest' : good e e' K ->
  Forall2 R (mention (e ++ root) x ++ rest) (mention (e' ++ root) x' ++ rest') -> same_var (Gg g) (zip e e') x x' /\ Forall2 R rest rest'.
Proof.
  intros (A & B & _). unfold mention, local_id.
  assert (X : forall l : benv, exists w, meaning (l ++ root) env_name = Some w).
  { intros l. rewrite meaning_app. destruct (meaning l env_name); eauto. }
  destruct (X e) as (w & W), (X e') as (w' & W').
  pose proof (var_same e e' A B x x') as V.
  destruct (meaning (e ++ root) x) as [v|] eqn:Q, (meaning (e' ++ root) x') as [v'|] eqn:Q'; cbn [app].
  - intros H. apply F2_cons in H. destruct H as (H1 & H2). split; [|exact H2]. destruct H1 as (<- & _). apply V; [reflexivity|discriminate].
  - intros H. inversion H as [|? ? ? ? H1 H2]. destruct H1.
  - intros H. inversion H as [|? ? ? ? H1 H2]. destruct H1.
  - rewrite W, W'. intros H. apply F2_cons in H. destruct H as (H1 & H2). apply F2_cons in H2. destruct H2 as (_ & H2). split; [|exact H2]. apply V; [reflexivity|]. intros _. exact H1.
Qed.
Lemma declared_R d : d <> 0 -> forall xs xs' n rest rest', length xs = length xs' ->
  Forall2 R (map (fun '(n, v) => OLocal n v) (combine xs (combine (repeat d (length xs)) (seq n (length xs)))) ++ rest)
            (map (fun '(n, v) => OLocal n v) (combine xs' (combine (repeat d (length xs')) (seq n (length xs')))) ++ rest') ->
  (~ In env_name xs /\ ~ In env_name xs') /\ Forall2 R rest rest'.
Proof.
  intros D. induction xs as [|x xs IH]; intros [|x' xs'] n rest rest' L H; try discriminate L.
  - split; [split; intros []|exact H].
  - cbn in H. apply F2_cons in H. destruct H as (H1 & H2). destruct H1 as (_ & H1). destruct (H1 D) as (N & N').
    apply IH in H2; [|cbn in L; lia]. destruct H2 as ((P & P') & H2). split; [|exact H2].
    split; intros [Q|Q]; contradiction.
Qed.
Lemma declared_ok d xs xs' rest rest' : d <> 0 -> length xs = length xs' ->
  Forall2 R (declared d xs ++ rest) (declared d xs' ++ rest') -> locals_ok xs xs' /\ Forall2 R rest rest'.
Proof. intros D L H. apply (declared_R d D xs xs' 0 rest rest' L) in H. destruct H as ((A & B) & C). split; [|exact C]. split; [exact L|]. now split. Qed.

Definition QE (e : ex) : Prop := forall e' v v' lab lab' K, shape_ex e' = shape_ex e -> good v v' K ->
  exists K1, Link v v' lab lab' K (names_ex e) (names_ex e') K1 v v' (al_ex (zip v v') e e').
Definition QEs (e : exs) : Prop := forall e' v v' lab lab' K, shape_exs e' = shape_exs e -> good v v' K ->
  exists K1, Link v v' lab lab' K (names_exs e) (names_exs e') K1 v v' (al_exs (zip v v') e e').
Definition QI (i : its) : Prop := forall i' v v' lab lab' K, shape_its i' = shape_its i -> good v v' K ->
  exists K1, Link v v' lab lab' K (names_its i) (names_its i') K1 v v' (al_its (zip v v') i i').
Definition QS (s : st) : Prop := forall s' v v' lab lab' K, shape_st s' = shape_st s -> good v v' K -> lgood lab lab' K ->
  exists K1 v2 v2', Link v v' lab lab' K (names_st s) (names_st s') K1 v2 v2' (al_st (zip v v') (zip lab lab') s s') /\
    zip v2 v2' = env_st (zip v v') s s' /\ good v2 v2' K1.
Definition QB (b : blk) : Prop := forall b' v v' lab lab' K, shape_blk b' = shape_blk b -> good v v' K -> lgood lab lab' K ->
  exists K1 v2 v2', Link v v' lab lab' K (names_blk b) (names_blk b') K1 v2 v2' (al_blk (zip v v') (zip lab lab') b b') /\
    zip v2 v2' = env_blk (zip v v') b b' /\ good v2 v2' K1.
Definition QF (i : ifs) : Prop := forall i' v v' lab lab' K, shape_ifs i' = shape_ifs i -> good v v' K -> lgood lab lab' K ->
  exists K1, Link v v' lab lab' K (names_ifs i) (names_ifs i') K1 v v' (al_ifs (zip v v') (zip lab lab') i i').
Definition QL (e : els) : Prop := forall e' v v' lab lab' K, shape_els e' = shape_els e -> good v v' K -> lgood lab lab' K ->
  exists K1, Link v v' lab lab' K (names_els e) (names_els e') K1 v v' (al_els (zip v v') (zip lab lab') e e').

Lemma link_le e e' lab lab' K l l' K1 e2 e2' A : Link e e' lab lab' K l l' K1 e2 e2' A -> le2 K K1.
Proof. intros (o & o' & _ & _ & L & _). exact L. Qed.
Lemma link_name z x x' v v' lab lab' K : good v v' K -> Link v v' lab lab' K [YName z x] [YName z x'] K v v' (same_var (Gg g) (zip v v') x x').
Proof. intros G. eapply link_one; [reflexivity|reflexivity|apply le2_refl|]. intros rest rest' H. eapply mention_R; eassumption. Qed.
Lemma link_print v v' lab lab' K : good v v' K -> Link v v' lab lab' K [YPrint] [YPrint] K v v' (same_var (Gg g) (zip v v') (asc "print") (asc "print")).
Proof. intros G. eapply link_one; [reflexivity|reflexivity|apply le2_refl|]. intros rest rest' H. eapply (mention_R v v' K print_name print_name); eassumption. Qed.
Lemma link_member x x' v v' lab lab' K : Link v v' lab lab' K [member x] [member x'] K v v' (Kk k x x').
Proof. eapply link_one; [reflexivity|reflexivity|apply le2_refl|]. intros rest rest' H. inversion H; subst. split; assumption. Qed.
Lemma link_members : forall xs xs' v v' lab lab' K, length xs = length xs' -> Link v v' lab lab' K (map member xs) (map member xs') K v v' (Forall2 (Kk k) xs xs').
Proof.
  induction xs as [|x xs IH]; intros [|x' xs'] v v' lab lab' K L; try discriminate L.
  - eapply link_weak; [|apply link_nil]. intros _. constructor.
  - cbn [map]. change (member x :: map member xs) with ([member x] ++ map member xs). change (member x' :: map member xs') with ([member x'] ++ map member xs').
    eapply link_weak; [|eapply link_app; [apply link_member|apply IH; cbn in L; lia]]. intros (A & B). now constructor.
Qed.
Lemma link_label l l' v v' lab lab' K t t' : lgood lab lab' K ->
  (t = YLabel l /\ t' = YLabel l' \/ t = YGoto l /\ t' = YGoto l') -> Link v v' lab lab' K [t] [t'] K v v' (same_label (zip lab lab') l l').
Proof.
  intros (A & B & _) T. assert (E : occs (v ++ root) lab K t = ([OLabel l (meaning lab l)], K, v ++ root) /\ occs (v' ++ root) lab' K t' = ([OLabel l' (meaning lab' l')], K, v' ++ root))
    by (destruct T as [(-> & ->)|(-> & ->)]; split; reflexivity).
  eapply link_one; [apply E|apply E|apply le2_refl|]. intros rest rest' H. apply F2_cons in H. destruct H as (H1 & H2). split; [|exact H2].
  destruct H1 as (H1 & N). unfold label_id in *. destruct (meaning lab l) as [w|] eqn:Q; [|congruence]. eapply label_same; eauto.
Qed.

(** the body of a block or function *)
Lemma link_inner b b' v v' lab lab' K : QB b -> shape_blk b' = shape_blk b -> good v v' K -> lgood lab lab' K ->
  exists K1 v2 v2', Link v v' (declare (snd K) (block_labels (names_blk b)) ++ lab) (declare (snd K) (block_labels (names_blk b')) ++ lab') (fst K, S (snd K)) (names_blk b) (names_blk b') K1 v2 v2'
    (al_blk (zip v v') (frame b b' ++ zip lab lab') b b') /\ zip v2 v2' = env_blk (zip v v') b b' /\ good v2 v2' K1 /\ le2 K K1.
Proof.
  intros H Sh G L. rewrite !labels_names. pose proof (labels_shape _ _ Sh) as Ll.
  destruct (H b' v v' (declare (snd K) (labels b) ++ lab) (declare (snd K) (labels b') ++ lab') (fst K, S (snd K)) Sh) as (K1 & v2 & v2' & A & B & C).
  - eapply good_le; [exact G|]. split; cbn; lia.
  - now apply lgood_frame.
  - exists K1, v2, v2'. rewrite zip_frame in A by exact Ll. split; [exact A|]. split; [exact B|]. split; [exact C|].
    apply link_le in A. unfold le2 in *. cbn in A. lia.
Qed.
Lemma link_block b b' v v' lab lab' K : QB b -> shape_blk b' = shape_blk b -> good v v' K -> lgood lab lab' K ->
  exists K1, Link v v' lab lab' K [YBlock (names_blk b)] [YBlock (names_blk b')] K1 v v' (al_blk (zip v v') (frame b b' ++ zip lab lab') b b').
Proof.
  intros H Sh G L. destruct (link_inner _ _ _ _ _ _ _ H Sh G L) as (K1 & v2 & v2' & (o & o' & E & E' & _ & Q) & _ & _ & Le).
  exists K1. apply (link_one _ _ _ _ _ _ _ _ _ _ _ o o'); [rewrite occs_eq, E; reflexivity|rewrite occs_eq, E'; reflexivity|exact Le|exact Q].
Qed.
Definition selfed (me : bool) (xs : list (list Z)) : list (list Z) := if me then self_name :: xs else xs.
Lemma lgood_nil K : lgood [] [] K. Proof. split; [reflexivity|]. split; [constructor|intros v []]. Qed.
Lemma link_fun me xs xs' b b' v v' lab lab' K : QB b -> shape_blk b' = shape_blk b -> good v v' K -> length xs = length xs' ->
  exists K1, Link v v' lab lab' K [YFun me xs (names_blk b)] [YFun me xs' (names_blk b')] K1 v v'
    (locals_ok (selfed me xs) (selfed me xs') /\ al_blk (more (selfed me xs) (selfed me xs') (zip v v')) (frame b b') b b').
Proof.
  intros H Sh G L. set (ys := selfed me xs). set (ys' := selfed me xs').
  assert (Ly : length ys = length ys') by (subst ys ys'; unfold selfed; destruct me; [exact (f_equal S L)|exact L]).
  pose proof (good_pos _ _ _ G) as P. pose proof (good_more _ _ _ _ ys ys' G eq_refl Ly) as G2.
  destruct (link_inner _ _ _ _ [] [] _ H Sh G2 (lgood_nil _)) as (K1 & v2 & v2' & (o & o' & E & E' & _ & Q) & _ & _ & Le).
  rewrite !app_nil_r in *. rewrite zip_more in Q by exact Ly. rewrite <- !app_assoc in E, E'. cbn [fst snd] in *.
  exists K1. apply (link_one _ _ _ _ _ _ _ _ _ _ _ (declared (fst K) ys ++ o) (declared (fst K) ys' ++ o')).
  - rewrite occs_eq. cbv zeta. change (if me then self_name :: xs else xs) with ys. rewrite E. reflexivity.
  - rewrite occs_eq. cbv zeta. change (if me then self_name :: xs' else xs') with ys'. rewrite E'. reflexivity.
  - unfold le2 in *. cbn in Le. lia.
  - intros rest rest' F. rewrite <- !app_assoc in F. apply declared_ok in F; [|lia|exact Ly]. destruct F as (F1 & F2). apply Q in F2.
    split; [split; [exact F1|exact (proj1 F2)]|exact (proj2 F2)].
Qed.

Lemma params_shape : forall ps ps', map (option_map (fun _ : list Z => @nil Z)) ps' = map (option_map (fun _ => [])) ps ->
  map (fun p : option (list Z) => match p with Some _ => true | None => false end) ps = map (fun p => match p with Some _ => true | None => false end) ps' /\
  length (params ps) = length (params ps').
Proof.
  induction ps as [|p ps IH]; intros [|p' ps'] E; try discriminate E; [split; reflexivity|]. cbn in E. injection E as E1 E2.
  destruct (IH _ E2) as (A & B). destruct p, p'; try discriminate E1; (split; [exact (f_equal (cons _) A)|first [exact (f_equal S B)|exact B]]).
Qed.
Lemma map_len {A B} (f : A -> B) l l' : map f l' = map f l -> length l = length l'.
Proof. intros E. apply (f_equal (@length B)) in E. now rewrite !map_length in E. Qed.

Ltac inj E := injection E; clear E; intros.
Ltac after_links := intros; repeat match goal with H : _ /\ _ |- _ => destruct H end; repeat split; auto.

Lemma params_ok_of ps ps' : map (option_map (fun _ : list Z => @nil Z)) ps' = map (option_map (fun _ => [])) ps ->
  locals_ok (params ps) (params ps') -> params_ok ps ps'.
Proof. intros E L. split; [apply params_shape; exact E|exact L]. Qed.

Theorem link_all : (forall e, QE e) /\ (forall es, QEs es) /\ (forall i, QI i) /\ (forall s, QS s) /\ (forall b, QB b) /\ (forall i, QF i) /\ (forall e, QL e).
Proof.
  apply prog_all.
  - intros t e' v v' lab lab' K Sh G. destruct e'; try discriminate Sh. inj Sh. subst. exists K. eapply link_weak; [|apply link_nil]. reflexivity.
  - intros e' v v' lab lab' K Sh G. destruct e'; try discriminate Sh. exists K. apply link_nil.
  - intros x e' v v' lab lab' K Sh G. destruct e'; try discriminate Sh. exists K. now apply link_name.
  - intros ps b Hb e' v v' lab lab' K Sh G. destruct e'; try discriminate Sh. inj Sh. rename H into E2, H0 into E1.
    destruct (params_shape _ _ E1) as (_ & L). destruct (link_fun false _ _ _ _ v v' lab lab' K Hb E2 G L) as (K1 & H).
    exists K1. eapply link_weak; [|exact H]. cbn [selfed]. intros (A & B). split; [now apply params_ok_of|exact B].
  - intros e He e' v v' lab lab' K Sh G. destruct e'; try discriminate Sh. inj Sh. exact (He _ _ _ _ _ _ H G).
  - intros op e He e' v v' lab lab' K Sh G. destruct e'; try discriminate Sh. inj Sh. destruct (He _ v v' lab lab' K H G) as (K1 & L).
    exists K1. eapply link_weak; [|exact L]. intros A. split; [now symmetry|exact A].
  - intros op a Ha b Hb e' v v' lab lab' K Sh G. destruct e'; try discriminate Sh. inj Sh.
    destruct (Ha _ v v' lab lab' K H0 G) as (K1 & L1). destruct (Hb _ v v' lab lab' K1 H (good_le _ _ _ _ G (link_le _ _ _ _ _ _ _ _ _ _ _ L1))) as (K2 & L2).
    exists K2. eapply link_weak; [|exact (link_app _ _ _ _ _ _ _ _ _ _ _ _ _ _ _ _ _ L1 L2)]. intros (A & B). split; [now symmetry|]. now split.
  - intros e He key e' v v' lab lab' K Sh G. destruct e'; try discriminate Sh. inj Sh.
    destruct (He _ v v' lab lab' K H G) as (K1 & L1). exists K1. exact (link_app _ _ _ _ _ _ _ _ _ _ _ _ _ _ _ _ _ L1 (link_member _ _ _ _ _ _ _)).
  - intros a Ha b Hb e' v v' lab lab' K Sh G. destruct e'; try discriminate Sh. inj Sh.
    destruct (Ha _ v v' lab lab' K H0 G) as (K1 & L1). destruct (Hb _ v v' lab lab' K1 H (good_le _ _ _ _ G (link_le _ _ _ _ _ _ _ _ _ _ _ L1))) as (K2 & L2).
    exists K2. exact (link_app _ _ _ _ _ _ _ _ _ _ _ _ _ _ _ _ _ L1 L2).
  - intros a Ha short b Hb e' v v' lab lab' K Sh G. destruct e'; try discriminate Sh. inj Sh.
    destruct (Ha _ v v' lab lab' K H1 G) as (K1 & L1). destruct (Hb _ v v' lab lab' K1 H (good_le _ _ _ _ G (link_le _ _ _ _ _ _ _ _ _ _ _ L1))) as (K2 & L2).
    exists K2. exact (link_app _ _ _ _ _ _ _ _ _ _ _ _ _ _ _ _ _ L1 L2).
  - intros a Ha key short b Hb e' v v' lab lab' K Sh G. destruct e'; try discriminate Sh. inj Sh.
    destruct (Ha _ v v' lab lab' K H1 G) as (K1 & L1). destruct (Hb _ v v' lab lab' K1 H (good_le _ _ _ _ G (link_le _ _ _ _ _ _ _ _ _ _ _ L1))) as (K2 & L2).
    exists K2. eapply link_weak; [|exact (link_app _ _ _ _ _ _ _ _ _ _ _ _ _ _ _ _ _ L1 (link_app _ _ _ _ _ _ _ _ _ _ _ _ _ _ _ _ _ (link_member _ _ _ _ _ _ _) L2))].
    intros X. exact X.
  - intros i Hi e' v v' lab lab' K Sh G. destruct e'; try discriminate Sh. inj Sh. exact (Hi _ _ _ _ _ _ H G).
  - intros e' v v' lab lab' K Sh G. destruct e'; try discriminate Sh. exists K. apply link_nil.
  - intros a Ha b Hb e' v v' lab lab' K Sh G. destruct e'; try discriminate Sh. inj Sh.
    destruct (Ha _ v v' lab lab' K H0 G) as (K1 & L1). destruct (Hb _ v v' lab lab' K1 H (good_le _ _ _ _ G (link_le _ _ _ _ _ _ _ _ _ _ _ L1))) as (K2 & L2).
    exists K2. exact (link_app _ _ _ _ _ _ _ _ _ _ _ _ _ _ _ _ _ L1 L2).
  - intros e' v v' lab lab' K Sh G. destruct e'; try discriminate Sh. exists K. apply link_nil.
  - intros a Ha b Hb sep i Hi e' v v' lab lab' K Sh G. destruct e'; try discriminate Sh. inj Sh.
    destruct (Ha _ v v' lab lab' K H2 G) as (K1 & L1). pose proof (good_le _ _ _ _ G (link_le _ _ _ _ _ _ _ _ _ _ _ L1)) as G1.
    destruct (Hb _ v v' lab lab' K1 H1 G1) as (K2 & L2). pose proof (good_le _ _ _ _ G1 (link_le _ _ _ _ _ _ _ _ _ _ _ L2)) as G2.
    destruct (Hi _ v v' lab lab' K2 H G2) as (K3 & L3).
    exists K3. exact (link_app _ _ _ _ _ _ _ _ _ _ _ _ _ _ _ _ _ L1 (link_app _ _ _ _ _ _ _ _ _ _ _ _ _ _ _ _ _ L2 L3)).
  - intros key b Hb sep i Hi e' v v' lab lab' K Sh G. destruct e'; try discriminate Sh. inj Sh.
    destruct (Hb _ v v' lab lab' K H1 G) as (K2 & L2). pose proof (good_le _ _ _ _ G (link_le _ _ _ _ _ _ _ _ _ _ _ L2)) as G2.
    destruct (Hi _ v v' lab lab' K2 H G2) as (K3 & L3).
    exists K3. exact (link_app _ _ _ _ _ _ _ _ _ _ _ _ _ _ _ _ _ (link_member _ _ _ _ _ _ _) (link_app _ _ _ _ _ _ _ _ _ _ _ _ _ _ _ _ _ L2 L3)).
  - intros b Hb sep i Hi e' v v' lab lab' K Sh G. destruct e'; try discriminate Sh. inj Sh.
    destruct (Hb _ v v' lab lab' K H1 G) as (K2 & L2). pose proof (good_le _ _ _ _ G (link_le _ _ _ _ _ _ _ _ _ _ _ L2)) as G2.
    destruct (Hi _ v v' lab lab' K2 H G2) as (K3 & L3).
    exists K3. exact (link_app _ _ _ _ _ _ _ _ _ _ _ _ _ _ _ _ _ L2 L3).
  - (* SSemi *) intros s' v v' lab lab' K Sh G Gl. destruct s'; try discriminate Sh. exists K, v, v'. split; [apply link_nil|]. now split.
  - intros b Hb s' v v' lab lab' K Sh G Gl. destruct s'; try discriminate Sh. inj Sh.
    destruct (link_block _ _ _ _ _ _ _ Hb H G Gl) as (K1 & L). exists K1, v, v'. split; [exact L|]. split; [reflexivity|].
    eapply good_le; [exact G|exact (link_le _ _ _ _ _ _ _ _ _ _ _ L)].
  - intros i Hi s' v v' lab lab' K Sh G Gl. destruct s'; try discriminate Sh. inj Sh.
    destruct (Hi _ _ _ _ _ _ H G Gl) as (K1 & L). exists K1, v, v'. split; [exact L|]. split; [reflexivity|].
    eapply good_le; [exact G|exact (link_le _ _ _ _ _ _ _ _ _ _ _ L)].
  - intros c Hc b Hb s' v v' lab lab' K Sh G Gl. destruct s'; try discriminate Sh. inj Sh.
    destruct (Hc _ v v' lab lab' K H0 G) as (K1 & L1). pose proof (link_le _ _ _ _ _ _ _ _ _ _ _ L1) as Le.
    destruct (link_block _ _ _ _ _ _ _ Hb H (good_le _ _ _ _ G Le) (lgood_le _ _ _ _ Gl Le)) as (K2 & L2).
    pose proof (link_app _ _ _ _ _ _ _ _ _ _ _ _ _ _ _ _ _ L1 L2) as L. exists K2, v, v'. split; [exact L|]. split; [reflexivity|].
    eapply good_le; [exact G|exact (link_le _ _ _ _ _ _ _ _ _ _ _ L)].
  - intros ne c Hc b Hb s' v v' lab lab' K Sh G Gl. destruct s'; try discriminate Sh. inj Sh.
    destruct (Hc _ v v' lab lab' K H0 G) as (K1 & L1). pose proof (link_le _ _ _ _ _ _ _ _ _ _ _ L1) as Le.
    destruct (link_block _ _ _ _ _ _ _ Hb H (good_le _ _ _ _ G Le) (lgood_le _ _ _ _ Gl Le)) as (K2 & L2).
    pose proof (link_app _ _ _ _ _ _ _ _ _ _ _ _ _ _ _ _ _ L1 L2) as L. exists K2, v, v'. split; [exact L|]. split; [reflexivity|].
    eapply good_le; [exact G|exact (link_le _ _ _ _ _ _ _ _ _ _ _ L)].
  - (* SRepeat *) intros b Hb c Hc s' v v' lab lab' K Sh G Gl. destruct s'; try discriminate Sh. inj Sh.
    destruct (link_inner _ _ _ _ _ _ _ Hb H0 G Gl) as (K1 & v2 & v2' & (o & o' & E & E' & _ & Q) & Z & G2 & Le).
    destruct (Hc _ v2 v2' (declare (snd K) (block_labels (names_blk b)) ++ lab) (declare (snd K) (block_labels (names_blk b0)) ++ lab') K1 H G2) as (K2 & (p & p' & F & F' & Le2 & Q2)).
    pose proof (le2_trans _ _ _ Le Le2) as Le3. exists K2, v, v'. split; [|split; [reflexivity|eapply good_le; [exact G|exact Le3]]].
    cbn [names_st]; apply (link_one _ _ _ _ _ _ _ _ _ _ _ (o ++ p) (o' ++ p')); [rewrite occs_eq; cbv zeta; rewrite E, F; reflexivity|rewrite occs_eq; cbv zeta; rewrite E', F'; reflexivity|exact Le3|].
    intros rest rest' X. rewrite <- !app_assoc in X. apply Q in X. destruct X as (A & X). apply Q2 in X. destruct X as (B & X). rewrite Z in B.
    split; [|exact X]. split; [exact A|exact B].
  - (* SFor *) intros x a Ha z Hz step Hst b Hb s' v v' lab lab' K Sh G Gl. destruct s'; try discriminate Sh. inj Sh.
    assert (Le0 : le2 K (S (fst K), snd K)) by (split; cbn; lia). pose proof (good_le _ _ _ _ G Le0) as G0.
    destruct (Ha _ v v' lab lab' _ H2 G0) as (K1 & L1). pose proof (good_le _ _ _ _ G0 (link_le _ _ _ _ _ _ _ _ _ _ _ L1)) as G1.
    destruct (Hz _ v v' lab lab' _ H1 G1) as (K2 & L2). pose proof (good_le _ _ _ _ G1 (link_le _ _ _ _ _ _ _ _ _ _ _ L2)) as G2.
    destruct (Hst _ v v' lab lab' _ H0 G2) as (K3 & L3).
    pose proof (link_app _ _ _ _ _ _ _ _ _ _ _ _ _ _ _ _ _ L1 (link_app _ _ _ _ _ _ _ _ _ _ _ _ _ _ _ _ _ L2 L3)) as (o & o' & E & E' & Le & Q).
    pose proof (le2_trans _ _ _ Le0 Le) as Le1.
    pose proof (good_more _ _ _ _ [x] [x0] G eq_refl eq_refl) as Gx. pose proof (good_le _ _ _ _ Gx Le) as Gx3.
    destruct (link_inner _ _ _ _ _ _ _ Hb H Gx3 (lgood_le _ _ _ _ Gl Le1)) as (K4 & v2 & v2' & (p & p' & F & F' & _ & Q2) & _ & _ & Le4).
    pose proof (le2_trans _ _ _ Le1 Le4) as Le5. exists K4, v, v'. split; [|split; [reflexivity|eapply good_le; [exact G|exact Le5]]].
    rewrite zip_more in Q2 by reflexivity. rewrite <- !app_assoc in F, F'.
    cbn [names_st]; apply (link_one _ _ _ _ _ _ _ _ _ _ _ (declared (fst K) [x] ++ o ++ p) (declared (fst K) [x0] ++ o' ++ p')); [rewrite occs_eq, E, F; reflexivity|rewrite occs_eq, E', F'; reflexivity|exact Le5|].
    intros rest rest' X. rewrite <- !app_assoc in X. apply declared_ok in X; [|pose proof (good_pos _ _ _ G); lia|reflexivity]. destruct X as (A & X).
    apply Q in X. destruct X as ((B & C & D) & X). apply Q2 in X. destruct X as (Y & X). split; [|exact X]. split; [exact B|]. split; [exact C|]. split; [exact D|]. split; [exact A|exact Y].
  - (* SForIn *) intros xs es Hes b Hb s' v v' lab lab' K Sh G Gl. destruct s'; try discriminate Sh. inj Sh.
    assert (Le0 : le2 K (S (fst K), snd K)) by (split; cbn; lia). pose proof (good_le _ _ _ _ G Le0) as G0. pose proof (map_len _ _ _ H1) as Lx.
    destruct (Hes _ v v' lab lab' _ H0 G0) as (K3 & (o & o' & E & E' & Le & Q)).
    pose proof (le2_trans _ _ _ Le0 Le) as Le1.
    pose proof (good_more _ _ _ _ xs xs0 G eq_refl Lx) as Gx. pose proof (good_le _ _ _ _ Gx Le) as Gx3.
    destruct (link_inner _ _ _ _ _ _ _ Hb H Gx3 (lgood_le _ _ _ _ Gl Le1)) as (K4 & v2 & v2' & (p & p' & F & F' & _ & Q2) & _ & _ & Le4).
    pose proof (le2_trans _ _ _ Le1 Le4) as Le5. exists K4, v, v'. split; [|split; [reflexivity|eapply good_le; [exact G|exact Le5]]].
    rewrite zip_more in Q2 by exact Lx. rewrite <- !app_assoc in F, F'.
    cbn [names_st]; apply (link_one _ _ _ _ _ _ _ _ _ _ _ (declared (fst K) xs ++ o ++ p) (declared (fst K) xs0 ++ o' ++ p')); [rewrite occs_eq, E, F; reflexivity|rewrite occs_eq, E', F'; reflexivity|exact Le5|].
    intros rest rest' X. rewrite <- !app_assoc in X. apply declared_ok in X; [|pose proof (good_pos _ _ _ G); lia|exact Lx]. destruct X as (A & X).
    apply Q in X. destruct X as (B & X). apply Q2 in X. destruct X as (Y & X). split; [|exact X]. split; [exact B|]. split; [exact A|exact Y].
  - intros s' v v' lab lab' K Sh G Gl. destruct s'; try discriminate Sh. exists K, v, v'. split; [apply link_nil|]. now split.
  - intros es Hes s' v v' lab lab' K Sh G Gl. destruct s'; try discriminate Sh. inj Sh.
    destruct (Hes _ v v' lab lab' K H G) as (K1 & L). exists K1, v, v'. split; [exact L|]. split; [reflexivity|].
    eapply good_le; [exact G|exact (link_le _ _ _ _ _ _ _ _ _ _ _ L)].
  - (* SLocal *) intros xs es Hes s' v v' lab lab' K Sh G Gl. destruct s'; try discriminate Sh. inj Sh.
    assert (Le0 : le2 K (S (fst K), snd K)) by (split; cbn; lia). pose proof (good_le _ _ _ _ G Le0) as G0.
    assert (Lx : length (map fst xs) = length (map fst xs0)) by (rewrite !map_length; eapply map_len; exact H0).
    assert (As : map snd xs = map snd xs0) by (apply (f_equal (map snd)) in H0; rewrite !map_map in H0; now symmetry).
    destruct (Hes _ v v' lab lab' _ H G0) as (K3 & (o & o' & E & E' & Le & Q)).
    exists K3, (rev (declare (fst K) (map fst xs)) ++ v), (rev (declare (fst K) (map fst xs0)) ++ v'). split; [|split; [now apply zip_more|]].
    + cbn [names_st]; apply (link_one _ _ _ _ _ _ _ _ _ _ _ (declared (fst K) (map fst xs) ++ o) (declared (fst K) (map fst xs0) ++ o')); [rewrite occs_eq, E, app_assoc; reflexivity|rewrite occs_eq, E', app_assoc; reflexivity|exact (le2_trans _ _ _ Le0 Le)|].
      intros rest rest' X. rewrite <- !app_assoc in X. apply declared_ok in X; [|pose proof (good_pos _ _ _ G); lia|exact Lx]. destruct X as (A & X).
      apply Q in X. destruct X as (B & X). split; [|exact X]. split; [exact B|]. split; [exact As|exact A].
    + eapply good_le; [exact (good_more _ _ _ _ _ _ G eq_refl Lx)|exact Le].
  - (* SLocalFun *) intros x ps b Hb s' v v' lab lab' K Sh G Gl. destruct s'; try discriminate Sh. inj Sh.
    destruct (params_shape _ _ H0) as (_ & Lp).
    pose proof (good_more _ _ _ _ [x] [x0] G eq_refl eq_refl) as G1. pose proof (good_more _ _ _ _ _ _ G1 eq_refl Lp) as G2.
    destruct (link_inner _ _ _ _ [] [] _ Hb H G2 (lgood_nil _)) as (K1 & v2 & v2' & (o & o' & E & E' & _ & Q) & _ & _ & Le).
    rewrite !app_nil_r in E, E'. rewrite zip_more in Q by exact Lp. rewrite zip_more in Q by reflexivity. rewrite <- !app_assoc in E, E'. cbn [fst snd] in E, E'.
    assert (Le1 : le2 K K1) by (unfold le2 in *; cbn in Le; lia).
    exists K1, (rev (declare (fst K) [x]) ++ v), (rev (declare (fst K) [x0]) ++ v'). split; [|split; [now apply zip_more|]].
    + cbn [names_st]; apply (link_one _ _ _ _ _ _ _ _ _ _ _ (declared (fst K) [x] ++ declared (S (fst K)) (params ps) ++ o) (declared (fst K) [x0] ++ declared (S (fst K)) (params ps0) ++ o'));
        [exact (f_equal (fun r => let '(o, k', _) := r in (declared (fst K) [x] ++ declared (S (fst K)) (params ps) ++ o, k', rev (declare (fst K) [x]) ++ v ++ root)) E)|exact (f_equal (fun r => let '(o, k', _) := r in (declared (fst K) [x0] ++ declared (S (fst K)) (params ps0) ++ o, k', rev (declare (fst K) [x0]) ++ v' ++ root)) E')|exact Le1|].
      intros rest rest' X. rewrite <- !app_assoc in X. apply declared_ok in X; [|pose proof (good_pos _ _ _ G); lia|reflexivity]. destruct X as (A & X).
      apply declared_ok in X; [|lia|exact Lp]. destruct X as (B & X).
      apply Q in X. destruct X as (C & X). split; [|exact X]. split; [exact A|]. split; [now apply params_ok_of|]. rewrite app_nil_r in C. exact C.
    + eapply good_le; [exact G1|]. unfold le2 in *. cbn in *. lia.
  - (* SFun *) intros x path meth ps b Hb s' v v' lab lab' K Sh G Gl. destruct s'; try discriminate Sh. inj Sh.
    set (me := match meth with Some _ => true | None => false end).
    assert (Em : match meth0 with Some _ => true | None => false end = me) by (subst me; destruct meth, meth0; try discriminate H1; reflexivity).
    destruct (params_shape _ _ H0) as (Lp1 & Lp).
    assert (Lk : length (path ++ match meth with Some k => [k] | None => [] end) = length (path0 ++ match meth0 with Some k => [k] | None => [] end)).
    { rewrite !app_length. rewrite (map_len _ _ _ H2). destruct meth, meth0; try discriminate H1; reflexivity. }
    destruct (link_fun me _ _ _ _ v v' lab lab' K Hb H G Lp) as (K1 & L1).
    pose proof (link_app _ _ _ _ _ _ _ _ _ _ _ _ _ _ _ _ _ (link_name false x x0 v v' lab lab' K G) (link_app _ _ _ _ _ _ _ _ _ _ _ _ _ _ _ _ _ (link_members _ _ v v' lab lab' K Lk) L1)) as L.
    exists K1, v, v'. split; [|split; [reflexivity|eapply good_le; [exact G|exact (link_le _ _ _ _ _ _ _ _ _ _ _ L)]]].
    eapply link_weak; [|cbn [names_st]; rewrite Em; exact L]. intros (A & B & C & D).
    assert (Lf : Forall2 (Kk k) path path0 /\ match meth, meth0 with Some k1, Some k' => Kk k k1 k' | None, None => True | _, _ => False end).
    { destruct meth, meth0; try discriminate H1.
      - apply Forall2_app_inv_l in B. destruct B as (a1 & a2 & B1 & B2 & B3). inversion B2 as [|? ? ? ? B4 B5]; subst. inversion B5; subst. apply app_inj_tail in B3. destruct B3 as (-> & ->). now split.
      - rewrite !app_nil_r in B. now split. }
    destruct Lf as (Lf1 & Lf2). split; [exact A|]. split; [exact Lf1|]. split; [exact Lf2|]. subst me.
    destruct meth, meth0; try discriminate H1; (split; [split; [|exact C]|exact D]); cbn; [f_equal|]; exact Lp1.
  - intros l s' v v' lab lab' K Sh G Gl. destruct s'; try discriminate Sh. exists K, v, v'. split; [|now split]. eapply link_label; [exact Gl|now right].
  - intros l s' v v' lab lab' K Sh G Gl. destruct s'; try discriminate Sh. exists K, v, v'. split; [|now split]. eapply link_label; [exact Gl|now left].
  - intros a Ha b Hb s' v v' lab lab' K Sh G Gl. destruct s'; try discriminate Sh. inj Sh.
    destruct (Ha _ v v' lab lab' K H0 G) as (K1 & L1). destruct (Hb _ v v' lab lab' K1 H (good_le _ _ _ _ G (link_le _ _ _ _ _ _ _ _ _ _ _ L1))) as (K2 & L2).
    pose proof (link_app _ _ _ _ _ _ _ _ _ _ _ _ _ _ _ _ _ L1 L2) as L. exists K2, v, v'. split; [exact L|]. split; [reflexivity|].
    eapply good_le; [exact G|exact (link_le _ _ _ _ _ _ _ _ _ _ _ L)].
  - intros a Ha op b Hb s' v v' lab lab' K Sh G Gl. destruct s'; try discriminate Sh. inj Sh.
    destruct (Ha _ v v' lab lab' K H1 G) as (K1 & L1). destruct (Hb _ v v' lab lab' K1 H (good_le _ _ _ _ G (link_le _ _ _ _ _ _ _ _ _ _ _ L1))) as (K2 & L2).
    pose proof (link_app _ _ _ _ _ _ _ _ _ _ _ _ _ _ _ _ _ L1 L2) as L. exists K2, v, v'. split; [|split; [reflexivity|eapply good_le; [exact G|exact (link_le _ _ _ _ _ _ _ _ _ _ _ L)]]].
    eapply link_weak; [|exact L]. intros (A & B). split; [exact A|]. split; [now symmetry|exact B].
  - intros es Hes s' v v' lab lab' K Sh G Gl. destruct s'; try discriminate Sh. inj Sh.
    destruct (Hes _ v v' lab lab' K H G) as (K1 & L1). pose proof (link_app _ _ _ _ _ _ _ _ _ _ _ _ _ _ _ _ _ (link_print v v' lab lab' K G) L1) as L.
    exists K1, v, v'. split; [exact L|]. split; [reflexivity|]. eapply good_le; [exact G|exact (link_le _ _ _ _ _ _ _ _ _ _ _ L)].
  - intros es Hes s' v v' lab lab' K Sh G Gl. destruct s'; try discriminate Sh. inj Sh.
    destruct (Hes _ v v' lab lab' K H G) as (K1 & L). exists K1, v, v'. split; [exact L|]. split; [reflexivity|].
    eapply good_le; [exact G|exact (link_le _ _ _ _ _ _ _ _ _ _ _ L)].
  - (* BNil *) intros b' v v' lab lab' K Sh G Gl. destruct b'; try discriminate Sh. exists K, v, v'. split; [apply link_nil|]. now split.
  - intros s Hs b Hb b' v v' lab lab' K Sh G Gl. destruct b'; try discriminate Sh. inj Sh.
    destruct (Hs _ v v' lab lab' K H0 G Gl) as (K1 & v2 & v2' & L1 & Z1 & G1).
    destruct (Hb _ v2 v2' lab lab' K1 H G1 (lgood_le _ _ _ _ Gl (link_le _ _ _ _ _ _ _ _ _ _ _ L1))) as (K2 & v3 & v3' & L2 & Z2 & G2).
    rewrite Z1 in *. exists K2, v3, v3'. split; [exact (link_app _ _ _ _ _ _ _ _ _ _ _ _ _ _ _ _ _ L1 L2)|]. split; [exact Z2|exact G2].
  - intros w c Hc b Hb e He i' v v' lab lab' K Sh G Gl. destruct i'; try discriminate Sh. inj Sh.
    destruct (Hc _ v v' lab lab' K H1 G) as (K1 & L1). pose proof (link_le _ _ _ _ _ _ _ _ _ _ _ L1) as Le.
    destruct (link_block _ _ _ _ _ _ _ Hb H0 (good_le _ _ _ _ G Le) (lgood_le _ _ _ _ Gl Le)) as (K2 & L2). pose proof (le2_trans _ _ _ Le (link_le _ _ _ _ _ _ _ _ _ _ _ L2)) as Le2.
    destruct (He _ _ _ _ _ _ H (good_le _ _ _ _ G Le2) (lgood_le _ _ _ _ Gl Le2)) as (K3 & L3).
    exists K3. exact (link_app _ _ _ _ _ _ _ _ _ _ _ _ _ _ _ _ _ L1 (link_app _ _ _ _ _ _ _ _ _ _ _ _ _ _ _ _ _ L2 L3)).
  - intros w c Hc b Hb e He i' v v' lab lab' K Sh G Gl. destruct i'; try discriminate Sh. inj Sh.
    destruct (Hc _ v v' lab lab' K H1 G) as (K1 & L1). pose proof (link_le _ _ _ _ _ _ _ _ _ _ _ L1) as Le.
    destruct (link_block _ _ _ _ _ _ _ Hb H0 (good_le _ _ _ _ G Le) (lgood_le _ _ _ _ Gl Le)) as (K2 & L2). pose proof (le2_trans _ _ _ Le (link_le _ _ _ _ _ _ _ _ _ _ _ L2)) as Le2.
    destruct (He _ _ _ _ _ _ H (good_le _ _ _ _ G Le2) (lgood_le _ _ _ _ Gl Le2)) as (K3 & L3).
    exists K3. exact (link_app _ _ _ _ _ _ _ _ _ _ _ _ _ _ _ _ _ L1 (link_app _ _ _ _ _ _ _ _ _ _ _ _ _ _ _ _ _ L2 L3)).
  - intros e' v v' lab lab' K Sh G Gl. destruct e'; try discriminate Sh. exists K. apply link_nil.
  - intros b Hb e' v v' lab lab' K Sh G Gl. destruct e'; try discriminate Sh. inj Sh. exact (link_block _ _ _ _ _ _ _ Hb H G Gl).
  - intros i Hi e' v v' lab lab' K Sh G Gl. destruct e'; try discriminate Sh. inj Sh. exact (Hi _ _ _ _ _ _ H G Gl).
Qed.
End Link.
