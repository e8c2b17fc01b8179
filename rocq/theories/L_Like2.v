(** Lemmas: the trees before and after renaming differ in names only. *)
From Coq Require Import String List ZArith Bool Lia.
From Verif Require Import M_Base L_Util M_Fold M_Token M_Expr S_Expr M_Stmt S_Stmt L_Stmt M_Rename S_Rename M_Names L_Rename L_Scope L_Rewalk L_RenameTop L_Link2 L_Like P_Rename.
Import ListNotations.
Local Open Scope list_scope.

(** the names written, in order *)
Fixpoint flat (t : syn) : list name :=
  match t with
  | YName _ n | YMember _ _ n | YLabel n | YGoto n => [n]
  | YPrint => []
  | YLocal ns es => ns ++ flat_map flat es
  | YLocalFun f ps b => f :: ps ++ flat_map flat b
  | YFun _ ps b => ps ++ flat_map flat b
  | YFor ns es b => ns ++ flat_map flat es ++ flat_map flat b
  | YBlock b => flat_map flat b
  | YRepeat b c => flat_map flat b ++ flat_map flat c
  end.
Notation flats := (flat_map flat).
Lemma flats_bare_list l : Forall (fun t => flat (bare t) = flat t) l -> flats (map bare l) = flats l.
Proof. induction 1 as [|t l E F IH]; [reflexivity|]. cbn [map flat_map]. now rewrite E, IH. Qed.
Lemma flat_bare t : flat (bare t) = flat t.
Proof.
  induction t as [z n|z tb n| |ns es He|fn ps b Hb|m ps b Hb|ns es b He Hb|b Hb|b c Hb Hc|n|n] using syn_ind'; cbn [bare flat]; try reflexivity;
    repeat match goal with H : Forall _ _ |- _ => rewrite (flats_bare_list _ H); clear H end; reflexivity.
Qed.
Lemma flats_bare l : flats (map bare l) = flats l.
Proof. apply flats_bare_list. apply Forall_forall. intros. apply flat_bare. Qed.
Lemma flats_members l : flats (map member l) = l.
Proof. induction l as [|x l IH]; [reflexivity|]. cbn. now rewrite IH. Qed.

Section Flat.
Context (P : list Z -> list Z -> Prop).
Lemma cons2 x x' (l l' : list (list Z)) : Forall2 P (x :: l) (x' :: l') -> P x x' /\ Forall2 P l l'.
Proof. intros F. inversion F. auto. Qed.
Lemma names_flat xs : forall xs' r r', map (fun _ : list Z => @nil Z) xs' = map (fun _ => []) xs -> Forall2 P (xs ++ r) (xs' ++ r') -> Forall2 P xs xs' /\ Forall2 P r r'.
Proof.
  induction xs as [|x xs IH]; intros [|x' xs'] r r' E F; try discriminate E; [split; [constructor|exact F]|]. injection E as E. apply cons2 in F. destruct F as (H & F). destruct (IH _ _ _ E F). auto.
Qed.
Lemma params_flat ps : forall ps' r r', map (option_map (fun _ : list Z => @nil Z)) ps' = map (option_map (fun _ => [])) ps -> Forall2 P (params ps ++ r) (params ps' ++ r') ->
  Forall2 (like_opt P) ps ps' /\ Forall2 P r r'.
Proof.
  induction ps as [|p ps IH]; intros [|p' ps'] r r' E F; try discriminate E; [split; [constructor|exact F]|]. injection E as E1 E. destruct p, p'; try discriminate E1; cbn in F.
  - apply cons2 in F. destruct F as (H & F). destruct (IH _ _ _ E F). split; [constructor; auto|auto].
  - destruct (IH _ _ _ E F). split; [constructor; cbn; auto|auto].
Qed.
Lemma vars_flat xs : forall xs' r r', map (fun x : list Z * option (list Z) => (@nil Z, snd x)) xs' = map (fun x => ([], snd x)) xs -> Forall2 P (map fst xs ++ r) (map fst xs' ++ r') ->
  Forall2 (like_var P) xs xs' /\ Forall2 P r r'.
Proof.
  induction xs as [|x xs IH]; intros [|x' xs'] r r' E F; try discriminate E; [split; [constructor|exact F]|]. cbn [map] in E. injection E as E1 E. cbn [map app] in F. apply cons2 in F. destruct F as (H & F). destruct (IH _ _ _ E F). split; [constructor; [split; auto|auto]|auto].
Qed.
Lemma tree_flat :
  (forall e e' r r', shape_ex e' = shape_ex e -> Forall2 P (flats (names_ex e) ++ r) (flats (names_ex e') ++ r') -> like_ex P e e' /\ Forall2 P r r') /\
  (forall e e' r r', shape_exs e' = shape_exs e -> Forall2 P (flats (names_exs e) ++ r) (flats (names_exs e') ++ r') -> like_exs P e e' /\ Forall2 P r r') /\
  (forall e e' r r', shape_its e' = shape_its e -> Forall2 P (flats (names_its e) ++ r) (flats (names_its e') ++ r') -> like_its P e e' /\ Forall2 P r r') /\
  (forall e e' r r', shape_st e' = shape_st e -> Forall2 P (flats (names_st e) ++ r) (flats (names_st e') ++ r') -> like_st P e e' /\ Forall2 P r r') /\
  (forall e e' r r', shape_blk e' = shape_blk e -> Forall2 P (flats (names_blk e) ++ r) (flats (names_blk e') ++ r') -> like_blk P e e' /\ Forall2 P r r') /\
  (forall e e' r r', shape_ifs e' = shape_ifs e -> Forall2 P (flats (names_ifs e) ++ r) (flats (names_ifs e') ++ r') -> like_ifs P e e' /\ Forall2 P r r') /\
  (forall e e' r r', shape_els e' = shape_els e -> Forall2 P (flats (names_els e) ++ r) (flats (names_els e') ++ r') -> like_els P e e' /\ Forall2 P r r').
Proof.
  apply prog_all; intros; match goal with S : _ ?e' = _ |- _ => destruct e'; try discriminate S; cbn [shape_ex shape_exs shape_its shape_st shape_blk shape_ifs shape_els] in S; first [injection S; intros; clear S|clear S] end; subst;
  cbn [names_ex names_exs names_its names_st names_blk names_ifs names_els flat_map flat app member] in *; rewrite ?flat_map_app, ?app_nil_r, <- ?app_assoc in *; cbn [flat_map flat app member] in *; rewrite ?app_nil_r, <- ?app_assoc in *; cbn [app] in *.
  all: repeat match goal with
    | F : Forall2 P (_ :: _) (_ :: _) |- _ => apply cons2 in F; destruct F
    | F : Forall2 P (params _ ++ _) (params _ ++ _) |- _ => apply params_flat in F; [destruct F|assumption]
    | F : Forall2 P (map fst _ ++ _) (map fst _ ++ _) |- _ => apply vars_flat in F; [destruct F|assumption]
    | F : Forall2 P (flats _ ++ _) (flats _ ++ _), IH : forall e' r r', _ |- _ => apply IH in F; [destruct F|assumption]
  end.
  all: try (cbn; repeat split; auto; fail).
  - apply names_flat in H2; [|assumption]. destruct H2 as (F1 & F2). apply H in F2; [|assumption]. destruct F2 as (F2 & F3). apply H0 in F3; [|assumption]. destruct F3. cbn. repeat split; auto.
  - rewrite !flats_members, <- !app_assoc in *.
    match goal with F : Forall2 P (path ++ _) _ |- _ => apply names_flat in F; [|assumption]; destruct F as (F1 & F2) end.
    assert (Q : like_opt P meth meth0 /\ Forall2 P (params ps ++ flats (names_blk b) ++ r) (params ps0 ++ flats (names_blk b0) ++ r')) by (destruct meth, meth0; try discriminate; cbn [app] in F2; [apply cons2 in F2|]; cbn; auto).
    destruct Q as (Q1 & Q2). apply params_flat in Q2; [|assumption]. destruct Q2 as (Q2 & Q3). apply H in Q3; [|assumption]. destruct Q3. cbn. repeat split; auto.
Qed.
End Flat.

(** * What the renamer writes *)
Section Walk.
Context (f : node -> name) (Q : name -> name -> Prop).
Definition all_named (ns : list node) : Prop := forall nd, In nd ns -> Q (n_name nd) (f nd).
Lemma all_app a b : all_named (a ++ b) -> all_named a /\ all_named b.
Proof. intros H. split; intros nd I; apply H; apply in_or_app; auto. Qed.
Lemma all_new id up : forall ns i im, all_named (new_nodes id i up im ns) -> Forall2 Q ns (written f (new_nodes id i up im ns)).
Proof.
  induction ns as [|n ns IH]; intros i im H; [constructor|]. cbn [new_nodes written map] in *. constructor; [exact (H _ (or_introl eq_refl))|]. apply IH. intros nd I. apply H. now right.
Qed.
Definition spelt (t : syn) : Prop := forall sc ls k t' ns k' sc', walk f sc ls k t = (t', ns, k', sc') -> all_named ns -> Forall2 Q (flat t) (flat t').
Lemma spelt_list l : Forall spelt l -> forall sc ls k l' ns k' sc', walks f sc ls k l = (l', ns, k', sc') -> all_named ns -> Forall2 Q (flats l) (flats l').
Proof.
  intros F. induction F as [|t l Ht F IH]; intros sc ls k l' ns k' sc' E A.
  - cbn in E. injection E as <- <- <- <-. constructor.
  - rewrite walks_cons in E. destruct (walk f sc ls k t) as (((a1, b1), c1), d1) eqn:W1.
    destruct (walks f d1 ls c1 l) as (((u1, v1), x1), y1) eqn:X1. injection E as <- <- <- <-. cbn [flat_map]. apply all_app in A. destruct A as (A1 & A2).
    apply Forall2_app; [exact (Ht _ _ _ _ _ _ _ W1 A1)|exact (IH _ _ _ _ _ _ _ X1 A2)].
Qed.
Lemma spelt_all t : spelt t.
Proof.
  induction t as [z n|z tb n| |ns es He|fn ps b Hb|m ps b Hb|ns es b He Hb|b Hb|b c Hb Hc|n|n] using syn_ind'; intros sc ls k t' nds k' sc' E A;
    rewrite walk_eq in E; cbv zeta in E; unfold walk_block in E; cbn [fst snd] in E;
    repeat match type of E with context [walks f ?a ?b ?c ?d] => let X := fresh "X" in destruct (walks f a b c d) as (((? & ?) & ?) & ?) eqn:X end;
    injection E as <- <- <- <-; cbn [flat];
    repeat match goal with A : all_named (_ ++ _) |- _ => apply all_app in A; destruct A | A : all_named (?d :: ?a :: ?b) |- _ => apply (all_app [d] (a :: b)) in A; destruct A | A : all_named (?d :: _ ++ _) |- _ => apply (all_app [d]) in A; destruct A end;
    repeat match goal with X : walks _ _ _ _ _ = _ |- _ => eapply spelt_list in X; [|eassumption|eassumption] end;
    repeat apply Forall2_app; try assumption; try (apply all_new; assumption); try (constructor; [exact (A _ (or_introl eq_refl))|constructor; fail]); try (constructor; fail).
  - constructor; [|constructor]. unfold var_nodes in *. destruct (scope_find sc n); cbn [written map hd]; exact (A _ (or_introl eq_refl)).
  - constructor; [match goal with H : all_named [_] |- _ => exact (H _ (or_introl eq_refl)) end|]. apply Forall2_app; [apply all_new; assumption|assumption].
  - destruct m; [|apply all_new; assumption]. match goal with H : all_named (new_nodes _ 0 _ _ (self_name :: ps)) |- _ => apply all_new in H; inversion H; subst; assumption end.
Qed.
End Walk.

(** Each name of the renamed program is what the name at its place became. *)
Definition turns (o : opts) (prog prog' : list syn) (x y : name) : Prop :=
  exists a c, becomes (o_locals o) prog prog' a c /\ name_of a = x /\ name_of c = y.
Lemma name_of_node nd : name_of (occ_of nd) = n_name nd.
Proof. unfold occ_of. now destruct (n_kind nd). Qed.
Lemma renamed_flat o rs fuel prog prog' : run_opts o rs -> rename_tokens o fuel prog = Ok prog' -> Forall2 (turns o prog prog') (flats prog) (flats prog').
Proof.
  intros Ho E. apply run_opts_ok in Ho. apply rename_inv in E. destruct E as (L & rn & E & Ep). set (F := new_name o (parse (o_locals o) prog) rn) in *.
  assert (B : forall nd, In nd (parse (o_locals o) prog) -> turns o prog prog' (n_name nd) (F nd)).
  { intros nd I. exists (occ_of nd), (occ_of (ren_node (newF o (parse (o_locals o) prog) rn) nd)). rewrite !name_of_node. split; [|split; reflexivity].
    unfold becomes. rewrite !parse_occurrences, Ep. unfold F. rewrite (rename_parse o prog fuel rn Ho L E), map_map.
    revert I. generalize (newF o (parse (o_locals o) prog) rn). intros G. generalize (parse (o_locals o) prog). intros l. induction l as [|d l IH]; [intros []|]. intros [->|I]; [now left|right; auto]. }
  assert (N : snd (walk_root F (o_locals o) prog) = parse (o_locals o) prog) by apply root_indep.
  revert Ep B N. generalize (parse (o_locals o) prog) as nodes. intros nodes -> B N. unfold walk_root in *.
  match type of N with context [walks F ?a ?b ?c ?d] => destruct (walks F a b c d) as (((u1, v1), x1), y1) eqn:X1 end. cbn [fst snd] in *. subst.
  eapply (spelt_list F); [|exact X1|exact B]. apply Forall_forall. intros. apply spelt_all.
Qed.
