(** Lemmas on renaming as a whole: what the renamed program means, and that
    renaming ends. *)
From Verif Require Import M_Base L_Util M_Rename S_Rename L_Ident L_Scope L_Rewalk L_Rename.
From Coq Require Import String List Permutation.
Import ListNotations.
Open Scope nat_scope.

(** the options a run of the program has: an alphabet, and local builtins that
    are builtins and preserved *)
Definition opts_ok (o : opts) : Prop :=
  NoDup (o_chars o) /\ (exists c, In c (o_chars o) /\ isdigit c = false) /\
  forall n, In n (o_locals o) -> In n (o_builtins o) /\ ie_contains (r_globals (o_rules o)) n = true.

Definition root_items (o : opts) : list (name * var) := f_items (new_frame 0 (env_name :: o_locals o)).

Lemma places_In id ns : forall i n v, In (n, v) (places id i ns) ->
  In n ns /\ exists j, v = (id, j) /\ i <= j.
Proof.
  induction ns as [|m ns IH]; intros i n v I; [easy|]. cbn [places] in I. destruct I as [[= <- <-]|I].
  - split; [now left|]. exists i. split; [easy|lia].
  - destruct (IH (S i) n v I) as (J & j & E & L). split; [now right|]. exists j. split; [easy|lia].
Qed.

Lemma root_items_ok o : opts_ok o -> forall n w, In (n, w) (root_items o) -> fst w = 0 /\
  (n = env_name \/ (In n (o_builtins o) /\ builtin_local w = true /\
     ie_contains (r_globals (o_rules o)) n = true)).
Proof.
  intros (_ & _ & Lo) n w I. unfold root_items in I. cbn [new_frame f_items] in I. apply in_rev in I.
  cbn [places] in I. destruct I as [[= <- <-]|I]; [split; [easy|now left]|].
  apply places_In in I. destruct I as (J & j & -> & L). split; [easy|]. right.
  destruct (Lo n J). split; [easy|]. split; [|easy]. unfold builtin_local. cbn [fst snd].
  destruct j; [lia|easy].
Qed.

Lemma rename_inv o fuel prog prog' : rename_tokens o fuel prog = Ok prog' ->
  let nodes := parse (o_locals o) prog in
  (forall nd, In nd nodes -> n_kind nd <> KLabel None) /\
  exists rn, assign o nodes fuel [] (todo0 o nodes) [] = Ok rn /\
    prog' = fst (walk_root (new_name o nodes rn) (o_locals o) prog).
Proof.
  intros E nodes. unfold rename_tokens in E. cbn zeta in E. fold nodes in E.
  destruct (labels_ok nodes) eqn:L; cbn [check_ bind] in E; [|discriminate E].
  split.
  - intros nd I K. unfold labels_ok in L. rewrite forallb_forall in L. specialize (L nd I).
    rewrite K in L. discriminate L.
  - destruct (assign o nodes fuel [] (todo0 o nodes) []) as [rn|e]; [|discriminate E].
    injection E as <-. now exists rn.
Qed.

(** the renamed program has the same nodes, renamed *)
Lemma rename_parse o prog fuel rn :
  let nodes := parse (o_locals o) prog in
  opts_ok o -> (forall nd, In nd nodes -> n_kind nd <> KLabel None) ->
  assign o nodes fuel [] (todo0 o nodes) [] = Ok rn ->
  parse (o_locals o) (fst (walk_root (new_name o nodes rn) (o_locals o) prog)) =
  map (ren_node (newF o nodes rn)) nodes.
Proof.
  intros nodes Ho L E. pose proof (root_items_ok o Ho) as R. destruct Ho as (Nc & Xc & Lo).
  pose proof (fact1 o nodes Nc Xc fuel rn E (root_items o) R) as F1.
  pose proof (fact2 o nodes Nc Xc fuel rn E (root_items o) R) as F2.
  pose proof (fact3 o nodes Nc Xc fuel rn E) as F3.
  pose proof (fact_imp o nodes rn) as Fi.
  change (new_name o nodes rn) with (fname (newF o nodes rn)).
  assert (Nd : snd (walk_root (fname (newF o nodes rn)) (o_locals o) prog) = nodes)
    by (apply root_indep).
  unfold walk_root in *. unfold parse at 1, walk_root.
  destruct (walks (fname (newF o nodes rn)) [new_frame 0 (env_name :: o_locals o)]
              [(0, block_labels prog)] (1, 1) prog) as (((l', ns), k'), sc') eqn:W.
  cbn [fst snd] in *. subst ns.
  assert (Wb : walk_block (fname (newF o nodes rn)) [new_frame 0 (env_name :: o_locals o)] [] (1, 0) prog
               = (l', nodes, k', sc')) by exact W.
  destruct (rewalk_block (newF o nodes rn) nodes (root_items o) F1 F2 F3 prog
    ltac:(apply Forall_forall; intros; now apply (rewalks_all _ nodes (root_items o)))
    _ _ _ _ _ _ _ Wb (incl_refl _)) as (Q & _).
  - split; [|split; [|split; [|split]]].
    + cbn. constructor; [easy|constructor].
    + cbn [chain map new_frame f_id]. constructor; [cbn; lia|constructor].
    + intros fr n v [<-|[]] J. destruct (R n v J) as (Z & _). split; [easy|].
      split; [left; exact J|]. intros _. exact J.
    + reflexivity.
    + assert (I : In (env_name, (0, 0)) (root_items o)).
      { unfold root_items. cbn [new_frame f_items places]. apply -> in_rev. now left. }
      cbn [scope_find]. fold (root_items o). change (f_items _) with (root_items o).
      revert I. generalize (root_items o). intros d. induction d as [|(m, w) d IH]; [easy|].
      cbn [dict_get]. intros [[= -> ->]|I]; [rewrite zeqb_list_refl; eauto|].
      destruct (zeqb_list env_name m); eauto.
  - apply labs_ok_nil.
  - assert (Rs : ren_scope (newF o nodes rn) [new_frame 0 (env_name :: o_locals o)] =
                 [new_frame 0 (env_name :: o_locals o)]).
    { unfold ren_scope. cbn [map]. f_equal. unfold ren_frame.
      change (new_frame 0 (env_name :: o_locals o)) with
        {| f_id := 0; f_items := root_items o |} at 3. f_equal.
      change (f_items _) with (root_items o).
      rewrite <- map_id. apply map_ext_in. intros (n, w) I. unfold ren_item. cbn [fst snd].
      rewrite (root_kept o nodes rn (root_items o) R n w I). easy. }
    rewrite Rs in Q. cbn [ren_labels map] in Q. unfold walk_block in Q. cbn [fst snd] in Q. now rewrite Q.
Qed.

(** * Names after a zero *)

Definition zeros (ns : list node) : list name := map n_name (filter n_zero ns).

Lemma zeros_app a b : zeros (a ++ b) = zeros a ++ zeros b.
Proof. unfold zeros. now rewrite filter_app, map_app. Qed.

Lemma zeros_new id up im ns : forall i, zeros (new_nodes id i up im ns) = [].
Proof. revert im. induction ns as [|n ns IH]; intros im i; [easy|]. cbn. apply IH. Qed.

Lemma zeros_var sc z im n : zeros (var_nodes sc z im n) = if z then [n] else [].
Proof.
  unfold var_nodes. destruct (scope_find sc n); [now destruct z|].
  destruct (scope_find sc env_name); now destruct z.
Qed.

Definition zero_walk (t : syn) : Prop := forall f sc ls k t' ns k' sc',
  walk f sc ls k t = (t', ns, k', sc') -> zeros ns = after_zero_names t.

Lemma zero_list l : Forall zero_walk l -> forall f sc ls k l' ns k' sc',
  walks f sc ls k l = (l', ns, k', sc') -> zeros ns = flat_map after_zero_names l.
Proof.
  intros Fa. induction Fa as [|t l Ht Fa IH]; intros f sc ls k l' ns k' sc' E.
  - cbn in E. now injection E as <- <- <- <-.
  - rewrite walks_cons in E.
    destruct (walk f sc ls k t) as (((t1, n1), k1), sc1) eqn:W.
    destruct (walks f sc1 ls k1 l) as (((l1, n2), k2), sc2) eqn:X.
    injection E as <- <- <- <-. rewrite zeros_app. cbn [flat_map].
    now rewrite (Ht _ _ _ _ _ _ _ _ W), (IH _ _ _ _ _ _ _ _ X).
Qed.

Lemma zero_all t : zero_walk t.
Proof.
  induction t as [z n|z tb n| |ns es He|fn ps b Hb|m ps b Hb|ns es b He Hb|b Hb|b c Hb Hc|n|n]
    using syn_ind'; intros f sc ls (ks, kb) t' nn k' sc' E;
    rewrite walk_eq in E; cbn zeta in E; cbn [fst snd] in E; unfold walk_block in E;
    repeat match type of E with context [walks f ?a ?b ?c ?d] =>
      let X := fresh "X" in destruct (walks f a b c d) as (((?, ?), (?, ?)), ?) eqn:X end;
    injection E as <- <- <- <-;
    repeat match goal with
      | Ha : Forall _ ?l, X : walks f _ _ _ ?l = _ |- _ =>
          apply (zero_list l Ha) in X end;
    cbn [after_zero_names];
    try match goal with |- zeros (?a :: ?l) = flat_map _ _ => change (zeros (a :: l)) with (zeros l) end;
    rewrite ?zeros_app, ?zeros_new, ?zeros_var; cbn [app]; try congruence; try easy.
  now destruct z.
Qed.

Lemma zero_parse builtins prog : zeros (parse builtins prog) = flat_map after_zero_names prog.
Proof.
  unfold parse, walk_root.
  match goal with |- context [walks ?f ?a ?b ?c ?d] =>
    destruct (walks f a b c d) as (((l', ns), k'), sc') eqn:W end.
  cbn [snd]. apply (zero_list prog) in W; [easy|]. apply Forall_forall. intros t _. apply zero_all.
Qed.

(** only variables and keys can come after a zero *)
Definition zero_kind (nd : node) : Prop := n_zero nd = true -> forall v, n_kind nd <> KLabel v.

Lemma zero_kind_new id up im ns : forall i nd, In nd (new_nodes id i up im ns) -> zero_kind nd.
Proof.
  revert im. induction ns as [|n ns IH]; intros im i nd; [easy|]. cbn [new_nodes]. intros [<-|I]; [easy|].
  now apply IH in I.
Qed.

Definition zero_kinds (t : syn) : Prop := forall f sc ls k t' ns k' sc',
  walk f sc ls k t = (t', ns, k', sc') -> forall nd, In nd ns -> zero_kind nd.

Lemma zero_kind_list l : Forall zero_kinds l -> forall f sc ls k l' ns k' sc',
  walks f sc ls k l = (l', ns, k', sc') -> forall nd, In nd ns -> zero_kind nd.
Proof.
  intros Fa. induction Fa as [|t l Ht Fa IH]; intros f sc ls k l' ns k' sc' E.
  - cbn in E. now injection E as <- <- <- <-.
  - rewrite walks_cons in E.
    destruct (walk f sc ls k t) as (((t1, n1), k1), sc1) eqn:W.
    destruct (walks f sc1 ls k1 l) as (((l1, n2), k2), sc2) eqn:X.
    injection E as <- <- <- <-. intros nd I. apply in_app_or in I. destruct I as [I|I].
    + exact (Ht _ _ _ _ _ _ _ _ W nd I).
    + exact (IH _ _ _ _ _ _ _ _ X nd I).
Qed.

Lemma zero_kind_var sc z im n nd : In nd (var_nodes sc z im n) -> zero_kind nd.
Proof.
  unfold var_nodes. intros I. destruct (scope_find sc n); [destruct I as [<-|[]]; easy|].
  destruct I as [<-|I]; [easy|]. destruct (scope_find sc env_name); [|easy].
  destruct I as [<-|[]]. easy.
Qed.

Lemma zero_kind_all t : zero_kinds t.
Proof.
  induction t as [z n|z tb n| |ns es He|fn ps b Hb|m ps b Hb|ns es b He Hb|b Hb|b c Hb Hc|n|n]
    using syn_ind'; intros f sc ls (ks, kb) t' nn k' sc' E;
    rewrite walk_eq in E; cbn zeta in E; cbn [fst snd] in E; unfold walk_block in E;
    repeat match type of E with context [walks f ?a ?b ?c ?d] =>
      let X := fresh "X" in destruct (walks f a b c d) as (((?, ?), (?, ?)), ?) eqn:X end;
    injection E as <- <- <- <-;
    repeat match goal with
      | Ha : Forall _ ?l, X : walks f _ _ _ ?l = _ |- _ =>
          let Y := fresh "Y" in pose proof (zero_kind_list l Ha _ _ _ _ _ _ _ _ X) as Y; clear X end;
    intros nd I; rewrite ?in_app_iff in I.
  all: try (now apply zero_kind_var in I).
  all: cbn [In] in I; rewrite ?in_app_iff in I;
    repeat match goal with
      | H : _ \/ _ |- _ => destruct H as [H|H] end;
    try (now apply zero_kind_new in I); try (now auto); try (subst nd; easy); easy.
Qed.

Lemma zero_not_label builtins prog : forall nd, In nd (parse builtins prog) -> n_zero nd = true ->
  forall v, n_kind nd <> KLabel v.
Proof.
  unfold parse, walk_root.
  match goal with |- context [walks ?f ?a ?b ?c ?d] =>
    destruct (walks f a b c d) as (((l', ns), k'), sc') eqn:W end.
  cbn [snd].
  refine (zero_kind_list prog _ _ _ _ _ _ _ _ _ W). apply Forall_forall. intros t _. apply zero_kind_all.
Qed.

(** * Renaming ends *)

Section Ends.
Context (o : opts) (nodes : list node).
Context (Nchars : NoDup (o_chars o))
  (Xchars : exists c, In c (o_chars o) /\ isdigit c = false /\ zmem c (str "bxBX") = false).

Lemma xchars : exists c, In c (o_chars o) /\ isdigit c = false.
Proof. destruct Xchars as (c & A & B & _). now exists c. Qed.

(** an identifier that is good for anything *)
Definition clean (i : name) : Prop :=
  mem i keywords = false /\ zmem (hd 0%Z i) (str "bxBX") = false /\ i <> env_name /\
  excluded_for o nodes i = [].

Lemma clean_later n : exists m, n <= m /\ clean (raw_ident (o_chars o) m).
Proof.
  destruct Xchars as (c & Ic & Dc & Bc).
  set (bad := keywords ++ [env_name] ++ global_excludes o nodes ++ member_excludes o nodes ++ map n_name nodes).
  set (L := list_max (map (@length Z) bad)).
  set (k := S (L + length (raw_ident (o_chars o) n))).
  assert (V : valid_ident (o_chars o) (repeat c k)).
  { split; [discriminate|]. split; [|easy]. intros d I. apply repeat_spec in I. now subst. }
  destruct (raw_complete (o_chars o) (repeat c k) Nchars xchars V) as (m & Em).
  exists m. rewrite Em.
  assert (Nb : ~ In (repeat c k) bad).
  { intros I. assert (J : In k (map (@length Z) bad)).
    { apply in_map_iff. exists (repeat c k). split; [apply repeat_length|easy]. }
    assert (Le : list_max (map (@length Z) bad) <= L) by easy.
    apply list_max_le in Le. rewrite Forall_forall in Le. specialize (Le k J). unfold k in Le. lia. }
  unfold bad in Nb. rewrite !in_app_iff in Nb. split.
  - destruct (Nat.le_gt_cases n m) as [?|G]; [easy|]. exfalso.
    pose proof (raw_before (o_chars o) m n Nchars xchars G) as B. rewrite Em in B.
    destruct B as [B|(B & _)]; rewrite repeat_length in B; unfold k in B; lia.
  - split; [|split; [|split]].
    + destruct (mem _ keywords) eqn:M; [|easy]. apply mem_In in M. tauto.
    + exact Bc.
    + intros E. rewrite E in Nb. cbn [In] in Nb. tauto.
    + unfold excluded_for. destruct (mem _ (global_excludes o nodes)) eqn:M1; [apply mem_In in M1; tauto|].
      destruct (mem _ (member_excludes o nodes)) eqn:M2; [apply mem_In in M2; tauto|].
      cbn [app]. unfold local_excludes.
      destruct (flat_map _ nodes) as [|v l] eqn:Q; [easy|].
      assert (I : In v (v :: l)) by now left. rewrite <- Q in I. apply in_flat_map in I.
      destruct I as (nd & I & J). destruct (effective o nodes nd) as [|[[]|]]; try easy.
      destruct (zeqb_list (n_name nd) (repeat c k)) eqn:Z; [|easy].
      apply zeqb_list_true in Z. exfalso. apply Nb. do 4 right. rewrite <- Z. now apply in_map.
Qed.

Lemma select_vars_some rem avoid : rem <> [] -> (forall v, avoid v = false) ->
  snd (select_vars o nodes rem [] avoid) <> [].
Proof.
  intros N A. destruct rem as [|v rem]; [easy|]. cbn [select_vars]. unfold try_select. rewrite A. cbn [negb andb forallb].
  destruct (select_vars o nodes rem _ avoid) as ((r', e'), s'). easy.
Qed.

Lemma select_var_some rem avoid : rem <> [] -> (forall v, avoid v = false) ->
  snd (select_var o nodes rem [] avoid) <> [].
Proof.
  intros N A. destruct rem as [|v rem]; [easy|]. cbn [select_var]. unfold try_select. rewrite A. easy.
Qed.

Lemma choose_clean ident d d' s : clean ident -> done d = false ->
  choose o nodes ident d = (d', s) -> s <> [].
Proof.
  intros (_ & B & Ne & X) D E. unfold choose in E. fold (avoided o nodes ident) in E.
  fold (excluded_for o nodes ident) in E. cbn zeta in E. rewrite X in E.
  apply zeqb_list_false in Ne. rewrite Ne in E.
  assert (A : forall v, avoided o nodes ident v = false)
    by (intros v; unfold avoided; now rewrite B, andb_false_r).
  intros ->. unfold done in D.
  destruct (negb (o_focus_chars o)).
  - destruct (select_vars o nodes (d_locals d) [] (avoided o nodes ident)) as ((rl, e1), s1) eqn:S1.
    destruct (select_var o nodes (d_globals d) e1 (avoided o nodes ident)) as ((rg, e2), s2) eqn:S2.
    destruct (select_var o nodes (d_members d) e2 (avoided o nodes ident)) as ((rm, e3), s3) eqn:S3.
    cbn [d_labels d_locals d_globals d_members] in E.
    destruct (select_vars o nodes (d_labels d) [] (fun _ => false)) as ((rb, e4), s4) eqn:S4.
    injection E as _ E. apply app_eq_nil in E. destruct E as (E & ->).
    apply app_eq_nil in E. destruct E as (-> & E). apply app_eq_nil in E. destruct E as (-> & ->).
    assert (D1 : d_locals d = []).
    { destruct (d_locals d) eqn:Q; [easy|]. exfalso.
      refine (select_vars_some _ _ _ A (f_equal snd S1)). discriminate. }
    rewrite D1 in S1. injection S1 as <- <-.
    assert (D2 : d_globals d = []).
    { destruct (d_globals d) eqn:Q; [easy|]. exfalso.
      refine (select_var_some _ _ _ A (f_equal snd S2)). discriminate. }
    rewrite D2 in S2. injection S2 as <- <-.
    assert (D3 : d_members d = []).
    { destruct (d_members d) eqn:Q; [easy|]. exfalso.
      refine (select_var_some _ _ _ A (f_equal snd S3)). discriminate. }
    assert (D4 : d_labels d = []).
    { destruct (d_labels d) eqn:Q; [easy|]. exfalso.
      refine (select_vars_some _ _ _ (fun _ => eq_refl) (f_equal snd S4)). discriminate. }
    rewrite D1, D2, D3, D4 in D. discriminate D.
  - destruct (select_var o nodes (d_globals d) [] (avoided o nodes ident)) as ((rg, e1), s1) eqn:S1.
    destruct (select_var o nodes (d_members d) e1 (avoided o nodes ident)) as ((rm, e2), s2) eqn:S2.
    destruct (select_vars o nodes (d_locals d) e2 (avoided o nodes ident)) as ((rl, e3), s3) eqn:S3.
    cbn [d_labels d_locals d_globals d_members] in E.
    destruct (select_vars o nodes (d_labels d) [] (fun _ => false)) as ((rb, e4), s4) eqn:S4.
    injection E as _ E. apply app_eq_nil in E. destruct E as (E & ->).
    apply app_eq_nil in E. destruct E as (-> & E). apply app_eq_nil in E. destruct E as (-> & ->).
    assert (D1 : d_globals d = []).
    { destruct (d_globals d) eqn:Q; [easy|]. exfalso.
      refine (select_var_some _ _ _ A (f_equal snd S1)). discriminate. }
    rewrite D1 in S1. injection S1 as <- <-.
    assert (D2 : d_members d = []).
    { destruct (d_members d) eqn:Q; [easy|]. exfalso.
      refine (select_var_some _ _ _ A (f_equal snd S2)). discriminate. }
    rewrite D2 in S2. injection S2 as <- <-.
    assert (D3 : d_locals d = []).
    { destruct (d_locals d) eqn:Q; [easy|]. exfalso.
      refine (select_vars_some _ _ _ A (f_equal snd S3)). discriminate. }
    assert (D4 : d_labels d = []).
    { destruct (d_labels d) eqn:Q; [easy|]. exfalso.
      refine (select_vars_some _ _ _ (fun _ => eq_refl) (f_equal snd S4)). discriminate. }
    rewrite D1, D2, D3, D4 in D. discriminate D.
Qed.

(** the identifier before the n-th *)
Definition prev (n : nat) : name := match n with 0 => [] | S m => raw_ident (o_chars o) m end.
Lemma next_prev n : next_ident (o_chars o) (prev n) = raw_ident (o_chars o) n.
Proof. now destruct n. Qed.

(** one more round than the identifiers tried *)
Lemma assign_ends size : forall gap n d, length (all_todo d) <= size -> typed d ->
  clean (raw_ident (o_chars o) (gap + n)) ->
  exists fuel, forall acc, exists rn,
    assign o nodes fuel (prev n) d acc = Ok rn.
Proof.
  induction size as [size IHs] using lt_wf_ind. induction gap as [|gap IHg]; intros n d Sz T C.
  - assert (E : exists fuel, forall acc, exists rn,
      assign o nodes fuel (prev n) d acc = Ok rn).
    { destruct (done d) eqn:D.
      - exists 0. intros acc. exists acc. cbn [assign]. now rewrite D.
      - cbn [Nat.add] in C.
        destruct (choose o nodes (raw_ident (o_chars o) n) d) as (d', s) eqn:Ch.
        pose proof (choose_clean _ _ _ _ C D Ch) as Ns.
        destruct (choose_spec o nodes _ _ _ _ Ch T) as (P & T' & _).
        apply Permutation_length in P. rewrite app_length in P. destruct s as [|v s]; [easy|].
        cbn [length] in P.
        destruct (clean_later (S n)) as (m & Lm & Cm).
        destruct (IHs (length (all_todo d')) ltac:(lia) (m - S n) (S n) d' (le_n _) T') as (fuel & H).
        { now replace (m - S n + S n) with m by lia. }
        exists (S fuel). intros acc. cbn [assign]. rewrite D. cbn zeta.
        rewrite next_prev.
        destruct C as (K & _). rewrite K, Ch. apply H. }
    exact E.
  - assert (E : exists fuel, forall acc, exists rn,
      assign o nodes fuel (prev n) d acc = Ok rn).
    { destruct (done d) eqn:D.
      - exists 0. intros acc. exists acc. cbn [assign]. now rewrite D.
      - destruct (mem (raw_ident (o_chars o) n) keywords) eqn:K.
        + destruct (IHg (S n) d Sz T) as (fuel & H).
          { now replace (gap + S n) with (S gap + n) by lia. }
          exists (S fuel). intros acc. cbn [assign]. rewrite D. cbn zeta.
          rewrite next_prev.
          rewrite K. apply H.
        + destruct (choose o nodes (raw_ident (o_chars o) n) d) as (d', s) eqn:Ch.
          destruct (choose_spec o nodes _ _ _ _ Ch T) as (P & T' & _).
          apply Permutation_length in P. rewrite app_length in P.
          destruct (IHg (S n) d' ltac:(lia) T') as (fuel & H).
          { now replace (gap + S n) with (S gap + n) by lia. }
          exists (S fuel). intros acc. cbn [assign]. rewrite D. cbn zeta.
          rewrite next_prev.
          rewrite K, Ch. apply H. }
    exact E.
Qed.

Lemma assign_total : exists fuel rn, assign o nodes fuel [] (todo0 o nodes) [] = Ok rn.
Proof.
  destruct (clean_later 0) as (m & _ & C).
  destruct (assign_ends _ m 0 (todo0 o nodes) (le_n _) (todo0_typed o nodes)) as (fuel & H).
  - now rewrite Nat.add_0_r.
  - exists fuel. apply (H []).
Qed.

Lemma assign_mono fuel fuel' : fuel <= fuel' -> forall ident d acc rn,
  assign o nodes fuel ident d acc = Ok rn -> assign o nodes fuel' ident d acc = Ok rn.
Proof.
  revert fuel'. induction fuel as [|fuel IH]; intros fuel' L ident d acc rn E.
  - destruct fuel'; cbn [assign] in *; destruct (done d); try easy.
  - destruct fuel' as [|fuel']; [lia|]. cbn [assign] in *. destruct (done d); [easy|]. cbn zeta in *.
    destruct (mem _ keywords); [apply IH; [lia|easy]|].
    destruct (choose o nodes _ d) as (d', s). apply IH; [lia|easy].
Qed.
End Ends.

(** * Uses that no text asks for *)

Definition implicit_walk (t : syn) : Prop := forall f sc ls k t' ns k' sc',
  walk f sc ls k t = (t', ns, k', sc') ->
  forall nd, In nd ns -> n_implicit nd = true -> n_kind nd = KGlobal -> n_name nd = print_name.

Lemma implicit_new id up im ns : forall i nd, In nd (new_nodes id i up im ns) -> n_kind nd <> KGlobal.
Proof.
  revert im. induction ns as [|n ns IH]; intros im i nd; [easy|]. cbn [new_nodes]. intros [<-|I]; [easy|].
  now apply IH in I.
Qed.

Lemma implicit_list l : Forall implicit_walk l -> forall f sc ls k l' ns k' sc',
  walks f sc ls k l = (l', ns, k', sc') ->
  forall nd, In nd ns -> n_implicit nd = true -> n_kind nd = KGlobal -> n_name nd = print_name.
Proof.
  intros Fa. induction Fa as [|t l Ht Fa IH]; intros f sc ls k l' ns k' sc' E.
  - cbn in E. now injection E as <- <- <- <-.
  - rewrite walks_cons in E.
    destruct (walk f sc ls k t) as (((t1, n1), k1), sc1) eqn:W.
    destruct (walks f sc1 ls k1 l) as (((l1, n2), k2), sc2) eqn:X.
    injection E as <- <- <- <-. intros nd I. apply in_app_or in I. destruct I as [I|I].
    + exact (Ht _ _ _ _ _ _ _ _ W nd I).
    + exact (IH _ _ _ _ _ _ _ _ X nd I).
Qed.

Lemma implicit_all t : implicit_walk t.
Proof.
  induction t as [z n|z tb n| |ns es He|fn ps b Hb|m ps b Hb|ns es b He Hb|b Hb|b c Hb Hc|n|n]
    using syn_ind'; intros f sc ls (ks, kb) t' nn k' sc' E;
    rewrite walk_eq in E; cbn zeta in E; cbn [fst snd] in E; unfold walk_block in E;
    repeat match type of E with context [walks f ?a ?b ?c ?d] =>
      let X := fresh "X" in destruct (walks f a b c d) as (((?, ?), (?, ?)), ?) eqn:X end;
    injection E as <- <- <- <-;
    repeat match goal with
      | Ha : Forall _ ?l, X : walks f _ _ _ ?l = _ |- _ =>
          let Y := fresh "Y" in pose proof (implicit_list l Ha _ _ _ _ _ _ _ _ X) as Y; clear X end;
    intros nd I Im K; rewrite ?in_app_iff in I.
  all: try (cbn [In] in I; rewrite ?in_app_iff in I;
    repeat match goal with
      | H : _ \/ _ |- _ => destruct H as [H|H] end;
    try (now apply implicit_new in I); try (subst nd; cbn in Im, K; discriminate); now auto).
  - unfold var_nodes in I. destruct (scope_find sc n); [destruct I as [<-|[]]; discriminate Im|].
    destruct I as [<-|I]; [discriminate Im|]. destruct (scope_find sc env_name); [|easy].
    destruct I as [<-|[]]. discriminate K.
  - unfold var_nodes in I. destruct (scope_find sc print_name); [destruct I as [<-|[]]; discriminate K|].
    destruct I as [<-|I]; [reflexivity|]. destruct (scope_find sc env_name); [|easy].
    destruct I as [<-|[]]. discriminate K.
Qed.

Lemma implicit_parse builtins prog : forall nd, In nd (parse builtins prog) -> n_implicit nd = true ->
  n_kind nd = KGlobal -> n_name nd = print_name.
Proof.
  unfold parse, walk_root.
  match goal with |- context [walks ?f ?a ?b ?c ?d] =>
    destruct (walks f a b c d) as (((l', ns), k'), sc') eqn:W end.
  cbn [snd].
  refine (implicit_list prog _ _ _ _ _ _ _ _ _ W). apply Forall_forall. intros t _. apply implicit_all.
Qed.

(** * Labels of the renamed program *)

Section Apart.
Context (F : kind -> name -> name) (all : list node).
(** [H]: labels visible from one another get other names; [Hd]: so do those of
    one block *)
Context (nested : bool)
  (H : forall nd v nd' w, In nd all -> n_kind nd = KLabel (Some v) ->
     In nd' all -> n_kind nd' = KLabel (Some w) ->
     In (fst w) (n_chain nd) -> (nested = true \/ fst w = fst v) ->
     F (KLabel (Some w)) (n_name nd') = F (KLabel (Some v)) (n_name nd) -> w = v).

(** the labels of the blocks around, as written *)
Definition outer_of (ls : labels) : list name := flat_map snd (ren_labels F ls).

Definition all_distinct := fix all (l : list syn) : Prop :=
    match l with [] => True | t :: l' => labels_distinct t /\ all l' end.
Definition all_apart := fix all (outer : list name) (l : list syn) : Prop :=
    match l with [] => True | t :: l' => labels_apart outer t /\ all outer l' end.
Definition block_apart (outer : list name) (body : list syn) : Prop :=
  NoDup (block_label_names body) /\
  (forall n, In n (block_label_names body) -> ~ In n outer) /\
  all_apart (block_label_names body ++ outer) body.

Lemma all_block_eq names outer body :
  (fix all l := match l with
                | [] => True
                | t :: l' => labels_apart (names ++ outer) t /\ all l'
                end) body = all_apart (names ++ outer) body.
Proof. induction body as [|t l IH]; [easy|]. cbn [all_apart]. fold all_apart. now rewrite <- IH. Qed.

Lemma apart_eq outer t : labels_apart outer t =
  match t with
  | YLocal _ es => all_apart outer es
  | YLocalFun _ _ body | YFun _ _ body => block_apart [] body
  | YFor _ es body => all_apart outer es /\ block_apart outer body
  | YBlock body => block_apart outer body
  | YRepeat body cond => block_apart outer body /\ all_apart (block_label_names body ++ outer) cond
  | _ => True
  end.
Proof.
  unfold block_apart. destruct t; try reflexivity; cbn [labels_apart]; now rewrite ?all_block_eq.
Qed.

Lemma distinct_eq t : labels_distinct t =
  match t with
  | YLocal _ es => all_distinct es
  | YLocalFun _ _ body | YFun _ _ body | YBlock body => NoDup (block_label_names body) /\ all_distinct body
  | YFor _ es body => all_distinct es /\ NoDup (block_label_names body) /\ all_distinct body
  | YRepeat body cond => NoDup (block_label_names body) /\ all_distinct body /\ all_distinct cond
  | _ => True
  end.
Proof. now destruct t. Qed.

Definition result (outer : list name) (t : syn) : Prop :=
  if nested then labels_apart outer t else labels_distinct t.
Definition results (outer : list name) (l : list syn) : Prop :=
  if nested then all_apart outer l else all_distinct l.

Definition apart_walk (t : syn) : Prop := forall sc ls k t' ns k' sc',
  walk (fname F) sc ls k t = (t', ns, k', sc') -> incl ns all -> labs_ok all ls k -> labels_distinct t ->
  result (outer_of ls) t' /\ snd k <= snd k'.

Lemma apart_list l : Forall apart_walk l -> forall sc ls k l' ns k' sc',
  walks (fname F) sc ls k l = (l', ns, k', sc') -> incl ns all -> labs_ok all ls k -> all_distinct l ->
  results (outer_of ls) l' /\ snd k <= snd k'.
Proof.
  intros Fa. unfold results. induction Fa as [|t l Ht Fa IH]; intros sc ls k l' ns k' sc' E I Lo D.
  - cbn in E. injection E as <- <- <- <-. destruct nested; easy.
  - rewrite walks_cons in E.
    destruct (walk (fname F) sc ls k t) as (((t1, n1), k1), sc1) eqn:W.
    destruct (walks (fname F) sc1 ls k1 l) as (((l1, n2), k2), sc2) eqn:X.
    injection E as <- <- <- <-. apply incl_app_inv in I. destruct I as (I1 & I2). destruct D as (D1 & D2).
    destruct (Ht _ _ _ _ _ _ _ W I1 Lo D1) as (R1 & L1). unfold result in R1.
    destruct (IH _ _ _ _ _ _ _ X I2 (labs_ok_le _ _ _ _ Lo L1) D2) as (R2 & L2).
    destruct nested; (split; [split; easy|lia]).
Qed.

Lemma map_NoDup_in {A B} (f : A -> B) l :
  (forall a b, In a l -> In b l -> f a = f b -> a = b) -> NoDup l -> NoDup (map f l).
Proof.
  intros Hf N. induction N as [|x l Nx N IH]; [constructor|]. cbn [map]. constructor.
  - intros I. apply in_map_iff in I. destruct I as (y & E & I).
    apply Hf in E; [congruence|now right|now left].
  - apply IH. intros a b Ia Ib. apply Hf; now right.
Qed.

Lemma index_of_lt n l i : index_of n l = Some i -> nth_error l i = Some n.
Proof.
  revert i. induction l as [|m l IH]; intros i; [easy|]. cbn [index_of].
  destruct (zeqb_list n m) eqn:E.
  - apply zeqb_list_true in E. intros [= <-]. now subst.
  - destruct (index_of n l) as [j|]; [|easy]. intros [= <-]. cbn. now apply IH.
Qed.

Lemma labels_facts ls ks kb sc l l' ns k' sc' :
  labs_ok all ls (ks, kb) -> NoDup (block_label_names l) ->
  walks (fname F) sc ((kb, block_labels l) :: ls) (ks, S kb) l = (l', ns, k', sc') -> incl ns all ->
  labs_ok all ((kb, block_labels l) :: ls) (ks, S kb) /\
  outer_of ((kb, block_labels l) :: ls) = block_label_names l' ++ outer_of ls /\
  NoDup (block_label_names l') /\
  (nested = true -> forall n, In n (block_label_names l') -> ~ In n (outer_of ls)).
Proof.
  intros Lo D E I. pose proof (labs_ok_new F all _ _ _ _ _ _ _ _ _ Lo E I) as Lo'.
  split; [exact Lo'|]. destruct (block_labels_written F _ _ _ _ _ _ _ _ E) as (Q & J).
  change (block_labels l') with (block_label_names l') in Q.
  change (block_labels l) with (block_label_names l) in Q, J.
  pose proof (ren_labels_new F _ _ _ _ _ _ _ _ _ E) as Rl.
  assert (Fl : forall n, In n (block_label_names l) -> exists i,
    find_label ((kb, block_label_names l) :: ls) n = Some (kb, i) /\ nth_error (block_label_names l) i = Some n).
  { intros n In_. cbn [find_label]. destruct (index_of_In n _ In_) as (i & Ei). rewrite Ei. exists i.
    split; [easy|]. now apply index_of_lt. }
  split; [|split].
  - unfold outer_of. rewrite <- Rl. reflexivity.
  - rewrite Q. apply map_NoDup_in; [|exact D].
    intros a b Ia Ib Ef. destruct (Fl a Ia) as (i & Ei & Ni), (Fl b Ib) as (j & Ej & Nj).
    change (block_labels l) with (block_label_names l) in *. rewrite Ei, Ej in Ef.
    pose proof (I _ (J a Ia)) as Ja. pose proof (I _ (J b Ib)) as Jb. rewrite Ei in Ja. rewrite Ej in Jb.
    assert (X : (kb, i) = (kb, j)).
    { refine (H _ (kb, j) _ (kb, i) Jb eq_refl Ja eq_refl _ _ Ef).
      - cbn [fst n_chain map]. now left.
      - now right. }
    injection X as ->. congruence.
  - intros Ne n In_ Io. rewrite Q in In_. apply in_map_iff in In_. destruct In_ as (a & Ea & Ia).
    unfold outer_of in Io. apply in_flat_map in Io. destruct Io as ((id, names') & Ib & Ic).
    apply in_map_iff in Ib. destruct Ib as ((id0, names) & Eb & Ib). injection Eb as -> <-.
    cbn [snd fst] in Ic. apply in_map_iff in Ic. destruct Ic as (b & Ec & Ic).
    destruct Lo as (N & B & Dl). destruct (Dl id names b Ib Ic) as (nd & Ind & Kn & Nn).
    destruct (index_of_In b names Ic) as (j & Ej). unfold lab_var in Kn, Ec. rewrite Ej in Kn, Ec.
    destruct (Fl a Ia) as (i & Ei & Ni). pose proof (I _ (J a Ia)) as Ja.
    change (block_labels l) with (block_label_names l) in *. rewrite Ei in Ja, Ea.
    assert (X : (id, j) = (kb, i)).
    { refine (H _ (kb, i) nd (id, j) Ja eq_refl Ind Kn _ (or_introl Ne) _).
      - cbn [fst n_chain map]. right. apply (in_map fst) in Ib. exact Ib.
      - cbn [n_name]. rewrite Nn. exact (eq_trans Ec (eq_sym Ea)). }
    injection X as -> _. rewrite Forall_forall in B. apply (in_map fst) in Ib. specialize (B kb Ib).
    cbn [snd] in B. lia.
Qed.

Lemma apart_block l : Forall apart_walk l -> forall sc ls k l' ns k' sc',
  walk_block (fname F) sc ls k l = (l', ns, k', sc') -> incl ns all -> labs_ok all ls k ->
  NoDup (block_label_names l) -> all_distinct l ->
  (if nested then block_apart (outer_of ls) l' else NoDup (block_label_names l') /\ all_distinct l') /\
  snd k <= snd k'.
Proof.
  intros Fa sc ls (ks, kb) l' ns k' sc' E I Lo N D. unfold walk_block in E. cbn [fst snd] in *.
  destruct (labels_facts _ _ _ _ _ _ _ _ _ Lo N E I) as (Lo' & Eo & N' & A).
  destruct (apart_list l Fa _ _ _ _ _ _ _ E I Lo' D) as (R & L). cbn [snd] in L. unfold results in R.
  split; [|lia]. unfold block_apart. rewrite Eo in R. destruct nested; [|easy].
  split; [easy|]. split; [now apply A|exact R].
Qed.

Lemma apart_all t : apart_walk t.
Proof.
  induction t as [z n|z tb n| |nn es He|fn ps b Hb|m ps b Hb|nn es b He Hb|b Hb|b c Hb Hc|n|n]
    using syn_ind'; intros sc ls (ks, kb) t' ns k' sc' E I Lo D; rewrite distinct_eq in D;
    rewrite walk_eq in E; cbn zeta in E; cbn [fst snd] in E.
  1-3, 10-11: injection E as <- <- <- <-; unfold result; destruct nested; easy.
  - destruct (walks (fname F) sc ls (S ks, kb) es) as (((e1, n1), k1), s1) eqn:X.
    injection E as <- <- <- <-. apply incl_app_inv in I.
    destruct (apart_list es He _ _ _ _ _ _ _ X (proj2 I) (labs_ok_le _ _ _ (S ks, kb) Lo (le_n _)) D) as (R & L).
    unfold result, results in *. rewrite apart_eq, distinct_eq. easy.
  - destruct (walk_block _ _ _ _ b) as (((b1, n1), k1), s1) eqn:X.
    injection E as <- <- <- <-. apply incl_cons_inv in I. destruct I as (_ & I). apply incl_app_inv in I.
    destruct (apart_block b Hb _ _ _ _ _ _ _ X (proj2 I) (labs_ok_nil _ _) (proj1 D) (proj2 D)) as (R & L).
    unfold result. rewrite apart_eq, distinct_eq. split; [|exact L]. destruct nested; exact R.
  - destruct (walk_block _ _ _ _ b) as (((b1, n1), k1), s1) eqn:X.
    injection E as <- <- <- <-. apply incl_app_inv in I.
    destruct (apart_block b Hb _ _ _ _ _ _ _ X (proj2 I) (labs_ok_nil _ _) (proj1 D) (proj2 D)) as (R & L).
    unfold result. rewrite apart_eq, distinct_eq. split; [|exact L]. destruct nested; exact R.
  - destruct (walks (fname F) sc ls (S ks, kb) es) as (((e1, n1), k1), s1) eqn:X.
    destruct (walk_block _ _ _ _ b) as (((b1, n2), k2), s2) eqn:Y.
    injection E as <- <- <- <-. apply incl_app_inv in I. destruct I as (_ & I). apply incl_app_inv in I.
    destruct D as (D1 & D2 & D3).
    destruct (apart_list es He _ _ _ _ _ _ _ X (proj1 I) (labs_ok_le _ _ _ (S ks, kb) Lo (le_n _)) D1) as (R & L).
    cbn [snd] in L.
    destruct (apart_block b Hb _ _ _ _ _ _ _ Y (proj2 I) (labs_ok_le _ _ _ k1 Lo L) D2 D3) as (R2 & L2).
    unfold result, results in *. rewrite apart_eq, distinct_eq. cbn [snd]. split; [|lia]. destruct nested; easy.
  - destruct (walk_block _ _ _ _ b) as (((b1, n1), k1), s1) eqn:X.
    injection E as <- <- <- <-.
    destruct (apart_block b Hb _ _ _ _ _ _ _ X I Lo (proj1 D) (proj2 D)) as (R & L).
    unfold result. rewrite apart_eq, distinct_eq. split; [|exact L]. destruct nested; exact R.
  - destruct (walks (fname F) sc ((kb, block_labels b) :: ls) (ks, S kb) b) as (((b1, n1), k1), s1) eqn:X.
    destruct (walks (fname F) s1 ((kb, block_labels b) :: ls) k1 c) as (((c1, n2), k2), s2) eqn:Y.
    injection E as <- <- <- <-. apply incl_app_inv in I. destruct I as (I1 & I2). destruct D as (D1 & D2 & D3).
    destruct (labels_facts _ _ _ _ _ _ _ _ _ Lo D1 X I1) as (Lo' & Eo & N' & A).
    destruct (apart_list b Hb _ _ _ _ _ _ _ X I1 Lo' D2) as (R & L). cbn [snd] in L.
    destruct (apart_list c Hc _ _ _ _ _ _ _ Y I2 (labs_ok_le _ _ _ _ Lo' L) D3) as (R2 & L2).
    unfold result, results in *. rewrite apart_eq, distinct_eq. cbn [snd]. split; [|lia]. rewrite Eo in R, R2.
    unfold block_apart. destruct nested; [|easy]. split; [|easy]. split; [easy|]. split; [now apply A|easy].
Qed.
End Apart.

Lemma label_fact o nodes fuel rn : NoDup (o_chars o) -> (exists c, In c (o_chars o) /\ isdigit c = false) ->
  assign o nodes fuel [] (todo0 o nodes) [] = Ok rn ->
  forall nd v nd' w, In nd nodes -> n_kind nd = KLabel (Some v) ->
  In nd' nodes -> n_kind nd' = KLabel (Some w) -> In (fst w) (n_chain nd) ->
  (negb (o_pico8 o) = true \/ fst w = fst v) ->
  newF o nodes rn (KLabel (Some w)) (n_name nd') = newF o nodes rn (KLabel (Some v)) (n_name nd) -> w = v.
Proof.
  intros Nc Xc E nd v nd' w I K I' K' Ch U Q. destruct (o_pico8 o) eqn:P8; cbn [negb] in U.
  - destruct U as [U|U]; [discriminate U|]. apply (fact3 o nodes Nc Xc fuel rn E nd v nd' w I K I' K'); [|exact Q].
    rewrite U in *. clear - Ch. induction (n_chain nd) as [|x l IH]; [easy|]. cbn [upto].
    destruct (Nat.eqb_spec x (fst v)) as [->|N]; [now left|]. right. apply IH. destruct Ch; [congruence|easy].
  - destruct (assign_all o nodes Nc Xc fuel rn E) as ((G1 & _) & _ & _).
    assert (Us : used_label o nodes (fst w) v = true).
    { unfold used_label. apply existsb_exists. exists nd. split; [easy|]. rewrite K.
      apply andb_true_iff. split; [now apply var_eqb_eq|]. apply nmem_In. now rewrite P8. }
    rewrite <- K, <- K' in Q. change (new_name o nodes rn nd' = new_name o nodes rn nd) in Q.
    assert (X : effective o nodes nd = Rename (VLabel v)) by (unfold effective; now rewrite K).
    assert (X' : effective o nodes nd' = Rename (VLabel w)) by (unfold effective; now rewrite K').
    destruct (new_name_cases o nodes Nc Xc fuel rn E nd I) as [(x & a & Ex & Ia & Na & _)|(x & Ex & Na)];
      rewrite X in Ex; [|discriminate Ex].
    destruct (new_name_cases o nodes Nc Xc fuel rn E nd' I') as [(x' & a' & Ex' & Ia' & Na' & _)|(x' & Ex' & Na')];
      rewrite X' in Ex'; [|discriminate Ex'].
    injection Ex as <-. injection Ex' as <-. rewrite Na, Na' in Q. subst a'.
    destruct (vid_dec (VLabel v) (VLabel w)) as [[= ->]|N]; [easy|].
    pose proof (G1 _ _ _ Ia Ia' N) as C. cbn [compatible] in C. rewrite Us in C. discriminate C.
Qed.
